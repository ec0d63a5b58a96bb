(** A quadratic program whose variables are all bounded has a minimiser as soon as it is feasible. *)

From Coq Require Import Reals List Lra Lia Arith Bool Classical.
From Verif Require Import Scalar LinAlg LinAlgFacts QPModel QPFacts.
Local Open Scope R_scope.

(** ** Sums *)
Lemma Rabs_le_inv a b : Rabs a <= b -> - b <= a <= b.
Proof. intros H. pose proof (Rle_abs a). pose proof (Rle_abs (- a)) as K. rewrite Rabs_Ropp in K. lra. Qed.
Lemma ssum_abs n (f : nat -> R) : Rabs (ssum n f) <= ssum n (fun i => Rabs (f i)).
Proof.
  induction n as [|n IH]; cbn [ssum]; rsimpl; [rewrite Rabs_R0; lra|]. eapply Rle_trans; [apply Rabs_triang|]. lra.
Qed.
(** a linear form on a small vector *)
Lemma lin_small n (a d : nat -> R) e : (forall i, (i < n)%nat -> Rabs (d i) <= e) -> Rabs (ssum n (fun i => a i * d i)) <= ssum n (fun i => Rabs (a i)) * e.
Proof.
  intros H. eapply Rle_trans; [apply ssum_abs|]. rewrite (Rmult_comm _ e), <- ssum_mul_l. apply ssum_le. intros i Hi. rsimpl. rewrite Rabs_mult.
  rewrite Rmult_comm. apply Rmult_le_compat_r; [apply Rabs_pos|apply H; assumption].
Qed.

Section Exist.
  Variable q : qpmats R.
  Let n := vlen (qp q).
  (** the change of the cost *)
  Definition qslope (x : nat -> R) (i : nat) : R :=
    / 2 * (ssum n (fun j => mget (qQ q) i j * x j) + ssum n (fun j => mget (qQ q) j i * x j)) + vget (qp q) i.
  Lemma qcost_move x d : qcost q (fun i => x i + d i) = qcost q x + ssum n (fun i => qslope x i * d i) + / 2 * ssum n (fun i => d i * ssum n (fun j => mget (qQ q) i j * d j)).
  Proof.
    unfold qcost. fold n. unfold qslope.
    rewrite (ssum_ext n (fun i => (x i + d i) * ssum n (fun j => mget (qQ q) i j * (x j + d j)))
      (fun i => (x i * ssum n (fun j => mget (qQ q) i j * x j) + d i * ssum n (fun j => mget (qQ q) i j * d j))
                + (d i * ssum n (fun j => mget (qQ q) i j * x j) + x i * ssum n (fun j => mget (qQ q) i j * d j)))).
    2:{ intros i Hi. rewrite (ssum_ext n (fun j => mget (qQ q) i j * (x j + d j)) (fun j => mget (qQ q) i j * x j + mget (qQ q) i j * d j)) by (intros; ring).
        rewrite ssum_plus. ring. }
    rewrite !ssum_plus.
    rewrite (ssum_ext n (fun i => vget (qp q) i * (x i + d i)) (fun i => vget (qp q) i * x i + vget (qp q) i * d i)) by (intros; ring). rewrite ssum_plus.
    assert (S : ssum n (fun i => x i * ssum n (fun j => mget (qQ q) i j * d j)) = ssum n (fun i => ssum n (fun j => mget (qQ q) j i * x j) * d i)).
    { rewrite (ssum_ext n (fun i => x i * ssum n (fun j => mget (qQ q) i j * d j)) (fun i => ssum n (fun j => x i * (mget (qQ q) i j * d j)))) by (intros; rewrite ssum_mul_l; reflexivity).
      rewrite ssum_swap. apply ssum_ext. intros i Hi. rewrite <- ssum_mul_r. apply ssum_ext. intros j Hj. ring. }
    rewrite S.
    rewrite (ssum_ext n (fun i => (/ 2 * (ssum n (fun j => mget (qQ q) i j * x j) + ssum n (fun j => mget (qQ q) j i * x j)) + vget (qp q) i) * d i)
      (fun i => / 2 * (d i * ssum n (fun j => mget (qQ q) i j * x j) + ssum n (fun j => mget (qQ q) j i * x j) * d i) + vget (qp q) i * d i)) by (intros; ring).
    rewrite ssum_plus, ssum_mul_l, ssum_plus. ring.
  Qed.
  (** a bound of the quadratic part *)
  Let A := ssum n (fun i => ssum n (fun j => Rabs (mget (qQ q) i j))).
  Lemma A_pos : 0 <= A.
  Proof. apply ssum_nonneg. intros i _. apply ssum_nonneg. intros j _. apply Rabs_pos. Qed.
  Lemma quad_small d e : 0 <= e -> (forall i, (i < n)%nat -> Rabs (d i) <= e) -> Rabs (ssum n (fun i => d i * ssum n (fun j => mget (qQ q) i j * d j))) <= A * (e * e).
  Proof.
    intros He H. eapply Rle_trans; [apply ssum_abs|]. unfold A. rewrite <- ssum_mul_r. apply ssum_le. intros i Hi. rewrite Rabs_mult.
    pose proof (lin_small n (mget (qQ q) i) d e H) as L. set (s := ssum n (fun i0 => Rabs (mget (qQ q) i i0))) in *.
    replace (s * (e * e)) with (e * (s * e)) by ring. apply Rmult_le_compat; [apply Rabs_pos|apply Rabs_pos|apply H; exact Hi|exact L].
  Qed.
  Lemma qcost_near x d e : 0 <= e <= 1 -> (forall i, (i < n)%nat -> Rabs (d i) <= e) ->
    Rabs (qcost q (fun i => x i + d i) - qcost q x) <= (ssum n (fun i => Rabs (qslope x i)) + A) * e.
  Proof.
    intros He H. rewrite qcost_move. pose proof (lin_small n (qslope x) d e H) as L. pose proof (quad_small d e ltac:(lra) H) as K. pose proof A_pos as HA.
    set (s := ssum n (fun i => Rabs (qslope x i))) in *. set (u := ssum n (fun i => qslope x i * d i)) in *. set (v := ssum n _) in *. clearbody u v s.
    assert (A * (e * e) <= A * e) by (apply Rmult_le_compat_l; [exact HA|nra]).
    apply Rabs_le. apply Rabs_le_inv in L. apply Rabs_le_inv in K. nra.
  Qed.
  Lemma qcost_ext x y : (forall i, (i < n)%nat -> x i = y i) -> qcost q x = qcost q y.
  Proof. intros H. rewrite !qcost_quad. apply quad_ext; [reflexivity|reflexivity|exact H]. Qed.
  Lemma qfeasible_ext x y : (forall i, (i < n)%nat -> x i = y i) -> qfeasible q x -> qfeasible q y.
  Proof.
    intros H (B & C). split.
    - intros i Hi. rewrite <- (H i Hi). apply B. exact Hi.
    - intros k Hk. cbv zeta in C. fold n in C |- *. rewrite <- (ssum_ext n (fun j => mget (qA q) k j * x j) (fun j => mget (qA q) k j * y j)); [apply C; exact Hk|]. intros j Hj. rewrite (H j Hj). reflexivity.
  Qed.
  Lemma qminimiser_ext x y : (forall i, (i < n)%nat -> x i = y i) -> qminimiser q x -> qminimiser q y.
  Proof. intros H (F & M). split; [exact (qfeasible_ext _ _ H F)|]. intros z Hz. rewrite <- (qcost_ext _ _ H). exact (M z Hz). Qed.

  (** ** A cluster point of a shrinking family of nonempty bounded sets *)
  Variable S : R -> (nat -> R) -> Prop.
  Hypothesis Sne : forall e, 0 < e -> exists x, S e x.
  Hypothesis Smono : forall e e' x, e <= e' -> S e x -> S e' x.
  Variables lo hi : nat -> R.
  Hypothesis Sbox : forall e x i, (i < n)%nat -> S e x -> lo i <= x i <= hi i.
  Lemma cluster k : (k <= n)%nat -> exists l : nat -> R, forall e, 0 < e -> exists x, S e x /\ forall i, (i < k)%nat -> Rabs (x i - l i) < e.
  Proof.
    induction k as [|k IH]; intros Hk.
    - exists (fun _ => 0). intros e He. destruct (Sne e He) as (x & Hx). exists x. split; [exact Hx|]. intros i Hi. lia.
    - destruct (IH ltac:(lia)) as (l & Hl). clear IH.
      set (E := fun t => forall e, 0 < e -> exists x, S e x /\ (forall i, (i < k)%nat -> Rabs (x i - l i) < e) /\ t <= x k).
      destruct (completeness E) as (m & Hub & Hlub).
      + exists (hi k). intros t Ht. destruct (Ht 1 ltac:(lra)) as (x & Hx & _ & Hk'). pose proof (Sbox 1 x k ltac:(lia) Hx). lra.
      + exists (lo k). intros e He. destruct (Hl e He) as (x & Hx & Hi). exists x. split; [exact Hx|]. split; [exact Hi|]. apply (Sbox e x k); [lia|exact Hx].
      + exists (fun i => if Nat.eqb i k then m else l i). intros e He.
        (* not above m + e/2 *)
        assert (N : ~ E (m + e / 2)) by (intros H; specialize (Hub _ H); lra).
        apply not_all_ex_not in N. destruct N as (e0 & N). apply imply_to_and in N. destruct N as (He0 & N).
        (* something above m - e *)
        assert (P : exists t, E t /\ m - e < t).
        { apply NNPP. intros H. assert (m <= m - e); [|lra]. apply Hlub. intros t Ht. destruct (Rle_lt_dec t (m - e)) as [|G]; [assumption|]. exfalso. apply H. exists t. auto. }
        destruct P as (t & Et & Ht). set (e1 := Rmin e e0). assert (H1 : 0 < e1) by (apply Rmin_glb_lt; assumption).
        assert (L1 : e1 <= e) by apply Rmin_l. assert (L2 : e1 <= e0) by apply Rmin_r.
        destruct (Et e1 H1) as (x & Hx & Hi & Hk'). exists x. split; [exact (Smono e1 e x L1 Hx)|]. intros i Hik.
        destruct (Nat.eqb_spec i k) as [->|Hne]; [|specialize (Hi i ltac:(lia)); lra].
        assert (x k < m + e / 2).
        { apply Rnot_le_lt. intros G. apply N. exists x. split; [exact (Smono e1 e0 x L2 Hx)|]. split; [|exact G]. intros j Hj. specialize (Hi j Hj). lra. }
        apply Rabs_def1; lra.
  Qed.
End Exist.

(** A linear form does not exceed a bound that nearby points respect. *)
Lemma lin_limit n (a l : nat -> R) b : (forall e, 0 < e -> exists x, (forall i, (i < n)%nat -> Rabs (x i - l i) < e) /\ ssum n (fun i => a i * x i) <= b) ->
  ssum n (fun i => a i * l i) <= b.
Proof.
  intros H. apply Rnot_lt_le. intros G. set (s := ssum n (fun i => Rabs (a i))). assert (Hs : 0 <= s) by (apply ssum_nonneg; intros; apply Rabs_pos).
  set (g := ssum n (fun i => a i * l i) - b). assert (Hg : 0 < g) by (unfold g; lra). destruct (H (g / (s + 1))) as (x & Hx & Hb); [apply Rdiv_lt_0_compat; lra|].
  pose proof (lin_small n a (fun i => x i - l i) (g / (s + 1)) ltac:(intros i Hi; apply Rlt_le, Hx, Hi)) as L. cbv beta in L. fold s in L.
  rewrite (ssum_ext n (fun i => a i * (x i - l i)) (fun i => a i * x i - a i * l i)) in L by (intros; ring). rewrite ssum_minus in L.
  assert (s * (g / (s + 1)) < g).
  { apply Rmult_lt_reg_r with (s + 1); [lra|]. replace (s * (g / (s + 1)) * (s + 1)) with (s * g) by (field; lra). nra. }
  apply Rabs_le_inv in L. unfold g in *. lra.
Qed.
Theorem qp_has_minimiser (q : qpmats R) : (exists x, qfeasible q x) -> exists x, qminimiser q x.
Proof.
  intros (x0 & F0). set (n := vlen (qp q)).
  (* the cost is bounded below *)
  assert (B : exists b, forall x, qfeasible q x -> b <= qcost q x).
  { set (e := ssum n (fun i => Rabs (vget (qxl q) i) + Rabs (vget (qxu q) i))).
    assert (He : 0 <= e) by (apply ssum_nonneg; intros; pose proof (Rabs_pos (vget (qxl q) i)); pose proof (Rabs_pos (vget (qxu q) i)); lra).
    assert (X : forall x, qfeasible q x -> forall i, (i < n)%nat -> Rabs (x i) <= e).
    { intros x (Fx & _) i Hi. specialize (Fx i Hi). apply Rle_trans with (Rabs (vget (qxl q) i) + Rabs (vget (qxu q) i)).
      - pose proof (Rle_abs (vget (qxu q) i)). pose proof (Rle_abs (- vget (qxl q) i)) as K. rewrite Rabs_Ropp in K.
        pose proof (Rabs_pos (vget (qxl q) i)); pose proof (Rabs_pos (vget (qxu q) i)). apply Rabs_le. lra.
      - unfold e. clear -Hi. induction n as [|m IH]; [lia|]. rewrite ssum_S.
        assert (0 <= ssum m (fun i => Rabs (vget (qxl q) i) + Rabs (vget (qxu q) i))) by (apply ssum_nonneg; intros j _; pose proof (Rabs_pos (vget (qxl q) j)); pose proof (Rabs_pos (vget (qxu q) j)); lra).
        destruct (Nat.eq_dec i m) as [->|Hne]; [lra|]. specialize (IH ltac:(lia)). pose proof (Rabs_pos (vget (qxl q) m)); pose proof (Rabs_pos (vget (qxu q) m)). lra. }
    eexists. intros x Fx. specialize (X x Fx). pose proof (quad_small q x e He X) as K. pose proof (lin_small n (vget (qp q)) x e X) as L.
    apply Rabs_le_inv in K. apply Rabs_le_inv in L. unfold qcost. fold n in K |- *.
    set (u := ssum n (fun i => x i * _)) in *. set (v := ssum n (fun i => vget (qp q) i * x i)) in *.
    apply Rle_trans with (/ 2 * (- (ssum n (fun i => ssum n (fun j => Rabs (mget (qQ q) i j))) * (e * e))) + - (ssum n (fun i => Rabs (vget (qp q) i)) * e)); [apply Rle_refl|lra]. }
  destruct B as (b & B).
  (* its greatest lower bound *)
  destruct (completeness (fun c => exists x, qfeasible q x /\ c = - qcost q x)) as (m & Hub & Hlub).
  { exists (- b). intros c (x & Fx & ->). specialize (B x Fx). lra. }
  { exists (- qcost q x0), x0. auto. }
  assert (LB : forall x, qfeasible q x -> - m <= qcost q x) by (intros x Fx; specialize (Hub (- qcost q x) (ex_intro _ x (conj Fx eq_refl))); lra).
  destruct (cluster q (fun e x => qfeasible q x /\ qcost q x < - m + e)) with (lo := vget (qxl q)) (hi := vget (qxu q)) (k := n) as (l & Hl).
  - intros e He. apply NNPP. intros H. assert (m <= m - e); [|lra]. apply Hlub. intros c (x & Fx & ->).
    destruct (Rle_lt_dec (- qcost q x) (m - e)) as [|G]; [assumption|]. exfalso. apply H. exists x. split; [exact Fx|lra].
  - intros e e' x He (Fx & Hx). split; [exact Fx|lra].
  - intros e x i Hi ((Fx & _) & _). apply Fx. exact Hi.
  - apply le_n.
  - exists l. assert (Near : forall e, 0 < e -> exists x, qfeasible q x /\ qcost q x < - m + e /\ forall i, (i < n)%nat -> Rabs (x i - l i) < e).
    { intros e He. destruct (Hl e He) as (x & (Fx & Cx) & Hx). exists x. auto. }
    split; [split|].
    + intros i Hi. split; apply Rnot_lt_le; intros G.
      * destruct (Near (vget (qxl q) i - l i) ltac:(lra)) as (x & (Fx & _) & _ & Hx). specialize (Fx i Hi). specialize (Hx i Hi). apply Rabs_def2 in Hx. lra.
      * destruct (Near (l i - vget (qxu q) i) ltac:(lra)) as (x & (Fx & _) & _ & Hx). specialize (Fx i Hi). specialize (Hx i Hi). apply Rabs_def2 in Hx. lra.
    + intros k Hk. fold n. split.
      * apply Ropp_le_cancel. rewrite <- ssum_opp. rewrite (ssum_ext n _ (fun j => - mget (qA q) k j * l j)) by (intros; ring). apply lin_limit. intros e He.
        destruct (Near e He) as (x & (_ & Fx) & _ & Hx). exists x. split; [exact Hx|]. specialize (Fx k Hk). fold n in Fx.
        rewrite (ssum_ext n _ (fun j => - (mget (qA q) k j * x j))) by (intros; ring). rewrite ssum_opp. lra.
      * apply lin_limit. intros e He. destruct (Near e He) as (x & (_ & Fx) & _ & Hx). exists x. split; [exact Hx|]. apply (Fx k Hk).
    + intros y Fy. apply Rle_trans with (- m); [|exact (LB y Fy)].
      apply Rnot_lt_le. intros G. set (g := qcost q l + m). assert (Hg : 0 < g) by (unfold g; lra).
      set (c := ssum n (fun i => Rabs (qslope q l i)) + ssum n (fun i => ssum n (fun j => Rabs (mget (qQ q) i j)))).
      assert (Hc : 0 <= c).
      { unfold c. pose proof (A_pos q) as P. fold n in P. assert (0 <= ssum n (fun i => Rabs (qslope q l i))) by (apply ssum_nonneg; intros; apply Rabs_pos). lra. }
      set (e := Rmin 1 (g / (c + 2))). assert (He : 0 < e) by (apply Rmin_glb_lt; [lra|apply Rdiv_lt_0_compat; lra]).
      assert (L1 : e <= 1) by apply Rmin_l. assert (L2 : e <= g / (c + 2)) by apply Rmin_r.
      destruct (Near e He) as (x & _ & Cx & Hx).
      pose proof (qcost_near q l (fun i => x i - l i) e ltac:(lra) ltac:(intros i Hi; apply Rlt_le, Hx, Hi)) as K. cbv beta in K. fold n c in K.
      rewrite (qcost_ext q (fun i => l i + (x i - l i)) x) in K by (intros; ring). apply Rabs_le_inv in K.
      assert ((c + 2) * e <= g).
      { apply Rle_trans with ((c + 2) * (g / (c + 2))); [apply Rmult_le_compat_l; lra|]. right. field. lra. }
      unfold g in *. nra.
Qed.
