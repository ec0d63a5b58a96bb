(** The feet supervisor in regular timing: what an update of the timeline returns. *)

From Coq Require Import Reals List ZArith Arith Bool Lra Lia.
From Verif Require Import Scalar LinAlg LinAlgFacts ToolsModel InterpModel PolygonModel FootModel ModelsFacts SupModel SupSpec SupFacts PropTools.
Import ListNotations.
Local Open Scope R_scope.

Section Time.
Context {TK : Trig R}.

(** ** The time before the next sample *)
Lemma sample_loop_spec T S0 (HT : 0 < T) (HS : 0 < S0 <= T + EPS) : forall r fuel, (r <= fuel)%nat ->
  (forall k, (0 < k <= r)%nat -> T + EPS < S0 + INR k * T) ->
  sample_loop fuel T (S0 + INR r * T) = Ok S0.
Proof.
  induction r as [|r IH]; intros fuel Hf Hk.
  - cbn [INR]. rewrite Rmult_0_l, Rplus_0_r. destruct fuel; cbn [sample_loop]; change (sltb (sadd T EPS) S0) with (Rltb (T + EPS) S0);
      destruct (Rltb_spec (T + EPS) S0); try lra; reflexivity.
  - destruct fuel as [|fuel]; [lia|]. cbn [sample_loop]. change (sltb (sadd T EPS) (S0 + INR (S r) * T)) with (Rltb (T + EPS) (S0 + INR (S r) * T)).
    destruct (Rltb_spec (T + EPS) (S0 + INR (S r) * T)) as [_|L]; [|exfalso; apply L, Hk; lia].
    change (ssub (S0 + INR (S r) * T) T) with (S0 + INR (S r) * T - T).
    replace (S0 + INR (S r) * T - T) with (S0 + INR r * T) by (rewrite S_INR; ring). apply IH; [lia|]. intros k Hk'. apply Hk. lia.
Qed.
Lemma timeToNextSample_spec (s : sup R) S0 r0 :
  EPS < sT s -> EPS < S0 < sT s + EPS -> sttnp s = S0 + INR r0 * sT s -> s_timeToNextSample s = Ok S0.
Proof.
  intros HT HS Ht. unfold s_timeToNextSample. rewrite Ht. assert (HE : 0 < EPS) by (rsimpl; lra). apply sample_loop_spec; [lra|lra| |].
  - assert (H : Z.le (Z.of_nat r0) (strunc (sdiv (S0 + INR r0 * sT s) (sT s)))); [|lia].
    change (sdiv (S0 + INR r0 * sT s) (sT s)) with ((S0 + INR r0 * sT s) / sT s).
    replace ((S0 + INR r0 * sT s) / sT s) with (S0 / sT s + INR r0) by (field; lra).
    assert (0 < S0 / sT s) by (apply Rdiv_lt_0_compat; lra). pose proof (pos_INR r0).
    rewrite strunc_pos by lra. rewrite INR_IZR_INZ. destruct (base_Int_part (S0 / sT s + IZR (Z.of_nat r0))) as (_ & A).
    rewrite INR_IZR_INZ in *. apply Z.lt_pred_le. apply lt_IZR. rewrite pred_IZR || (unfold Z.pred; rewrite plus_IZR). lra.
  - intros k Hk. assert (1 <= INR k) by (apply (le_INR 1); lia). assert (1 * sT s <= INR k * sT s) by (apply Rmult_le_compat_r; lra). lra.
Qed.

(** ** Dropping the first step *)
Definition dropped (N : nat) (v v1 : vec R) (k : nat) : Prop :=
  vlen v1 = (2 * N + 2 * k)%nat
  /\ (forall j, (j < 2 * N)%nat -> vget v1 j = vget v j)
  /\ (forall m, (m < k)%nat -> stepX N v1 m = stepX N v (S m) /\ stepY N v1 m = stepY N v (S m)).
Lemma shorten_spec N (v : vec R) k : vlen v = (2 * N + 2 * S k)%nat ->
  exists v1, shortenStepVec N v = Ok v1 /\ dropped N v v1 k.
Proof.
  intros Hv. unfold shortenStepVec. rewrite Hv, <- Nat.mul_add_distr_l, half_even, even_mod. cbn [Nat.eqb guard bind].
  destruct (Nat.leb_spec (S N) (N + S k)); [|lia]. cbn [guard bind]. replace (N + S k - N - 1)%nat with k by lia.
  eexists. split; [reflexivity|]. assert (L : forall w : vec R, vlen w = Nat.add (2 * N) (2 * k) -> nb_steps N w = k) by (intros w; apply nb_steps_eq).
  split; [reflexivity|]. split.
  - intros j Hj. unfold vsetseg, vseg. cbn [vget vlen]. vcmp; try reflexivity.
  - intros m Hm. unfold stepX, stepY. rewrite L by reflexivity. rewrite (nb_steps_eq N v (S k) Hv). unfold vsetseg, vseg. cbn [vget vlen].
    split; vcmp; f_equal; lia.
Qed.

(** ** What an update returns *)
(** The decision vector when the timeline is regenerated: a single support that is over takes its
    step away. *)
Definition leaves_step (s : sup R) (ph : phase R) : bool := (Rltb (sttnp s) EPS && negb (is_DS (phType ph)))%bool.
Record updated (s : sup R) (v : vec R) (n : nat) (f : phase R) (tn S0 : R) (r0 a b : nat) (fb : R) (s' : sup R) (v' : vec R)
   (v1 : vec R) (n1 i : nat) : Prop := {
  u_v1 : exists ph, cb_at (stl s) 0 = Ok ph /\ if leaves_step s ph then n = S n1 /\ dropped (sN s) v v1 n1 else v1 = v /\ n1 = n;
  u_tl : cbl (stl s') = tlist s f i;
  u_full : full s';
  u_nb : snb s' = nbs (smove s) (phType f) i;
  u_static : sN s' = sN s /\ sT s' = sT s /\ sfb s' = fb /\ sleft s' = sleft s /\ sright s' = sright s /\ sstep s' = sstep s
    /\ sDS s' = sDS s /\ smove s' = smove s /\ sttnp s' = tn;
  u_stepVec : sstepVec s' = vseg v' (2 * sN s) (vlen v' - 2 * sN s);
  u_low : (i = 0 \/ ends s f r0 a b (i - 1) <= sN s)%nat;
  u_high : (sN s < ends s f r0 a b i)%nat;
  u_size : vlen v' = (2 * sN s + 2 * grown s n1 (snb s'))%nat;
  u_growth : good_growth s f n1 v1 v' (grown s n1 (snb s'));
  u_dims : mrows (selV (ssel s')) = sN s /\ mcols (selV (ssel s')) = snb s' /\ vlen (selV0 (ssel s')) = sN s /\ vlen (selIdx (ssel s')) = sN s;
  u_sel : forall r j, (r < sN s)%nat -> row_phase s f r0 a b r j ->
     vget (selIdx (ssel s')) r = j /\ vget (selV0 (ssel s')) r = b2z (is_none (colf s f j))
     /\ forall c, (c < snb s')%nat -> mget (selV (ssel s')) r c = b2z (is_col (colf s f j) c);
  u_VT : selVT (ssel s') = MkMat (snb s') (sN s) (fun i j => mget (selV (ssel s')) j i);
  u_W : selW (ssel s') = mset (mset (mid (sN s)) 0 0 (S0 / sT s)) (sN s - 1) (sN s - 1)
                             (105 / 100 - mget (mset (mid (sN s)) 0 0 (S0 / sT s)) 0 0);
  u_dyn : selDyn (ssel s') = toLinearDynamics (selV (ssel s')) (selVT (ssel s')) (selV0 (ssel s'));
  u_rot : selRot (ssel s') = mid (2 * sN s) /\ selRotT (ssel s') = mtr (mid (2 * sN s)) }.

Lemma leave_spec (v : vec R) s f tn n :
  full s -> (0 < length (cbl (stl s)))%nat -> vlen v = (2 * sN s + 2 * n)%nat -> new_front s f tn ->
  (forall ph, cb_at (stl s) 0 = Ok ph -> leaves_step s ph = true -> (0 < n)%nat) ->
  exists v1 n1 t1, leavePhase v s = Ok (v1, t1, tn) /\ tl_inv s f t1 0 /\ vlen v1 = (2 * sN s + 2 * n1)%nat
   /\ exists ph, cb_at (stl s) 0 = Ok ph /\ if leaves_step s ph then n = S n1 /\ dropped (sN s) v v1 n1 else v1 = v /\ n1 = n.
Proof.
  intros Hfull H0 Hv Hnf Hpop. unfold full in Hfull. unfold leavePhase, s_isInDS, s_front.
  destruct (cbl (stl s)) as [|ph rest] eqn:El; [cbn in H0; lia|].
  assert (E0 : cb_at (stl s) 0 = Ok ph) by (unfold cb_at; rewrite El; reflexivity). rewrite E0. cbn [bind].
  specialize (Hpop ph E0). unfold leaves_step in *. change (sltb (sttnp s) EPS) with (Rltb (sttnp s) EPS).
  destruct Hnf as [(Hle & Hf & Ht)|(Hlt & Hf & Ht)].
  - destruct (Rltb_spec (sttnp s) EPS); [lra|]. cbn [andb] in *. rewrite E0 in Hf. injection Hf as <-.
    exists v, n, (stl s). subst tn. split; [reflexivity|]. split; [split; rewrite ?El; [reflexivity|exact Hfull]|]. split; [exact Hv|]. exists ph. auto.
  - destruct (Rltb_spec (sttnp s) EPS); [|lra]. cbn [andb] in *.
    unfold cb_pop_front, cb_at in *. rewrite El in Hf |- *. apply rd_inv in Hf. cbn [nth_error] in Hf. destruct rest as [|b' rest]; [discriminate|]. injection Hf as ->.
    cbn [length] in Hfull.
    assert (Ecap : cb_set_capacity (cbcap (stl s) - 1) (MkCb (f :: rest) (cbcap (stl s))) = MkCb (f :: rest) (cbcap (stl s) - 1)).
    { unfold cb_set_capacity. cbn [cbl]. rewrite firstn_all2 by (cbn [length]; lia). reflexivity. }
    assert (Hinv : tl_inv s f (MkCb (f :: rest) (cbcap (stl s) - 1)) 0) by (split; cbn [cbl cbcap length]; [reflexivity|lia]).
    destruct (is_DS (phType ph)) eqn:Ed; cbn [negb] in *.
    + cbn [bind cbcap]. rewrite Ecap. exists v, n, (MkCb (f :: rest) (cbcap (stl s) - 1)). subst tn. split; [reflexivity|]. split; [exact Hinv|]. split; [exact Hv|].
      exists ph. split; [reflexivity|]. rewrite Ed. cbn [negb]. auto.
    + destruct n as [|n1]; [specialize (Hpop eq_refl); lia|]. destruct (shorten_spec (sN s) v n1 Hv) as (v1 & Ev & Hd). rewrite Ev. cbn [bind cbcap]. rewrite Ecap.
      exists v1, n1, (MkCb (f :: rest) (cbcap (stl s) - 1)). subst tn. split; [reflexivity|]. split; [exact Hinv|]. split; [exact (proj1 Hd)|].
      exists ph. split; [reflexivity|]. rewrite Ed. cbn [negb]. auto.
Qed.

Lemma update_regular (v : vec R) fb s n f tn S0 r0 a b :
  full s -> (0 < length (cbl (stl s)))%nat -> EPS < sT s -> (0 < sN s)%nat -> feet_ok s ->
  sstep s = INR a * sT s -> sDS s = INR b * sT s -> (0 < a)%nat -> (0 < b)%nat ->
  vlen v = (2 * sN s + 2 * n)%nat -> new_front s f tn -> tn = S0 + INR r0 * sT s -> EPS < S0 < sT s + EPS ->
  (forall ph, cb_at (stl s) 0 = Ok ph -> leaves_step s ph = true -> (0 < n)%nat) ->
  exists s' v' v1 n1 i, s_updateTimeline v fb s = Ok (s', v') /\ updated s v n f tn S0 r0 a b fb s' v' v1 n1 i.
Proof.
  intros Hfull H0 HT HN Hfeet Ha Hb Ha0 Hb0 Hv Hnf Htn HS Hpop.
  destruct (leave_spec v s f tn n Hfull H0 Hv Hnf Hpop) as (v1 & n1 & t1 & El & Hinv & Hv1 & Hph).
  unfold s_updateTimeline. unfold cb_size. destruct (Nat.ltb_spec 0 (length (cbl (stl s)))); [|lia].
  destruct (Nat.leb_spec (2 * sN s) (vlen v)); [|lia]. cbn [guard bind]. rewrite El. cbn [bind].
  set (s1 := MkSup (sN s) (sT s) fb (sleft s) (sright s) 0 (sstep s) (sDS s) tn (smove s) (sstepVec s) t1 (ssel s)).
  destruct (loop_regular s1 f S0 r0 a b HT HN HS Ha Hb Ha0 Hb0 (timeline_fuel s1) 0 t1 0 (S r0) v1 n1) as (t2 & i & v2 & E2 & Hinv2 & Hlow & Hhigh & _ & Hsz & Hgr).
  - exact Hinv.
  - exact Hfeet.
  - reflexivity.
  - left. reflexivity.
  - lia.
  - unfold timeline_fuel. cbn [sN s1]. lia.
  - exact Hv1.
  - cbn [nbs]. lia.
  - cbn [nbs] in E2. change (s_setTl s1 0 t1) with s1 in E2.
    replace (timer s1 S0 0 (S r0)) with tn in E2 by (unfold timer; cbn [sT s1]; rewrite Htn, S_INR; ring).
    cbn [sN sT s1 INR] in E2. rewrite Rmult_0_l, Rminus_0_r in E2. cbn [sN sT]. rewrite sofnat_INR.
    change (smul (INR (sN s)) (sT s)) with (INR (sN s) * sT s). rewrite E2. cbn [bind].
    set (nb := nbs (smove s1) (phType f) i) in *.
    set (s3 := s_setTl (s_setTl s1 nb t2) (snb (s_setTl s1 nb t2)) (cb_set_capacity (S i) (stl (s_setTl s1 nb t2)))).
    assert (Htl3 : cbl (stl s3) = tlist s3 f i) by exact (proj1 Hinv2).
    unfold computeSelection, sampleWeights.
    rewrite (timeToNextSample_spec s3 S0 r0 HT HS) by exact Htn. cbn [bind].
    destruct (selection_spec s3 f S0 r0 a b HT HN HS Ha Hb Ha0 Hb0 i Htl3 eq_refl Hhigh Htn) as (e & Ee & Ge & Re). rewrite Ee. cbn [bind].
    eexists _, _, v1, n1, i. split; [reflexivity|].
    destruct (Nat.leb_spec 0 (sN s1)) as [_|]; [|lia].
    constructor; cbn [sN sT sfb sleft sright snb sstep sDS sttnp smove sstepVec stl ssel selV selVT selV0 selIdx selW selDyn selRot selRotT s_setTl].
    + exact Hph.
    + exact Htl3.
    + unfold full. cbn [stl]. unfold cb_set_capacity. cbn [cbl cbcap]. rewrite (proj1 Hinv2). apply tlist_length.
    + reflexivity.
    + repeat split; reflexivity.
    + reflexivity.
    + exact Hlow.
    + exact Hhigh.
    + exact Hsz.
    + exact Hgr.
    + exact (g_dims _ _ _ _ _ _ _ _ Ge).
    + intros r j Hr. apply (g_done _ _ _ _ _ _ _ _ Ge). rewrite Re. exact Hr.
    + destruct (g_dims _ _ _ _ _ _ _ _ Ge) as (D1 & D2 & _). rewrite D1, D2. reflexivity.
    + reflexivity.
    + reflexivity.
    + split; reflexivity.
Qed.
End Time.
