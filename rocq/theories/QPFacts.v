(** Facts about quadratic programs over the reals. *)

From Coq Require Import Reals List Lra Lia Arith Bool.
From Verif Require Import Scalar LinAlg LinAlgFacts QPModel.
Local Open Scope R_scope.

(** ** What a QP asks *)
(** x^T Q x / 2 + p^T x *)
Definition qcost (m : qpmats R) (x : nat -> R) : R :=
  let n := vlen (qp m) in
  / 2 * ssum n (fun i => x i * ssum n (fun j => mget (qQ m) i j * x j))
  + ssum n (fun i => vget (qp m) i * x i).
Definition qfeasible (m : qpmats R) (x : nat -> R) : Prop :=
  let n := vlen (qp m) in
  (forall i, (i < n)%nat -> vget (qxl m) i <= x i <= vget (qxu m) i)
  /\ (forall k, (k < mrows (qA m))%nat ->
        vget (qbl m) k <= ssum n (fun j => mget (qA m) k j * x j) <= vget (qbu m) k).
Definition qminimiser (m : qpmats R) (x : nat -> R) : Prop :=
  qfeasible m x /\ forall y, qfeasible m y -> qcost m x <= qcost m y.

(** ** Normalisation *)
Lemma norm_row_range eps m i nc acc :
  0 <= eps -> 0 < acc <= 1 -> 0 < norm_row (K:=R) eps m i nc acc <= acc.
Proof.
  intros He Ha. induction nc as [|j IH]; cbn [norm_row]; [lra|].
  unfold norm_step. rewrite sabs_Rabs. rsimpl.
  destruct (Rltb_spec eps (Rabs (mget m i j))) as [H1|H1]; cbn [andb]; [|assumption].
  destruct (Rltb_spec (Rabs (mget m i j)) (norm_row eps m i j acc)) as [H2|H2]; [|assumption]. lra.
Qed.
Lemma norm_rows_range eps m nr :
  0 <= eps -> 0 < norm_rows (K:=R) eps m nr 1 <= 1.
Proof.
  intros He. induction nr as [|i IH]; cbn [norm_rows]; [lra|].
  pose proof (norm_row_range eps m i (mcols m) _ He IH). lra.
Qed.
Lemma norm_row_mono eps m i nc acc :
  0 <= eps -> 0 < acc <= 1 -> forall j, (j < nc)%nat -> eps < Rabs (mget m i j) ->
  norm_row (K:=R) eps m i nc acc <= Rabs (mget m i j).
Proof.
  intros He Ha. induction nc as [|j' IH]; intros j Hj Hv; [lia|]. cbn [norm_row].
  unfold norm_step. rewrite sabs_Rabs. rsimpl.
  assert (HR := norm_row_range eps m i j' acc He Ha).
  destruct (Rltb_spec eps (Rabs (mget m i j'))) as [H1|H1]; cbn [andb].
  - destruct (Rltb_spec (Rabs (mget m i j')) (norm_row eps m i j' acc)) as [H2|H2].
    + destruct (Nat.eq_dec j j') as [->|Hne]; [lra|]. specialize (IH j ltac:(lia) Hv). lra.
    + destruct (Nat.eq_dec j j') as [->|Hne]; [lra|]. apply IH; [lia|assumption].
  - destruct (Nat.eq_dec j j') as [->|Hne]; [contradiction|]. apply IH; [lia|assumption].
Qed.
Lemma norm_rows_mono eps m nr :
  0 <= eps -> forall i j, (i < nr)%nat -> (j < mcols m)%nat -> eps < Rabs (mget m i j) ->
  norm_rows (K:=R) eps m nr 1 <= Rabs (mget m i j).
Proof.
  intros He. induction nr as [|i' IH]; intros i j Hi Hj Hv; [lia|]. cbn [norm_rows].
  assert (HR := norm_rows_range eps m i' He).
  assert (HR2 := norm_row_range eps m i' (mcols m) _ He HR).
  destruct (Nat.eq_dec i i') as [->|Hne].
  - apply norm_row_mono; assumption.
  - specialize (IH i j ltac:(lia) Hj Hv). lra.
Qed.
(** the bound above is reached *)
Lemma norm_rows_attained eps m nr :
  norm_rows (K:=R) eps m nr 1 = 1
  \/ exists i j, (i < nr)%nat /\ (j < mcols m)%nat /\ eps < Rabs (mget m i j)
       /\ norm_rows (K:=R) eps m nr 1 = Rabs (mget m i j).
Proof.
  induction nr as [|i IH]; cbn [norm_rows]; [left; reflexivity|].
  set (a := norm_rows eps m i 1) in *.
  assert (G : forall nc, (nc <= mcols m)%nat -> norm_row eps m i nc a = a
    \/ exists j, (j < nc)%nat /\ eps < Rabs (mget m i j) /\ norm_row eps m i nc a = Rabs (mget m i j)).
  { induction nc as [|j IHj]; intros Hc; cbn [norm_row]; [left; reflexivity|].
    unfold norm_step. rewrite sabs_Rabs. rsimpl.
    destruct (Rltb_spec eps (Rabs (mget m i j))) as [H1|H1]; cbn [andb];
      [destruct (Rltb_spec (Rabs (mget m i j)) (norm_row eps m i j a)) as [H2|H2]|].
    - right. exists j. auto.
    - destruct (IHj ltac:(lia)) as [E|(j' & Hj & Hv & E)]; [left; assumption|right; exists j'; auto].
    - destruct (IHj ltac:(lia)) as [E|(j' & Hj & Hv & E)]; [left; assumption|right; exists j'; auto]. }
  destruct (G (mcols m) (le_n _)) as [E|(j & Hj & Hv & E)]; rewrite E.
  - destruct IH as [E'|(i' & j & Hi & Hj & Hv & E')]; [left; assumption|right; exists i', j; auto].
  - right. exists i, j. auto.
Qed.

Lemma getNormalizationFactor_pos m eps : 0 <= eps -> 1 <= getNormalizationFactor (K:=R) m eps.
Proof.
  intros He. unfold getNormalizationFactor. rsimpl. pose proof (norm_rows_range eps m (mrows m) He) as H.
  apply Rmult_le_reg_r with (norm_rows eps m (mrows m) 1); [lra|]. unfold Rdiv. rewrite Rmult_assoc, Rinv_l; lra.
Qed.

Lemma scale_cost a b m x : qcost (scale_qp a b m) x = a * qcost m x.
Proof.
  unfold qcost, scale_qp. cbn [qp qQ vlen vget mget vscale mscale]. rsimpl.
  set (n := vlen (qp m)).
  replace (ssum n (fun i => x i * ssum n (fun j => a * mget (qQ m) i j * x j)))
    with (a * ssum n (fun i => x i * ssum n (fun j => mget (qQ m) i j * x j))).
  2:{ rewrite <- ssum_mul_l. apply ssum_ext. intros i _.
      rewrite (ssum_ext n (fun j => a * mget (qQ m) i j * x j) (fun j => a * (mget (qQ m) i j * x j))) by (intros; ring).
      rewrite ssum_mul_l. ring. }
  rewrite (ssum_ext n (fun i => a * vget (qp m) i * x i) (fun i => a * (vget (qp m) i * x i))) by (intros; ring).
  rewrite ssum_mul_l. ring.
Qed.
Lemma scale_feasible a b m x : 0 < b -> (qfeasible (scale_qp a b m) x <-> qfeasible m x).
Proof.
  intros Hb. unfold qfeasible, scale_qp. cbn [qp qxl qxu qA qbl qbu vlen vget mget mrows vscale mscale]. rsimpl.
  set (n := vlen (qp m)).
  assert (E : forall k, ssum n (fun j => b * mget (qA m) k j * x j) = b * ssum n (fun j => mget (qA m) k j * x j)).
  { intros k. rewrite (ssum_ext n _ (fun j => b * (mget (qA m) k j * x j))) by (intros; ring). apply ssum_mul_l. }
  split; intros (H1 & H2); (split; [exact H1|]); intros k Hk; specialize (H2 k Hk).
  - rewrite E in H2. split; apply Rmult_le_reg_l with b; lra.
  - rewrite E. split; apply Rmult_le_compat_l; lra.
Qed.
Lemma scale_minimiser a b m x : 0 < a -> 0 < b -> (qminimiser (scale_qp a b m) x <-> qminimiser m x).
Proof.
  intros Ha Hb. unfold qminimiser. rewrite scale_feasible by assumption. split; intros (H1 & H2); (split; [exact H1|]); intros y Hy.
  - specialize (H2 y). rewrite !scale_cost in H2. apply Rmult_le_reg_l with a; [assumption|].
    apply H2. apply scale_feasible; assumption.
  - apply scale_feasible in Hy; [|assumption]. rewrite !scale_cost. apply Rmult_le_compat_l; [lra|]. apply H2. assumption.
Qed.

(** ** Least squares *)
(** 1/2 |U (X + d) + c|^2 expanded around X *)
Lemma lsq_expand n m (u : nat -> nat -> R) (X d c : nat -> R) :
  / 2 * ssum n (fun i => (ssum m (fun k => u i k * (X k + d k)) + c i) ^ 2)
  = / 2 * ssum n (fun i => (ssum m (fun k => u i k * X k) + c i) ^ 2)
    + ssum m (fun j => ssum n (fun i => u i j * (ssum m (fun k => u i k * X k) + c i)) * d j)
    + / 2 * ssum m (fun j => d j * ssum m (fun k => ssum n (fun i => u i j * u i k) * d k)).
Proof.
  set (r := fun i => ssum m (fun k => u i k * X k) + c i).
  set (e := fun i => ssum m (fun k => u i k * d k)).
  assert (E1 : ssum n (fun i => (ssum m (fun k => u i k * (X k + d k)) + c i) ^ 2)
    = ssum n (fun i => r i ^ 2) + 2 * ssum n (fun i => r i * e i) + ssum n (fun i => e i * e i)).
  { rewrite <- ssum_mul_l, <- !ssum_plus. apply ssum_ext. intros i _.
    rewrite (ssum_ext m (fun k => u i k * (X k + d k)) (fun k => u i k * X k + u i k * d k)) by (intros; ring).
    rewrite ssum_plus. fold (e i). replace (ssum m (fun k => u i k * X k) + e i + c i) with (r i + e i) by (unfold r; ring).
    ring. }
  assert (E2 : ssum n (fun i => r i * e i) = ssum m (fun j => ssum n (fun i => u i j * r i) * d j)).
  { unfold e. rewrite (ssum_ext n _ (fun i => ssum m (fun j => u i j * r i * d j))).
    2:{ intros i _. rewrite <- ssum_mul_l. apply ssum_ext. intros; ring. }
    rewrite ssum_swap. apply ssum_ext. intros j _. rewrite <- ssum_mul_r. reflexivity. }
  assert (E3 : ssum n (fun i => e i * e i) = ssum m (fun j => d j * ssum m (fun k => ssum n (fun i => u i j * u i k) * d k))).
  { unfold e. rewrite (ssum_ext n _ (fun i => ssum m (fun j => ssum m (fun k => d j * (u i j * u i k * d k))))).
    2:{ intros i _. rewrite ssum_mul_mul. apply ssum_ext. intros j _. apply ssum_ext. intros; ring. }
    rewrite ssum_swap. apply ssum_ext. intros j _. rewrite ssum_swap.
    rewrite <- ssum_mul_l. apply ssum_ext. intros k _. rewrite ssum_mul_l. f_equal. rewrite ssum_mul_r. reflexivity. }
  rewrite E1, E2, E3. unfold r. field.
Qed.

(** ** Quadratic objectives as sums *)
Definition quad (n : nat) (Q : nat -> nat -> R) (p d : nat -> R) : R :=
  / 2 * ssum n (fun i => d i * ssum n (fun j => Q i j * d j)) + ssum n (fun i => p i * d i).
Lemma qcost_quad m d : qcost m d = quad (vlen (qp m)) (mget (qQ m)) (vget (qp m)) d.
Proof. reflexivity. Qed.
Lemma quad_ext n Q Q' p p' d d' :
  (forall i j, (i < n)%nat -> (j < n)%nat -> Q i j = Q' i j) ->
  (forall i, (i < n)%nat -> p i = p' i) -> (forall i, (i < n)%nat -> d i = d' i) ->
  quad n Q p d = quad n Q' p' d'.
Proof.
  intros HQ Hp Hd. unfold quad. f_equal.
  - f_equal. apply ssum_ext. intros i Hi. rewrite Hd by assumption. f_equal. apply ssum_ext. intros j Hj.
    rewrite HQ, Hd by assumption. reflexivity.
  - apply ssum_ext. intros i Hi. rewrite Hp, Hd by assumption. reflexivity.
Qed.
Lemma quad_zero n d : quad n (fun _ _ => 0) (fun _ => 0) d = 0.
Proof.
  unfold quad. rewrite !ssum_0; [ring| |]; intros; [ring|]. rewrite ssum_0 by (intros; ring). ring.
Qed.
Lemma quad_add n Q H p g w d :
  quad n (fun i j => Q i j + w * H i j) (fun i => p i + w * g i) d = quad n Q p d + w * quad n H g d.
Proof.
  unfold quad.
  rewrite (ssum_ext n (fun i => d i * ssum n (fun j => (Q i j + w * H i j) * d j))
    (fun i => d i * ssum n (fun j => Q i j * d j) + w * (d i * ssum n (fun j => H i j * d j)))).
  2:{ intros i _. rewrite (ssum_ext n (fun j => (Q i j + w * H i j) * d j) (fun j => Q i j * d j + w * (H i j * d j)))
        by (intros; ring). rewrite ssum_plus, ssum_mul_l. ring. }
  rewrite (ssum_ext n (fun i => (p i + w * g i) * d i) (fun i => p i * d i + w * (g i * d i))) by (intros; ring).
  rewrite !ssum_plus, !ssum_mul_l. ring.
Qed.
Lemma quad_scale n Q p w d : quad n (fun i j => w * Q i j) (fun i => w * p i) d = w * quad n Q p d.
Proof.
  rewrite (quad_ext n _ (fun i j => 0 + w * Q i j) _ (fun i => 0 + w * p i) d d) by (intros; ring).
  rewrite (quad_add n (fun _ _ => 0) Q (fun _ => 0) p w d), quad_zero. ring.
Qed.
Lemma quad_lsq r n (u : nat -> nat -> R) (X d c : nat -> R) :
  quad n (fun j k => ssum r (fun i => u i j * u i k))
         (fun j => ssum r (fun i => u i j * (ssum n (fun k => u i k * X k) + c i))) d
  = / 2 * ssum r (fun i => (ssum n (fun k => u i k * (X k + d k)) + c i) ^ 2)
    - / 2 * ssum r (fun i => (ssum n (fun k => u i k * X k) + c i) ^ 2).
Proof. rewrite lsq_expand. unfold quad. ring. Qed.
(** gradient written with the Hessian, as the code computes it *)
Lemma lsq_grad r n (u : nat -> nat -> R) (X c : nat -> R) j :
  ssum n (fun k => ssum r (fun i => u i j * u i k) * X k) + ssum r (fun i => u i j * c i)
  = ssum r (fun i => u i j * (ssum n (fun k => u i k * X k) + c i)).
Proof.
  rewrite (ssum_ext r (fun i => u i j * (ssum n (fun k => u i k * X k) + c i))
    (fun i => ssum n (fun k => u i j * u i k * X k) + u i j * c i)).
  2:{ intros i _. rewrite Rmult_plus_distr_l, <- ssum_mul_l. f_equal. apply ssum_ext. intros; ring. }
  rewrite ssum_plus. f_equal. rewrite ssum_swap. apply ssum_ext. intros k _. rewrite ssum_mul_r. reflexivity.
Qed.
