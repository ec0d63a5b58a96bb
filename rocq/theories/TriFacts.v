(** Lower triangular systems over the reals: forward substitution computes the inverse. *)

From Coq Require Import Reals Lra Lia List Arith Bool ZArith.
From Verif Require Import Scalar LinAlg LinAlgFacts ToolsModel.
Local Open Scope R_scope.

Definition lower_tri (m : nat -> nat -> R) (n : nat) : Prop :=
  forall i j, (i < n)%nat -> (i < j)%nat -> m i j = 0.
Definition diag_ne0 (m : nat -> nat -> R) (n : nat) : Prop :=
  forall i, (i < n)%nat -> m i i <> 0.

Lemma diag_nonzero_spec m n : diag_nonzero m n = true <-> diag_ne0 m n.
Proof.
  induction n as [|n IH]; cbn [diag_nonzero].
  - split; [intros _ i Hi; lia|reflexivity].
  - rewrite andb_true_iff, IH, negb_true_iff. rsimpl. rewrite Reqb_false. split.
    + intros [H1 H2] i Hi. destruct (Nat.eq_dec i n) as [->|Hne]; [exact H2|apply H1; lia].
    + intros H. split; [intros i Hi; apply H; lia|apply H; lia].
Qed.

(** A row of a lower triangular matrix only sees the first entries. *)
Lemma tri_row m n i (x : nat -> R) :
  lower_tri m n -> (i < n)%nat ->
  ssum n (fun k => m i k * x k) = ssum i (fun k => m i k * x k) + m i i * x i.
Proof.
  intros HL Hi. rewrite (ssum_trunc n (S i)); [apply ssum_S|lia|].
  intros k Hk. rewrite HL by lia. ring.
Qed.

Lemma tri_inj m n (x y : nat -> R) :
  lower_tri m n -> diag_ne0 m n ->
  (forall i, (i < n)%nat -> ssum n (fun k => m i k * x k) = ssum n (fun k => m i k * y k)) ->
  forall i, (i < n)%nat -> x i = y i.
Proof.
  intros HL HD H i. induction i as [i IH] using lt_wf_ind. intros Hi.
  pose proof (H i Hi) as E. rewrite !(tri_row m n i) in E by assumption.
  rewrite (ssum_ext i _ (fun k => m i k * y k)) in E.
  - apply (Rmult_eq_reg_l (m i i)); [lra|apply HD; assumption].
  - intros k Hk. rewrite IH; [reflexivity|assumption|lia].
Qed.

Lemma tri_inv_col_stable m j n k :
  (k < n)%nat -> tri_inv_col (K:=R) m j n k = tri_inv_col m j (S k) k.
Proof.
  induction n as [|n IH]; intros Hk; [lia|].
  destruct (Nat.eq_dec k n) as [->|Hne]; [reflexivity|].
  cbn [tri_inv_col]. replace (Nat.eqb k n) with false by (symmetry; apply Nat.eqb_neq; assumption).
  rewrite IH by lia. reflexivity.
Qed.

Lemma tri_inv_row m n i j :
  lower_tri m n -> diag_ne0 m n -> (i < n)%nat -> (j < n)%nat ->
  ssum n (fun k => m i k * tri_inv_col m j (S k) k) = if Nat.eqb i j then 1 else 0.
Proof.
  intros HL HD Hi Hj. rewrite tri_row by assumption.
  rewrite (ssum_ext i (fun k => m i k * tri_inv_col m j (S k) k)
                      (fun k => m i k * tri_inv_col m j i k)).
  2:{ intros k Hk. rewrite (tri_inv_col_stable m j i k) by assumption. reflexivity. }
  cbn [tri_inv_col]. rewrite Nat.eqb_refl.
  rsimpl. field. apply HD; assumption.
Qed.

(** The transposed-order product: forward substitution is a two sided inverse. *)
Lemma tri_inv_right m n i j :
  lower_tri m n -> diag_ne0 m n -> (i < n)%nat -> (j < n)%nat ->
  mget (mmul (MkMat n n m) (tri_inv (MkMat n n m))) i j = mget (mid n) i j.
Proof.
  intros HL HD Hi Hj. cbn [mmul mget mcols mid tri_inv]. rsimpl.
  apply tri_inv_row; assumption.
Qed.

Lemma tri_inv_left m n i j :
  lower_tri m n -> diag_ne0 m n -> (i < n)%nat -> (j < n)%nat ->
  mget (mmul (tri_inv (MkMat n n m)) (MkMat n n m)) i j = mget (mid n) i j.
Proof.
  intros HL HD Hi Hj. cbn [mmul mget mcols mid tri_inv]. rsimpl.
  apply (tri_inj m n
           (fun i => ssum n (fun k => tri_inv_col m k (S i) i * m k j))
           (fun i => if Nat.eqb i j then 1 else 0)); try assumption.
  clear i Hi. intros i Hi.
  rewrite (ssum_single n j (fun k => m i k * (if Nat.eqb k j then 1 else 0))).
  2: assumption.
  2:{ intros k Hk Hne. apply Nat.eqb_neq in Hne. rewrite Hne. ring. }
  rewrite Nat.eqb_refl, Rmult_1_r.
  rewrite (ssum_ext n _ (fun k => ssum n (fun l => m i k * tri_inv_col m l (S k) k * m l j))).
  2:{ intros k Hk. rewrite <- ssum_mul_l. apply ssum_ext. intros; ring. }
  rewrite ssum_swap.
  rewrite (ssum_ext n _ (fun l => (if Nat.eqb i l then 1 else 0) * m l j)).
  2:{ intros l Hl. rewrite ssum_mul_r. f_equal. apply tri_inv_row; assumption. }
  rewrite (ssum_single n i).
  - rewrite Nat.eqb_refl. ring.
  - assumption.
  - intros k Hk Hne. replace (Nat.eqb i k) with false by (symmetry; apply Nat.eqb_neq; auto). ring.
Qed.

Lemma tri_surj m n (y : nat -> R) :
  lower_tri m n -> diag_ne0 m n ->
  exists x, forall i, (i < n)%nat -> ssum n (fun k => m i k * x k) = y i.
Proof.
  intros HL HD. exists (fun k => ssum n (fun j => tri_inv_col m j (S k) k * y j)).
  intros i Hi.
  rewrite (ssum_ext n _ (fun k => ssum n (fun j => m i k * tri_inv_col m j (S k) k * y j))).
  2:{ intros k Hk. rewrite <- ssum_mul_l. apply ssum_ext. intros; ring. }
  rewrite ssum_swap.
  rewrite (ssum_ext n _ (fun l => (if Nat.eqb i l then 1 else 0) * y l)).
  2:{ intros l Hl. rewrite ssum_mul_r. f_equal. apply tri_inv_row; assumption. }
  rewrite (ssum_single n i).
  - rewrite Nat.eqb_refl. ring.
  - assumption.
  - intros k Hk Hne. replace (Nat.eqb i k) with false by (symmetry; apply Nat.eqb_neq; auto). ring.
Qed.

(** A zero on the diagonal with non zero diagonal below it gives a kernel vector. *)
Lemma tri_kernel m n k :
  lower_tri m n -> (k < n)%nat -> m k k = 0 ->
  (forall i, (k < i < n)%nat -> m i i <> 0) ->
  exists x, x k = 1 /\ forall i, (i < n)%nat -> ssum n (fun l => m i l * x l) = 0.
Proof.
  intros HL Hk H0 HD.
  assert (Hx : forall p, (k < p <= n)%nat ->
            exists x, x k = 1 /\ (forall i, (i < p)%nat -> ssum i (fun l => m i l * x l) + m i i * x i = 0)).
  { induction p as [|p IH]; intros Hp; [lia|].
    destruct (Nat.eq_dec p k) as [->|Hne].
    - exists (fun i => if Nat.eqb i k then 1 else 0). rewrite Nat.eqb_refl. split; [reflexivity|].
      intros i Hi. rewrite ssum_0.
      + destruct (Nat.eqb_spec i k) as [->|Hik]; [rewrite H0; ring|ring].
      + intros l Hl. replace (Nat.eqb l k) with false by (symmetry; apply Nat.eqb_neq; lia). ring.
    - destruct IH as (x & Hxk & Hxr); [lia|].
      exists (fun i => if Nat.eqb i p then - ssum p (fun l => m p l * x l) / m p p else x i).
      split.
      + replace (Nat.eqb k p) with false by (symmetry; apply Nat.eqb_neq; lia). exact Hxk.
      + intros i Hi. rewrite (ssum_ext i _ (fun l => m i l * x l)).
        2:{ intros l Hl. replace (Nat.eqb l p) with false by (symmetry; apply Nat.eqb_neq; lia). reflexivity. }
        destruct (Nat.eqb_spec i p) as [->|Hip].
        * field. apply HD; lia.
        * apply Hxr; lia. }
  destruct (Hx n) as (x & Hxk & Hxr); [lia|].
  exists x. split; [exact Hxk|]. intros i Hi. rewrite tri_row by assumption. apply Hxr; assumption.
Qed.

Lemma lower_is_tri N f r : lower_tri (mget (lower (K:=R) N f r)) N.
Proof.
  intros i j Hi Hij. cbn [lower mget].
  replace (Nat.eqb j 0) with false by (symmetry; apply Nat.eqb_neq; lia).
  replace (Nat.leb j i) with false by (symmetry; apply Nat.leb_gt; lia). reflexivity.
Qed.

Lemma lower_diag N f r i :
  mget (lower (K:=R) N f r) i i = if Nat.eqb i 0 then f i else r i i.
Proof. cbn [lower mget]. rewrite Nat.leb_refl. reflexivity. Qed.
