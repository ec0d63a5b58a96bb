(** Facts about sums, vectors and matrices over the reals. *)

From Coq Require Import Reals Lra Lia List Arith Bool FunctionalExtensionality.
From Verif Require Import Scalar LinAlg.
Local Open Scope R_scope.

Lemma ssum_S n (f : nat -> R) : ssum (S n) f = ssum n f + f n.
Proof. reflexivity. Qed.

Lemma ssum_ext n (f g : nat -> R) : (forall i, (i < n)%nat -> f i = g i) -> ssum n f = ssum n g.
Proof.
  induction n as [|n IH]; intros H; [reflexivity|].
  rewrite !ssum_S, IH, (H n); auto.
Qed.

Lemma ssum_0 n (f : nat -> R) : (forall i, (i < n)%nat -> f i = 0) -> ssum n f = 0.
Proof.
  induction n as [|n IH]; intros H; [reflexivity|].
  rewrite ssum_S, IH, (H n); auto. ring.
Qed.

Lemma ssum_plus n (f g : nat -> R) : ssum n (fun i => f i + g i) = ssum n f + ssum n g.
Proof. induction n as [|n IH]; [cbn; ring|]. rewrite !ssum_S, IH. ring. Qed.

Lemma ssum_minus n (f g : nat -> R) : ssum n (fun i => f i - g i) = ssum n f - ssum n g.
Proof. induction n as [|n IH]; [cbn; ring|]. rewrite !ssum_S, IH. ring. Qed.

Lemma ssum_opp n (f : nat -> R) : ssum n (fun i => - f i) = - ssum n f.
Proof. induction n as [|n IH]; [cbn; ring|]. rewrite !ssum_S, IH. ring. Qed.

Lemma ssum_mul_l n (c : R) (f : nat -> R) : ssum n (fun i => c * f i) = c * ssum n f.
Proof. induction n as [|n IH]; [cbn; ring|]. rewrite !ssum_S, IH. ring. Qed.

Lemma ssum_mul_r n (c : R) (f : nat -> R) : ssum n (fun i => f i * c) = ssum n f * c.
Proof. induction n as [|n IH]; [cbn; ring|]. rewrite !ssum_S, IH. ring. Qed.

Lemma ssum_head n (f : nat -> R) : ssum (S n) f = f 0%nat + ssum n (fun i => f (S i)).
Proof.
  induction n as [|n IH]; [cbn; ring|].
  rewrite ssum_S, IH, ssum_S. ring.
Qed.

Lemma ssum_app n m (f : nat -> R) :
  ssum (n + m) f = ssum n f + ssum m (fun i => f (n + i)%nat).
Proof.
  induction m as [|m IH].
  - rewrite Nat.add_0_r. cbn. ring.
  - rewrite Nat.add_succ_r, !ssum_S, IH. ring.
Qed.

Lemma ssum_swap n m (f : nat -> nat -> R) :
  ssum n (fun i => ssum m (fun j => f i j)) = ssum m (fun j => ssum n (fun i => f i j)).
Proof.
  induction n as [|n IH].
  - cbn. symmetry. apply ssum_0; reflexivity.
  - rewrite ssum_S, IH, <- ssum_plus. apply ssum_ext. intros; reflexivity.
Qed.

(** Only one non-zero term. *)
Lemma ssum_single n k (f : nat -> R) :
  (k < n)%nat -> (forall i, (i < n)%nat -> i <> k -> f i = 0) -> ssum n f = f k.
Proof.
  revert k; induction n as [|n IH]; intros k Hk H; [lia|].
  rewrite ssum_S. destruct (Nat.eq_dec k n) as [->|Hne].
  - rewrite ssum_0; [ring|]. intros i Hi; apply H; lia.
  - rewrite (IH k), (H n); [ring|lia|lia|lia|]. intros i Hi Hik; apply H; lia.
Qed.

(** Drop terms that are zero past [m]. *)
Lemma ssum_trunc n m (f : nat -> R) :
  (m <= n)%nat -> (forall i, (m <= i < n)%nat -> f i = 0) -> ssum n f = ssum m f.
Proof.
  intros Hm H. replace n with (m + (n - m))%nat by lia.
  rewrite ssum_app, (ssum_0 (n - m)); [ring|].
  intros i Hi; apply H; lia.
Qed.

Lemma ssum_nonneg n (f : nat -> R) : (forall i, (i < n)%nat -> 0 <= f i) -> 0 <= ssum n f.
Proof.
  induction n as [|n IH]; intros H; [cbn; lra|].
  rewrite ssum_S. assert (0 <= ssum n f) by (apply IH; auto). assert (0 <= f n) by (apply H; lia). lra.
Qed.

Lemma ssum_pos n (f : nat -> R) k :
  (forall i, (i < n)%nat -> 0 <= f i) -> (k < n)%nat -> 0 < f k -> 0 < ssum n f.
Proof.
  revert k; induction n as [|n IH]; intros k H Hk Hf; [lia|].
  rewrite ssum_S. destruct (Nat.eq_dec k n) as [->|Hne].
  - assert (0 <= ssum n f) by (apply ssum_nonneg; intros; apply H; lia). lra.
  - assert (0 < ssum n f) by (apply (IH k); [intros; apply H; lia|lia|exact Hf]).
    assert (0 <= f n) by (apply H; lia). lra.
Qed.

Lemma ssum_le n (f g : nat -> R) :
  (forall i, (i < n)%nat -> f i <= g i) -> ssum n f <= ssum n g.
Proof.
  induction n as [|n IH]; intros H; [cbn; lra|].
  rewrite !ssum_S. assert (ssum n f <= ssum n g) by (apply IH; auto).
  assert (f n <= g n) by (apply H; lia). lra.
Qed.

Lemma ssum_const n (c : R) : ssum n (fun _ => c) = INR n * c.
Proof. induction n as [|n IH]; [cbn; ring|]. rewrite ssum_S, IH, S_INR. ring. Qed.

(** (A^T A) as used for Hessians: x . (A^T A y) = (A x).(A y). *)
Lemma ssum_mul_mul n m (f : nat -> R) (g : nat -> R) :
  ssum n f * ssum m g = ssum n (fun i => ssum m (fun j => f i * g j)).
Proof.
  rewrite <- ssum_mul_r. apply ssum_ext; intros i Hi. rewrite ssum_mul_l. reflexivity.
Qed.

Lemma guard_ok b A (k : res A) a : (do _ <- guard b; k) = Ok a <-> b = true /\ k = Ok a.
Proof. destruct b; cbn; split; intros H; [split; auto|tauto|discriminate|destruct H; discriminate]. Qed.

Lemma ubguard_ok b A (k : res A) a : (do _ <- ubguard b; k) = Ok a <-> b = true /\ k = Ok a.
Proof. destruct b; cbn; split; intros H; [split; auto|tauto|discriminate|destruct H; discriminate]. Qed.

Lemma bind_ok A B (r : res A) (f : A -> res B) b :
  bind r f = Ok b <-> exists a, r = Ok a /\ f a = Ok b.
Proof.
  destruct r; cbn; split; intros H;
    try discriminate; try (destruct H as (x & H1 & H2); discriminate).
  - eauto.
  - destruct H as (x & H1 & H2); congruence.
Qed.
