(** Sums, blocks and weighted least squares, for the objectives of the humanoid walk generator. *)

From Coq Require Import Reals List ZArith Lra Lia Arith Bool.
From Verif Require Import Scalar LinAlg LinAlgFacts QPModel QPFacts HumModel.
Import ListNotations.
Local Open Scope R_scope.

(** ** Weighted least squares *)
Lemma quad_wlsq r n (w : nat -> R) (u : nat -> nat -> R) (X d c : nat -> R) :
  quad n (fun j k => ssum r (fun i => w i * (u i j * u i k)))
         (fun j => ssum r (fun i => w i * (u i j * (ssum n (fun k => u i k * X k) + c i)))) d
  = / 2 * ssum r (fun i => w i * (ssum n (fun k => u i k * (X k + d k)) + c i) ^ 2)
    - / 2 * ssum r (fun i => w i * (ssum n (fun k => u i k * X k) + c i) ^ 2).
Proof.
  induction r as [|r IH].
  - cbn [ssum]. rewrite quad_zero. rsimpl. ring.
  - pose proof (quad_lsq 1 n (fun _ => u r) X d (fun _ => c r)) as E.
    rewrite (quad_ext n _ (fun j k => ssum r (fun i => w i * (u i j * u i k)) + w r * ssum 1 (fun i => u r j * u r k))
               _ (fun j => ssum r (fun i => w i * (u i j * (ssum n (fun k => u i k * X k) + c i)))
                           + w r * ssum 1 (fun i => u r j * (ssum n (fun k => u r k * X k) + c r))) d d).
    + rewrite quad_add, IH, E, !ssum_S. cbn [ssum]. rsimpl. ring.
    + intros i j _ _. rewrite !ssum_S. cbn [ssum]. rsimpl. ring.
    + intros i _. rewrite !ssum_S. cbn [ssum]. rsimpl. ring.
    + reflexivity.
Qed.
Lemma wlsq_grad r n (w : nat -> R) (u : nat -> nat -> R) (X c : nat -> R) j :
  ssum r (fun i => w i * (u i j * c i)) + ssum n (fun k => ssum r (fun i => w i * (u i j * u i k)) * X k)
  = ssum r (fun i => w i * (u i j * (ssum n (fun k => u i k * X k) + c i))).
Proof.
  rewrite (ssum_ext r (fun i => w i * (u i j * (ssum n (fun k => u i k * X k) + c i)))
    (fun i => w i * (u i j * c i) + ssum n (fun k => w i * (u i j * u i k) * X k))).
  2:{ intros i _. rewrite (ssum_ext n (fun k => w i * (u i j * u i k) * X k) (fun k => w i * u i j * (u i k * X k))) by (intros; ring).
      rewrite ssum_mul_l. ring. }
  rewrite ssum_plus. f_equal. rewrite ssum_swap. apply ssum_ext. intros k _. rewrite ssum_mul_r. reflexivity.
Qed.
(** t^T (A^T W A) t *)
Lemma triple N r (w : nat -> R) (A : nat -> nat -> R) (t t' : nat -> R) :
  ssum N (fun b => ssum N (fun a => t a * ssum r (fun i => w i * (A i a * A i b))) * t' b)
  = ssum r (fun i => w i * (ssum N (fun a => A i a * t a) * ssum N (fun b => A i b * t' b))).
Proof.
  rewrite (ssum_ext N _ (fun b => ssum r (fun i => w i * (ssum N (fun a => A i a * t a)) * (A i b * t' b)))).
  - rewrite ssum_swap. apply ssum_ext. intros i _. rewrite ssum_mul_l. ring.
  - intros b _. rewrite (ssum_ext N _ (fun a => ssum r (fun i => w i * A i b * (A i a * t a)))).
    + rewrite ssum_swap, <- ssum_mul_r. apply ssum_ext. intros i _. rewrite ssum_mul_l. ring.
    + intros a _. rewrite <- ssum_mul_l. apply ssum_ext. intros; ring.
Qed.
(** t^T A^T W e *)
Lemma double N r (w : nat -> R) (A : nat -> nat -> R) (t e : nat -> R) :
  ssum N (fun a => t a * ssum r (fun i => A i a * (w i * e i)))
  = ssum r (fun i => w i * (ssum N (fun a => A i a * t a) * e i)).
Proof.
  rewrite (ssum_ext N _ (fun a => ssum r (fun i => w i * e i * (A i a * t a)))).
  - rewrite ssum_swap. apply ssum_ext. intros i _. rewrite ssum_mul_l. ring.
  - intros a _. rewrite <- ssum_mul_l. apply ssum_ext. intros; ring.
Qed.

(** ** Products with diagonal matrices *)
Lemma diag_r N (W : nat -> nat -> R) (f : nat -> R) j :
  (forall a b, a <> b -> W a b = 0) -> (j < N)%nat -> ssum N (fun k => f k * W k j) = f j * W j j.
Proof. intros D Hj. rewrite (ssum_single N j); [reflexivity|assumption|]. intros k _ Hk. rewrite D by assumption. ring. Qed.
Lemma diag_l N (W : nat -> nat -> R) (f : nat -> R) j :
  (forall a b, a <> b -> W a b = 0) -> (j < N)%nat -> ssum N (fun k => W j k * f k) = W j j * f j.
Proof. intros D Hj. rewrite (ssum_single N j); [reflexivity|assumption|]. intros k _ Hk. rewrite D by auto. ring. Qed.

(** A^T W A for A = X, and for A = U X *)
Section Products.
  Variable N : nat.
  Variables X U W : mat R.
  Hypothesis HX : mrows X = N /\ mcols X = N.
  Hypothesis HU : mrows U = N /\ mcols U = N.
  Hypothesis HW : mrows W = N /\ mcols W = N.
  Hypothesis DW : forall a b, a <> b -> mget W a b = 0.

  Lemma jerk_P a b : (a < N)%nat -> (b < N)%nat ->
    mget (mmul (mmul (mtr X) W) X) a b = ssum N (fun i => mget W i i * (mget X i a * mget X i b)).
  Proof.
    destruct HX as (X1 & X2), HW as (W1 & W2). intros Ha Hb. cbn [mmul mtr mget mrows mcols]. rewrite W2, X1.
    apply ssum_ext. intros i Hi. rewrite (diag_r N (mget W) (fun k => mget X k a)) by assumption. rsimpl. ring.
  Qed.
  Definition UX (i a : nat) : R := ssum N (fun k => mget U i k * mget X k a).
  Lemma xu_T a m : ssum N (fun k => mget X k a * mget U m k) = UX m a.
  Proof. apply ssum_ext. intros; ring. Qed.
  Lemma vel_P a b : (a < N)%nat -> (b < N)%nat ->
    mget (mmul (mmul (mmul (mmul (mtr X) (mtr U)) W) U) X) a b = ssum N (fun i => mget W i i * (UX i a * UX i b)).
  Proof.
    destruct HX as (X1 & X2), HU as (U1 & U2), HW as (W1 & W2). intros Ha Hb. cbn [mmul mtr mget mrows mcols]. rewrite ?X1, ?U1, ?U2, ?W2.
    rewrite (ssum_ext N _ (fun k => ssum N (fun l => mget W l l * UX l a * (mget U l k * mget X k b)))).
    - rewrite ssum_swap. apply ssum_ext. intros i Hi. rewrite ssum_mul_l. unfold UX. ring.
    - intros k _. rewrite <- ssum_mul_r. apply ssum_ext. intros l Hl.
      rewrite (ssum_ext N _ (fun m => UX m a * mget W m l)) by (intros; f_equal; rewrite <- xu_T; reflexivity).
      rewrite (diag_r N (mget W) (fun m => UX m a)) by assumption. rsimpl. ring.
  Qed.
  (** (X^T U^T) (W e) *)
  Lemma vel_g (e : vec R) a : (a < N)%nat ->
    vget (mv (mmul (mtr X) (mtr U)) (mv W e)) a = ssum N (fun i => UX i a * (mget W i i * vget e i)).
  Proof.
    destruct HX as (X1 & X2), HU as (U1 & U2), HW as (W1 & W2). intros Ha. cbn [mmul mtr mv mget vget mrows mcols]. rewrite ?X1, ?U1, ?W2.
    apply ssum_ext. intros i Hi. rewrite (diag_l N (mget W) (vget e)) by assumption.
    rewrite <- xu_T. reflexivity.
  Qed.
  (** (X^T W X) c *)
  Lemma jerk_g (c : vec R) a : (a < N)%nat ->
    vget (mv (mmul (mmul (mtr X) W) X) c) a = ssum N (fun i => mget X i a * (mget W i i * ssum N (fun b => mget X i b * vget c b))).
  Proof.
    destruct HX as (X1 & X2), HW as (W1 & W2). intros Ha. unfold mv. cbn [vget]. cbn [mmul mcols]. rewrite X2.
    rewrite (ssum_ext N _ (fun b => ssum N (fun i => mget X i a * mget W i i * (mget X i b * vget c b)))).
    - rewrite ssum_swap. apply ssum_ext. intros i _. rewrite ssum_mul_l. ring.
    - intros b Hb. change (mget {| mrows := _; mcols := _; mget := _ |} a b) with (mget (mmul (mmul (mtr X) W) X) a b).
      rewrite jerk_P by assumption. rsimpl. rewrite <- ssum_mul_r. apply ssum_ext. intros; ring.
  Qed.
End Products.

(** ** Blocks *)
Lemma ssum_2N N (f : nat -> R) : ssum (2 * N) f = ssum N f + ssum N (fun i => f (N + i)%nat).
Proof. replace (2 * N)%nat with (N + N)%nat by lia. apply ssum_app. Qed.
Ltac bools := repeat match goal with
  | |- context [Nat.leb ?a ?b] => destruct (Nat.leb_spec a b); try lia
  | |- context [Nat.ltb ?a ?b] => destruct (Nat.ltb_spec a b); try lia
  | |- context [Nat.eqb ?a ?b] => destruct (Nat.eqb_spec a b); try lia
  end; cbn [andb orb negb].
Lemma diag2_entry N (P Q : mat R) a b : mrows P = N -> mcols P = N -> mrows Q = N -> mcols Q = N -> (a < N)%nat -> (b < N)%nat ->
  mget (diag2 N P Q) a b = mget P a b /\ mget (diag2 N P Q) a (N + b) = 0
  /\ mget (diag2 N P Q) (N + a) b = 0 /\ mget (diag2 N P Q) (N + a) (N + b) = mget Q a b.
Proof.
  intros P1 P2 Q1 Q2 Ha Hb. unfold diag2, msetblock. cbn [mget mrows mcols mzero]. rewrite P1, P2, Q1, Q2. rsimpl.
  repeat split; bools; try reflexivity.
  - rewrite !Nat.sub_0_r. reflexivity.
  - f_equal; lia.
Qed.
Lemma stack2_entry N (a b : vec R) i : vlen a = N -> vlen b = N -> (i < N)%nat ->
  vget (stack2 N a b) i = vget a i /\ vget (stack2 N a b) (N + i) = vget b i.
Proof.
  intros A B Hi. unfold stack2, vsetseg. cbn [vget vlen vzero]. rewrite A, B. split; bools; f_equal; lia.
Qed.
Lemma sandwich_entry N (t P Q : mat R) j k : mrows t = (2 * N)%nat -> mrows P = N -> mcols P = N -> mrows Q = N -> mcols Q = N ->
  mget (sandwich t (diag2 N P Q)) j k
  = ssum N (fun b => ssum N (fun a => mget t a j * mget P a b) * mget t b k)
  + ssum N (fun b => ssum N (fun a => mget t (N + a)%nat j * mget Q a b) * mget t (N + b)%nat k).
Proof.
  intros T P1 P2 Q1 Q2. unfold sandwich. cbn [mmul mtr mget mrows mcols]. rewrite T. change (mcols (diag2 N P Q)) with (2 * N)%nat.
  rewrite ssum_2N. f_equal; apply ssum_ext; intros b Hb; rewrite ssum_2N; f_equal.
  - rewrite (ssum_0 N (fun i => sadd _ _)) || rewrite (ssum_0 N (fun i => smul (mget t (N + i)%nat j) _)).
    + rewrite (ssum_ext N _ (fun a => mget t a j * mget P a b)); [rsimpl; ring|]. intros a Ha.
      destruct (diag2_entry N P Q a b) as (-> & _); auto.
    + intros a Ha. destruct (diag2_entry N P Q a b) as (_ & _ & -> & _); auto. rsimpl. ring.
  - rewrite (ssum_0 N (fun i => smul (mget t i j) _)).
    + rewrite (ssum_ext N _ (fun a => mget t (N + a)%nat j * mget Q a b)); [rsimpl; ring|]. intros a Ha.
      destruct (diag2_entry N P Q a b) as (_ & _ & _ & ->); auto.
    + intros a Ha. destruct (diag2_entry N P Q a b) as (_ & -> & _); auto. rsimpl. ring.
Qed.

(** The objective of two axes: rows A_x t_x, A_y t_y, with t_x, t_y the two halves of t. *)
Section TwoAxes.
  Variables (N n : nat) (t : mat R) (w : nat -> R) (Ax Ay : nat -> nat -> R) (P Q : mat R).
  Hypothesis Ht : mrows t = (2 * N)%nat.
  Hypothesis HP : mrows P = N /\ mcols P = N.
  Hypothesis HQ : mrows Q = N /\ mcols Q = N.
  Hypothesis EP : forall a b, (a < N)%nat -> (b < N)%nat -> mget P a b = ssum N (fun i => w i * (Ax i a * Ax i b)).
  Hypothesis EQ : forall a b, (a < N)%nat -> (b < N)%nat -> mget Q a b = ssum N (fun i => w i * (Ay i a * Ay i b)).
  Definition uX (i j : nat) : R := ssum N (fun a => Ax i a * mget t a j).
  Definition uY (i j : nat) : R := ssum N (fun a => Ay i a * mget t (N + a)%nat j).
  Lemma two_hess j k : mget (sandwich t (diag2 N P Q)) j k
    = ssum N (fun i => w i * (uX i j * uX i k)) + ssum N (fun i => w i * (uY i j * uY i k)).
  Proof.
    destruct HP as (P1 & P2), HQ as (Q1 & Q2). rewrite sandwich_entry by assumption. f_equal.
    - unfold uX. rewrite <- triple. apply ssum_ext. intros b Hb. f_equal. apply ssum_ext. intros a Ha. rewrite EP by assumption. reflexivity.
    - unfold uY. rewrite <- (triple N N w Ay (fun a => mget t (N + a)%nat j) (fun b => mget t (N + b)%nat k)).
      apply ssum_ext. intros b Hb. f_equal. apply ssum_ext. intros a Ha. rewrite EQ by assumption. reflexivity.
  Qed.
  Lemma two_quad (X d ex ey g : nat -> R) (H : nat -> nat -> R) :
    (forall j k, (j < n)%nat -> (k < n)%nat -> H j k = mget (sandwich t (diag2 N P Q)) j k) ->
    (forall j, (j < n)%nat -> g j = ssum N (fun a => mget t a j * ssum N (fun i => Ax i a * (w i * ex i)))
                                   + ssum N (fun a => mget t (N + a)%nat j * ssum N (fun i => Ay i a * (w i * ey i)))
                                   + ssum n (fun k => H j k * X k)) ->
    quad n H g d
    = / 2 * ssum N (fun i => w i * ((ssum n (fun k => uX i k * (X k + d k)) + ex i) ^ 2 + (ssum n (fun k => uY i k * (X k + d k)) + ey i) ^ 2))
    - / 2 * ssum N (fun i => w i * ((ssum n (fun k => uX i k * X k) + ex i) ^ 2 + (ssum n (fun k => uY i k * X k) + ey i) ^ 2)).
  Proof.
    intros EH Eg. pose proof (quad_wlsq N n w uX X d ex) as E1. pose proof (quad_wlsq N n w uY X d ey) as E2.
    rewrite (quad_ext n _ (fun j k => ssum N (fun i => w i * (uX i j * uX i k)) + 1 * ssum N (fun i => w i * (uY i j * uY i k)))
               _ (fun j => ssum N (fun i => w i * (uX i j * (ssum n (fun k => uX i k * X k) + ex i)))
                         + 1 * ssum N (fun i => w i * (uY i j * (ssum n (fun k => uY i k * X k) + ey i)))) d d).
    - rewrite quad_add, E1, E2.
      rewrite (ssum_ext N (fun i => w i * ((ssum n (fun k => uX i k * (X k + d k)) + ex i) ^ 2 + _)) _ (fun i _ => Rmult_plus_distr_l _ _ _)).
      rewrite (ssum_ext N (fun i => w i * ((ssum n (fun k => uX i k * X k) + ex i) ^ 2 + _)) _ (fun i _ => Rmult_plus_distr_l _ _ _)).
      rewrite !ssum_plus. ring.
    - intros i j Hi Hj. rewrite EH, two_hess by assumption. ring.
    - intros j Hj. rewrite Eg by assumption. rewrite <- !wlsq_grad, !double.
      change (fun i => w i * (ssum N (fun a => Ax i a * mget t a j) * ex i)) with (fun i => w i * (uX i j * ex i)).
      change (fun i => w i * (ssum N (fun a => Ay i a * mget t (N + a)%nat j) * ey i)) with (fun i => w i * (uY i j * ey i)).
      rewrite (ssum_ext n (fun k => H j k * X k) (fun k => ssum N (fun i => w i * (uX i j * uX i k)) * X k + ssum N (fun i => w i * (uY i j * uY i k)) * X k)).
      + rewrite ssum_plus. ring.
      + intros k Hk. rewrite EH, two_hess by assumption. ring.
    - reflexivity.
  Qed.
  (** A (t x) *)
  Lemma uX_apply x i : ssum n (fun k => uX i k * x k) = ssum N (fun a => Ax i a * ssum n (fun k => mget t a k * x k)).
  Proof.
    rewrite (ssum_ext N _ (fun a => ssum n (fun k => Ax i a * mget t a k * x k))).
    - rewrite ssum_swap. apply ssum_ext. intros k _. unfold uX. rewrite <- ssum_mul_r. reflexivity.
    - intros a _. rewrite <- ssum_mul_l. apply ssum_ext. intros; ring.
  Qed.
  Lemma uY_apply x i : ssum n (fun k => uY i k * x k) = ssum N (fun a => Ay i a * ssum n (fun k => mget t (N + a)%nat k * x k)).
  Proof.
    rewrite (ssum_ext N _ (fun a => ssum n (fun k => Ay i a * mget t (N + a)%nat k * x k))).
    - rewrite ssum_swap. apply ssum_ext. intros k _. unfold uY. rewrite <- ssum_mul_r. reflexivity.
    - intros a _. rewrite <- ssum_mul_l. apply ssum_ext. intros; ring.
  Qed.
End TwoAxes.
