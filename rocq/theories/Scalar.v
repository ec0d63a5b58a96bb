(** Scalars.

    The C++ classes are templates over [Scalar] (float or double).  The model is
    written once over the record below and instantiated
    - with Coq's reals [R] for the theorems ([RScalar]),
    - with exact rationals [Q] for execution by [vm_compute] ([QScalar]),
    - with rounded reals for the theorems on rounding ([FlScalar] in RoundModel.v).

    Simplification (stated in DESIGN.md): everywhere else arithmetic is exact.  Overflow,
    infinities and NaN are not modelled. *)

From Coq Require Import Reals QArith Qround ZArith Bool Lra Lia.

Class Scalar (K : Type) : Type := {
  s0 : K;
  s1 : K;
  sadd : K -> K -> K;
  ssub : K -> K -> K;
  smul : K -> K -> K;
  sdiv : K -> K -> K;
  sopp : K -> K;
  sltb : K -> K -> bool;      (* a < b *)
  sleb : K -> K -> bool;      (* a <= b *)
  seqb : K -> K -> bool;      (* a == b *)
  sofZ : Z -> K;              (* static_cast<Scalar>(int) *)
  sfloor : K -> Z             (* greatest integer below; see [strunc] *)
}.

Declare Scope sc_scope.
Delimit Scope sc_scope with sc.
Notation "a + b" := (sadd a b) : sc_scope.
Notation "a - b" := (ssub a b) : sc_scope.
Notation "a * b" := (smul a b) : sc_scope.
Notation "a / b" := (sdiv a b) : sc_scope.
Notation "- a" := (sopp a) : sc_scope.
Notation "a <? b" := (sltb a b) : sc_scope.
Notation "a <=? b" := (sleb a b) : sc_scope.
Notation "a =? b" := (seqb a b) : sc_scope.

Section Derived.
  Context {K : Type} {SK : Scalar K}.
  Local Open Scope sc_scope.

  (** static_cast<Scalar>(i) for a loop counter. *)
  Definition sofnat (n : nat) : K := sofZ (Z.of_nat n).
  (** 0.5f *)
  Definition shalf : K := s1 / sofZ 2.
  (** std::pow(x, 2), std::pow(x, 3) *)
  Definition spow2 (x : K) : K := x * x.
  Definition spow3 (x : K) : K := x * x * x.
  (** std::abs *)
  Definition sabs (x : K) : K := if x <? s0 then - x else x.
  (** static_cast<int>(x): truncation towards zero. *)
  Definition strunc (x : K) : Z := if x <? s0 then Z.opp (sfloor (- x)) else sfloor x.
  (** mpc-walkgen/constant.h:28  EPSILON = 0.0001 *)
  Definition EPS : K := s1 / sofZ 10000.
  (** mpc-walkgen/constant.h:31  GRAVITY_NORM = 9.81 *)
  Definition GRAVITY_NORM : K := sofZ 981 / sofZ 100.
  (** mpc-walkgen/constant.h:38  MAXIMUM_BOUND_VALUE = 10e10 *)
  Definition MAXB : K := sofZ 100000000000.
End Derived.

(** Reals *)
Definition Rltb (a b : R) : bool := if Rlt_dec a b then true else false.
Definition Rleb (a b : R) : bool := if Rle_dec a b then true else false.
Definition Reqb (a b : R) : bool := if Req_EM_T a b then true else false.

#[global] Instance RScalar : Scalar R := {
  s0 := 0%R; s1 := 1%R;
  sadd := Rplus; ssub := Rminus; smul := Rmult; sdiv := Rdiv; sopp := Ropp;
  sltb := Rltb; sleb := Rleb; seqb := Reqb;
  sofZ := IZR; sfloor := Int_part
}.

(** Rationals, reduced after each operation so that evaluation stays small. *)
#[global] Instance QScalar : Scalar Q | 10 := {
  s0 := 0%Q; s1 := 1%Q;
  sadd a b := Qred (a + b)%Q; ssub a b := Qred (a - b)%Q; smul a b := Qred (a * b)%Q;
  sdiv a b := Qred (a / b)%Q; sopp a := Qred (- a)%Q;
  sltb a b := negb (Qle_bool b a); sleb a b := Qle_bool a b; seqb a b := Qeq_bool a b;
  sofZ z := inject_Z z; sfloor := Qfloor
}.

(** Turn scalar operations at the real instance into ordinary real arithmetic. *)
Ltac rsimpl_goal :=
  cbv beta delta [shalf spow2 spow3 EPS GRAVITY_NORM MAXB];
  change (@sadd R RScalar) with Rplus; change (@ssub R RScalar) with Rminus;
  change (@smul R RScalar) with Rmult; change (@sdiv R RScalar) with Rdiv;
  change (@sopp R RScalar) with Ropp; change (@s0 R RScalar) with 0%R;
  change (@s1 R RScalar) with 1%R; change (@sofZ R RScalar) with IZR;
  change (@sltb R RScalar) with Rltb; change (@sleb R RScalar) with Rleb;
  change (@seqb R RScalar) with Reqb; change (@sfloor R RScalar) with Int_part.
Ltac rsimpl :=
  cbv beta delta [shalf spow2 spow3 EPS GRAVITY_NORM MAXB] in *;
  change (@sadd R RScalar) with Rplus in *; change (@ssub R RScalar) with Rminus in *;
  change (@smul R RScalar) with Rmult in *; change (@sdiv R RScalar) with Rdiv in *;
  change (@sopp R RScalar) with Ropp in *; change (@s0 R RScalar) with 0%R in *;
  change (@s1 R RScalar) with 1%R in *; change (@sofZ R RScalar) with IZR in *;
  change (@sltb R RScalar) with Rltb in *; change (@sleb R RScalar) with Rleb in *;
  change (@seqb R RScalar) with Reqb in *; change (@sfloor R RScalar) with Int_part in *.

Lemma Rltb_spec a b : reflect (a < b)%R (Rltb a b).
Proof. unfold Rltb; destruct (Rlt_dec a b); constructor; assumption. Qed.
Lemma Rleb_spec a b : reflect (a <= b)%R (Rleb a b).
Proof. unfold Rleb; destruct (Rle_dec a b); constructor; assumption. Qed.
Lemma Reqb_spec a b : reflect (a = b)%R (Reqb a b).
Proof. unfold Reqb; destruct (Req_EM_T a b); constructor; assumption. Qed.

Lemma Rltb_true a b : Rltb a b = true <-> (a < b)%R.
Proof. destruct (Rltb_spec a b); split; intro H; try discriminate; auto; contradiction. Qed.
Lemma Rltb_false a b : Rltb a b = false <-> (b <= a)%R.
Proof. destruct (Rltb_spec a b); split; intro H; try discriminate; auto; lra. Qed.
Lemma Rleb_true a b : Rleb a b = true <-> (a <= b)%R.
Proof. destruct (Rleb_spec a b); split; intro H; try discriminate; auto; contradiction. Qed.
Lemma Rleb_false a b : Rleb a b = false <-> (b < a)%R.
Proof. destruct (Rleb_spec a b); split; intro H; try discriminate; auto; lra. Qed.
Lemma Reqb_true a b : Reqb a b = true <-> a = b.
Proof. destruct (Reqb_spec a b); split; intro H; try discriminate; auto; contradiction. Qed.
Lemma Reqb_false a b : Reqb a b = false <-> a <> b.
Proof. destruct (Reqb_spec a b); split; intro H; try discriminate; auto; contradiction. Qed.

Lemma sofnat_INR n : sofnat (K:=R) n = INR n.
Proof. unfold sofnat; simpl; symmetry; apply INR_IZR_INZ. Qed.

Lemma sabs_Rabs x : sabs (K:=R) x = Rabs x.
Proof.
  unfold sabs; rsimpl. destruct (Rltb_spec x 0).
  - rewrite Rabs_left; auto.
  - rewrite Rabs_right; auto; lra.
Qed.
