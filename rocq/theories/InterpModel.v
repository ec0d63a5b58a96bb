(** Model of src/interpolator.cpp and of the trajectory interpolation of
    src/model/humanoid_foot_model.cpp. *)

From Coq Require Import List ZArith Arith Bool.
From Verif Require Import Scalar LinAlg ToolsModel.
Import ListNotations.

Section Interp.
  Context {K : Type} {SK : Scalar K}.
  Local Open Scope sc_scope.

  (** Helper of the model (no counterpart in the code): a decimal fraction of interpolator.cpp:7-25 as an
      exact quotient. *)
  Definition frac (n d : Z) : K := sofZ n / sofZ d.

  (** src/interpolator.cpp:14-24 aInvNorm_.  The decimal fractions are taken as exact. *)
  Definition aInvNorm : list (list K) :=
    [ [frac 9 2;      frac 3 2;   frac 1 6;       frac 9 2;     frac 0 1;     frac (-1) 12; frac 9 2;     frac (-3) 2; frac 1 6];
      [frac (-9) 1;   frac (-3) 2; frac 5 12;     frac (-9) 1;  frac 3 2;     frac 5 12;    frac (-9) 1;  frac 9 2;    frac (-7) 12];
      [frac 27 2;     frac 3 1;   frac (-3) 4;    frac 27 2;    frac (-3) 2;  frac (-1) 2;  frac 27 2;    frac (-6) 1; frac 3 4];
      [frac (-9) 2;   frac (-2) 1; frac 5 12;     frac (-9) 2;  frac 1 2;     frac 1 6;     frac (-9) 2;  frac 2 1;    frac (-1) 4];
      [frac (-1) 2;   frac 4 9;   frac (-7) 108;  frac 1 2;     frac (-1) 18; frac (-1) 54; frac 1 2;     frac (-2) 9; frac 1 36];
      [frac 9 2;      frac 0 1;   frac (-1) 12;   frac 9 2;     frac (-3) 2;  frac 1 6;     frac 9 2;     frac (-3) 1; frac 11 12];
      [frac (-27) 2;  frac 0 1;   frac 1 4;       frac (-27) 2; frac 9 2;     frac (-1) 2;  frac (-27) 2; frac 9 1;    frac (-9) 4];
      [frac 27 2;     frac 0 1;   frac (-1) 4;    frac 27 2;    frac (-9) 2;  frac 1 2;     frac 27 2;    frac (-8) 1; frac 7 4];
      [frac (-9) 2;   frac 0 1;   frac 1 12;      frac (-9) 2;  frac 3 2;     frac (-1) 6;  frac (-7) 2;  frac 2 1;    frac (-5) 12] ].

  (** One entry of the product aInvNorm_*b_ (interpolator.cpp:51). *)
  Definition ldot (a b : list K) : K :=
    fold_left (fun s p => s + fst p * snd p) (combine a b) s0.

  (** interpolator.cpp:30-55: the 12 entries of the output vector, in three groups of four,
      factor.segment<4>(0), (4) and (8). *)
  Record factors : Type := MkFac { f_a : vec4 K; f_b : vec4 K; f_c : vec4 K }.

  (** src/interpolator.cpp:40-49, the vector b_ *)
  Definition rhs (i f : st3 K) (T : K) : list K :=
    [ - (T * T * acc i) / sofZ 18 - T * vel i / sofZ 3 - pos i;
      - (T * T * acc i) / sofZ 3 - T * vel i;
      - (T * T * acc i);
      s0; s0; s0;
      pos f; T * vel f; T * T * acc f ].

  (** src/interpolator.cpp:30-55 computePolynomialNormalisedFactors *)
  Definition computeFactors (i f : st3 K) (T : K) : factors :=
    let b := rhs i f T in
    let abc k := ldot (nth k aInvNorm []) b in
    MkFac (V4 (abc 0%nat) (T * T * acc i / sofZ 2) (T * vel i) (pos i))
          (V4 (abc 1%nat) (abc 2%nat) (abc 3%nat) (abc 4%nat))
          (V4 (abc 5%nat) (abc 6%nat) (abc 7%nat) (abc 8%nat)).

  (** src/interpolator.cpp:57-75 selectFactors *)
  Definition selectFactors (fa : factors) (t T : K) : vec4 K :=
    if t <=? T / sofZ 3 then f_a fa
    else if t <=? sofZ 2 * T / sofZ 3 then f_b fa
    else f_c fa.

  (** src/model/humanoid_foot_model.cpp:142-161 interpolateTrajectory.  With T = 0 the code
      divides by zero: [Nan]. *)
  Definition interp_raw (cur obj : st3 K) (T t : K) : st3 K :=
    let sub := selectFactors (computeFactors cur obj T) t T in
    St3 (polynomValue sub (t / T)) (dPolynomValue sub (t / T) / T)
        (ddPolynomValue sub (t / T) / (T * T)).
  (** humanoid_foot_model.cpp:142-161; with T = 0 the code divides by zero: [Nan]. *)
  Definition interpolateTrajectory (cur obj : st3 K) (T t : K) : res (st3 K) :=
    do _ <- nanguard (negb (T =? s0));
    Ok (interp_raw cur obj T t).
End Interp.
Arguments factors : clear implicits.
