(** What it means that the humanoid walk generator in rounded arithmetic follows the one in exact arithmetic (C66).  No proofs. *)

From Coq Require Import Reals List ZArith Arith Bool.
From Verif Require Import Scalar LinAlg PolygonModel FootModel SupModel QPModel HumModel RoundModel.
Import ListNotations.
Local Open Scope R_scope.

(** A new generator, for [N] samples of period [T], with the step period and the length of the initial double support, then the calls [cs]. *)
Definition generator {K} {SK : Scalar K} {TK : Trig K} (N : nat) (T step L : K) (cs : list (hcall K)) : res (hum K) :=
  do h <- newHum;
  hsteps (HSetNbSamples N :: HSetSamplingPeriod T :: HSetStepPeriod step :: HSetDSLength L :: cs) h.

(** The same call on two generators.  The numbers may be different, and so may the solvers, with two exceptions: the answer to "is the robot
    walking", and the feedback period, which is [fb] and its rounding. *)
Definition same_call {rnd} (fb : R) (c : hcall (fl rnd)) (c' : hcall R) : Prop :=
  match c, c' with
  | HSetKin d p, HSetKin d' p' => d = d' /\ (pverts p = [] <-> pverts p' = [])
  | HSetCop d _, HSetCop d' _ => d = d'
  | HSetMaxHeight d _, HSetMaxHeight d' _ => d = d'
  | HSetVelRef _, HSetVelRef _ => True
  | HSetFootX d _, HSetFootX d' _ | HSetFootY d _, HSetFootY d' _ | HSetFootZ d _, HSetFootZ d' _ => d = d'
  | HSetComX _, HSetComX _ | HSetComY _, HSetComY _ | HSetComZ _, HSetComZ _ => True
  | HSetWeightings _, HSetWeightings _ => True
  | HSetConfig a b, HSetConfig a' b' => a = a' /\ b = b'
  | HSetMove b, HSetMove b' => b = b'
  | HSolve _ x, HSolve _ y => val x = rnd fb /\ y = fb
  | _, _ => False
  end.
