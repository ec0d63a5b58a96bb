(** What it means that a walk in rounded arithmetic follows the walk in exact arithmetic (C66).  No proofs. *)

From Coq Require Import Reals List ZArith Arith Bool.
From Verif Require Import Scalar LinAlg PolygonModel FootModel SupModel RoundModel.
Import ListNotations.
Local Open Scope R_scope.

(** Two runs end in the same way, and when both return a value the two values are related by [P]. *)
Definition rres {A B} (P : A -> B -> Prop) (r : res A) (q : res B) : Prop :=
  match r, q with
  | Ok a, Ok b => P a b
  | Abort, Abort | UB, UB | Nan, Nan | OutOfFuel, OutOfFuel => True
  | _, _ => False
  end.

(** What happens to the feet supervisor during a walk: the settings of the feet may change, and each solve of the generator calls
    updateTimeline with the last decision [v], then updateFeetStates with the steps [w] of the new one. *)
Inductive event (K : Type) : Type :=
| EMove (b : bool)
| EKin (f : side) (p : polygon K) | ECop (f : side) (p : polygon K) | EHeight (f : side) (h : K)
| EFootX (f : side) (v : vec K) | EFootY (f : side) (v : vec K) | EFootZ (f : side) (v : vec K)
| ESolve (v w : vec K).
Arguments EMove {K} b. Arguments EKin {K} f p. Arguments ECop {K} f p. Arguments EHeight {K} f h.
Arguments EFootX {K} f v. Arguments EFootY {K} f v. Arguments EFootZ {K} f v. Arguments ESolve {K} v w.

Section Walk.
  Context {K : Type} {SK : Scalar K}.
  (** The calls of an event, with feedback period [fb]. *)
  Definition event_calls (fb : K) (e : event K) : list (scall K) :=
    match e with
    | EMove b => [SSetMove b]
    | EKin f p => [SSetKin f p] | ECop f p => [SSetCop f p] | EHeight f h => [SSetMaxHeight f h]
    | EFootX f v => [SSetFootX f v] | EFootY f v => [SSetFootY f v] | EFootZ f v => [SSetFootZ f v]
    | ESolve v w => [SUpdateTimeline v fb; SUpdateFeet w fb]
    end.
  (** A supervisor for [N] samples of period [T], then the two periods, then the events. *)
  Definition walk (N : nat) (T fb step L : K) (es : list (event K)) : res (sup K) :=
    do s <- newSup N T;
    ssteps (SSetStepPeriod step :: SSetDSLength L :: flat_map (event_calls fb) es) s.
End Walk.

(** Two events of the same shape: the same call on the same foot, vectors of the same size, kinematic polygons that are both empty or
    both not.  The numbers themselves may be different. *)
Definition same_shape {K K'} (e : event K) (e' : event K') : Prop :=
  match e, e' with
  | EMove b, EMove b' => b = b'
  | EKin f p, EKin f' p' => f = f' /\ (pverts p = [] <-> pverts p' = [])
  | ECop f _, ECop f' _ => f = f'
  | EHeight f _, EHeight f' _ => f = f'
  | EFootX f v, EFootX f' v' | EFootY f v, EFootY f' v' | EFootZ f v, EFootZ f' v' => f = f' /\ vlen v = vlen v'
  | ESolve v w, ESolve v' w' => vlen v = vlen v' /\ vlen w = vlen w'
  | _, _ => False
  end.

(** The same plan: the same sequence of support phases, the same number of planned steps, the same assignment of the samples to the
    steps and to the phases; and the times before the end of the current phase differ by less than the tolerance of the comparisons. *)
Definition same_plan {rnd} (s : sup (fl rnd)) (r : sup R) : Prop :=
  map phType (cbl (stl s)) = map phType (cbl (stl r)) /\ snb s = snb r
  /\ selV (ssel s) = selV (ssel r) /\ selV0 (ssel s) = selV0 (ssel r) /\ selIdx (ssel s) = selIdx (ssel r)
  /\ vlen (sstepVec s) = vlen (sstepVec r) /\ Rabs (val (sttnp s) - sttnp r) < 1/10000.

(** The standard model of rounding: a relative error [u] or, near zero, an absolute error [eta]; small integers and 1/2 are exact. *)
Definition rounding (rnd : R -> R) (u eta : R) : Prop :=
  (forall x, Rabs (rnd x - x) <= u * Rabs x + eta) /\ 0 <= u /\ 0 <= eta
  /\ (forall z, (Z.abs z <= 16384)%Z -> rnd (IZR z) = IZR z) /\ rnd (1/2) = 1/2.

(** The settings: the sampling period, the step period and the initial double support are [a], [j] and [l] feedback periods [fb], and no
    phase is longer than [m] feedback periods. *)
Definition settings (N : nat) (a j l m : Z) (fb : R) : Prop :=
  (0 < N)%nat /\ (Z.of_nat N <= 16384)%Z /\ (1 <= a)%Z /\ (1 <= j <= m)%Z /\ (1 <= l <= m)%Z /\ (2 * a <= m)%Z /\ 4/10000 <= fb.
(** The longest time that appears in the computation: the horizon, a phase, two periods and a margin. *)
Definition longest (N : nat) (a m : Z) (fb : R) : R := IZR (Z.of_nat N * a + m + a + 1) * fb + 1/1000.
(** The rounding error of one operation on times. *)
Definition one_error (u eta B : R) : R := u * B + eta * (1 + B).
(** The errors of one phase and one horizon add up to less than the tolerance of the comparisons. *)
Definition fine_enough (u eta : R) (N : nat) (a m : Z) (fb : R) : Prop :=
  one_error u eta (longest N a m fb) * IZR (Z.of_nat N + 3 * a + 60 + 2 * m + 2 * Z.max m (Z.of_nat N * a)) < 1/10000.

(** A walk with the decisions of the quadratic program in the loop: before each solve the data of the feet may change, [st_qp] turns the
    starting guess of the solve into its solution. *)
Record stride (K : Type) : Type := MkStride { st_events : list (event K); st_move : bool; st_qp : vec K -> vec K }.
Arguments MkStride {K}. Arguments st_events {K}. Arguments st_move {K}. Arguments st_qp {K}.
Section Rides.
  Context {K : Type} {SK : Scalar K}.
  Definition ride (fb : K) (x : stride K) (q : sup K * vec K) : res (sup K * vec K) :=
    do s0 <- ssteps (flat_map (event_calls fb) (st_events x)) (fst q);
    do q1 <- s_updateTimeline (snd q) fb (s_setMove (st_move x) s0);
    let '(s1, v1) := q1 in
    let v2 := st_qp x v1 in
    do s2 <- s_updateFeetStates (vseg v2 (2 * sN s1) (2 * snb s1)) fb s1;
    Ok (s2, v2).
  Fixpoint rides (fb : K) (l : list (stride K)) (q : sup K * vec K) : res (sup K * vec K) :=
    match l with [] => Ok q | x :: r => do q' <- ride fb x q; rides fb r q' end.
  (** Data of the feet of the right shape, and a solution of the same size as the guess. *)
  Definition proper (e : event K) : Prop :=
    match e with
    | EKin _ p => pverts p <> []
    | ECop _ _ | EHeight _ _ => True
    | EFootX _ v | EFootY _ v | EFootZ _ v => vlen v = 3%nat
    | EMove _ | ESolve _ _ => False
    end.
  Definition proper_stride (x : stride K) : Prop := Forall proper (st_events x) /\ forall w, vlen (st_qp x w) = vlen w.
End Rides.
