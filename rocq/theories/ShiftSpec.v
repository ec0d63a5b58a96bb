(** Vocabulary of property C70: a generator and the same generator placed elsewhere. *)

From Coq Require Import Reals List ZArith Arith Bool.
From Verif Require Import Scalar LinAlg ToolsModel NoDynModel TrajModel PolygonModel QPModel LipModel FootModel SupModel HumModel.
Import ListNotations.
Local Open Scope R_scope.

(** A state (position, velocity, acceleration) whose position is a further on. *)
Definition carried (a : R) (s : st3 R) : st3 R := St3 (pos s + a) (vel s) (acc s).
(** The same as a vector given to a setter: its first entry is the position. *)
Definition carried_vec (a : R) (v : vec R) : vec R := MkVec (vlen v) (fun k => if Nat.eqb k 0 then vget v k + a else vget v k).
(** Two stored state vectors, the second a further on. *)
Definition moved_state (a : R) (v v' : vec R) : Prop :=
  vlen v' = vlen v /\ forall k, (k < vlen v)%nat -> vget v' k = vget v k + if Nat.eqb k 0 then a else 0.
(** Two feet that differ in where they are: the second is at (a, b) from the first. *)
Definition moved_foot (a b : R) (f f' : foot R) : Prop :=
  exists x y, f' = f_setStates f x y (fsz f) (fsyaw f) /\ moved_state a (fsx f) x /\ moved_state b (fsy f) y.
(** Two decision vectors: n entries that are relative to the feet and the same in both, then m steps
    along x and m steps along y, which are positions in the world. *)
Definition moved_steps (a b : R) (n : nat) (v v' : vec R) : Prop :=
  exists m, vlen v = (n + 2 * m)%nat /\ vlen v' = (n + 2 * m)%nat
  /\ (forall k, (k < n)%nat -> vget v' k = vget v k)
  /\ (forall k, (k < m)%nat -> vget v' (n + k)%nat = vget v (n + k)%nat + a)
  /\ (forall k, (k < m)%nat -> vget v' (n + m + k)%nat = vget v (n + m + k)%nat + b).
(** Two supervisors that differ in where the feet and the steps are... *)
Definition moved_sup (a b : R) (s s' : sup R) : Prop :=
  exists l r sv, s' = MkSup (sN s) (sT s) (sfb s) l r (snb s) (sstep s) (sDS s) (sttnp s) (smove s) sv (stl s) (ssel s)
  /\ moved_foot a b (sleft s) l /\ moved_foot a b (sright s) r /\ moved_steps a b 0 (sstepVec s) sv.
(** ... two models of the centre of mass that differ in where it is... *)
Definition moved_lip (a b : R) (l l' : lip R) : Prop := l' = l_setStates l (carried a (lsx l)) (carried b (lsy l)) (lsyaw l).
(** ... and two walk generators that differ in where the robot is: every other member is the same.  The
    member transformedX_ ([htX]), which each solve writes before it reads it, is not looked at. *)
Definition moved_hum (a b : R) (h h' : hum R) : Prop :=
  exists s l X t, h' = MkHum s l (hvelRef h) (hcopLen h) (hsolvers h) (hmats h) (hdX h) X t (hw h) (hcopC h) (hfeetC h) (hmaxC h) (hmaxS h) (hmove h) (hfirst h)
  /\ moved_sup a b (hsup h) s /\ moved_lip a b (hlip h) l /\ moved_steps a b (2 * sN (hsup h)) (hX h) X.

(** The same call for the robot at (a, b): only the calls that give positions change. *)
Definition moved_call (a b : R) (c : hcall R) : hcall R :=
  match c with
  | HSetFootX d v => HSetFootX d (carried_vec a v)
  | HSetFootY d v => HSetFootY d (carried_vec b v)
  | HSetComX v => HSetComX (carried_vec a v)
  | HSetComY v => HSetComY (carried_vec b v)
  | c => c
  end.

(** What a call must not do (see the refutations): change the number of samples when steps are planned,
    which sets them to the origin; and solve
    - when the time before the next phase is exactly a number of sampling periods plus the tolerance:
      the last sample is then attributed to no foot;
    - when a first step appears in the preview during a single support: the guess of a step is made
      from the step before it in the decision vector, and there is none. *)
Definition steps_held (h : hum R) (m : nat) : Prop := vlen (hX h) = (2 * sN (hsup h) + 2 * m)%nat.
Definition undisturbed_call {TK : Trig R} (c : hcall R) (h : hum R) : Prop :=
  match c with
  | HSetNbSamples _ => snb (hsup h) = 0%nat
  | HSolve o fb => forall h1, h_prepare fb h = Ok h1 ->
      (forall k, sttnp (hsup h1) <> INR k * sT (hsup h1) + EPS)
      /\ (s_isInDS (hsup h1) = Ok true \/ snb (hsup h1) = 0%nat
          \/ exists m, steps_held h m /\ (0 < m)%nat
               /\ (sttnp (hsup h) < EPS -> s_isInDS (hsup h) = Ok false -> (1 < m)%nat))
  | _ => True
  end.
Fixpoint undisturbed {TK : Trig R} (cs : list (hcall R)) (h : hum R) : Prop :=
  match cs with
  | [] => True
  | c :: r => undisturbed_call c h /\ forall h', hstep c h = Ok h' -> undisturbed r h'
  end.
