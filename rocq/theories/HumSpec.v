(** Specification side for the humanoid walk generator, on what a user sees: the positions of the
    feet, the state of the centre of mass, the walking phases and the decision vector. *)

From Coq Require Import Reals List ZArith Arith Bool.
From Verif Require Import Scalar LinAlg ToolsModel ToolsSpec NoDynModel PolygonModel PolygonFacts QPModel TrajModel
  LipModel FootModel ModelsSpec SupModel SupSpec HumModel.
Import ListNotations.
Local Open Scope R_scope.

(** Everything that can be reached through the public interface.  The table of solvers, which the
    code never resets (see C40), may moreover be replaced at any time: what is proved of every
    reachable generator then also covers the histories of a program without that defect. *)
Definition h_setSolvers (t : list (nat * nat)) (h : hum R) : hum R :=
  MkHum (hsup h) (hlip h) (hvelRef h) (hcopLen h) t (hmats h) (hdX h) (hX h) (htX h)
    (hw h) (hcopC h) (hfeetC h) (hmaxC h) (hmaxS h) (hmove h) (hfirst h).
Inductive reached {TK : Trig R} : hum R -> Prop :=
| reached_new h : newHum = Ok h -> reached h
| reached_call c h h' : reached h -> hstep c h = Ok h' -> reached h'
| reached_table t h : reached h -> reached (h_setSolvers t h).

(** The decision vector X: CoP positions relative to the support foot, x then y, then the
    positions of the steps, x then y. *)
Definition dCopX (X : nat -> R) (i : nat) : R := X i.
Definition dCopY (N : nat) (X : nat -> R) (i : nat) : R := X (N + i)%nat.
Definition dStepX (N : nat) (X : nat -> R) (k : nat) : R := X (2 * N + k)%nat.
Definition dStepY (N M : nat) (X : nat -> R) (k : nat) : R := X (2 * N + M + k)%nat.

(** Where the foot on the ground is at time tau: the present support foot (at f) as long as no step
    has been made, then the last step made.  [tn] is the time before the end of the present phase. *)
Definition on_ground (tl : list (phase R)) (tn tau f : R) (st : nat -> R) (p : R) : Prop :=
  exists j, in_progress tn tl tau j /\ p = match steps_before tl j with O => f | S k => st k end.

(** Position of the foot that supports the robot now, as the supervisor tells it. *)
Definition support_is (s : sup R) (fx fy : R) : Prop :=
  exists vx vy, s_getSupportFootStateX s = Ok vx /\ s_getSupportFootStateY s = Ok vy
    /\ (0 < vlen vx)%nat /\ (0 < vlen vy)%nat /\ vget vx 0 = fx /\ vget vy 0 = fy.

(** Duration of the first interval of the preview: the calls left before the next sample. *)
Definition first_interval (h : hum R) (S : R) : Prop :=
  exists n, s_getNbOfCallsBeforeNextSample (hsup h) = Ok n /\ S = IZR n * lfb (hlip h).

(** Centres of pressure, along x and y, when the centre of mass follows the jerks J for i+1 samples. *)
Definition cop_x (l : lip R) (S : R) (J : nat -> R) (i : nat) : R :=
  cop_of (lh l) (gx (lg l)) (gz (lg l)) (lm l) (lM l) (sim S (lT l) (lsx l) J i).
Definition cop_y (l : lip R) (S : R) (J : nat -> R) (i : nat) : R :=
  cop_of (lh l) (gy (lg l)) (gz (lg l)) (lm l) (lM l) (sim S (lT l) (lsy l) J i).

(** The stored inverses of the CoP matrices used by this call are exact: nothing was dropped. *)
Definition exact_inverses (h : hum R) : Prop :=
  forall n d V, h_nb (hsup h) = Ok n ->
    (l_getCopX (hlip h) n = Ok d \/ l_getCopY (hlip h) n = Ok d) -> dUinv d = Some V ->
    is_inverse (lN (hlip h)) (dU d) V.

(** The value at (x, y) of a half plane a x + b y + c <= 0, and of its linear part. *)
Definition side_value (c : R * R * R) (x y : R) : R := fst (fst c) * x + snd (fst c) * y + snd c.
Definition slope_value (c : R * R * R) (x y : R) : R := fst (fst c) * x + snd (fst c) * y.
(** Every CoP of the decision vector Y is in the support polygon of its sample. *)
Definition cops_supported {TK : Trig R} (h : hum R) (Y : nat -> R) : Prop :=
  forall i p, (i < lN (hlip h))%nat -> s_getCopConvexPolygon i (hsup h) = Ok p ->
    satisfies p (dCopX Y i, dCopY (lN (hlip h)) Y i).
(** The foot position a step is made from: the support foot, then the steps one after the other. *)
Definition from_step (f : R) (st : nat -> R) (k : nat) : R := match k with O => f | S j => st j end.
(** Step k, relative to the foot it is made from, in the oblique sides (resp. the box) of the
    kinematic polygon of that step.  [Y0] is the decision vector in which the foot is looked up. *)
Definition step_sides (h : hum R) (fx fy : R) (Y0 Y : nat -> R) : Prop :=
  let N := lN (hlip h) in let M := snb (hsup h) in
  forall k p, (k < M)%nat -> s_getKinematicConvexPolygon k (hsup h) = Ok p ->
    Forall (fun c => side_value c (dStepX N Y k - from_step fx (dStepX N Y0) k) (dStepY N M Y k - from_step fy (dStepY N M Y0) k) <= 0) (pgen p).
Definition step_box (h : hum R) (fx fy : R) (Y0 Y : nat -> R) : Prop :=
  let N := lN (hlip h) in let M := snb (hsup h) in
  forall k p, (k < M)%nat -> s_getKinematicConvexPolygon k (hsup h) = Ok p ->
    xInf p <= dStepX N Y k - from_step fx (dStepX N Y0) k <= xSup p
    /\ yInf p <= dStepY N M Y k - from_step fy (dStepY N M Y0) k <= ySup p.
Definition steps_reachable (h : hum R) (fx fy : R) (Y : nat -> R) : Prop :=
  let N := lN (hlip h) in let M := snb (hsup h) in
  forall k p, (k < M)%nat -> s_getKinematicConvexPolygon k (hsup h) = Ok p ->
    satisfies p (dStepX N Y k - from_step fx (dStepX N Y) k, dStepY N M Y k - from_step fy (dStepY N M Y) k).
(** The change d stays within the numerical infinity 10^11 that the problem uses where it has no
    bound: in every coordinate, and in the direction of every oblique side. *)
Definition moderate {TK : Trig R} (h : hum R) (d : nat -> R) : Prop :=
  let N := lN (hlip h) in let M := snb (hsup h) in
  (forall j, (j < 2 * N + 2 * M)%nat -> Rabs (d j) <= MAXB)
  /\ (hcopC h = true -> forall i p, (i < N)%nat -> s_getCopConvexPolygon i (hsup h) = Ok p ->
        Forall (fun c => Rabs (slope_value c (dCopX d i) (dCopY N d i)) <= MAXB) (pgen p))
  /\ (hfeetC h = true -> forall k p, (k < M)%nat -> s_getKinematicConvexPolygon k (hsup h) = Ok p ->
        Forall (fun c => Rabs (slope_value c (dStepX N d k - from_step 0 (dStepX N d) k) (dStepY N M d k - from_step 0 (dStepY N M d) k)) <= MAXB) (pgen p)).
(** The decision vector after the change d *)
Definition moved (h : hum R) (d : nat -> R) (j : nat) : R := vget (hX h) j + d j.

(** The cost: squared errors of the velocity of the centre of mass that the jerks Jx, Jy give,
    squared jerks and squared CoP positions.  [w] weighs the samples; a weight that is not positive
    switches its term off. *)
Definition hum_cost (h : hum R) (S : R) (w : nat -> R) (Y Jx Jy : nat -> R) : R :=
  let N := lN (hlip h) in
  let l := hlip h in
  / 2 * (Rmax 0 (wVelT (hw h)) * ssum N (fun i => w i * ((vel (sim S (lT l) (lsx l) Jx i) - vget (hvelRef h) i) ^ 2
                                                      + (vel (sim S (lT l) (lsy l) Jy i) - vget (hvelRef h) (N + i)) ^ 2))
       + Rmax 0 (wJerkM (hw h)) * ssum N (fun i => w i * (Jx i ^ 2 + Jy i ^ 2))
       + Rmax 0 (wCopC (hw h)) * ssum N (fun i => dCopX Y i ^ 2 + dCopY N Y i ^ 2)).
(** The first sample counts for the part of a period that is left, the last one for the rest. *)
Definition sample_weight (N : nat) (S0 T : R) (i : nat) : R :=
  if Nat.eqb i (N - 1) then 105 / 100 - S0 / T else if Nat.eqb i 0 then S0 / T else 1.
(** The support polygon in a phase: that of the foot on the ground, or the hull of both. *)
Definition phase_polygon {TK : Trig R} (s : sup R) (t : ptype) (p : polygon R) : Prop :=
  match t with
  | LeftSS => p = fcop (sleft s)
  | RightSS => p = fcop (sright s)
  | DS => s_computeDSCopConvexPolygon s = Ok p
  end.
