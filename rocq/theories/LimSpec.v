(** Specification side for the limits along a run: the motion between two calls of solve, and runs in which only
    the references, the weights, the configuration or the number of samples are changed. *)

From Coq Require Import Reals List ZArith Arith Bool.
From Verif Require Import Scalar LinAlg ToolsModel NoDynModel PolygonModel QPModel QPFacts TrajModel LipModel BaseModel ZebModel HullFacts HumAlg ZebAlg ZebSpec.
Import ListNotations.
Local Open Scope R_scope.

(** Where a body that is in state x is d seconds later, under the constant jerk j *)
Definition carried (j d : R) (x : st3 R) : st3 R :=
  St3 (pos x + vel x * d + acc x * d ^ 2 / 2 + j * d ^ 3 / 6) (vel x + acc x * d + j * d ^ 2 / 2) (acc x + j * d).
(** The acceleration is within its limit; the velocity is, but for a margin [e]. *)
Definition in_limits (velLimit accLimit e : R) (x : st3 R) : Prop := Rabs (acc x) <= accLimit /\ Rabs (vel x) <= velLimit + e.

(** The solver finds a point that respects the constraints of the problem it is given. *)
Definition answers (o : oracle R) (problem : res (qpmats R)) : Prop :=
  forall q it, problem = Ok q -> qfeasible q (fst (o q it)).

(** Calls that a user of the trajectory generator makes while it runs with a feedback period f *)
Definition running_call (f : R) (c : tcall R) (t : traj R) : Prop :=
  match c with
  | TSolve o f' => f' = f /\ tmc t = true /\ answers o (t_problem t)
  | TSetVelRef _ | TSetPosRef _ | TSetWeightings _ | TSetConfig _ | TSetNbSamples _ => True
  | _ => False
  end.
Fixpoint running (f : R) (cs : list (tcall R)) (t : traj R) : Prop :=
  match cs with [] => True | c :: r => running_call f c t /\ forall t', tstep c t = Ok t' -> running f r t' end.

(** The same for Zebulon; the limits are those of its base. *)
Definition zrunning_call (f : R) (c : zcall R) (z : zeb R) : Prop :=
  match c with
  | ZSolve o f' => f' = f /\ zcBase (zc z) = true /\ answers o (z_problem z)
  | ZSetVelLimit _ | ZSetAccLimit _ | ZSetJerkLimit _ | ZSetBaseStateX _ | ZSetBaseStateY _ | ZSetSamplingPeriod _ => False
  | _ => True
  end.
Fixpoint zrunning (f : R) (cs : list (zcall R)) (z : zeb R) : Prop :=
  match cs with [] => True | c :: r => zrunning_call f c z /\ forall z', zstep c z = Ok z' -> zrunning f r z' end.
