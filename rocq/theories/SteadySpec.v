(** Vocabulary of property C76: a trajectory generator whose robot already moves the way its references ask for. *)

From Coq Require Import Reals List ZArith Arith Bool.
From Verif Require Import Scalar LinAlg ToolsModel NoDynModel QPModel TrajModel PropTraj.
Import ListNotations.
Local Open Scope R_scope.

(** The robot moves at velocity [v] without acceleration, and the references that have a positive weight are those of that motion: velocity [v], and at sample
    number i + 1 the position reached after i + 1 sampling periods. *)
Definition on_course (t : traj R) (v : R) : Prop :=
  vel (t_getState t) = v /\ acc (t_getState t) = 0
  /\ (0 < wVel (tw t) -> forall i, (i < nN (tmod t))%nat -> vget (tvelRef t) i = v)
  /\ (0 < wPos (tw t) -> forall i, (i < nN (tmod t))%nat -> vget (tposRef t) i = pos (t_getState t) + v * (INR (S i) * nT (tmod t))).
(** That motion is allowed: within the limits when they are used, and otherwise at most 1e11 from the plan stored (the solver moves no jerk by more than that). *)
Definition course_allowed (t : traj R) (v : R) : Prop :=
  if tmc t then Rabs v <= nvelLim (tmod t) /\ 0 <= naccLim (tmod t) /\ 0 <= njerkLim (tmod t)
  else forall i, (i < nN (tmod t))%nat -> Rabs (vget (tX t) i) <= 100000000000.
(** Every solve of a history of calls is done by a solver that is exact on the problem it is given. *)
Fixpoint exact_calls (cs : list (tcall R)) (t : traj R) : Prop :=
  match cs with
  | [] => True
  | c :: cs => match c with TSolve o _ => exact_solver o t | _ => True end /\ forall t', tstep c t = Ok t' -> exact_calls cs t'
  end.
(** Solves only, with their feedback periods *)
Definition only_solves (l : list (oracle R * R)) : list (tcall R) := map (fun s => TSolve (fst s) (snd s)) l.
(** Before each solve, the position reference of the course that was at [p] at time 0, seen from time [d] *)
Fixpoint renewed_solves (N : nat) (T p v d : R) (l : list (oracle R * R)) : list (tcall R) :=
  match l with
  | [] => []
  | (o, f) :: l => TSetPosRef (MkVec N (fun i => p + v * (d + INR (S i) * T))) :: TSolve o f :: renewed_solves N T p v (d + f) l
  end.
Definition elapsed (l : list (oracle R * R)) : R := fold_right (fun s d => snd s + d) 0 l.
