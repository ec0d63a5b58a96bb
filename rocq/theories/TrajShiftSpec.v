(** Vocabulary of property C75: a trajectory generator, the same one with another origin of positions, and the same one on a reversed axis. *)

From Coq Require Import Reals List ZArith Arith Bool.
From Verif Require Import Scalar LinAlg ToolsModel NoDynModel QPModel TrajModel ShiftSpec.
Import ListNotations.
Local Open Scope R_scope.

(** ** Another origin *)
(** All the positions of a reference, a further on *)
Definition carried_all (a : R) (v : vec R) : vec R := MkVec (vlen v) (fun i => vget v i + a).
(** The generator whose state and position reference are a further on.  Every other member is the same. *)
Definition t_at (a : R) (t : traj R) : traj R :=
  MkTraj (nodyn_withState (carried a (nstate (tmod t))) (tmod t)) (tjerkH t) (tvelH t) (tposH t) (tmotG t) (tvelRef t) (carried_all a (tposRef t))
    (tw t) (tmc t) (tdX t) (tX t) (tqp t) (tsolver t).
Definition t_at_call (a : R) (c : tcall R) : tcall R :=
  match c with
  | TSetPosRef r => TSetPosRef (carried_all a r)
  | TSetState s => TSetState (carried_vec a s)
  | c => c
  end.

(** ** The axis the other way round *)
Definition reversed_state (s : st3 R) : st3 R := St3 (- pos s) (- vel s) (- acc s).
(** The problem in the opposite unknowns: the gradient changes sign, and lower and upper bounds change places. *)
Definition reversed_qp (q : qpmats R) : qpmats R := MkQP (qQ q) (vopp (qp q)) (vopp (qxu q)) (vopp (qxl q)) (qA q) (vopp (qbl q)) (vopp (qbu q)).
(** The solver that answers a problem with the opposite of what [o] answers to the reversed problem *)
Definition reversed_solver (o : oracle R) : oracle R := fun q it => let (x, ok) := o (reversed_qp q) it in ((fun i => - x i), ok).
(** The generator with the opposite state, references and planned jerks.  Periods, limits and weights are the same. *)
Definition t_reversed (t : traj R) : traj R :=
  MkTraj (nodyn_withState (reversed_state (nstate (tmod t))) (tmod t)) (tjerkH t) (tvelH t) (tposH t) (tmotG t) (vopp (tvelRef t)) (vopp (tposRef t))
    (tw t) (tmc t) (vopp (tdX t)) (vopp (tX t)) (reversed_qp (tqp t)) (tsolver t).
Definition t_reversed_call (c : tcall R) : tcall R :=
  match c with
  | TSetVelRef r => TSetVelRef (vopp r)
  | TSetPosRef r => TSetPosRef (vopp r)
  | TSetState s => TSetState (vopp s)
  | TSolve o f => TSolve (reversed_solver o) f
  | c => c
  end.
