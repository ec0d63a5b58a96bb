(** Model of src/trajectory_walkgen.cpp and src/function/trajectory_*.cpp. *)

From Coq Require Import List ZArith Arith Bool.
From Verif Require Import Scalar LinAlg ToolsModel NoDynModel QPModel.

Section Traj.
  Context {K : Type} {SK : Scalar K}.
  Local Open Scope sc_scope.

  (** Helper of the model (no counterpart in the code): Eigen's a += b: the sizes must agree. *)
  Definition vaddE (a b : vec K) : res (vec K) :=
    do _ <- guard (Nat.eqb (vlen a) (vlen b)); Ok (vadd a b).
  (** Helper of the model (no counterpart in the code): Eigen's a -= b: the sizes must agree. *)
  Definition vsubE (a b : vec K) : res (vec K) :=
    do _ <- guard (Nat.eqb (vlen a) (vlen b)); Ok (vsub a b).
  (** Helper of the model (no counterpart in the code): Eigen's v.segment(0, n) = w. *)
  Definition vsetE (v : vec K) (n : nat) (w : vec K) : res (vec K) :=
    do _ <- guard (Nat.leb n (vlen v)); do _ <- guard (Nat.eqb n (vlen w)); Ok (vsetseg v 0 w).

  (** trajectory_velocity_tracking_objective.cpp:67-77, trajectory_position_tracking_objective.cpp:66-76
      computeConstantPart: hessian = UT*U *)
  Definition track_hessian (d : lindyn K) : mat K := mmul (dUT d) (dU d).
  (** The same files, lines 32-50 and 32-48, getGradient *)
  Definition track_gradient (N : nat) (d : lindyn K) (H : mat K) (state : st3 K) (ref x0 : vec K)
    : res (vec K) :=
    do _ <- guard (Nat.eqb (vlen ref) (vlen x0));
    do _ <- guard (Nat.eqb (vlen ref) N);
    do tmp <- vsubE (mv (dS d) (vec_of_st3 state)) ref;
    vaddE (mv H x0) (mv (dUT d) tmp).
  (** trajectory_jerk_minimization_objective.cpp:31-36 getGradient *)
  Definition jerk_gradient (N : nat) (x0 : vec K) : res (vec K) :=
    do _ <- guard (Nat.eqb N (vlen x0)); Ok x0.
  (** trajectory_motion_constraint.cpp:90-105 computeConstantPart *)
  Definition motion_gradient (m : nodyn K) : mat K :=
    let N := nN m in
    msetblock (msetblock (mzero (2 * N) N) 0 0 (dU (nvelD m))) N 0 (dU (naccD m)).
  (** trajectory_motion_constraint.cpp:58-76 computeFunction, 32-56 getFunctionInf, getFunctionSup *)
  Definition motion_function (m : nodyn K) (G : mat K) (x0 : vec K) (velLimit accLimit : K) : vec K :=
    let N := nN m in
    let f := vopp (mv G x0) in
    let f := vaddseg f 0 (vfill N velLimit) in
    let f := vaddseg f 0 (vopp (mv (dS (nvelD m)) (vec_of_st3 (nstate m)))) in
    let f := vaddseg f N (vfill N accLimit) in
    vaddseg f N (vopp (mv (dS (naccD m)) (vec_of_st3 (nstate m)))).
  (** trajectory_motion_constraint.cpp:34-43 *)
  Definition motion_functionInf (m : nodyn K) (G : mat K) (x0 : vec K) : res (vec K) :=
    do _ <- guard (Nat.eqb (nN m) (vlen x0));
    Ok (motion_function m G x0 (- nvelLim m) (- naccLim m)).
  (** trajectory_motion_constraint.cpp:47-56 *)
  Definition motion_functionSup (m : nodyn K) (G : mat K) (x0 : vec K) : res (vec K) :=
    do _ <- guard (Nat.eqb (nN m) (vlen x0));
    Ok (motion_function m G x0 (nvelLim m) (naccLim m)).

  (** trajectory_walkgen_type.h:16-29 *)
  Record tweights : Type := MkTW { wVel : K; wPos : K; wJerk : K }.

  (** trajectory_walkgen.h:66-84.  The objectives hold a reference to the model; what they
      store themselves is their Hessian (resp. gradient) and reference vector. *)
  Record traj : Type := MkTraj {
    tmod : nodyn K;
    tjerkH : mat K; tvelH : mat K; tposH : mat K; tmotG : mat K;
    tvelRef : vec K; tposRef : vec K;
    tw : tweights; tmc : bool;
    tdX : vec K; tX : vec K;
    tqp : qpmats K; tsolver : solver K
  }.
  (** Helper of the model (no counterpart in the code): replace the model. *)
  Definition t_setMod t m := MkTraj m (tjerkH t) (tvelH t) (tposH t) (tmotG t) (tvelRef t) (tposRef t)
    (tw t) (tmc t) (tdX t) (tX t) (tqp t) (tsolver t).
  (** Helper of the model (no counterpart in the code): replace dX_ and X_. *)
  Definition t_setX t dX X := MkTraj (tmod t) (tjerkH t) (tvelH t) (tposH t) (tmotG t) (tvelRef t) (tposRef t)
    (tw t) (tmc t) dX X (tqp t) (tsolver t).
  (** Helper of the model (no counterpart in the code): replace the matrices and the solver. *)
  Definition t_setQP t q s := MkTraj (tmod t) (tjerkH t) (tvelH t) (tposH t) (tmotG t) (tvelRef t) (tposRef t)
    (tw t) (tmc t) (tdX t) (tX t) q s.

  (** trajectory_walkgen.cpp:40-43, 56-59: the four objectives' computeConstantPart *)
  Definition t_objectives t :=
    let m := tmod t in
    MkTraj m (mid (nN m)) (track_hessian (nvelD m)) (track_hessian (nposD m)) (motion_gradient m)
      (tvelRef t) (tposRef t) (tw t) (tmc t) (tdX t) (tX t) (tqp t) (tsolver t).

  (** Helper of the model (no counterpart in the code): the size assertions on a matrix
      (trajectory_walkgen.cpp:227-276). *)
  Definition hasSize (m : mat K) (r c : nat) : bool := (Nat.eqb (mrows m) r && Nat.eqb (mcols m) c)%bool.
  (** trajectory_walkgen.cpp:227-276: the number of constraints. *)
  Definition nbCtr t : nat := if tmc t then 2 * nN (tmod t) else 0.
  (** trajectory_walkgen.cpp:227-276: Q += w*hessian when w > 0. *)
  Definition addW (w : K) (H Q : mat K) : mat K := if s0 <? w then madd Q (mscale w H) else Q.
  (** trajectory_walkgen.cpp:227-276 computeConstantPart *)
  Definition t_computeConstantPart t : res traj :=
    let N := nN (tmod t) in
    let M := nbCtr t in
    do _ <- guard (hasSize (tvelH t) N N);
    do _ <- guard (hasSize (tposH t) N N);
    do _ <- guard (hasSize (tjerkH t) N N);
    do _ <- guard (negb (tmc t) || hasSize (tmotG t) M N);
    let Q := addW (wJerk (tw t)) (tjerkH t)
              (addW (wPos (tw t)) (tposH t) (addW (wVel (tw t)) (tvelH t) (mzero N N))) in
    let A := if tmc t then msetblock (mzero M N) 0 0 (tmotG t) else mzero M N in
    Ok (t_setQP t (MkQP Q (vzero N) (vzero N) (vzero N) A (vzero M) (vzero M)) (newSolver N M)).

  (** trajectory_walkgen.cpp:16-28 *)
  Definition newTraj : res traj :=
    do m <- newNoDynDefault;
    let t := MkTraj m (mzero 1 1) (mzero 1 1) (mzero 1 1) (mzero 1 1) (vzero (nN m)) (vzero (nN m))
               (MkTW s0 s0 s0) false (vzero (nN m)) (vzero (nN m))
               (MkQP (mzero 0 0) (vzero 0) (vzero 0) (vzero 0) (mzero 0 0) (vzero 0) (vzero 0))
               (newSolver 1 1) in
    t_computeConstantPart (t_objectives t).

  (** trajectory_walkgen.cpp:33-49 *)
  Definition t_setNbSamples (n : nat) (t : traj) : res traj :=
    do _ <- guard (Nat.ltb 0 n);
    do m <- nodyn_setNbSamples n (tmod t);
    t_computeConstantPart (t_objectives (t_setX (t_setMod t m) (vzero n) (vzero n))).
  (** trajectory_walkgen.cpp:51-64 *)
  Definition t_setSamplingPeriod (T : K) (t : traj) : res traj :=
    do _ <- guard (s0 <? T);
    do m <- nodyn_setSamplingPeriod T (tmod t);
    t_computeConstantPart (t_objectives (t_setMod t m)).
  (** trajectory_walkgen.cpp:66-80 and the setters of the two objectives *)
  Definition t_setVelRef (r : vec K) (t : traj) : res traj :=
    do _ <- guard (Nat.eqb (vlen r) (nN (tmod t)));
    Ok (MkTraj (tmod t) (tjerkH t) (tvelH t) (tposH t) (tmotG t) r (tposRef t)
          (tw t) (tmc t) (tdX t) (tX t) (tqp t) (tsolver t)).
  (** trajectory_walkgen.cpp:74-80, trajectory_position_tracking_objective.cpp:56-63 *)
  Definition t_setPosRef (r : vec K) (t : traj) : res traj :=
    do _ <- guard (Nat.eqb (vlen r) (nN (tmod t)));
    Ok (MkTraj (tmod t) (tjerkH t) (tvelH t) (tposH t) (tmotG t) (tvelRef t) r
          (tw t) (tmc t) (tdX t) (tX t) (tqp t) (tsolver t)).
  (** trajectory_walkgen.cpp:82-104 *)
  Definition t_setVelLimit (l : K) (t : traj) : res traj :=
    do m <- nodyn_setVelocityLimit l (tmod t); Ok (t_setMod t m).
  (** trajectory_walkgen.cpp:90-96 *)
  Definition t_setAccLimit (l : K) (t : traj) : res traj :=
    do m <- nodyn_setAccelerationLimit l (tmod t); Ok (t_setMod t m).
  (** trajectory_walkgen.cpp:98-104 *)
  Definition t_setJerkLimit (l : K) (t : traj) : res traj :=
    do m <- nodyn_setJerkLimit l (tmod t); Ok (t_setMod t m).
  (** trajectory_walkgen.cpp:106-113 *)
  Definition t_setState (s : vec K) (t : traj) : res traj :=
    do m <- nodyn_setState s (tmod t); Ok (t_setMod t m).
  (** trajectory_walkgen.cpp:115-125; positionTracking is not checked *)
  Definition t_setWeightings (w : tweights) (t : traj) : res traj :=
    do _ <- guard (s0 <=? wVel w);
    do _ <- guard (s0 <=? wVel w);
    do _ <- guard (s0 <=? wJerk w);
    t_computeConstantPart (MkTraj (tmod t) (tjerkH t) (tvelH t) (tposH t) (tmotG t) (tvelRef t) (tposRef t)
          w (tmc t) (tdX t) (tX t) (tqp t) (tsolver t)).
  (** trajectory_walkgen.cpp:127-135 *)
  Definition t_setConfig (withMotionConstraints : bool) (t : traj) : res traj :=
    t_computeConstantPart (MkTraj (tmod t) (tjerkH t) (tvelH t) (tposH t) (tmotG t) (tvelRef t) (tposRef t)
          (tw t) withMotionConstraints (tdX t) (tX t) (tqp t) (tsolver t)).

  (** trajectory_walkgen.cpp:137-212: p += w*gradient when w > 0. *)
  Definition addG (w : K) (g p : vec K) : res (vec K) :=
    if s0 <? w then vaddE p (vscale w g) else Ok p.
  (** trajectory_walkgen.cpp:137-188: the problem handed to the solver *)
  Definition t_problem (t : traj) : res (qpmats K) :=
    let m := tmod t in
    let N := nN m in
    let M := nbCtr t in
    do gv <- track_gradient N (nvelD m) (tvelH t) (nstate m) (tvelRef t) (tX t);
    do _ <- guard (Nat.eqb (vlen gv) N);
    do gp <- track_gradient N (nposD m) (tposH t) (nstate m) (tposRef t) (tX t);
    do _ <- guard (Nat.eqb (vlen gp) N);
    do gj <- jerk_gradient N (tX t);
    do _ <- guard (Nat.eqb (vlen gj) N);
    let q := tqp t in
    do p <- addG (wVel (tw t)) gv (vfill (vlen (qp q)) s0);
    do p <- addG (wPos (tw t)) gp p;
    do p <- addG (wJerk (tw t)) gj p;
    let bu := vfill (vlen (qbu q)) MAXB in
    let bl := vfill (vlen (qbl q)) (- MAXB) in
    if tmc t then
      do fi <- motion_functionInf m (tmotG t) (tX t);
      do fs <- motion_functionSup m (tmotG t) (tX t);
      do bl <- vsetE bl M fi;
      do bu <- vsetE bu M fs;
      do xu <- vsubE (vfill (vlen (qxu q)) (njerkLim m)) (tX t);
      do xl <- vsubE (vfill (vlen (qxl q)) (- njerkLim m)) (tX t);
      Ok (MkQP (qQ q) p xl xu (qA q) bu bl)
    else
      Ok (MkQP (qQ q) p (vfill (vlen (qxl q)) (- MAXB)) (vfill (vlen (qxu q)) MAXB) (qA q) bu bl).
  (** trajectory_walkgen.cpp:137-212 solve; the returned flag and the new object *)
  Definition t_solve (o : oracle K) (feedBackPeriod : K) (t : traj) : res (bool * traj) :=
    do q <- t_problem t;
    do _ <- guard (s0 <? feedBackPeriod);
    do r <- solver_solve o (tsolver t) q 10000%Z (tdX t) true false;
    let '(s, dX, found) := r in
    do X <- vaddE (tX t) dX;
    do m <- nodyn_updateState (vget X 0) feedBackPeriod (tmod t);
    Ok (found, MkTraj m (tjerkH t) (tvelH t) (tposH t) (tmotG t) (tvelRef t) (tposRef t)
          (tw t) (tmc t) dX X q s).

  (** trajectory_walkgen.cpp:215-225 *)
  Definition t_getState (t : traj) : st3 K := nstate (tmod t).
  (** trajectory_walkgen.cpp:221-225 *)
  Definition t_getJerk (t : traj) : K := vget (tX t) 0.

  (** The public interface of trajectory_walkgen.h:41-66 as a type of calls. *)
  Inductive tcall : Type :=
  | TSetNbSamples (n : nat) | TSetSamplingPeriod (T : K) | TSetVelRef (r : vec K) | TSetPosRef (r : vec K)
  | TSetVelLimit (l : K) | TSetAccLimit (l : K) | TSetJerkLimit (l : K) | TSetState (s : vec K)
  | TSetWeightings (w : tweights) | TSetConfig (c : bool) | TSolve (o : oracle K) (feedBackPeriod : K).
  (** One call of the public interface. *)
  Definition tstep (c : tcall) (t : traj) : res traj :=
    match c with
    | TSetNbSamples n => t_setNbSamples n t
    | TSetSamplingPeriod T => t_setSamplingPeriod T t
    | TSetVelRef r => t_setVelRef r t
    | TSetPosRef r => t_setPosRef r t
    | TSetVelLimit l => t_setVelLimit l t
    | TSetAccLimit l => t_setAccLimit l t
    | TSetJerkLimit l => t_setJerkLimit l t
    | TSetState s => t_setState s t
    | TSetWeightings w => t_setWeightings w t
    | TSetConfig c => t_setConfig c t
    | TSolve o f => do r <- t_solve o f t; Ok (snd r)
    end.
  (** A history of calls, which stops at the first one that does not return. *)
  Fixpoint tsteps (l : list tcall) (t : traj) : res traj :=
    match l with nil => Ok t | cons c l' => do t' <- tstep c t; tsteps l' t' end.
End Traj.
Arguments traj : clear implicits.
Arguments tcall : clear implicits.
Arguments tweights : clear implicits.
