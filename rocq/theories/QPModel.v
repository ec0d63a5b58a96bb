(** Model of qpsolver/mpc-walkgen/qpsolver.h and qpsolver/src/qpsolver_qpoases.hxx. *)

From Coq Require Import List ZArith Arith Bool.
From Verif Require Import Scalar LinAlg.

Section QP.
  Context {K : Type} {SK : Scalar K}.
  Local Open Scope sc_scope.

  (** qpsolver.h:31-57 QPMatrices.  Row-major storage is not modelled. *)
  Record qpmats : Type := MkQP {
    qQ : mat K; qp : vec K;
    qxl : vec K; qxu : vec K;
    qA : mat K; qbu : vec K; qbl : vec K
  }.

  (** qpsolver.h:83-89 dimensionsAreConsistent *)
  Definition dimensionsAreConsistent (m : qpmats) (nbVar nbCtr : nat) : bool :=
    (Nat.eqb (mrows (qQ m)) nbVar && Nat.eqb (mcols (qQ m)) nbVar && Nat.eqb (vlen (qp m)) nbVar
     && Nat.eqb (vlen (qxl m)) nbVar && Nat.eqb (vlen (qxu m)) nbVar
     && Nat.eqb (mcols (qA m)) nbVar && Nat.eqb (mrows (qA m)) nbCtr
     && Nat.eqb (vlen (qbl m)) nbCtr && Nat.eqb (vlen (qbu m)) nbCtr)%bool.

  (** qpsolver.h:105-123 getNormalizationFactor: the two nested loops, then the division.
      A division by zero (only possible with a negative epsilon) is not tracked. *)
  Definition norm_step (epsilon : K) (m : mat K) (i j : nat) (acc : K) : K :=
    let v := sabs (mget m i j) in
    if ((epsilon <? v) && (v <? acc))%bool then v else acc.
  (** qpsolver.h:112-119, the inner loop. *)
  Fixpoint norm_row (epsilon : K) (m : mat K) (i nc : nat) (acc : K) : K :=
    match nc with O => acc | S j => norm_step epsilon m i j (norm_row epsilon m i j acc) end.
  (** qpsolver.h:110-120, the outer loop. *)
  Fixpoint norm_rows (epsilon : K) (m : mat K) (nr : nat) (acc : K) : K :=
    match nr with O => acc | S i => norm_row epsilon m i (mcols m) (norm_rows epsilon m i acc) end.
  (** qpsolver.h:105-123. *)
  Definition getNormalizationFactor (m : mat K) (epsilon : K) : K :=
    s1 / norm_rows epsilon m (mrows m) s1.

  (** qpsolver.h:91-103 normalizeMatrices *)
  Definition scale_qp (objFactor ctrFactor : K) (m : qpmats) : qpmats :=
    MkQP (mscale objFactor (qQ m)) (vscale objFactor (qp m)) (qxl m) (qxu m)
         (mscale ctrFactor (qA m)) (vscale ctrFactor (qbu m)) (vscale ctrFactor (qbl m)).
  (** qpsolver.h:91-103. *)
  Definition normalizeMatrices (epsilon : K) (m : qpmats) : qpmats :=
    scale_qp (getNormalizationFactor (qQ m) epsilon) (getNormalizationFactor (qA m) epsilon) m.

  (** qpOASES itself is not modelled: it is an arbitrary function from the problem it works
      on and the iteration limit to a point and a success flag.  After [init] the QProblem
      object keeps the Hessian and the constraint matrix it was given; [hotstart] receives
      only the vectors (qpsolver_qpoases.hxx:63-74). *)
  Definition oracle : Type := qpmats -> Z -> (nat -> K) * bool.

  (** qpsolver_qpoases.hxx:27-48 QPOasesSolver; [smem] is [Some (Q, A)] once initialised. *)
  Record solver : Type := MkSolver { snbVar : nat; snbCtr : nat; smem : option (mat K * mat K) }.
  (** qpsolver_qpoases.hxx:38-48, the constructor. *)
  Definition newSolver (nbVar nbCtr : nat) : solver := MkSolver nbVar nbCtr None.

  (** qpsolver_qpoases.hxx:63-74: the problem qpOASES works on. *)
  Definition effective (s : solver) (warm : bool) (m : qpmats) : qpmats :=
    match smem s with
    | Some (Q, A) => if warm then MkQP Q (qp m) (qxl m) (qxu m) A (qbu m) (qbl m) else m
    | None => m
    end.
  (** qpsolver_qpoases.hxx:50-88 solve; [sol] is the output vector before the call, [os]
      tells whether a stream is given.  getPrimalSolution writes nbVar numbers through
      sol.data(): undefined behaviour when the vector is shorter. *)
  Definition solver_solve (o : oracle) (s : solver) (m : qpmats) (maxNbIterations : Z)
    (sol : vec K) (useWarmStart os : bool) : res (solver * vec K * bool) :=
    do _ <- guard (dimensionsAreConsistent m (snbVar s) (snbCtr s));
    let doWarmStart := (match smem s with Some _ => true | None => false end && useWarmStart)%bool in
    let '(x, success) := o (effective s doWarmStart m) maxNbIterations in
    do _ <- ubguard (Nat.leb (snbVar s) (vlen sol));
    let sol' := MkVec (vlen sol) (fun i => if Nat.ltb i (snbVar s) then x i else vget sol i) in
    let s' := if doWarmStart then s else MkSolver (snbVar s) (snbCtr s) (Some (qQ m, qA m)) in
    if (negb success && os)%bool then Ok (s', sol', false) else Ok (s', sol', true).
End QP.
Arguments qpmats : clear implicits.
Arguments oracle : clear implicits.
Arguments solver : clear implicits.
