(** Concrete runs of the humanoid walk generator: runs that violate the unrestricted claims of C37 and
    C40, and runs that meet the hypotheses of the theorems of PropHum and PropHumSolve.

    The runs are executed on the same polymorphic model, instantiated with the rationals, so that they
    can be computed exactly; they use only public calls.  No run uses the angles. *)

From Coq Require Import List ZArith QArith Arith Bool.
From Verif Require Import Scalar LinAlg ToolsModel InterpModel PolygonModel FootModel LipModel QPModel TrajModel SupModel HumModel.
Import ListNotations.

Section Runs.
Context (TQ : Trig Q).
Local Open Scope Q_scope.

Definition hkin (up : bool) : polygon Q :=
  polygon_of_vertices (if up then [(-1#10, 1#10); (1#10, 1#10); (1#10, 3#10); (-1#10, 3#10)] else [(-1#10, -3#10); (1#10, -3#10); (1#10, -1#10); (-1#10, -1#10)]).
(** Steps of one sampling period, a kinematic box of 0.2 m by 0.2 m on the outer side of each foot *)
Definition hsetup (N : nat) : list (hcall Q) :=
  [HSetNbSamples N; HSetStepPeriod 1; HSetDSLength 1; HSetKin SLeft (hkin false); HSetKin SRight (hkin true);
   HSetVelRef (vzero (2 * N)); HSetWeightings (MkHW 0 1 0); HSetConfig false true; HSetMove true].
Definition hstart (N : nat) : res (hum Q) := do h <- newHum; hsteps (hsetup N) h.
Definition hfirstProblem (N : nat) : res (hum Q * (qpmats Q * nat)) :=
  do h0 <- hstart N; do h <- h_prepare (1#2) h0; do q <- h_problem h; Ok (h, q).
(** 0 <= b - a, row by row: a decides the inequalities of a problem *)
Definition hfeasible (q : qpmats Q) (d : nat -> Q) : bool :=
  forallb (fun j => Qle_bool (vget (qxl q) j) (d j) && Qle_bool (d j) (vget (qxu q) j))%bool (seq 0 (vlen (qp q)))
  && forallb (fun r => let v := fold_right (fun c a => mget (qA q) r c * d c + a) 0 (seq 0 (vlen (qp q))) in
                       Qle_bool (vget (qbl q) r) v && Qle_bool v (vget (qbu q) r))%bool (seq 0 (mrows (qA q))).

(** C37: two steps are previewed, at (0, -1/5) and (0, 0).  Moving the first one by 1/10 forwards and
    the second one by 1/10 backwards is feasible, but the second step is then 1/5 behind the first one
    and its kinematic box allows 1/10. *)
Definition crossing (j : nat) : Q := if Nat.eqb j 6 then 1#10 else if Nat.eqb j 7 then -1#10 else 0.
Theorem C37_stale_previous_step_refuted :
  match hfirstProblem 3 with
  | Ok (h, (q, _)) =>
      snb (hsup h) = 2%nat /\ map Qred (list_of_vec (vseg (hX h) 6 4)) = [0; 0; -1#5; 0]
      /\ hfeasible q crossing = true
      /\ match s_getKinematicConvexPolygon 1 (hsup h) with Ok kin => xInf kin = -1#10 | _ => False end
      /\ let Y j := vget (hX h) j + crossing j in Qred (Y 7%nat - Y 6%nat) = -1#5
  | _ => False end.
Proof. vm_compute. repeat split. Qed.

(** C40: the problem of this run has 10 variables, 0 constraints and the index 26 = 2 * (12 + 1) + 0.
    Entry 26 of the table of matrices has these sizes; entry 26 of the table of solvers has not, since
    six solvers of earlier configurations precede those of the last one: solve fails. *)
Theorem C40_run_aborts_refuted :
  match hstart 3, hfirstProblem 3 with
  | Ok h0, Ok (h, (q, idx)) =>
      idx = 26%nat /\ vlen (qp q) = 10%nat /\ mrows (qA q) = 0%nat
      /\ nth_error (hmats h) 26 = Some (10, 0)%nat /\ nth_error (hsolvers h) 26 = Some (8, 7)%nat
      /\ nth_error (hsolvers h) 32 = Some (10, 0)%nat
  | _, _ => False end
  /\ forall o, match hstart 3 with Ok h0 => match h_solve o (1#2) h0 with Abort => True | _ => False end | _ => False end.
Proof. split; [vm_compute; repeat split|]. intros o. vm_compute. exact I. Qed.
End Runs.

Print Assumptions C37_stale_previous_step_refuted.
Print Assumptions C40_run_aborts_refuted.
