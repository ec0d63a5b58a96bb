(** Specification side for the optimum of one call of solve on a humanoid walk generator. *)

From Coq Require Import Reals List ZArith Arith Bool.
From Verif Require Import Scalar LinAlg ToolsModel ToolsSpec PolygonModel QPModel QPFacts LipModel FootModel ModelsSpec SupModel SupSpec HumModel HumSpec HumRunSpec.
Import ListNotations.
Local Open Scope R_scope.

Section Spec.
Context {TK : Trig R}.

(** A motion: the centres of pressure and steps in Y and the jerks Jx, Jy of the centre of mass fit
    together: at every sample the jerks bring the centre of pressure where Y puts it, relatively to the
    foot that is on the ground then.  The first sample is at time S0, the support foot now at (fx, fy),
    and the present phase ends at time tn. *)
Definition motion_of (h : hum R) (tn S0 fx fy : R) (Y Jx Jy : nat -> R) : Prop :=
  let N := lN (hlip h) in let M := snb (hsup h) in let tl := cbl (stl (hsup h)) in
  forall i, (i < N)%nat -> exists px py,
    on_ground tl tn (S0 + INR i * lT (hlip h)) fx (dStepX N Y) px
    /\ on_ground tl tn (S0 + INR i * lT (hlip h)) fy (dStepY N M Y) py
    /\ cop_x (hlip h) S0 Jx i = dCopX Y i + px
    /\ cop_y (hlip h) S0 Jy i = dCopY N Y i + py.
(** Y respects the constraints that are switched on, no entry of it being further than the numerical
    infinity from the present plan (see [moderate]). *)
Definition permitted_plan (h : hum R) (fx fy : R) (Y : nat -> R) : Prop :=
  moderate h (fun k => Y k - vget (hX h) k)
  /\ (hcopC h = true -> cops_supported h Y)
  /\ (hfeetC h = true -> step_sides h fx fy Y Y /\ step_box h fx fy (vget (hX h)) Y).
(** What a motion costs *)
Definition price (h : hum R) (S0 : R) (Y Jx Jy : nat -> R) : R :=
  hum_cost h S0 (sample_weight (lN (hlip h)) S0 (lT (hlip h))) Y Jx Jy.
(** A motion that respects the constraints, such that no other one is cheaper *)
Definition best_motion (h : hum R) (tn S0 fx fy : R) (Y Jx Jy : nat -> R) : Prop :=
  motion_of h tn S0 fx fy Y Jx Jy /\ permitted_plan h fx fy Y
  /\ forall Z Kx Ky, motion_of h tn S0 fx fy Z Kx Ky -> permitted_plan h fx fy Z -> price h S0 Y Jx Jy <= price h S0 Z Kx Ky.
(** A generator whose next call of solve comes c feedback periods before the next sample (the current
    phase ends after the time tn), n being the number of feedback periods in a sampling period. *)
Record about_to_solve (n c : nat) (fb tn : R) (h : hum R) : Prop := {
  as_reached : reached h; as_ready : ready (hsup h) (hX h) tn (INR c * fb);
  as_fb : EPS < fb; as_T : sT (hsup h) = INR n * fb; as_c : (0 < c <= n)%nat;
  as_period : lfb (hlip h) = fb \/ EPS < Rabs (fb - lfb (hlip h)) }.
(** The solver finds a minimiser of the problem posed when [h], which has its models up to date, solves,
    if there is one. *)
Definition exact_for (o : oracle R) (h : hum R) : Prop :=
  forall q idx it, h_problem h = Ok (q, idx) -> (exists y, qminimiser (normalizeMatrices EPS q) y) ->
    qminimiser (normalizeMatrices EPS q) (fst (o (normalizeMatrices EPS q) it)).
(** ** Walks *)
(** The same call, up to the solver behind it *)
Definition same_but_solver (c c' : hcall R) : Prop := c = c' \/ exists o o' f, c = HSolve o f /\ c' = HSolve o' f.
(** Every call of solve in the sequence is made where there is a permitted plan and positive weights on jerks and centres of pressure, and
    its solver is exact. *)
Definition solves_well (fb : R) (c : hcall R) (h : hum R) : Prop :=
  match c with
  | HSolve o _ => ~ hull_fails fb h /\ forall h1, h_prepare fb h = Ok h1 ->
      exact_inverses h1 /\ exact_for o h1 /\ 0 < wJerkM (hw h1) /\ 0 < wCopC (hw h1)
      /\ forall fx fy, support_is (hsup h1) fx fy -> exists Y, permitted_plan h1 fx fy Y
  | _ => True
  end.
Fixpoint solves_exactly (fb : R) (cs : list (hcall R)) (h : hum R) : Prop :=
  match cs with
  | [] => True
  | c :: r => solves_well fb c h /\ forall h', hstep c h = Ok h' -> solves_exactly fb r h'
  end.
End Spec.
