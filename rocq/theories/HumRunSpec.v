(** Specification side: how a humanoid walk generator is set up, and what may be called while it
    walks. *)

From Coq Require Import Reals List ZArith Arith Bool.
From Verif Require Import Scalar LinAlg ToolsModel NoDynModel PolygonModel QPModel TrajModel
  LipModel FootModel SupModel HumModel HumSpec.
Import ListNotations.
Local Open Scope R_scope.

Section Spec.
Context {TK : Trig R}.

(** ** Setting up *)
Definition is_solve (c : hcall R) : Prop := match c with HSolve _ _ => True | _ => False end.
Definition is_polygon (c : hcall R) : Prop := match c with HSetKin _ _ | HSetCop _ _ => True | _ => False end.
Definition is_rebuild (c : hcall R) : Prop := match c with HSetNbSamples _ | HSetConfig _ _ => True | _ => False end.
(** Constructed, then any calls but solve *)
Inductive set_up : hum R -> Prop :=
| up_new h : newHum = Ok h -> set_up h
| up_call c h h' : set_up h -> ~ is_solve c -> hstep c h = Ok h' -> set_up h'.
(** Moreover, the tables of problems were built after the last polygon was set. *)
Inductive settled : hum R -> Prop :=
| settled_new h : newHum = Ok h -> settled h
| settled_rebuild c h h' : set_up h -> is_rebuild c -> hstep c h = Ok h' -> settled h'
| settled_call c h h' : settled h -> ~ is_solve c -> ~ is_polygon c -> hstep c h = Ok h' -> settled h'.

(** A polygon as its constructors make it *)
Definition built (p : polygon R) : Prop := p = polygon_of_vertices (pverts p).
(** No preview of the CoP has a singular matrix: the time of a call, counted from any of the n calls
    of a sampling period, is not that of the pendulum. *)
Definition regular_height (n : nat) (fb z : R) : Prop := forall j, (1 <= j <= n)%nat -> (INR j * fb) * (INR j * fb) / 6 <> z / (981/100).

(** Ready for walking, with n calls of solve per sampling period, a samples per step and b samples for
    the initial double support.  A step is not longer than the preview horizon plus one sample.
    [t] are the solvers: those of the generator, or others (see [h_setSolvers]) provided that each
    entry of the table of matrices has its solver. *)
Record ready_to_walk (n a b : nat) (fb : R) (h : hum R) : Prop := {
  rw_history : exists h0 t, settled h0 /\ h = h_setSolvers t h0 /\ forall i e, nth_error (hmats h0) i = Some e -> nth_error t i = Some e;
  rw_fb : EPS < fb; rw_n : (0 < n)%nat; rw_a : (0 < a <= S (sN (hsup h)))%nat; rw_b : (0 < b)%nat;
  rw_T : sT (hsup h) = INR n * fb; rw_step : sstep (hsup h) = INR a * sT (hsup h); rw_DS : sDS (hsup h) = INR b * sT (hsup h);
  rw_kin : pverts (fkin (sleft (hsup h))) <> [] /\ pverts (fkin (sright (hsup h))) <> [];
  rw_built : built (fkin (sleft (hsup h))) /\ built (fkin (sright (hsup h))) /\ built (fcop (sleft (hsup h))) /\ built (fcop (sright (hsup h)));
  rw_ref : vlen (hvelRef h) = (2 * sN (hsup h))%nat;
  rw_height : regular_height n fb (lh (hlip h));
  rw_period : lfb (hlip h) = fb \/ EPS < Rabs (fb - lfb (hlip h)) }.

(** ** Walking *)
(** What may be called: solve with the feedback period; references, states, heights and weights of the
    right shape; and the walk may be started at any time but not stopped in double support. *)
Definition may (n : nat) (fb : R) (c : hcall R) (h : hum R) : Prop :=
  match c with
  | HSolve _ f => f = fb
  | HSetMove true => True
  | HSetMove false => smove (hsup h) = false \/ s_isInDS (hsup h) = Ok false
  | HSetVelRef r => vlen r = (2 * sN (hsup h))%nat
  | HSetFootX _ v | HSetFootY _ v | HSetFootZ _ v | HSetComX v | HSetComY v => vlen v = 3%nat
  | HSetComZ v => vlen v = 3%nat /\ vget v 1 = 0 /\ vget v 2 = 0 /\ regular_height n fb (vget v 0)
  | HSetMaxHeight _ _ => True
  | HSetWeightings _ => 0 <= wVelT (hw h) /\ 0 <= wCopC (hw h) /\ 0 <= wJerkM (hw h)
  | _ => False
  end.
Fixpoint permitted (n : nat) (fb : R) (cs : list (hcall R)) (h : hum R) : Prop :=
  match cs with
  | [] => True
  | c :: r => may n fb c h /\ forall h', hstep c h = Ok h' -> permitted n fb r h'
  end.

(** The hull of the two feet in double support is found, and has no more vertices than the feet. *)
Definition hull_ok (s : sup R) : Prop :=
  exists g, s_computeDSCopConvexPolygon s = Ok g /\ (length (pverts g) <= length (pverts (fcop (sleft s))) + length (pverts (fcop (sright s))))%nat.
(** The CoP is constrained, but the next call of solve finds no such hull. *)
Definition hull_fails (fb : R) (h : hum R) : Prop :=
  hcopC h = true /\ exists s v, s_updateTimeline (hX h) fb (hsup h) = Ok (s, v) /\ ~ hull_ok s.
End Spec.
