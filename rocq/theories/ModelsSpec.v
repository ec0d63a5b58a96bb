(** Specification side for the robot models: what a user expects the parameters and states to
    be after a history of calls, written without any dynamics. *)

From Coq Require Import Reals List ZArith.
From Verif Require Import Scalar LinAlg ToolsModel ToolsSpec NoDynModel PolygonModel LipModel BaseModel.
Import ListNotations.
Local Open Scope R_scope.

Definition st3_at (v : vec R) : st3 R := St3 (vget v 0) (vget v 1) (vget v 2).

(** What can be read back from a LIPModel. *)
Record lobs : Type := LObs {
  oN : nat; oT : R; ofb : R; oh : R; og : vec3 R; om : R; oM : R;
  osx : st3 R; osy : st3 R; osz : R; osyaw : st3 R }.
Definition lobs0 (N : nat) (T : R) : lobs :=
  LObs N T T 1 (V3 0 0 (981/100)) 1 1 (St3 0 0 0) (St3 0 0 0) 1 (St3 0 0 0).
Definition lobs_step (o : lobs) (c : lcall R) : lobs :=
  let '(LObs N T fb h g m M x y z w) := o in
  match c with
  | LComputeDynamics => o
  | LSetNbSamples n => LObs n T fb h g m M x y z w
  | LSetSamplingPeriod T' => LObs N T' T' h g m M x y z w
  | LSetFeedbackPeriod fb' => LObs N T fb' h g m M x y z w
  | LSetComHeight h' => LObs N T fb h' g m M x y h' w
  | LSetGravity g' => LObs N T fb h g' m M x y z w
  | LSetMass m' => LObs N T fb h g m' M x y z w
  | LSetTotalMass M' => LObs N T fb h g m M' x y z w
  | LSetStateX v => LObs N T fb h g m M (st3_at v) y z w
  | LSetStateY v => LObs N T fb h g m M x (st3_at v) z w
  | LSetStateYaw v => LObs N T fb h g m M x y z (st3_at v)
  | LUpdateStateX j f => LObs N T fb h g m M (updateState_raw j f x) y z w
  | LUpdateStateY j f => LObs N T fb h g m M x (updateState_raw j f y) z w
  | LUpdateStateYaw j f => LObs N T fb h g m M x y z (updateState_raw j f w)
  end.
Definition lobs_of (l : lip R) : lobs :=
  LObs (lN l) (lT l) (lfb l) (lh l) (lg l) (lm l) (lM l) (lsx l) (lsy l) (pos (lsz l)) (lsyaw l).

(** What can be read back from a BaseModel. *)
Record bobs : Type := BObs {
  pN : nat; pT : R; ph : R; pg : vec3 R; pm : R; pM : R;
  psx : st3 R; psy : st3 R; psroll : st3 R; pspitch : st3 R; psyaw : st3 R;
  plv : R; pla : R; plj : R; ptx : option R; pty : option R; pcop : polygon R; pcom : polygon R }.
Definition bobs0 (N : nat) (T : R) (tc : option R) : bobs :=
  let z := St3 0 0 0 in
  BObs N T 0 (V3 0 0 (981/100)) 0 1 z z z z z 1 1 1 tc tc emptyPolygon emptyPolygon.
Definition bobs_step (o : bobs) (c : bcall R) : bobs :=
  let '(BObs N T h g m M x y r p w lv la lj tx ty pc pq) := o in
  match c with
  | BComputeDynamics => o
  | BSetNbSamples n => BObs n T h g m M x y r p w lv la lj tx ty pc pq
  | BSetSamplingPeriod T' => BObs N T' h g m M x y r p w lv la lj tx ty pc pq
  | BSetComHeight h' => BObs N T h' g m M x y r p w lv la lj tx ty pc pq
  | BSetGravity g' => BObs N T h g' m M x y r p w lv la lj tx ty pc pq
  | BSetMass m' => BObs N T h g m' M x y r p w lv la lj tx ty pc pq
  | BSetTotalMass M' => BObs N T h g m M' x y r p w lv la lj tx ty pc pq
  | BSetStateX v => BObs N T h g m M (st3_at v) y r p w lv la lj tx ty pc pq
  | BSetStateY v => BObs N T h g m M x (st3_at v) r p w lv la lj tx ty pc pq
  | BSetStateRoll v => BObs N T h g m M x y (st3_at v) p w lv la lj tx ty pc pq
  | BSetStatePitch v => BObs N T h g m M x y r (st3_at v) w lv la lj tx ty pc pq
  | BSetStateYaw v => BObs N T h g m M x y r p (st3_at v) lv la lj tx ty pc pq
  | BUpdateStateX j f => BObs N T h g m M (updateState_raw j f x) y r p w lv la lj tx ty pc pq
  | BUpdateStateY j f => BObs N T h g m M x (updateState_raw j f y) r p w lv la lj tx ty pc pq
  | BSetVelocityLimit l => BObs N T h g m M x y r p w l la lj tx ty pc pq
  | BSetAccelerationLimit l => BObs N T h g m M x y r p w lv l lj tx ty pc pq
  | BSetJerkLimit l => BObs N T h g m M x y r p w lv la l tx ty pc pq
  | BSetCopPolygon q => BObs N T h g m M x y r p w lv la lj tx ty q pq
  | BSetComPolygon q => BObs N T h g m M x y r p w lv la lj tx ty pc q
  | BSetTiltContactPointX a => BObs N T h g m M x y r p w lv la lj (Some a) ty pc pq
  | BSetTiltContactPointY a => BObs N T h g m M x y r p w lv la lj tx (Some a) pc pq
  end.
Definition bobs_of (b : base R) : bobs :=
  BObs (bN b) (bT b) (bh b) (bg b) (bm b) (bM b) (bsx b) (bsy b) (bsroll b) (bspitch b) (bsyaw b)
    (bvelLim b) (baccLim b) (bjerkLim b) (btcx b) (btcy b) (bcopPoly b) (bcomPoly b).

(** Parameters that make physical sense. *)
Definition valid_params (T : R) (N : nat) (g : vec3 R) (m M : R) : Prop :=
  0 < T /\ (0 < N)%nat /\ 1/10000 < Rabs (gz g) /\ 0 <= m <= M /\ 1/10000 < M.

(** [d] previews: it is an N by N system with its transpose, and with first interval S and
    period T, for every initial state, jerk sequence and
    sample it gives the quantity [f] of the motion obtained by integrating step by step. *)
Definition previews (d : lindyn R) (S T : R) (N : nat) (f : st3 R -> R) : Prop :=
  (mrows (dU d) = N /\ mcols (dU d) = N /\ dUT d = mtr (dU d)) /\
  forall x (X : vec R) i, (i < N)%nat ->
    exists s, run (schedule S T (vget X) i) x = Ok s /\ predict d (vec_of_st3 x) X i = f s.
(** The centre of pressure of a mass m out of M at height h moving with state s. *)
Definition cop_of (h g0 gz m M : R) (s : st3 R) : R := m / M * (pos s - h / gz * acc s - h * g0 / gz).
(** Same for the angular (order 2) previews. *)
Definition previews2 (d : lindyn R) (T : R) (N : nat) (f : st2 R -> R) : Prop :=
  (mrows (dU d) = N /\ mcols (dU d) = N /\ dUT d = mtr (dU d)) /\
  forall x (X : vec R) i, (i < N)%nat -> predict d (vec_of_st2 x) X i = f (sim2 T T x (vget X) i).

(** Reading the same parameters from the NoDynamicModel. *)
Inductive ncall : Type :=
| NSetNbSamples (n : nat) | NSetSamplingPeriod (T : R) | NSetState (v : vec R) | NUpdateState (j f : R)
| NSetVelocityLimit (l : R) | NSetAccelerationLimit (l : R) | NSetJerkLimit (l : R) | NComputeDynamics.
Definition nstep (c : ncall) (m : nodyn R) : res (nodyn R) :=
  match c with
  | NSetNbSamples n => nodyn_setNbSamples n m
  | NSetSamplingPeriod T => nodyn_setSamplingPeriod T m
  | NSetState v => nodyn_setState v m
  | NUpdateState j f => nodyn_updateState j f m
  | NSetVelocityLimit l => nodyn_setVelocityLimit l m
  | NSetAccelerationLimit l => nodyn_setAccelerationLimit l m
  | NSetJerkLimit l => nodyn_setJerkLimit l m
  | NComputeDynamics => nodyn_computeDynamics m
  end.
Fixpoint nsteps (cs : list ncall) (m : nodyn R) : res (nodyn R) :=
  match cs with [] => Ok m | c :: r => do m' <- nstep c m; nsteps r m' end.
Record nobs : Type := NObs { qN : nat; qT : R; qs : st3 R; qlv : R; qla : R; qlj : R }.
Definition nobs0 (N : nat) (T : R) : nobs := NObs N T (St3 0 0 0) 1 1 1.
Definition nobs_step (o : nobs) (c : ncall) : nobs :=
  let '(NObs N T s v a j) := o in
  match c with
  | NSetNbSamples n => NObs n T s v a j
  | NSetSamplingPeriod T' => NObs N T' s v a j
  | NSetState x => NObs N T (st3_at x) v a j
  | NUpdateState u f => NObs N T (updateState_raw u f s) v a j
  | NSetVelocityLimit l => NObs N T s l a j
  | NSetAccelerationLimit l => NObs N T s v l j
  | NSetJerkLimit l => NObs N T s v a l
  | NComputeDynamics => o
  end.
Definition nobs_of (m : nodyn R) : nobs := NObs (nN m) (nT m) (nstate m) (nvelLim m) (naccLim m) (njerkLim m).
