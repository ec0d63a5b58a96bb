(** Specification side of property C71: what a user of the trajectory generator has set and can read, and what
    each public call does to it. *)

From Coq Require Import Reals List ZArith Arith Bool.
From Verif Require Import Scalar LinAlg ToolsModel NoDynModel QPModel TrajModel.
Import ListNotations.
Local Open Scope R_scope.

Record tview : Type := MkTView {
  vwN : nat; vwT : R;                                  (* samples and sampling period *)
  vwPos : R; vwVel : R; vwAcc : R;                     (* state *)
  vwVelLim : R; vwAccLim : R; vwJerkLim : R;           (* limits *)
  vwVelRef : list R; vwPosRef : list R;                (* references *)
  vwVelW : R; vwPosW : R; vwJerkW : R;                 (* weights *)
  vwMotion : bool;                                     (* motion constraints *)
  vwJerks : list R }.                                  (* the planned jerks; getJerk reads the first *)
Definition tview_of (t : traj R) : tview :=
  let m := tmod t in
  MkTView (nN m) (nT m) (pos (t_getState t)) (vel (t_getState t)) (acc (t_getState t)) (nvelLim m) (naccLim m) (njerkLim m)
    (list_of_vec (tvelRef t)) (list_of_vec (tposRef t)) (wVel (tw t)) (wPos (tw t)) (wJerk (tw t)) (tmc t) (list_of_vec (tX t)).

(** A new generator: one sample of 1 s, at rest at the origin, limits of 1, references at 0, no objective has a
    weight, no constraint. *)
Definition tview0 : tview := MkTView 1 1 0 0 0 1 1 1 [0] [0] 0 0 0 false [0].

(** The calls that return; any other one stops the program by an assertion.  The weight of the position is not
    checked. *)
Definition taccepts (c : tcall R) (v : tview) : Prop :=
  match c with
  | TSetNbSamples n => (0 < n)%nat
  | TSetSamplingPeriod T => 0 < T
  | TSetVelRef r | TSetPosRef r => vlen r = vwN v
  | TSetVelLimit l | TSetAccLimit l | TSetJerkLimit l => 0 <= l
  | TSetState s => vlen s = 3%nat
  | TSetWeightings w => 0 <= wVel w /\ 0 <= wJerk w
  | TSetConfig _ => True
  | TSolve _ f => 0 < f /\ length (vwVelRef v) = vwN v /\ length (vwPosRef v) = vwN v
  end.

(** What a call that returns does: each setter sets what it is named after.  Setting the number of samples also
    sets the planned jerks to zero, and leaves the references as they are.  A solve plans N new jerks and
    applies the first one for f seconds. *)
Definition teffect (c : tcall R) (v : tview) : tview -> Prop :=
  let '(MkTView N T p d a vl al jl vr pr wv wp wj mc J) := v in
  match c with
  | TSetNbSamples n => eq (MkTView n T p d a vl al jl vr pr wv wp wj mc (repeat 0 n))
  | TSetSamplingPeriod T' => eq (MkTView N T' p d a vl al jl vr pr wv wp wj mc J)
  | TSetVelRef r => eq (MkTView N T p d a vl al jl (list_of_vec r) pr wv wp wj mc J)
  | TSetPosRef r => eq (MkTView N T p d a vl al jl vr (list_of_vec r) wv wp wj mc J)
  | TSetVelLimit l => eq (MkTView N T p d a l al jl vr pr wv wp wj mc J)
  | TSetAccLimit l => eq (MkTView N T p d a vl l jl vr pr wv wp wj mc J)
  | TSetJerkLimit l => eq (MkTView N T p d a vl al l vr pr wv wp wj mc J)
  | TSetState s => eq (MkTView N T (vget s 0) (vget s 1) (vget s 2) vl al jl vr pr wv wp wj mc J)
  | TSetWeightings w => eq (MkTView N T p d a vl al jl vr pr (wVel w) (wPos w) (wJerk w) mc J)
  | TSetConfig b => eq (MkTView N T p d a vl al jl vr pr wv wp wj b J)
  | TSolve _ f => fun v' => exists j J', length (j :: J') = N
      /\ v' = MkTView N T (p + d * f + a * f ^ 2 / 2 + j * f ^ 3 / 6) (d + a * f + j * f ^ 2 / 2) (a + j * f) vl al jl vr pr wv wp wj mc (j :: J')
  end.
