(** Specification side for the safety of a walk: where the centre of pressure of the robot is, and where its
    feet are, after a call of solve. *)

From Coq Require Import Reals List ZArith Arith Bool.
From Verif Require Import Scalar LinAlg ToolsModel PolygonModel PolygonFacts QPModel QPFacts LipModel FootModel ModelsSpec SupModel HumModel HumSpec HumRunSpec.
Import ListNotations.
Local Open Scope R_scope.

Section Spec.
Context {TK : Trig R}.

(** Where a foot is on the ground, and where the centre of pressure of the centre of mass is *)
Definition foot_pos (f : foot R) : pt R := (vget (fsx f) 0, vget (fsy f) 0).
Definition robot_cop (l : lip R) : pt R :=
  (cop_of (lh l) (gx (lg l)) (gz (lg l)) (lm l) (lM l) (lsx l), cop_of (lh l) (gy (lg l)) (gz (lg l)) (lm l) (lM l) (lsy l)).
Definition seen_from (o q : pt R) : pt R := (fst q - fst o, snd q - snd o).
(** The vertices of a polygon that is attached to a foot at P *)
Definition placed (P : pt R) (g : polygon R) : list (pt R) := map (fun q => (fst q + fst P, snd q + snd P)) (pverts g).
(** q is in the polygon that the program makes of some points, all of them being seen from o *)
Definition within (o : pt R) (l : list (pt R)) (q : pt R) : Prop := exists g, makePolygon (map (seen_from o) l) = Ok g /\ satisfies g (seen_from o q).

(** The time is that of a sample: what is left of the phase is a whole number of sampling periods. *)
Definition at_sample (s : sup R) : Prop := exists r, sttnp s = INR r * sT s.
(** The phase the robot is in: the first one of the timeline or, when nothing is left of that one, the second. *)
Definition phase_now (s : sup R) (p : phase R) : Prop :=
  (EPS <= sttnp s /\ nth_error (cbl (stl s)) 0 = Some p) \/ (sttnp s < EPS /\ nth_error (cbl (stl s)) 1 = Some p).
(** A step of type t (left support: the right foot is moving) has just come to its end. *)
Definition step_over (s : sup R) (t : ptype) : Prop :=
  t <> DS /\ sttnp s < EPS /\ exists p, nth_error (cbl (stl s)) 0 = Some p /\ phType p = t.
Definition standing (t : ptype) (s : sup R) : foot R := match t with RightSS => sright s | _ => sleft s end.
Definition moving (t : ptype) (s : sup R) : foot R := match t with RightSS => sleft s | _ => sright s end.
Definition midpoint (p q : pt R) : pt R := ((fst p + fst q) / 2, (snd p + snd q) / 2).

(** The centre of pressure c is under the feet that are on the ground in a phase of type t, these being where
    they are in s.  In double support the polygon of the two feet is the one that the program makes from
    their vertices, seen from the left foot, or from the middle of the feet if the robot is not to move. *)
Definition under_the_feet (s : sup R) (t : ptype) (c : pt R) : Prop :=
  match t with
  | LeftSS => satisfies (fcop (sleft s)) (seen_from (foot_pos (sleft s)) c)
  | RightSS => satisfies (fcop (sright s)) (seen_from (foot_pos (sright s)) c)
  | DS => let l := foot_pos (sleft s) in let r := foot_pos (sright s) in
      within (if smove s then l else midpoint r l) (placed l (fcop (sleft s)) ++ placed r (fcop (sright s))) c
  end.
(** The solver finds a point that respects the constraints of the problem that [h], which has its models up to
    date, poses. *)
Definition respects (o : oracle R) (h : hum R) : Prop :=
  forall q idx it, h_problem h = Ok (q, idx) -> qfeasible (normalizeMatrices EPS q) (fst (o (normalizeMatrices EPS q) it)).
(** First step of the plan that [h] starts its optimisation from *)
Definition first_step (h : hum R) : pt R := (dStepX (lN (hlip h)) (vget (hX h)) 0, dStepY (lN (hlip h)) (snb (hsup h)) (vget (hX h)) 0).
(** A generator in the course of a walk: it was made ready, then called as it may be, and whenever it solved
    with constraints on the centre of pressure the hull of the two feet was found. *)
Fixpoint hulls_found (fb : R) (cs : list (hcall R)) (h : hum R) : Prop :=
  match cs with
  | [] => True
  | c :: r => (is_solve c -> ~ hull_fails fb h) /\ forall h', hstep c h = Ok h' -> hulls_found fb r h'
  end.
Definition walked (n a b : nat) (fb : R) (h : hum R) : Prop :=
  exists hs cs, ready_to_walk n a b fb hs /\ permitted n fb cs hs /\ hulls_found fb cs hs /\ hsteps cs hs = Ok h.
End Spec.
