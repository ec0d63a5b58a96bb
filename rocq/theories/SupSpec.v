(** Specification side for the feet supervisor, written on the observable data only: the phases
    of the timeline, the times, and the step variables. *)

From Coq Require Import Reals List Arith Bool.
From Verif Require Import Scalar LinAlg PolygonModel FootModel SupModel.
Import ListNotations.
Local Open Scope R_scope.

(** The walking automaton: which phase may follow which. *)
Inductive follows : ptype -> ptype -> Prop :=
| stay : follows DS DS                       (* keep standing *)
| start : follows DS LeftSS                  (* the first support foot is the left one *)
| left_right : follows LeftSS RightSS
| right_left : follows RightSS LeftSS
| stop_left : follows LeftSS DS
| stop_right : follows RightSS DS.
(** ... while walking, and while stopping *)
Inductive follows_moving : ptype -> ptype -> Prop :=
| m_start : follows_moving DS LeftSS
| m_left_right : follows_moving LeftSS RightSS
| m_right_left : follows_moving RightSS LeftSS.

Fixpoint chain {A} (r : A -> A -> Prop) (l : list A) : Prop :=
  match l with
  | a :: ((b :: _) as q) => r a b /\ chain r q
  | _ => True
  end.

(** Time (from now) at which phase j of a timeline starts, for j >= 1: the current phase ends
    after [t], the following ones last their duration. *)
Fixpoint start_time (t : R) (tl : list (phase R)) (j : nat) : R :=
  match j with
  | O => 0
  | 1%nat => t
  | S k => start_time t tl k + match nth_error tl k with Some p => phDur p | None => 0 end
  end.
(** Phase j is in progress at time tau. *)
Definition in_progress (t : R) (tl : list (phase R)) (tau : R) (j : nat) : Prop :=
  (j < length tl)%nat /\ (j = 0%nat \/ start_time t tl j <= tau) /\ tau < start_time t tl (S j).

(** The step positions in the decision vector: after 2N entries for the samples come the x then
    the y coordinates of the steps. *)
Definition nb_steps (N : nat) (v : vec R) : nat := (Nat.div (vlen v) 2 - N)%nat.
Definition stepX (N : nat) (v : vec R) (k : nat) : R := vget v (2 * N + k).
Definition stepY (N : nat) (v : vec R) (k : nat) : R := vget v (2 * N + nb_steps N v + k).
Definition well_sized (N : nat) (v : vec R) : Prop := exists k, vlen v = (2 * N + 2 * k)%nat.

(** q is in every half plane a x + b y <= c that contains the points. *)
Definition enclosed (l : list (R * R)) (q : R * R) : Prop :=
  forall a b c, (forall p, In p l -> a * fst p + b * snd p <= c) -> a * fst q + b * snd q <= c.

(** Number of steps made before phase j of a timeline begins: each single support that is over
    has put a foot down. *)
Definition steps_before (tl : list (phase R)) (j : nat) : nat :=
  length (filter (fun p => negb (is_DS (phType p))) (firstn j tl)).

(** A state from which the timeline can be updated: positive sizes, phase durations multiple of the
    sampling period, and a phase in progress whose remaining time [tn] puts the next sample at time
    [S0] (after the phase change if the current phase is over), not exactly EPS after the end of a
    sampling period. *)
Record ready (s : sup R) (v : vec R) (tn S0 : R) : Prop := {
  ry_N : (0 < sN s)%nat;
  ry_T : EPS < sT s;
  ry_step : exists a, (0 < a)%nat /\ sstep s = INR a * sT s;
  ry_DS : exists b, (0 < b)%nat /\ sDS s = INR b * sT s;
  ry_tl : cbl (stl s) <> [] /\ length (cbl (stl s)) = cbcap (stl s);
  ry_now : (EPS <= sttnp s /\ tn = sttnp s)
        \/ (sttnp s < EPS /\ exists p, nth_error (cbl (stl s)) 1 = Some p /\ tn = phDur p);
  ry_sample : EPS < S0 < sT s + EPS /\ exists r, tn = S0 + INR r * sT s;
  ry_feet : (0 < vlen (fsx (sleft s)))%nat /\ (0 < vlen (fsy (sleft s)))%nat;
  ry_kin : pverts (fkin (sleft s)) <> [] /\ pverts (fkin (sright s)) <> [];
  ry_v : exists n, vlen v = (2 * sN s + 2 * n)%nat
     /\ (sttnp s < EPS -> forall p, nth_error (cbl (stl s)) 0 = Some p -> phType p <> DS -> (0 < n)%nat) }.

(** One feedback cycle as the humanoid walk generator does it (src/humanoid_walkgen.cpp:304-313,
    315-454): the user changes feet data and the move flag, the timeline is updated, the quadratic
    program changes the decision vector, the feet follow the first step of the solution. *)
Definition cycle {TK : Trig R} (fb : R) (cs : list (scall R)) (mv : bool) (qp : vec R -> vec R) (q : sup R * vec R)
  : res (sup R * vec R) :=
  do s0 <- ssteps cs (fst q);
  do q1 <- s_updateTimeline (snd q) fb (s_setMove mv s0);
  let '(s1, v1) := q1 in
  let v2 := qp v1 in
  do s2 <- s_updateFeetStates (vseg v2 (2 * sN s1) (2 * snb s1)) fb s1;
  Ok (s2, v2).
Record action : Type := MkAction { acalls : list (scall R); amove : bool; aqp : vec R -> vec R }.
Fixpoint cycles {TK : Trig R} (fb : R) (l : list action) (q : sup R * vec R) : res (sup R * vec R) :=
  match l with [] => Ok q | x :: r => do q' <- cycle fb (acalls x) (amove x) (aqp x) q; cycles fb r q' end.
(** Calls that only change the data of the feet, with data of the right shape. *)
Definition foot_call (c : scall R) : Prop :=
  match c with
  | SSetKin _ p => pverts p <> []
  | SSetCop _ _ | SSetMaxHeight _ _ => True
  | SSetFootX _ v | SSetFootY _ v | SSetFootZ _ v => vlen v = 3%nat
  | _ => False
  end.
(** The quadratic program gives back a vector of the same size. *)
Definition allowed (x : action) : Prop := Forall foot_call (acalls x) /\ forall w, vlen (aqp x w) = vlen w.
(** All calls but the two updates. *)
Definition setter (c : scall R) : Prop := match c with SUpdateTimeline _ _ | SUpdateFeet _ _ => False | _ => True end.
(** The walk is never stopped in double support. *)
Fixpoint stops_in_step {TK : Trig R} (fb : R) (l : list action) (q : sup R * vec R) : Prop :=
  match l with
  | [] => True
  | x :: r => (amove x = false -> smove (fst q) = true -> forall p, s_front (fst q) = Ok p -> phType p <> DS)
              /\ forall q', cycle fb (acalls x) (amove x) (aqp x) q = Ok q' -> stops_in_step fb r q'
  end.
(** A supervisor configured for walking: built, set up by any setters, with the durations a T, b T
    and a feedback period fb that divides the sampling period n times, and given a decision vector
    without steps.  A step is not longer than the preview horizon plus one sample. *)
Record configured {TK : Trig R} (s : sup R) (v : vec R) (n a b : nat) (fb : R) : Prop := {
  cf_built : exists N T s0 cs, newSup N T = Ok s0 /\ Forall setter cs /\ ssteps cs s0 = Ok s;
  cf_fb : EPS < fb; cf_n : (0 < n)%nat; cf_T : sT s = INR n * fb;
  cf_a : (0 < a <= S (sN s))%nat; cf_step : sstep s = INR a * sT s;
  cf_b : (0 < b)%nat; cf_DS : sDS s = INR b * sT s;
  cf_kin : pverts (fkin (sleft s)) <> [] /\ pverts (fkin (sright s)) <> [];
  cf_v : vlen v = (2 * sN s)%nat }.
