(** What it means that the state integrated in rounded arithmetic stays close to the exact motion (C73).  No proofs. *)

From Coq Require Import Reals List ZArith Arith Bool.
From Verif Require Import Scalar LinAlg ToolsModel NoDynModel QPModel TrajModel LipModel FootModel SupModel HumModel RoundModel RoundSpec.
Import ListNotations.
Local Open Scope R_scope.

(** The numbers of a state *)
Definition exact_of {rnd} (s : st3 (fl rnd)) : st3 R := St3 (val (pos s)) (val (vel s)) (val (acc s)).
(** The motion of a point under jerks that each last for T: the exact flow of the triple integrator *)
Definition flow (T j : R) (s : st3 R) : st3 R :=
  St3 (pos s + vel s * T + acc s * T^2 / 2 + j * T^3 / 6) (vel s + acc s * T + j * T^2 / 2) (acc s + j * T).
Definition motion (T : R) (js : list R) (s : st3 R) : st3 R := fold_left (fun s j => flow T j s) js s.
(** How large the numbers are when the state s is moved by the jerk j for T *)
Definition calm (T P V A J : R) (s : st3 R) (j : R) : Prop :=
  Rabs (pos s) + Rabs (vel s) * T + Rabs (acc s) * T^2 / 2 + Rabs j * T^3 / 6 <= P
  /\ Rabs (vel s) + Rabs (acc s) * T + Rabs j * T^2 / 2 <= V /\ Rabs (acc s) + Rabs j * T <= A /\ Rabs j <= J.
(** The error of one call on the position, the velocity and the acceleration *)
Definition err_pos (u eta P A J : R) : R := 7 * u * P + eta * (16 + 2 * A + 2 * J).
Definition err_vel (u eta V J : R) : R := 6 * u * V + eta * (10 + 2 * J).
Definition err_acc (u eta A : R) : R := 3 * u * A + 3 * eta.
(** The error after n calls: that of the acceleration grows like n, that of the velocity like n^2, that of the position like n^3. *)
Definition drift (n : nat) (T ep ev ea : R) (s r : st3 R) : Prop :=
  let n := INR n in
  Rabs (acc s - acc r) <= n * ea
  /\ Rabs (vel s - vel r) <= n * ev + n^2 / 2 * T * ea
  /\ Rabs (pos s - pos r) <= n * ep + n^2 / 2 * T * ev + n^3 / 6 * T^2 * ea.

(** ** The generators *)
Section Log.
  Context {K : Type} {SK : Scalar K}.
  (** What a user who reads the state before each solve and the jerk after it sees *)
  Fixpoint t_log (cs : list (tcall K)) (t : traj K) : list (st3 K * K) :=
    match cs with
    | [] => []
    | c :: r => match tstep c t with
                | Ok t' => match c with TSolve _ _ => (t_getState t, t_getJerk t') :: t_log r t' | _ => t_log r t' end
                | _ => [] end
    end.
  (** Any calls but that which sets the state; solves with feedback period f *)
  Definition t_steady (f : K) (c : tcall K) : Prop := match c with TSetState _ => False | TSolve _ g => g = f | _ => True end.
  (** The same for the centre of mass of the humanoid generator, along x and along y *)
  Context {TK : PolygonModel.Trig K}.
  Fixpoint h_log (cs : list (hcall K)) (h : hum K) : list ((st3 K * K) * (st3 K * K)) :=
    match cs with
    | [] => []
    | c :: r => match hstep c h with
                | Ok h' => match c with
                           | HSolve _ _ => ((lsx (hlip h), vget (htX h') 0), (lsy (hlip h), vget (htX h') (lN (hlip h')))) :: h_log r h'
                           | _ => h_log r h' end
                | _ => [] end
    end.
  Definition h_steady (f : K) (c : hcall K) : Prop := match c with HSetComX _ | HSetComY _ => False | HSolve _ g => g = f | _ => True end.
End Log.
(** All the states and jerks of a log are calm. *)
Definition calm_log {rnd} (T P V A J : R) (l : list (st3 (fl rnd) * fl rnd)) : Prop :=
  Forall (fun e => calm T P V A J (exact_of (fst e)) (val (snd e))) l.
(** The jerks of a log *)
Definition jerks {rnd} (l : list (st3 (fl rnd) * fl rnd)) : list R := map (fun e => val (snd e)) l.
