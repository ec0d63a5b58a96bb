(** Properties C09-C12 and C51: spline interpolation of the flying foot. *)

From Coq Require Import Reals List Lra.
From Verif Require Import Scalar LinAlg LinAlgFacts ToolsModel InterpModel InterpFacts.
Import ListNotations.
Local Open Scope R_scope.

(** C09.  The interpolation reaches both end states exactly (position, velocity and
    acceleration), for every pair of states and every duration. *)
Theorem C09_start : forall i f T, 0 < T -> interpolateTrajectory i f T 0 = Ok i.
Proof. intros i f T HT. rewrite interpolateTrajectory_ok, interp_start by lra. reflexivity. Qed.
Theorem C09_end : forall i f T, 0 < T -> interpolateTrajectory i f T T = Ok f.
Proof. intros i f T HT. rewrite interpolateTrajectory_ok, interp_end by lra. reflexivity. Qed.
(** With a zero duration the code divides by zero. *)
Theorem C09_zero_duration : forall (i f : st3 R) t, interpolateTrajectory i f 0 t = Nan.
Proof.
  intros i f t. unfold interpolateTrajectory. rsimpl.
  replace (Reqb 0 0) with true; [reflexivity|symmetry; apply Reqb_true; reflexivity].
Qed.
Example C09_case : interpolateTrajectory (St3 1 2 3) (St3 4 5 6) (7/10) (7/10) = Ok (St3 4 5 6).
Proof. apply C09_end. lra. Qed.

(** C10.  The interpolated position is continuously differentiable twice on the whole
    duration, junctions included; the velocity and acceleration returned are its first and
    second derivatives. *)
Theorem C10_twice_differentiable : forall i f T, 0 < T -> forall t,
  derivable_pt_lim (fun t => pos (interp_raw i f T t)) t (vel (interp_raw i f T t))
  /\ derivable_pt_lim (fun t => vel (interp_raw i f T t)) t (acc (interp_raw i f T t))
  /\ continuity_pt (fun t => acc (interp_raw i f T t)) t.
Proof.
  intros i f T HT t. split; [apply interp_pos_deriv; assumption|].
  split; [apply interp_vel_deriv; assumption|apply interp_acc_cont; assumption].
Qed.
(** [interp_raw] is what the call returns. *)
Theorem C10_returned : forall (i f : st3 R) T t,
  0 < T -> interpolateTrajectory i f T t = Ok (interp_raw i f T t).
Proof. intros. apply interpolateTrajectory_ok. lra. Qed.

(** C11.  Any three cubics meeting the end states and C2 at 1/3 and 2/3 have the computed
    coefficients, and the computed coefficients do meet them. *)
Theorem C11_unique : forall i f T A B C,
  T <> 0 -> (is_spline i f T A B C <-> computeFactors i f T = MkFac A B C).
Proof.
  intros i f T A B C HT. split; [apply spline_unique; assumption|].
  intros E. pose proof (factors_are_spline i f T HT) as H. rewrite E in H. exact H.
Qed.
Example C11_case : exists A B C, is_spline (St3 0 1 2) (St3 3 4 5) 6 A B C.
Proof.
  do 3 eexists. apply (factors_are_spline (St3 0 1 2) (St3 3 4 5) 6). lra.
Qed.

(** C12.  Whatever re-planning happened before, an update over the whole remaining time lands
    on its target with the target's velocity and acceleration. *)
Theorem C12_lands_on_target : forall pre obj T s r,
  0 < T -> replan (pre ++ [(obj, T, T)]) s = Ok r -> r = obj.
Proof. exact replan_lands. Qed.
Theorem C12_replanning_defined : forall cmds s,
  Forall (fun c => let '(_, T, _) := c in T <> 0) cmds -> exists r, replan cmds s = Ok r.
Proof. exact replan_ok. Qed.
Theorem C12_starts_from_current : forall s obj T,
  0 < T -> interpolateTrajectory s obj T 0 = Ok s.
Proof. exact C09_start. Qed.
Example C12_case :
  replan ([(St3 2 0 0, 7/10, 1/10); (St3 3 0 0, 6/10, 1/10)] ++ [(St3 (5/2) 0 0, 5/10, 5/10)]) (St3 1 0 0)
  = Ok (St3 (5/2) 0 0).
Proof.
  destruct (C12_replanning_defined
    ([(St3 2 0 0, 7/10, 1/10); (St3 3 0 0, 6/10, 1/10)] ++ [(St3 (5/2) 0 0, 5/10, 5/10)]) (St3 1 0 0)) as (r & H).
  - repeat constructor; lra.
  - rewrite H. f_equal. eapply C12_lands_on_target; [|exact H]. lra.
Qed.

(** C51.  A foot moved from rest to rest never overshoots: it stays between start and target
    and never moves backwards. *)
Theorem C51_no_overshoot : forall p q T t s,
  0 < T -> p <= q -> 0 <= t <= T ->
  interpolateTrajectory (St3 p 0 0) (St3 q 0 0) T t = Ok s ->
  p <= pos s <= q /\ 0 <= vel s.
Proof.
  intros p q T t s HT Hpq Ht H. apply interpolateTrajectory_inv in H as (_ & ->).
  apply interp_rest_between; assumption.
Qed.
Example C51_case : exists s, interpolateTrajectory (St3 1 0 0) (St3 2 0 0) 1 (1/2) = Ok s.
Proof. rewrite interpolateTrajectory_ok by lra. eexists; reflexivity. Qed.

Print Assumptions C09_start.
Print Assumptions C09_end.
Print Assumptions C10_twice_differentiable.
Print Assumptions C11_unique.
Print Assumptions C12_lands_on_target.
Print Assumptions C51_no_overshoot.
