(** Specification of the trajectory generator, in terms of the simulated motion only. *)

From Coq Require Import Reals.
From Verif Require Import Scalar LinAlg ToolsModel ToolsSpec.
Local Open Scope R_scope.

(** Half the weighted sum of the squared velocity errors, position errors and jerks over the
    horizon; a negative weight counts as zero. *)
Definition traj_cost (N : nat) (T : R) (x : st3 R) (wv wp wj : R) (vr pr : nat -> R) (X : nat -> R) : R :=
  / 2 * (Rmax 0 wv * ssum N (fun i => (vel (sim T T x X i) - vr i) ^ 2)
         + Rmax 0 wp * ssum N (fun i => (pos (sim T T x X i) - pr i) ^ 2)
         + Rmax 0 wj * ssum N (fun i => (X i) ^ 2)).
(** Velocity, acceleration and jerk stay within the limits at every sample. *)
Definition traj_admissible (N : nat) (T : R) (x : st3 R) (vl al jl : R) (X : nat -> R) : Prop :=
  forall i, (i < N)%nat ->
    Rabs (vel (sim T T x X i)) <= vl /\ Rabs (acc (sim T T x X i)) <= al /\ Rabs (X i) <= jl.
