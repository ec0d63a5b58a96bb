(** Specification side: running the integrator step by step.  Nothing here mentions the
    preview matrices. *)

From Coq Require Import Reals List.
From Verif Require Import Scalar LinAlg ToolsModel.
Import ListNotations.
Local Open Scope R_scope.

(** Running the integrator over a list of (jerk, duration) commands. *)
Fixpoint run (cmds : list (R * R)) (x : st3 R) : res (st3 R) :=
  match cmds with
  | [] => Ok x
  | (j, d) :: l => do y <- updateState j d x; run l y
  end.

(** Commands up to and including sample [i]: the first lasts S, the others T. *)
Definition schedule (S T : R) (X : nat -> R) (i : nat) : list (R * R) :=
  (X 0%nat, S) :: map (fun k => (X k, T)) (seq 1 i).

(** The same as a plain recursion. *)
Fixpoint sim (S T : R) (x : st3 R) (X : nat -> R) (i : nat) : st3 R :=
  match i with
  | O => updateState_raw (X 0%nat) S x
  | Datatypes.S i' => updateState_raw (X i) T (sim S T x X i')
  end.

(** Order 2 dynamics: exact constant acceleration motion. *)
Definition flow2 (u d : R) (x : st2 R) : st2 R :=
  St2 (ang x + angv x * d + u * d^2 / 2) (angv x + u * d).
Fixpoint sim2 (S T : R) (x : st2 R) (X : nat -> R) (i : nat) : st2 R :=
  match i with
  | O => flow2 (X 0%nat) S x
  | Datatypes.S i' => flow2 (X i) T (sim2 S T x X i')
  end.


(** [b] is the two-sided inverse of the N x N matrix [a]. *)
Definition is_inverse (N : nat) (a b : mat R) : Prop :=
  forall i j, (i < N)%nat -> (j < N)%nat ->
    mget (mmul a b) i j = mget (mid N) i j /\ mget (mmul b a) i j = mget (mid N) i j.

(** The input sequence [X] produces the contribution [y] through [u]. *)
Definition realises (u : mat R) (N : nat) (X y : nat -> R) : Prop :=
  forall i, (i < N)%nat -> vget (mv u (MkVec N X)) i = y i.
