(** Outcomes, vectors and matrices used by the model (definitions only).

    Eigen's VectorX / MatrixX are modelled by a size and an entry function.  Entries at
    or beyond the size are never meaningful; sizes are kept explicitly because many of
    the code's assertions are about them. *)

From Coq Require Import List ZArith Arith Bool.
From Verif Require Import Scalar.
Import ListNotations.

(** Outcome of a C++ call.
    - [Ok a]: normal return;
    - [Abort]: an [assert] (of the code, or Eigen's size assertions) fails;
    - [UB]: undefined behaviour, e.g. reading outside a container;
    - [Nan]: the call returns, but with not-a-number / infinite values produced by a
      division by zero;
    - [OutOfFuel]: the fuel given to an unbounded loop was not sufficient. *)
Inductive res (A : Type) : Type :=
| Ok (a : A)
| Abort
| UB
| Nan
| OutOfFuel.
Arguments Ok {A} a.
Arguments Abort {A}.
Arguments UB {A}.
Arguments Nan {A}.
Arguments OutOfFuel {A}.

Definition bind {A B} (r : res A) (f : A -> res B) : res B :=
  match r with Ok a => f a | Abort => Abort | UB => UB | Nan => Nan | OutOfFuel => OutOfFuel end.
Notation "'do' x <- a ; b" := (bind a (fun x => b))
  (at level 200, x pattern, a at level 100, b at level 200, right associativity).
(** assert(b) *)
Definition guard (b : bool) : res unit := if b then Ok tt else Abort.
(** A read that is undefined behaviour when [b] is false. *)
Definition ubguard (b : bool) : res unit := if b then Ok tt else UB.
(** A division by zero when [b] is false. *)
Definition nanguard (b : bool) : res unit := if b then Ok tt else Nan.
Definition is_ok {A} (r : res A) : Prop := exists a, r = Ok a.

Section LinAlg.
  Context {K : Type} {SK : Scalar K}.
  Local Open Scope sc_scope.

  (** sum of f 0 .. f (n-1) *)
  Fixpoint ssum (n : nat) (f : nat -> K) : K :=
    match n with O => s0 | S m => ssum m f + f m end.

  Record vec : Type := MkVec { vlen : nat; vget : nat -> K }.
  Record mat : Type := MkMat { mrows : nat; mcols : nat; mget : nat -> nat -> K }.

  Definition vzero (n : nat) : vec := MkVec n (fun _ => s0).
  Definition vfill (n : nat) (x : K) : vec := MkVec n (fun _ => x).
  Definition vadd (a b : vec) : vec := MkVec (vlen a) (fun i => vget a i + vget b i).
  Definition vsub (a b : vec) : vec := MkVec (vlen a) (fun i => vget a i - vget b i).
  Definition vopp (a : vec) : vec := MkVec (vlen a) (fun i => - vget a i).
  Definition vscale (k : K) (a : vec) : vec := MkVec (vlen a) (fun i => k * vget a i).
  (** v.segment(off, n) *)
  Definition vseg (v : vec) (off n : nat) : vec := MkVec n (fun i => vget v (off + i)).
  (** v.segment(off, w.size()) = w *)
  Definition vsetseg (v : vec) (off : nat) (w : vec) : vec :=
    MkVec (vlen v) (fun i => if (Nat.leb off i && Nat.ltb i (off + vlen w))%bool
                             then vget w (i - off) else vget v i).
  (** v.segment(off, w.size()) += w *)
  Definition vaddseg (v : vec) (off : nat) (w : vec) : vec :=
    MkVec (vlen v) (fun i => if (Nat.leb off i && Nat.ltb i (off + vlen w))%bool
                             then vget v i + vget w (i - off) else vget v i).
  Definition vset (v : vec) (k : nat) (x : K) : vec :=
    MkVec (vlen v) (fun i => if Nat.eqb i k then x else vget v i).
  Definition dot (n : nat) (a b : nat -> K) : K := ssum n (fun k => a k * b k).

  Definition mzero (r c : nat) : mat := MkMat r c (fun _ _ => s0).
  Definition mid (n : nat) : mat := MkMat n n (fun i j => if Nat.eqb i j then s1 else s0).
  Definition madd (a b : mat) : mat := MkMat (mrows a) (mcols a) (fun i j => mget a i j + mget b i j).
  Definition msub (a b : mat) : mat := MkMat (mrows a) (mcols a) (fun i j => mget a i j - mget b i j).
  Definition mopp (a : mat) : mat := MkMat (mrows a) (mcols a) (fun i j => - mget a i j).
  Definition mscale (k : K) (a : mat) : mat := MkMat (mrows a) (mcols a) (fun i j => k * mget a i j).
  Definition mtr (a : mat) : mat := MkMat (mcols a) (mrows a) (fun i j => mget a j i).
  Definition mmul (a b : mat) : mat :=
    MkMat (mrows a) (mcols b) (fun i j => ssum (mcols a) (fun k => mget a i k * mget b k j)).
  (** matrix * vector *)
  Definition mv (a : mat) (x : vec) : vec :=
    MkVec (mrows a) (fun i => ssum (mcols a) (fun k => mget a i k * vget x k)).
  (** M.block(r, c, B.rows(), B.cols()) = B *)
  Definition msetblock (m : mat) (r c : nat) (b : mat) : mat :=
    MkMat (mrows m) (mcols m)
      (fun i j => if (Nat.leb r i && Nat.ltb i (r + mrows b)
                      && Nat.leb c j && Nat.ltb j (c + mcols b))%bool
                  then mget b (i - r) (j - c) else mget m i j).
  (** M.block(r, c, B.rows(), B.cols()) += B *)
  Definition maddblock (m : mat) (r c : nat) (b : mat) : mat :=
    MkMat (mrows m) (mcols m)
      (fun i j => if (Nat.leb r i && Nat.ltb i (r + mrows b)
                      && Nat.leb c j && Nat.ltb j (c + mcols b))%bool
                  then mget m i j + mget b (i - r) (j - c) else mget m i j).

  (** Conversions used by examples and tests. *)
  Definition vec_of_list (l : list K) : vec := MkVec (length l) (fun i => nth i l s0).
  Definition list_of_vec (v : vec) : list K := map (vget v) (seq 0 (vlen v)).
  Definition list_of_mat (m : mat) : list (list K) :=
    map (fun i => map (mget m i) (seq 0 (mcols m))) (seq 0 (mrows m)).
End LinAlg.
Arguments vec : clear implicits.
Arguments mat : clear implicits.
