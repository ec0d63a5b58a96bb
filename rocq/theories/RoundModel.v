(** The model over rounded arithmetic.

    The C++ classes are templates over float or double.  Here every operation of the [Scalar] record is the exact
    operation followed by a rounding function, as IEEE 754 prescribes.  Comparisons, the change of sign and the
    truncation to an integer are exact.  Overflow and the special values are not modelled: the range is unbounded. *)

From Coq Require Import Reals ZArith Bool.
From Verif Require Import Scalar.
Local Open Scope R_scope.

(** mpc-walkgen/type.h:31-50, src/macro.h:12-15: the [Scalar] of the templates, a real number that came out of a rounding. *)
Inductive fl (rnd : R -> R) : Type := Fl (x : R).
Arguments Fl {rnd} x.
(** Helper of the model (no counterpart in the code): the number. *)
Definition val {rnd : R -> R} (a : fl rnd) : R := let '(Fl x) := a in x.

(** src/macro.h:12-15, src/humanoid_feet_supervisor.cpp:940: the operators + - * / of float or double, their comparisons and
    conversions.  Simplification: no overflow, no special values. *)
#[global] Instance FlScalar (rnd : R -> R) : Scalar (fl rnd) := {
  s0 := Fl 0; s1 := Fl 1;
  sadd a b := Fl (rnd (val a + val b)); ssub a b := Fl (rnd (val a - val b));
  smul a b := Fl (rnd (val a * val b)); sdiv a b := Fl (rnd (val a / val b));
  sopp a := Fl (- val a);
  sltb a b := Rltb (val a) (val b); sleb a b := Rleb (val a) (val b); seqb a b := Reqb (val a) (val b);
  sofZ z := Fl (rnd (IZR z)); sfloor a := Int_part (val a)
}.
