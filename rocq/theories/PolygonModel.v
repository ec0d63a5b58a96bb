(** Model of src/convexpolygon.cpp. *)

From Coq Require Import List ZArith Arith Bool.
From Verif Require Import Scalar LinAlg.
Import ListNotations.

(** Helper of the model (no counterpart in the code): a for loop in the outcome monad. *)
Fixpoint foldM {A B} (f : A -> B -> res A) (l : list B) (a : A) : res A :=
  match l with
  | [] => Ok a
  | b :: l' => do a' <- f a b; foldM f l' a'
  end.
(** Helper of the model (no counterpart in the code): the read p[i] of a std::vector, undefined behaviour out
    of range. *)
Definition rd {A} (l : list A) (i : nat) : res A :=
  match nth_error l i with Some a => Ok a | None => UB end.

(** The transcendental functions used by angleBetweenVecs. *)
Class Trig (K : Type) : Type := {
  tpi : K;                         (* boost::math::constants::pi *)
  tacos : K -> K -> K -> K         (* tacos d a b = acos(d / (sqrt a * sqrt b)) *)
}.

Section Polygon.
  Context {K : Type} {SK : Scalar K} {TK : Trig K}.
  Local Open Scope sc_scope.

  (** type.h, Vector2. *)
  Definition pt : Type := (K * K)%type.
  (** Helper of the model (no counterpart in the code): difference of two Vector2. *)
  Definition psub (a b : pt) : pt := (fst a - fst b, snd a - snd b).
  (** Helper of the model (no counterpart in the code): opposite of a Vector2. *)
  Definition popp (a : pt) : pt := (- fst a, - snd a).
  (** Helper of the model (no counterpart in the code): dot product of two Vector2. *)
  Definition pdot (a b : pt) : K := fst a * fst b + snd a * snd b.
  (** Helper of the model (no counterpart in the code): third coordinate of the cross product
      (convexpolygon.cpp:87-113). *)
  Definition pcross (a b : pt) : K := fst a * snd b - snd a * fst b.
  (** Helper of the model (no counterpart in the code): squared norm. *)
  Definition sqn (a : pt) : K := pdot a a.

  (** Helper of the model (no counterpart in the code): std::min. *)
  Definition smin (a b : K) : K := if b <? a then b else a.
  (** Eigen's isApprox for vectors (convexpolygon.cpp:87-113): |a-b|^2 <= prec^2 * min(|a|^2, |b|^2). *)
  Definition isApprox (a b : pt) (prec : K) : bool :=
    sqn (psub a b) <=? prec * prec * smin (sqn a) (sqn b).
  (** Eigen's default precision for double, 1e-12 (1e-5 for float). *)
  Definition ZPREC : K := s1 / sofZ 1000000000000.
  (** Eigen's isZero (convexpolygon.cpp:87-113). *)
  Definition isZero (a : pt) : bool := ((sabs (fst a) <=? ZPREC) && (sabs (snd a) <=? ZPREC))%bool.

  (** src/convexpolygon.cpp:87-113 angleBetweenVecs *)
  Definition angleBetweenVecs (v w : pt) : K :=
    if (isZero v || isZero w || isApprox v w EPS)%bool then s0
    else if isApprox v (popp w) EPS then tpi
    else let a := tacos (pdot v w) (sqn v) (sqn w) in
         if s0 <=? pcross v w then a else - a.

  (** src/convexpolygon.cpp:116-157 getIndexOfLowestAndLeftmostVertice.  The list of indices
      is never empty in the code; an empty one would be read out of range. *)
  Definition low_step (p : list pt) (tab : list nat) (i : nat) : res (list nat) :=
    do h <- rd tab 0;
    do pi <- rd p i;
    do p0 <- rd p h;
    if snd pi <? snd p0 then Ok [i]
    else if sabs (snd pi - snd p0) <? EPS then Ok (tab ++ [i])
    else Ok tab.
  (** convexpolygon.cpp:115-158, the body of the second loop. *)
  Definition left_step (p : list pt) (idx j : nat) : res nat :=
    do pj <- rd p j;
    do pi <- rd p idx;
    if fst pj <? fst pi then Ok j else Ok idx.
  (** convexpolygon.cpp:115-158 *)
  Definition getIndexOfLowest (p : list pt) : res nat :=
    do tab <- foldM (low_step p) (seq 1 (length p - 1)) [0];
    do h <- rd tab 0;
    do idx <- (if Nat.ltb 1 (length tab) then foldM (left_step p) (tl tab) h else Ok h);
    do _ <- guard (Nat.ltb idx (length p));
    Ok idx.

  (** src/convexpolygon.cpp:161-224 getIndexOfSmallestAngleVertice.  norm() comparisons are
      written on squared norms. *)
  Definition ang_step (cur : nat) (last : pt) (p : list pt) (tab : list nat) (i : nat)
    : res (list nat) :=
    do c <- rd p cur;
    do pi <- rd p i;
    if isApprox pi c EPS then Ok tab
    else
      do h <- rd tab 0;
      do ph <- rd p h;
      let ai := angleBetweenVecs (psub c last) (psub pi c) in
      let ah := angleBetweenVecs (psub c last) (psub ph c) in
      if ai <? ah then Ok [i]
      else if sabs (ai - ah) <? EPS then Ok (tab ++ [i])
      else Ok tab.
  (** convexpolygon.cpp:161-224, the body of the second loop. *)
  Definition far_step (cur : nat) (p : list pt) (idx j : nat) : res nat :=
    do c <- rd p cur;
    do pj <- rd p j;
    do pi <- rd p idx;
    if sqn (psub pi c) <? sqn (psub pj c) then Ok j else Ok idx.
  (** convexpolygon.cpp:161-224 *)
  Definition getIndexOfSmallestAngle (cur : nat) (last : pt) (p : list pt) : res nat :=
    do tab <- foldM (ang_step cur last p) (seq 1 (length p - 1))
                    [if Nat.eqb cur 0 then 1 else 0];
    do h <- rd tab 0;
    if Nat.ltb 1 (length tab) then foldM (far_step cur p) (tl tab) h else Ok h.

  (** src/convexpolygon.cpp:74-83, the while loop.  [acc] holds the vertices found so far in
      reverse order, so that *(p.end()-2) after the push is entry 1 of [acc']. *)
  Fixpoint hull_loop (fuel : nat) (points : list pt) (acc : list pt) (index : nat)
    : res (list pt) :=
    do start <- getIndexOfLowest points;
    if Nat.eqb index start then Ok (rev acc)
    else
      match fuel with
      | O => OutOfFuel
      | S fuel' =>
          do _ <- guard (Nat.leb (length acc) (length points));
          do q <- rd points index;
          let acc' := q :: acc in
          do prev <- rd acc' 1;
          do index' <- getIndexOfSmallestAngle index prev points;
          hull_loop fuel' points acc' index'
      end.

  (** src/convexpolygon.cpp:47-84 extractVertices *)
  Definition extractVertices_fuel (fuel : nat) (points : list pt) : res (list pt) :=
    match points with
    | [] => Ok []
    | _ =>
        do index <- getIndexOfLowest points;
        do q <- rd points index;
        do index' <- getIndexOfSmallestAngle index (fst q - s1, snd q) points;
        hull_loop fuel points [q] index'
    end.
  (** convexpolygon.cpp:47-84; enough fuel for a loop that finds each point at most once. *)
  Definition extractVertices (points : list pt) : res (list pt) :=
    extractVertices_fuel (length points + 1) points.

  (** mpc-walkgen/convexpolygon.h, the data of a ConvexPolygon.  The three vectors of general
      constraint coefficients always have the same size and are kept as one list of
      triples (coefficient of x, coefficient of y, constant). *)
  Record polygon : Type := MkPoly {
    pverts : list pt;
    xSup : K; xInf : K; ySup : K; yInf : K;
    pgen : list (K * K * K)
  }.

  (** src/convexpolygon.cpp:226-278, one turn of the loop, for the edge from a to b. *)
  Definition edge_step (g : polygon) (a b : pt) : polygon :=
    let e := psub b a in
    if sabs (fst e) <? EPS then
      if snd e <? s0
      then MkPoly (pverts g) (xSup g) (fst a) (ySup g) (yInf g) (pgen g)
      else MkPoly (pverts g) (fst a) (xInf g) (ySup g) (yInf g) (pgen g)
    else if sabs (snd e) <? EPS then
      if fst e <? s0
      then MkPoly (pverts g) (xSup g) (xInf g) (snd a) (yInf g) (pgen g)
      else MkPoly (pverts g) (xSup g) (xInf g) (ySup g) (snd a) (pgen g)
    else MkPoly (pverts g) (xSup g) (xInf g) (ySup g) (yInf g)
           (pgen g ++ [(snd b - snd a, fst a - fst b,
                        (fst b - fst a) * snd a - (snd b - snd a) * fst a)]).
  (** convexpolygon.cpp:226-278: the edges p[i] -> p[(i+1) mod n], in order. *)
  Definition edges (p : list pt) : list (pt * pt) :=
    match p with [] => [] | q :: l => combine p (l ++ [q]) end.
  (** convexpolygon.cpp:226-278 *)
  Definition computeBounds (g : polygon) : polygon :=
    fold_left (fun g e => edge_step g (fst e) (snd e)) (edges (pverts g)) g.

  (** src/convexpolygon.cpp:16-42, the two constructors *)
  Definition emptyPolygon : polygon := MkPoly [] MAXB (- MAXB) MAXB (- MAXB) [].
  (** convexpolygon.cpp:30-42, after the vertices have been found. *)
  Definition polygon_of_vertices (v : list pt) : polygon :=
    computeBounds (MkPoly v MAXB (- MAXB) MAXB (- MAXB) []).
  (** convexpolygon.cpp:30-42, the constructor from points. *)
  Definition makePolygon (p : list pt) : res polygon :=
    do v <- extractVertices p;
    Ok (polygon_of_vertices v).
End Polygon.
Arguments pt : clear implicits.
Arguments polygon : clear implicits.

(** The same loop when the code is compiled with NDEBUG, where the assertion of line 77 is
    not there. *)
Fixpoint hull_loop_ndebug {K} {SK : Scalar K} {TK : Trig K} (fuel : nat) (points acc : list (pt K))
  (index : nat) : res (list (pt K)) :=
  do start <- getIndexOfLowest points;
  if Nat.eqb index start then Ok (rev acc)
  else
    match fuel with
    | O => OutOfFuel
    | S fuel' =>
        do q <- rd points index;
        let acc' := q :: acc in
        do prev <- rd acc' 1;
        do index' <- getIndexOfSmallestAngle index prev points;
        hull_loop_ndebug fuel' points acc' index'
    end.
(** convexpolygon.cpp:47-84, compiled with NDEBUG. *)
Definition extractVertices_ndebug {K} {SK : Scalar K} {TK : Trig K} (fuel : nat) (points : list (pt K))
  : res (list (pt K)) :=
  match points with
  | [] => Ok []
  | _ =>
      do index <- getIndexOfLowest points;
      do q <- rd points index;
      do index' <- getIndexOfSmallestAngle index (fst q - s1, snd q)%sc points;
      hull_loop_ndebug fuel points [q] index'
  end.
