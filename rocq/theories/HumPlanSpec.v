(** Specification side of property C72: when a humanoid walk generator, with its models up to date, has an
    admissible motion. *)

From Coq Require Import Reals List ZArith Arith Bool.
From Verif Require Import Scalar LinAlg ToolsModel PolygonModel PolygonFacts QPModel LipModel FootModel SupModel HumModel HumSpec HumOptSpec.
Import ListNotations.
Local Open Scope R_scope.

Section Spec.
Context {TK : Trig R}.

(** A polygon made of its vertices, in order and counter clockwise, none of them being further than 5 km, and whose sides
    are either exactly along the axes or clearly not (see C13). *)
Definition good_polygon (p : polygon R) : Prop :=
  exists v, p = polygon_of_vertices v /\ v <> [] /\ convex_ccw v /\ (forall e, In e (edges v) -> sharp_edge e)
    /\ forall q, In q v -> Rabs (fst q) <= 5000 /\ Rabs (snd q) <= 5000.
(** So are all those that constrain the motion. *)
Definition good_polygons (h : hum R) : Prop :=
  (hcopC h = true -> forall i p, (i < lN (hlip h))%nat -> s_getCopConvexPolygon i (hsup h) = Ok p -> good_polygon p)
  /\ (hfeetC h = true -> forall k p, (k < snb (hsup h))%nat -> s_getKinematicConvexPolygon k (hsup h) = Ok p -> good_polygon p).
(** The plan the solver starts from and the support foot are not further than 10 km.  (The problem uses 10^11 where
    it has no bound.) *)
Definition ordinary (h : hum R) (fx fy : R) : Prop :=
  (forall j, (j < 2 * lN (hlip h) + 2 * snb (hsup h))%nat -> Rabs (vget (hX h) j) <= 10000) /\ Rabs fx <= 10000 /\ Rabs fy <= 10000.
(** If the steps are constrained, then the kinematic polygons are rectangles, or every step of the present plan,
    but possibly the last one, is within reach of the one before. *)
Definition can_step (h : hum R) (fx fy : R) : Prop :=
  hfeetC h = true ->
    (forall k p, (k < snb (hsup h))%nat -> s_getKinematicConvexPolygon k (hsup h) = Ok p -> pgen p = [])
    \/ (let N := lN (hlip h) in let M := snb (hsup h) in let X := vget (hX h) in
        forall k p, (S k < M)%nat -> s_getKinematicConvexPolygon k (hsup h) = Ok p ->
          satisfies p (dStepX N X k - from_step fx (dStepX N X) k, dStepY N M X k - from_step fy (dStepY N M X) k)).
End Spec.
