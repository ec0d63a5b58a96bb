(** Properties of ConvexPolygon: C13, C14, C15, C52. *)

From Coq Require Import Reals List Lra Lia Arith Bool ZArith.
From Verif Require Import Scalar LinAlg LinAlgFacts PolygonModel PolygonFacts HullFacts HullCases.
Import ListNotations.
Local Open Scope R_scope.

(** C13.  The bounds and general constraints of a convex counter clockwise polygon hold at a
    point iff it is on the inner side of every edge. *)
Theorem C13_constraints_are_region : forall v x,
  (forall e, In e (edges v) -> sharp_edge e) -> convex_ccw v -> in_box x ->
  (satisfies (polygon_of_vertices v) x <-> forall e, In e (edges v) -> inner e x).
Proof. exact polygon_constraints. Qed.

(** Without the hypothesis on almost axis aligned edges the claim is false: an edge leaning by
    half the tolerance is replaced by a vertical bound. *)
Theorem C13_leaning_edge_refuted : exists v x,
  convex_ccw v /\ in_box x /\ (forall e, In e (edges v) -> inner e x)
  /\ ~ satisfies (polygon_of_vertices v) x.
Proof.
  exists [(0, 0); (1, 0); (1 + 1/20000, 1); (0, 1)], (1 + 1/20000, 1).
  assert (HE : forall e, In e (edges [(0, 0); (1, 0); (1 + 1/20000, 1); (0, 1)]) ->
    e = ((0,0),(1,0)) \/ e = ((1,0),(1 + 1/20000, 1)) \/ e = ((1 + 1/20000, 1),(0,1)) \/ e = ((0,1),(0,0))).
  { intros e He. cbn in He. intuition (subst; auto 6). }
  split; [|split; [|split]].
  - intros e q He Hq. apply HE in He.
    assert (HQ : q = (0,0) \/ q = (1,0) \/ q = (1 + 1/20000, 1) \/ q = (0,1)).
    { cbn in Hq. intuition (subst; auto 6). }
    unfold inner, pcross, psub.
    destruct He as [->|[->|[->| ->]]]; destruct HQ as [->|[->|[->| ->]]]; cbn [fst snd]; rsimpl; lra.
  - unfold in_box. cbn [fst snd]. rewrite !Rabs_right by lra. lra.
  - intros e He. apply HE in He. unfold inner, pcross, psub.
    destruct He as [->|[->|[->| ->]]]; cbn [fst snd]; rsimpl; lra.
  - intros [[_ H] _]. unfold polygon_of_vertices, computeBounds in H. cbn [pverts] in H.
    change (fun g e => edge_step g (fst e) (snd e)) with cstep in H.
    set (v := [(0, 0); (1, 0); (1 + 1 / 20000, 1); (0, 1)]) in *.
    pose proof (cfold_bounds (edges v) (MkPoly v MAXB (- MAXB)%sc MAXB (- MAXB)%sc [])) as HB.
    cbv zeta in HB. destruct HB as (E1 & _). rewrite E1 in H. clear E1. cbn [xSup fst] in H.
    assert (HK : forall e, In e (edges v) -> kind e = KUp -> fst (fst e) = 1).
    { intros e He Hk. apply HE in He. unfold kind in Hk.
      destruct He as [->|[->|[->| ->]]]; cbn [fst snd] in *; try reflexivity; exfalso; revert Hk;
        repeat match goal with |- context[if ?b then _ else _] => destruct b end; try discriminate; intros _;
        unfold Rabs in *; repeat match goal with H : context[Rcase_abs ?x] |- _ => destruct (Rcase_abs x) end; lra. }
    destruct (last_of_cases KUp fst (edges v) MAXB) as [[_ Hno]|(e' & He' & Hk' & E')].
    + destruct (Hno ((1, 0), (1 + 1/20000, 1))) as [Hx|Hx]; [cbn; auto| |discriminate].
      apply Hx. unfold kind. cbn [fst snd].
      destruct (Rlt_dec (Rabs (1 + 1/20000 - 1)) (1/10000)) as [_|N].
      * destruct (Rlt_dec (1 - 0) 0); [lra|reflexivity].
      * exfalso. apply N. rewrite Rabs_right by lra. lra.
    + rewrite E' in H. rewrite (HK e' He' Hk') in H. lra.
Qed.

Example C13_case : (forall e, In e (edges [(0, 0); (2, 1); (1, 3)]) -> sharp_edge e)
  /\ convex_ccw [(0, 0); (2, 1); (1, 3)] /\ in_box (1, 1).
Proof.
  assert (HE : forall e, In e (edges [(0, 0); (2, 1); (1, 3)]) ->
    e = ((0,0),(2,1)) \/ e = ((2,1),(1, 3)) \/ e = ((1, 3),(0,0))).
  { intros e He. cbn in He. intuition (subst; auto 6). }
  split; [|split].
  - intros e He. apply HE in He. unfold sharp_edge.
    destruct He as [->|[->| ->]]; cbn [fst snd]; split; intros H; exfalso; revert H; unfold Rabs; destruct (Rcase_abs _); lra.
  - intros e q He Hq. apply HE in He.
    assert (HQ : q = (0,0) \/ q = (2,1) \/ q = (1,3)) by (cbn in Hq; intuition (subst; auto 6)).
    unfold inner, pcross, psub. destruct He as [->|[->| ->]]; destruct HQ as [->|[->| ->]]; cbn [fst snd]; rsimpl; lra.
  - unfold in_box. cbn [fst snd]. rewrite Rabs_R1. lra.
Qed.

(** C14.  The vertices are input points and start at a lowest point, up to the tolerance. *)
Theorem C14_vertices_from_input : forall p v q,
  extractVertices p = Ok v -> In q v -> In q p.
Proof.
  intros [|a [|b p]] v q E Hq.
  - injection E as <-. destruct Hq.
  - discriminate.
  - destruct (extractVertices_safe (a :: b :: p)) as [(v' & i & q' & E' & H & _)|E'].
    + cbn. lia.
    + rewrite E in E'. injection E' as ->. apply H. assumption.
    + congruence.
Qed.
Theorem C14_starts_lowest : forall p v,
  p <> [] -> extractVertices p = Ok v ->
  exists q, hd_error v = Some q /\ In q p /\ (forall r, In r p -> snd q < snd r + 1/10000)
    /\ (forall r, In r p -> (forall s, In s p -> snd r <= snd s) -> fst q <= fst r).
Proof.
  intros [|a [|b p]] v Hne E.
  - contradiction.
  - discriminate.
  - destruct (extractVertices_safe (a :: b :: p)) as [(v' & i & q & E' & H & Ei & Eq & Hd)|E'].
    + cbn. lia.
    + rewrite E in E'. injection E' as ->. exists q. split; [assumption|].
      split; [apply nth_error_In in Eq; assumption|].
      destruct (getIndexOfLowest_spec (a :: b :: p)) as (i' & h & Ei' & Hi & Hh & H1 & H2 & H3); [cbn; lia|].
      rewrite Ei in Ei'. injection Ei' as <-. apply nth_error_nth with (d := (0, 0)) in Eq. rewrite Eq in *.
      split.
      * intros r Hr. destruct (@In_nth (pt R) _ _ (0,0) Hr) as (j & Hj & <-). specialize (H1 j Hj). lra.
      * intros r Hr Hmin. destruct (@In_nth (pt R) _ _ (0,0) Hr) as (j & Hj & <-).
        apply H3; [assumption|]. apply Rle_antisym; [|apply H1; assumption].
        apply Hmin. apply nth_In. assumption.
    + congruence.
Qed.
Theorem C14_empty : extractVertices (@nil (pt R)) = Ok [].
Proof. reflexivity. Qed.
(** The rule "lowest" is not exact: the first vertex can be above another point. *)
Theorem C14_lowest_only_up_to_tolerance : exists p q r i,
  getIndexOfLowest p = Ok i /\ nth_error p i = Some q /\ In r p /\ snd r < snd q.
Proof.
  exists [(1, 0); (0, 1/20000)], (0, 1/20000), (1, 0), 1%nat. split; [|cbn; repeat split; auto; lra].
  unfold getIndexOfLowest. cbn [length Nat.sub seq foldM]. unfold low_step. cbn [rd nth_error bind fst snd].
  rewrite !sabs_Rabs. rsimpl. rewrite Rminus_0_r, Rabs_right by lra. rlt lra. rlt lra.
  cbn [bind app rd nth_error length Nat.ltb Nat.leb tl foldM]. unfold left_step. cbn [bind rd nth_error fst snd].
  rsimpl. rlt lra. reflexivity.
Qed.
Example C14_case : exists v, extractVertices (map zinj box_points) = Ok v /\ v <> [].
Proof.
  destruct (hull_correct (map zinj box_points)) as (v & E & H & _).
  - cbn. lia.
  - exact box_separated.
  - exists v. split; [assumption|]. intros ->. cbn in H. lia.
Qed.

(** C15.  With two points or more the extraction never reads out of range and always ends
    (by returning, or by its own assertion), whatever the scalar type and angle function. *)
Theorem C15_safe_and_terminating : forall (K : Type) (SK : Scalar K) (TK : Trig K) (p : list (pt K)),
  (2 <= length p)%nat -> (exists v, extractVertices p = Ok v) \/ extractVertices p = Abort.
Proof.
  intros K SK TK p Hp. destruct (extractVertices_safe p Hp) as [(v & i & q & E & _)|E].
  - left. exists v. assumption.
  - right. assumption.
Qed.
(** One point: index 1 of a one element vector is read. *)
Theorem C15_one_point_refuted : exists p : list (pt R), p <> [] /\ extractVertices p = UB.
Proof. exists [(0, 0)]. split; [discriminate|]. apply extractVertices_one. Qed.
(** The assertion can fail; without assertions the loop then never ends. *)
Theorem C15_assertion_fails_refuted : exists p : list (pt R), (2 <= length p)%nat /\ extractVertices p = Abort.
Proof. exists tiny_points. split; [cbn; lia|]. apply tiny_abort. Qed.
Theorem C15_release_build_refuted : exists p : list (pt R),
  (2 <= length p)%nat /\ forall fuel, extractVertices_ndebug fuel p = OutOfFuel.
Proof. exists tiny_points. split; [cbn; lia|]. apply tiny_diverges. Qed.
(** When the points are separated, it returns. *)
Theorem C15_returns : forall p : list (pt R),
  (2 <= length p)%nat -> separated p -> exists v, extractVertices p = Ok v.
Proof. intros p Hp Hs. destruct (hull_correct p Hp Hs) as (v & E & _). exists v. assumption. Qed.

(** C52.  The polygon built from a set of points is their convex hull. *)
Theorem C52_encloses : forall p,
  (2 <= length p)%nat -> separated p ->
  exists v, extractVertices p = Ok v /\ NoDup v /\ (forall q, In q v -> In q p)
    /\ convex_ccw v /\ (forall e q, In e (edges v) -> In q p -> inner e q).
Proof.
  intros p Hp Hs. destruct (hull_correct p Hp Hs) as (v & E & _ & Hd & Hi & He).
  exists v. repeat split; try assumption. intros e q Hin Hq. apply He; [assumption|apply Hi; assumption].
Qed.
Theorem C52_hull_exact : forall p,
  (2 <= length p)%nat -> separated p -> ~ collinear p ->
  exists v, extractVertices p = Ok v /\ (3 <= length v)%nat
    /\ forall x, (forall e, In e (edges v) -> inner e x) <-> in_hull p x.
Proof. exact hull_exact. Qed.
(** From points to constraints: what the walk generators use. *)
Lemma pverts_fold es : forall g : polygon R,
  pverts (fold_left (fun g e => edge_step g (fst e) (snd e)) es g) = pverts g.
Proof.
  induction es as [|e es IH]; intros g; [reflexivity|]. cbn [fold_left]. rewrite IH.
  unfold edge_step. repeat (match goal with |- context[if ?b then _ else _] => destruct b end); reflexivity.
Qed.
Theorem C52_constraints_are_hull : forall p g x,
  (2 <= length p)%nat -> separated p -> ~ collinear p ->
  makePolygon p = Ok g -> (forall e, In e (edges (pverts g)) -> sharp_edge e) -> in_box x ->
  (satisfies g x <-> in_hull p x).
Proof.
  intros p g x Hp Hs Hc Hg Hsharp Hb.
  destruct (hull_exact p Hp Hs Hc) as (v & E & _ & Hv).
  destruct (C52_encloses p Hp Hs) as (v' & E' & _ & _ & Hcc & _).
  rewrite E in E'. injection E' as <-.
  unfold makePolygon in Hg. rewrite E in Hg. cbn [bind] in Hg. injection Hg as <-.
  assert (Ev : pverts (polygon_of_vertices v) = v) by (unfold polygon_of_vertices, computeBounds; rewrite pverts_fold; reflexivity).
  rewrite Ev in Hsharp. rewrite (polygon_constraints v x Hsharp Hcc Hb). apply Hv.
Qed.
Example C52_case : separated (map zinj box_points) /\ ~ collinear (map zinj box_points)
  /\ exists g, makePolygon (map zinj box_points) = Ok g /\ (forall e, In e (edges (pverts g)) -> sharp_edge e).
Proof.
  split; [exact box_separated|]. split; [exact box_not_collinear|].
  destruct (C52_encloses (map zinj box_points)) as (v & E & Hd & Hi & Hcc & _); [cbn; lia|exact box_separated|].
  unfold makePolygon. rewrite E. cbn [bind]. eexists. split; [reflexivity|].
  intros e He. unfold polygon_of_vertices, computeBounds in He. rewrite pverts_fold in He. cbn [pverts] in He.
  assert (Ha : In (fst e) v) by (apply edges_fst; assumption).
  assert (Hb : In (snd e) v).
  { destruct v as [|q l]; [destruct He|]. cbn [edges] in He. destruct e as [a b]. apply in_combine_r in He.
    apply in_app_or in He as [He|[<-|[]]]; [right; assumption|left; reflexivity]. }
  assert (Hne : fst e <> snd e).
  { intros En. destruct v as [|q l]; [destruct He|]. cbn [edges] in He. apply edges_cases in He as [(pre & suf & Ep)|(Eq & pre & Ep)].
    - rewrite Ep, En in Hd. apply NoDup_remove_2 in Hd. apply Hd, in_or_app. right. left. reflexivity.
    - rewrite <- En in Eq. rewrite Eq in Ep. destruct l as [|q2 l].
      + assert (Hlen : exists a b, In a [q] /\ In b [q] /\ a <> b) by
          (destruct (hull_correct (map zinj box_points)) as (v & E2 & Hl & _); [cbn; lia|exact box_separated|];
           rewrite E in E2; injection E2 as <-; cbn in Hl; lia).
        destruct Hlen as (a & b & [<-|[]] & [<-|[]] & Hab). contradiction.
      + destruct pre as [|q' pre]; [discriminate|]. cbn [app] in Ep. injection Ep as <- Ep. inversion Hd; subst.
        apply H1. rewrite Ep. apply in_or_app. right. left. reflexivity. }
  apply Hi in Ha. apply Hi in Hb. cbn [map box_points In] in Ha, Hb. unfold zinj in Ha, Hb. cbn [fst snd] in Ha, Hb.
  assert (Hint : exists a b c d : Z, e = ((IZR a, IZR b), (IZR c, IZR d))).
  { destruct e as [[x y] [z w]]. cbn [fst snd] in *.
    intuition; repeat match goal with H : (_, _) = (_, _) |- _ => injection H as <- <- end; do 4 eexists; reflexivity. }
  destruct Hint as (a & b & c & d & ->). unfold sharp_edge. cbn [fst snd] in *.
  rewrite <- !minus_IZR, <- !abs_IZR.
  assert (Hsm : forall z, IZR (Z.abs z) < 1/10000 -> z = 0%Z).
  { intros z Hz. destruct (Z.eq_dec z 0) as [|Hz0]; [assumption|]. assert (1 <= Z.abs z)%Z by lia. apply IZR_le in H. lra. }
  split; intros Hz; apply Hsm in Hz; rewrite Hz; (split; [reflexivity|]); intros H0; apply eq_IZR in H0; apply Hne; f_equal; f_equal; lia.
Qed.
(** Two violations.  Repeated points: the polygon comes out clockwise and leaves input points
    outside.  Points on a line: the constraints describe the whole line. *)
Theorem C52_repeated_point_refuted : exists p v e q,
  (2 <= length p)%nat /\ extractVertices p = Ok v /\ In e (edges v) /\ In q p /\ ~ inner e q.
Proof.
  exists (map zinj dup_points), (map zinj [(0, 0); (0, 0); (-6, 8); (4, 3)]%Z),
    (zinj (0, 0)%Z, zinj (-6, 8)%Z), (zinj (4, 3)%Z).
  split; [cbn; lia|]. split; [apply dup_extract|]. split; [cbn; auto|]. split; [cbn; auto|].
  unfold inner. cbn [fst snd]. rewrite !zinj_sub, zinj_cross. cbn. lra.
Qed.
Theorem C52_collinear_refuted : exists p g x,
  (2 <= length p)%nat /\ separated p /\ makePolygon p = Ok g /\ in_box x /\ satisfies g x /\ ~ in_hull p x.
Proof.
  set (zs := [(0, 0); (3, 4)]%Z). set (p := map zinj zs).
  assert (Hs : separated p) by (apply zsep_ok; vm_compute; reflexivity).
  destruct (C52_encloses p) as (v & E & Hd & Hi & Hcc & _); [cbn; lia|assumption|].
  exists p, (polygon_of_vertices v), (6, 8). split; [cbn; lia|]. split; [assumption|].
  split; [unfold makePolygon; rewrite E; reflexivity|].
  assert (Hb : in_box (6, 8)) by (unfold in_box; cbn [fst snd]; rewrite !Rabs_right by lra; lra).
  split; [assumption|].
  assert (Hp : forall q, In q v -> q = (0, 0) \/ q = (3, 4)).
  { intros q Hq. apply Hi in Hq. cbn in Hq. intuition. }
  assert (Hlen : (2 <= length v)%nat).
  { destruct (hull_correct p) as (v2 & E2 & Hl & _); [cbn; lia|assumption|]. rewrite E in E2. injection E2 as <-. assumption. }
  assert (HE : forall e, In e (edges v) -> e = ((0,0),(3,4)) \/ e = ((3,4),(0,0))).
  { destruct v as [|a [|b v]]; cbn in Hlen; try lia.
    assert (Hnil : v = []).
    { destruct v as [|c v]; [reflexivity|exfalso].
      assert (Ha := Hp a (or_introl eq_refl)). assert (Hb' := Hp b (or_intror (or_introl eq_refl))).
      assert (Hc := Hp c (or_intror (or_intror (or_introl eq_refl)))).
      inversion Hd as [|? ? N1 Hd2]; subst. inversion Hd2 as [|? ? N2 _]; subst.
      destruct Ha as [->| ->]; destruct Hb' as [->| ->]; destruct Hc as [->| ->]; cbn in N1, N2; tauto. }
    subst v. inversion Hd as [|? ? N1 _]; subst.
    assert (Ha := Hp a (or_introl eq_refl)). assert (Hb' := Hp b (or_intror (or_introl eq_refl))).
    intros e He. cbn in He.
    destruct Ha as [->| ->]; destruct Hb' as [->| ->]; cbn in N1; try tauto; intuition (subst; auto). }
  split.
  - apply polygon_constraints; try assumption.
    + intros e He. apply HE in He. unfold sharp_edge.
      destruct He as [->| ->]; cbn [fst snd]; split; intros H; exfalso; revert H; unfold Rabs; destruct (Rcase_abs _); lra.
    + intros e He. apply HE in He. unfold inner, pcross, psub. destruct He as [->| ->]; cbn [fst snd]; rsimpl; lra.
  - intros H. specialize (H (fun q => fst q <= 3)). cbn [fst] in H.
    assert (6 <= 3); [|lra]. apply H.
    + intros a b t Ha Hb' Ht. cbn [fst]. nra.
    + intros q Hq. cbn [p zs map In] in Hq. destruct Hq as [<-|[<-|[]]]; unfold zinj; cbn [fst snd]; lra.
Qed.

Print Assumptions C13_constraints_are_region.
Print Assumptions C13_leaning_edge_refuted.
Print Assumptions C14_vertices_from_input.
Print Assumptions C14_starts_lowest.
Print Assumptions C14_empty.
Print Assumptions C14_lowest_only_up_to_tolerance.
Print Assumptions C15_safe_and_terminating.
Print Assumptions C15_one_point_refuted.
Print Assumptions C15_assertion_fails_refuted.
Print Assumptions C15_release_build_refuted.
Print Assumptions C15_returns.
Print Assumptions C52_encloses.
Print Assumptions C52_hull_exact.
Print Assumptions C52_constraints_are_hull.
Print Assumptions C52_repeated_point_refuted.
Print Assumptions C52_collinear_refuted.
