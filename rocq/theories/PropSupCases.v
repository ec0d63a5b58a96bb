(** Concrete runs of the feet supervisor: cases that meet the hypotheses of the theorems of PropSup,
    PropGait and PropSteps, and runs that violate the unrestricted claims.

    The runs are executed on the same polymorphic model, instantiated with the rationals, so that they
    can be computed exactly; they use only public calls.  No run uses the angles. *)

From Coq Require Import Reals List ZArith QArith Arith Bool Lra Lia.
From Verif Require Import Scalar LinAlg LinAlgFacts ToolsModel InterpModel PolygonModel PolygonFacts HullFacts HullCases FootModel LipModel ModelsFacts
  SupModel SupSpec SupFacts SupTime SupWalk PropTools PropPolygon PropSup PropGait PropSteps.
Import ListNotations.

Section Runs.
Context (TQ : Trig Q).
Local Open Scope Q_scope.

(** One feedback cycle of the walk generator in which the quadratic program leaves the decision vector
    as it is (see [SupSpec.cycle]). *)
Definition qcycle (fb : Q) (mv : bool) (q : sup Q * vec Q) : res (sup Q * vec Q) :=
  do q1 <- s_updateTimeline (snd q) fb (s_setMove mv (fst q));
  let '(s1, v1) := q1 in
  do s2 <- s_updateFeetStates (vseg v1 (2 * sN s1) (2 * snb s1)) fb s1;
  Ok (s2, v1).
Fixpoint qcycles (fb : Q) (l : list bool) (q : sup Q * vec Q) : res (sup Q * vec Q) :=
  match l with [] => Ok q | b :: r => do q' <- qcycle fb b q; qcycles fb r q' end.
Definition qkin (up : bool) : polygon Q :=
  polygon_of_vertices (if up then [(-1#10, 1#10); (1#10, 1#10); (1#10, 3#10); (-1#10, 3#10)] else [(-1#10, -3#10); (1#10, -3#10); (1#10, -1#10); (-1#10, -1#10)]).
Definition qstart (N : nat) (T : Q) (a b : Z) (v : vec Q) : res (sup Q * vec Q) :=
  do s <- newSup N T;
  do s <- ssteps [SSetKin SLeft (qkin false); SSetKin SRight (qkin true); SSetStepPeriod (inject_Z a * T); SSetDSLength (inject_Z b * T); SSetMaxHeight SLeft (1#10); SSetMaxHeight SRight (1#10)] s;
  Ok (s, v).
Definition qwalk (N : nat) (T : Q) (a b : Z) (fb : Q) (l : list bool) : res (sup Q * vec Q) :=
  do q <- qstart N T a b (vzero (2 * N)); qcycles fb l q.

(** A walk on which the theorems of PropSup, PropGait and PropSteps say something: after four cycles the
    robot is in the middle of its first step and three steps are previewed... *)
Example C29_run_case : match qwalk 6 1 2 1 (1#2) (repeat true 4) with
  | Ok (s, v) => map phType (cbl (stl s)) = [LeftSS; RightSS; LeftSS; RightSS] /\ snb s = 3%nat /\ vlen v = 18%nat
                 /\ list_of_vec (selV0 (ssel s)) = [1; 0; 0; 0; 0; 0]%Z
                 /\ list_of_mat (selV (ssel s)) = [[0; 0; 0]; [1; 0; 0]; [1; 0; 0]; [0; 1; 0]; [0; 1; 0]; [0; 0; 1]]%Z
                 /\ list_of_vec (selIdx (ssel s)) = [0; 1; 1; 2; 2; 3]%nat
                 /\ sttnp s = 1 /\ list_of_vec (sstepVec s) = [0; 0; 0; -1#5; 0; -1#5]
  | _ => False end.
Proof. vm_compute. repeat split. Qed.
(** ... at the end of the step the flying foot has landed at (0, -1/5)... *)
Example C53_run_case : match qwalk 6 1 2 1 (1#2) (repeat true 6) with
  | Ok (s, v) => map phType (cbl (stl s)) = [LeftSS; RightSS; LeftSS; RightSS] /\ sttnp s = 0
                 /\ map Qred (list_of_vec (fsy (sright s))) = [-1#5; 0; 0] /\ map Qred (list_of_vec (fsz (sright s))) = [0; 0; 0]
                 /\ list_of_vec (fsy (sleft s)) = [0; 0; 0]
  | _ => False end.
Proof. vm_compute. repeat split. Qed.
(** ... and after a stop request it stands in double support. *)
Example C28_run_case : match qwalk 6 1 2 1 (1#2) (repeat true 6 ++ repeat false 5) with
  | Ok (s, v) => forallb (fun p => is_DS (phType p)) (cbl (stl s)) = true /\ snb s = 0%nat /\ vlen v = 12%nat
  | _ => False end.
Proof. vm_compute. repeat split. Qed.

(** C26: with a feedback period of 30 ms and a sampling period of 100 ms, three cycles after the start
    the number of calls is 0, and the walk generator reads the dynamics number -1. *)
Theorem C26_period_not_dividing_refuted : exists s v s1 v1,
  qwalk 4 (1#10) 2 2 (3#100) (repeat true 3) = Ok (s, v) /\ s_updateTimeline v (3#100) s = Ok (s1, v1)
  /\ s_getNbOfCallsBeforeNextSample s1 = Ok 0%Z.
Proof. eexists _, _, _, _. split; [vm_compute; reflexivity|]. split; [vm_compute; reflexivity|]. vm_compute. reflexivity. Qed.
(** C31: with an initial double support of length 0, accepted by the setter, the timeline is read after
    its last element has been removed. *)
Theorem C31_empty_timeline_refuted : exists s s',
  newSup 4 1 = Ok s /\ s_setInitialDoubleSupportLength 0 s = Ok s' /\ s_updateTimeline (vzero 8) (1#2) s' = UB.
Proof. eexists _, _. split; [reflexivity|]. split; [vm_compute; reflexivity|]. vm_compute. reflexivity. Qed.
(** C32: the walk is started and stopped again during the initial double support; two entries too many
    remain in the decision vector although no step is previewed. *)
Theorem C32_stop_in_double_support_refuted : exists s v,
  qwalk 4 1 2 2 (1#2) [true; false] = Ok (s, v) /\ snb s = 0%nat /\ vlen v = (2 * sN s + 2 * snb s + 2)%nat.
Proof. eexists _, _. split; [vm_compute; reflexivity|]. split; reflexivity. Qed.
(** C33: with steps longer than the horizon, the first step added during a single support is placed
    relatively to the last CoP entry of the decision vector (13), not to the support foot, which is at
    (0, 0); its y coordinate is computed from its x coordinate. *)
Theorem C33_step_added_in_single_support_refuted : exists s v,
  (do q <- qstart 2 1 3 1 (MkVec 4 (fun j => 10 + inject_Z (Z.of_nat j))); qcycles 1 (repeat true 3) q) = Ok (s, v)
  /\ map phType (cbl (stl s)) = [LeftSS; RightSS] /\ snb s = 1%nat
  /\ list_of_vec (fsx (sleft s)) = [0; 0; 0] /\ list_of_vec (fsy (sleft s)) = [0; 0; 0]
  /\ list_of_vec v = [10; 11; 12; 13; 13; 64#5].
Proof. eexists _, _. split; [vm_compute; reflexivity|]. vm_compute. repeat split. Qed.
(** C35: with a single sample the first weight is overwritten by the last one. *)
Theorem C35_single_sample_refuted : exists s s' v',
  newSup 1 1 = Ok s /\ s_updateTimeline (vzero 2) 1 s = Ok (s', v')
  /\ list_of_mat (selW (ssel s')) = [[1#20]].
Proof. eexists _, _, _. split; [reflexivity|]. split; [vm_compute; reflexivity|]. vm_compute. reflexivity. Qed.
(** C53: with steps of two sampling periods and one feedback period per sampling period the foot does
    not land: at the end of its first step it is at the height 11/20, at the end of the second at -22/5,
    although its maximal height is 1/10. *)
Theorem C53_foot_does_not_land_refuted : exists s1 v1 s2 v2,
  qwalk 4 1 2 1 1 (repeat true 3) = Ok (s1, v1) /\ qwalk 4 1 2 1 1 (repeat true 7) = Ok (s2, v2)
  /\ sttnp s1 = 0 /\ sttnp s2 = 0 /\ fmaxHeight (sright s2) = 1#10
  /\ Qred (vget (fsz (sright s1)) 0) = 11#20 /\ Qred (vget (fsz (sright s2)) 0) = -22#5.
Proof. eexists _, _, _, _. split; [vm_compute; reflexivity|]. split; [vm_compute; reflexivity|]. vm_compute. repeat split. Qed.
End Runs.

(** ** Cases over the reals *)
Section Cases.
Context {TK : Trig R}.
Local Open Scope R_scope.
Definition rkin : polygon R := polygon_of_vertices [(-1, 1); (1, 1); (1, 3); (-1, 3)].
Lemma rkin_verts : pverts rkin = [(-1, 1); (1, 1); (1, 3); (-1, 3)].
Proof. unfold rkin, polygon_of_vertices, computeBounds. rewrite pverts_fold. reflexivity. Qed.
(** A supervisor that meets the hypotheses of the theorems on walks. *)
Example C31_case : exists s, configured s (vzero 12) 2 2 2 (1/2) /\ sN s = 6%nat /\ sT s = 1.
Proof.
  unfold newSup, newFoot.
  assert (H : exists s0, newSup 6 1 = Ok s0 /\ sN s0 = 6%nat /\ sT s0 = 1 /\ sstep s0 = 2 /\ sDS s0 = 2).
  { unfold newSup, newFoot. cbn [Nat.ltb Nat.leb guard bind]. change (sleb s0 1) with (Rleb 0 1). change (sltb s0 1) with (Rltb 0 1).
    destruct (Rleb_spec 0 1) as [_|L]; [|lra]. try (destruct (Rltb_spec 0 1) as [_|L]; [|lra]). cbn [guard bind]. eexists. split; [reflexivity|]. cbn [sN sT sstep sDS]. rsimpl. repeat split; lra. }
  destruct H as (s0 & E & HN & HT & Hst & HD).
  set (s := s_setKinematicConvexPolygon SRight rkin (s_setKinematicConvexPolygon SLeft rkin s0)).
  exists s. split; [|split; [exact HN|exact HT]].
  assert (HE : EPS < 1/2) by (rsimpl; lra).
  split; try exact HE; try lia.
  - exists 6%nat, 1, s0, [SSetKin SLeft rkin; SSetKin SRight rkin]. split; [exact E|]. split; [repeat constructor|reflexivity].
  - change (sT s) with (sT s0). rewrite HT. cbn [INR]. lra.
  - change (sN s) with (sN s0). lia.
  - change (sstep s) with (sstep s0). change (sT s) with (sT s0). rewrite Hst, HT. cbn [INR]. lra.
  - change (sDS s) with (sDS s0). change (sT s) with (sT s0). rewrite HD, HT. cbn [INR]. lra.
  - split; cbn; change (pverts rkin <> []); rewrite rkin_verts; discriminate.
  - change (sN s) with (sN s0). rewrite HN. reflexivity.
Qed.
(** Any history of moves and stops of such a walk gives a state for the theorems on one update. *)
Definition plain (mv : bool) : action := MkAction [] mv (fun w => w).
Lemma plain_allowed l : Forall allowed (map plain l).
Proof. induction l as [|b l IH]; cbn [map]; constructor; [split; [constructor|reflexivity]|exact IH]. Qed.
Example C29_ready_case : forall l : list bool, exists s v tn S0, ready s v tn S0 /\ sN s = 6%nat /\ smove s = true
  /\ exists s0, configured s0 (vzero 12) 2 2 2 (1/2) /\ exists s', cycles (1/2) (map plain l) (s0, vzero 12) = Ok (s', v) /\ s = s_setMove true s'.
Proof.
  intros l. destruct C31_case as (s0 & C & HN & _). destruct (C31_walk_never_fails _ _ _ _ _ _ _ C (plain_allowed l)) as (s' & v' & E & _ & Hm).
  destruct (Hm true) as (tn & S0 & s1 & v1 & Rd & _). exists (s_setMove true s'), v', tn, S0. split; [exact Rd|].
  destruct (walk_states _ _ _ _ _ _ _ C (plain_allowed l)) as (s2 & v2 & f & i & m & k & E2 & W). rewrite E in E2. injection E2 as <- <-.
  split; [cbn [sN s_setMove]; rewrite (w_N _ _ _ _ _ _ _ _ _ _ _ W); exact HN|]. split; [reflexivity|]. exists s0. split; [exact C|]. exists s'. auto.
Qed.
Example C27_case : exists s : sup R, reachable s /\ smove s = true /\ exists v fb s' v', s_updateTimeline v fb s = Ok (s', v').
Proof.
  destruct C31_case as (s & C & _). pose proof C as [(N & T & s0 & cs & H0 & Hcs & Hs) _ _ _ _ _ _ _ _ _].
  exists (s_setMove true s). split.
  - exists N, T, s0, (cs ++ [SSetMove true]). split; [exact H0|]. clear -Hs. revert s0 Hs. induction cs as [|c cs IH]; intros s0 Hs; cbn [app ssteps] in *.
    + injection Hs as ->. reflexivity.
    + apply bind_ok in Hs. destruct Hs as (s1 & E & Hs). rewrite E. cbn [bind]. apply IH. exact Hs.
  - split; [reflexivity|]. destruct (C31_walk_never_fails _ _ _ _ _ _ [] C (Forall_nil _)) as (s' & v' & E & _ & Hm). injection E as <- <-.
    destruct (Hm true) as (_ & _ & s1 & v1 & _ & E1). exists (vzero 12), (1/2), s1, v1. exact E1.
Qed.
(** The middle of the bounding box of a kinematic polygon of the robot. *)
Example C33_case : enclosed (pverts rkin) (midX rkin, midY rkin).
Proof. apply box_middle_enclosed. rewrite rkin_verts. discriminate. Qed.
End Cases.

(** Standing on the two feet, the right one 3 below the left one, with the CoP relative to the left
    foot (the walk is about to start). *)
Local Open Scope R_scope.
Example C54_case : exists s p L Rt O g,
  nth_error (cbl (stl s)) 0 = Some p /\ ds_feet s (phType p) L Rt O /\ s_computeDSCopConvexPolygon s = Ok g /\ L <> Rt
  /\ let rel := map (fun q => (fst q - fst O, snd q - snd O)) (at_pos L (fcop (sleft s)) ++ at_pos Rt (fcop (sright s))) in
     (2 <= length rel)%nat /\ separated rel /\ ~ collinear rel /\ (forall e, In e (edges (pverts g)) -> sharp_edge e).
Proof.
  destruct C52_case as (Hs & Hc & g & Hg & Hsh).
  set (lp := polygon_of_vertices (map zinj (firstn 3 box_points))).
  set (rp := polygon_of_vertices (map (fun q => (fst q, snd q + 3)) (map zinj (skipn 3 box_points)))).
  set (l := f_setCopConvexPolygon lp (f_init 4 1)).
  set (r := f_setCopConvexPolygon rp (f_setStateY (MkVec 3 (fun i => if Nat.eqb i 0 then -3 else 0)) (f_init 4 1))).
  set (s := MkSup 4 1 1 l r 0 2 2 2 true (vzero 0) (MkCb [MkPhase DS 2] 1) noSel : sup R).
  exists s, (MkPhase DS 2), (0, 0), (0, -3), (0, 0), g. split; [reflexivity|]. split; [cbn; repeat split; reflexivity|].
  assert (El : at_pos (0, 0) (fcop (sleft s)) = map zinj (firstn 3 box_points)).
  { unfold at_pos. change (fcop (sleft s)) with lp. unfold lp, polygon_of_vertices, computeBounds. rewrite pverts_fold. cbn [pverts].
    rewrite map_map. apply map_ext. intros q. cbn [fst snd]. unfold zinj. cbn [fst snd]. f_equal; ring. }
  assert (Er : at_pos (0, -3) (fcop (sright s)) = map zinj (skipn 3 box_points)).
  { unfold at_pos. change (fcop (sright s)) with rp. unfold rp, polygon_of_vertices, computeBounds. rewrite pverts_fold. cbn [pverts].
    rewrite !map_map. apply map_ext. intros q. unfold zinj. cbn [fst snd]. f_equal; ring. }
  assert (Erel : map (fun q => (fst q - fst (0, 0), snd q - snd (0, 0))) (at_pos (0, 0) (fcop (sleft s)) ++ at_pos (0, -3) (fcop (sright s))) = map zinj box_points).
  { rewrite El, Er, <- map_app, firstn_skipn, map_map. apply map_ext. intros q. unfold zinj. cbn [fst snd]. f_equal; ring. }
  cbn zeta. rewrite Erel. split; [|split; [intros E; injection E; lra|split; [cbn; lia|auto]]].
  assert (E : s_computeDSCopConvexPolygon s = makePolygon (shiftPoly lp (psub (0, 0) (0, 0)) ++ shiftPoly rp (psub (0, -3) (0, 0)))) by reflexivity.
  rewrite E, <- Hg, <- Erel. f_equal. rewrite map_app. unfold at_pos, shiftPoly. rewrite !map_map. change (fcop (sleft s)) with lp. change (fcop (sright s)) with rp.
  f_equal; apply map_ext; intros q; unfold psub; cbn [fst snd]; rsimpl_goal; f_equal; ring.
Qed.

Print Assumptions C26_feedback_index_in_range. Print Assumptions C26_period_not_dividing_refuted.
Print Assumptions C27_timeline_alternates. Print Assumptions C27_never_the_same_foot_twice. Print Assumptions C27_executed_phase_changes. Print Assumptions C27_plan_keeps_walking.
Print Assumptions C28_stop_is_planned. Print Assumptions C28_stopping_stays. Print Assumptions C28_stop_is_reached.
Print Assumptions C29_one_support_per_sample. Print Assumptions C30_timeline_covers_horizon.
Print Assumptions C31_walk_never_fails. Print Assumptions C31_empty_timeline_refuted.
Print Assumptions C32_size_after_update. Print Assumptions C32_walk_size_exact. Print Assumptions C32_stop_in_double_support_refuted.
Print Assumptions C33_steps_kept_and_added. Print Assumptions C33_enclosed_respects_constraints. Print Assumptions C33_step_added_in_single_support_refuted.
Print Assumptions C34_support_foot_never_moves. Print Assumptions C34_other_calls_move_nothing.
Print Assumptions C35_sample_weights. Print Assumptions C35_single_sample_refuted.
Print Assumptions C53_foot_lands. Print Assumptions C53_foot_reaches_height. Print Assumptions C53_walk_feet_land. Print Assumptions C53_one_sample_steps_never_move. Print Assumptions C53_foot_does_not_land_refuted.
Print Assumptions C54_double_support_polygon.
