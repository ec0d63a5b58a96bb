(** Property C74: the Zebulon walk generator behaves the same way wherever the robot is. *)

From Coq Require Import Reals List ZArith Lra Lia Arith Bool FunctionalExtensionality.
From Verif Require Import Scalar LinAlg LinAlgFacts ToolsModel ToolsSpec ToolsFacts NoDynModel PolygonModel HullFacts
  QPModel QPFacts TrajModel TrajFacts LipModel BaseModel ModelsSpec ModelsFacts ZebModel HumAlg ZebAlg ZebSpec ZebFacts
  ZebObj ZebTilt ZebProb ZebCon ZebLive ZebCalls ZebInv ZebView ZebDemo PropZeb PropZebCalls PropZebCases ShiftSpec ZebShiftSpec ZebShift.
Import ListNotations.
Local Open Scope R_scope.

Lemma counted_kept c z hb cl z' : zreach z hb cl -> base_counted z -> heavy_base c -> zstep c z = Ok z' -> base_counted z'.
Proof.
  intros Z B W H. pose proof (step_effect z hb cl (reach_zinv _ _ _ Z) c z' H) as E. unfold zeffect in E. unfold view_of at 1 in E. cbv iota beta zeta in E.
  assert (P : forall v, view_of z' = v -> pm (vb v) = bm (zb z) -> base_counted z')
    by (intros v E1 E2; unfold base_counted in *; replace (bm (zb z')) with (bm (zb z)); [exact B|]; rewrite <- E2, <- E1; reflexivity).
  destruct c; try (apply (P _ E); reflexivity); try (destruct E as (q & _ & E); apply (P _ E); reflexivity).
  - right. cbn [heavy_base] in W. pose proof (f_equal (fun v => pm (vb v)) E) as Q. cbn in Q. rewrite Q. exact W.
  - destruct E as (r & E & _). apply (P _ E). reflexivity.
Qed.

(** ** C74 *)
(** The robot (its base, its body and the position it is asked to go to) is moved by (a, b): the solver is
    given the very same problem, hence returns the same flag and the same jerks, and the motion is the same,
    moved by (a, b). *)
Theorem C74_same_problem_anywhere : forall a b z hb cl, zreach z hb cl -> base_counted z ->
  z_problem (elsewhere a b z) = z_problem z
  /\ forall o f, z_solve o f (elsewhere a b z) = outcome_map (fun r => (fst r, elsewhere a b (snd r))) (z_solve o f z).
Proof.
  intros a b z hb cl Z B. pose proof (proj1 (reach_zinv _ _ _ Z)) as O. split; [exact (problem_same a b z hb cl O B)|].
  intros o f. exact (solve_elsewhere a b o f z hb cl O B).
Qed.
(** So for any history of calls: the same one, with the positions it gives moved by (a, b), has the same
    outcome (it returns, or fails in the same way) and leaves the same generator, moved by (a, b). *)
Theorem C74_histories_anywhere : forall a b cs z hb cl, zreach z hb cl -> base_counted z -> Forall heavy_base cs ->
  zsteps (map (elsewhere_call a b) cs) (elsewhere a b z) = outcome_map (elsewhere a b) (zsteps cs z).
Proof.
  intros a b cs. induction cs as [|c cs IH]; intros z hb cl Z B W; [reflexivity|]. cbn [map zsteps]. inversion_clear W as [|? ? W1 W2].
  rewrite (step_elsewhere a b c z hb cl (proj1 (reach_zinv _ _ _ Z)) B), bind_map, map_bind. apply bind_same. intros y Hy.
  eapply IH; [exact (zreach_step _ _ _ _ _ Z Hy)|exact (counted_kept _ _ _ _ _ Z B W1 Hy)|exact W2].
Qed.
(** The robot can be put there at any time with the calls of the interface. *)
Definition put_at (a b : R) (z : zeb R) : list (zcall R) :=
  [ZSetBaseStateX (vec_of_st3 (carried a (bsx (zb z)))); ZSetBaseStateY (vec_of_st3 (carried b (bsy (zb z))));
   ZSetComStateX (vec_of_st3 (carried a (lsx (zl z)))); ZSetComStateY (vec_of_st3 (carried b (lsy (zl z))));
   ZSetPosRef (carried_ref a b (rpos (zr z)))].
Theorem C74_put_anywhere : forall a b z, vlen (rpos (zr z)) = (2 * bN (zb z))%nat -> zsteps (put_at a b z) z = Ok (elsewhere a b z).
Proof.
  intros a b z E. cbn [put_at zsteps zstep]. unfold z_onBase, z_onLip. cbn [bstep lstep]. unfold b_setStateX, b_setStateY, l_setStateX, l_setStateY.
  unfold st3_of_vec. cbn [vec_of_st3 vlen Nat.eqb guard bind vget]. unfold z_setPosRef. change (vlen (carried_ref a b (rpos (zr z)))) with (vlen (rpos (zr z))).
  cbn [z_setModels zb zl zr b_setStates bN]. rewrite E, (Nat.mul_comm 2), Nat.eqb_refl. reflexivity.
Qed.

(** ** A base that is too light *)
Lemma addG_diff w g p p' r r' D : addG w g p = Ok r -> addG w g p' = Ok r' -> (forall i, vget p' i - vget p i = D i) -> forall i, vget r' i - vget r i = D i.
Proof.
  unfold addG. intros H H' E i. destruct (sltb s0 w); [|injection H as <-; injection H' as <-; apply E].
  unfold vaddE in *. apply guard_ok in H, H'. destruct H as (_ & H), H' as (_ & H'). injection H as <-. injection H' as <-. specialize (E i). cbn [vadd vscale vget]. rsimpl. lra.
Qed.
Lemma addGo_diff w g p p' r r' D : addGo w g p = Ok r -> addGo w g p' = Ok r' -> (forall i, vget p' i - vget p i = D i) -> forall i, vget r' i - vget r i = D i.
Proof.
  unfold addGo. intros H H' E i. destruct (sltb s0 w); [|injection H as <-; injection H' as <-; apply E]. destruct g as [g|]; [|discriminate].
  unfold vaddE in *. apply guard_ok in H, H'. destruct H as (_ & H), H' as (_ & H'). injection H as <-. injection H' as <-. specialize (E i). cbn [vadd vscale vget]. rsimpl. lra.
Qed.
Lemma addG_two w g g' p r r' : 0 < w -> addG w g p = Ok r -> addG w g' p = Ok r' -> forall i, vget r' i - vget r i = w * (vget g' i - vget g i).
Proof.
  intros W. unfold addG. intros H H' i. assert (T : @sltb R RScalar s0 w = true) by (rsimpl; apply Rltb_true; exact W). rewrite T in *.
  unfold vaddE in *. apply guard_ok in H, H'. destruct H as (_ & H), H' as (_ & H'). injection H as <-. injection H' as <-. cbn [vadd vscale vget]. rsimpl. lra.
Qed.
(** The first jerk of the base along x: its coefficient in the gradient of the CoP objective. *)
Lemma third_block N (g v0 v1 v2 v3 : vec R) : (0 < N)%nat -> vlen v0 = N -> vlen v1 = N -> vlen v2 = N -> vget (addblocks4 N g v0 v1 v2 v3) (2 * N) = vget g (2 * N) + vget v2 0.
Proof.
  intros P E0 E1 E2. unfold addblocks4, vaddseg. cbn [vget vlen]. rewrite E0, E1, E2.
  rewrite (proj2 (Nat.leb_gt (3 * N) (2 * N))) by lia. cbn [andb].
  rewrite (proj2 (Nat.leb_le (2 * N) (2 * N))), (proj2 (Nat.ltb_lt (2 * N) (2 * N + N))) by lia. cbn [andb].
  rewrite (proj2 (Nat.ltb_ge (2 * N) (N + N))), andb_false_r by lia. rewrite (proj2 (Nat.ltb_ge (2 * N) (0 + N))), andb_false_r by lia.
  rewrite Nat.sub_diag. reflexivity.
Qed.

Lemma light_cop l u a c H ref x g g' : models_ok l u -> bm u <= 1/10000 ->
  cop_gradient l u H ref x = Ok g ->
  cop_gradient (l_setStates l (carried a (lsx l)) (carried c (lsy l)) (lsyaw l)) (b_setStates u (carried a (bsx u)) (carried c (bsy u)) (bsroll u) (bspitch u) (bsyaw u)) H ref x = Ok g' ->
  (0 < bN u)%nat -> vget g' (2 * bN u) - vget g (2 * bN u) = a * (bm u / bM u) * ssum (bN u) (fun k => mget (dU (bposD u)) k 0%nat).
Proof.
  intros M L G G' P. assert (F : @sltb R RScalar EPS (bm u) = false) by (rsimpl; apply Rltb_false; lra).
  pose proof (P_like l u M) as LP. pose proof (shares l u M) as W.
  unfold cop_gradient in G, G'. rewrite F in G. cbn [b_setStates bm l_setStates] in G'. rewrite F in G'. binds G. binds G'. injection G as <-. injection G' as <-.
  change (l_last l (lcxD l) = Ok x4) in H8. change (l_last l (lcyD l) = Ok x5) in H9. rewrite H3 in H8. injection H8 as <-. rewrite H4 in H9. injection H9 as <-.
  pose proof (lcx_like l u M _ H3) as LX. pose proof (lcy_like l u M _ H4) as LY. rewrite <- (mo_N _ _ M).
  rewrite !third_block; try assumption; try (cbn [mv vlen]; rewrite ?(lk_T _ _ _ LX), ?(lk_T _ _ _ LY), ?(lk_T _ _ _ LP); first [apply LX|apply LY|apply LP]).
  cbn [mv vget]. rewrite (lk_T _ _ _ LP). cbn [mtr mcols mget]. rewrite (lk_Ur _ _ _ LP).
  match goal with |- _ + ?s - (_ + ?t) = _ => enough (K : s - t = a * (bm u / bM u) * ssum (bN u) (fun k => mget (dU (bposD u)) k 0%nat)) by lra end.
  rewrite <- ssum_minus, <- ssum_mul_l. apply ssum_ext. intros k _. cbn [vadd vsub vget]. rewrite !mv_carried by (first [apply LX|apply LP]).
  rewrite (lk_0 _ _ _ LX), (lk_0 _ _ _ LP). rsimpl. replace (lm l / lM l) with (1 - bm u / bM u) by lra. ring.
Qed.
Lemma pos_sum_pos T N d : computePosDynamic T T N = Ok d -> 0 < ssum N (fun k => mget (dU d) k 0%nat).
Proof.
  unfold computePosDynamic. intros H. binds H. injection H as <-. rsimpl. apply Rltb_true in H0. apply Nat.ltb_lt in H2.
  assert (E : forall k, 0 < mget (pos_U T T N) k 0%nat).
  { intros k. unfold pos_U, lower. cbn [mget Nat.eqb]. rsimpl. rewrite !sofnat_INR. pose proof (pos_INR k) as K. assert (0 < T * T) by nra. assert (0 < T * T * T) by nra.
    assert (0 <= INR k * (T * (T * T))) by (apply Rmult_le_pos; nra). assert (0 <= INR k * INR k * (T * (T * T))) by (apply Rmult_le_pos; nra). nra. }
  apply (ssum_pos N _ 0%nat); [intros i _; left; apply E|assumption|apply E].
Qed.
(** The exception: a base whose mass is positive and at most 1/10000 weighs in the total mass, hence in the
    centre of pressure of the body, but its own part of the centre of pressure is dropped.  The centre of pressure of a
    robot that stands still is then not under it, by an amount that grows with its distance to the origin, and the objective of
    the centre of pressure asks for another first jerk of the base according to where the robot is. *)
Theorem C74_light_base_refuted : forall a b z hb cl q q', zreach z hb cl -> 0 < bm (zb z) <= 1/10000 -> 0 < zwCop (zw z) -> a <> 0 ->
  z_problem z = Ok q -> z_problem (elsewhere a b z) = Ok q' -> vget (qp q') (2 * horizon z) <> vget (qp q) (2 * horizon z).
Proof.
  intros a b z hb cl q q' Z (B1 & B2) W A H H'. pose proof (reach_zinv _ _ _ Z) as (O & Q). pose proof (oi_m _ _ _ O) as M. pose proof (oi_o _ _ _ O) as Ob.
  assert (L1 : forall t, otilt (zo z) = Some t -> level t) by (intros t E; pose proof (oo_tilt _ _ _ _ Ob) as T; rewrite E in T; exact (tilt_level _ _ M _ _ T)).
  assert (L2 : forall t, otiltV (zo z) = Some t -> level t) by (intros t E; pose proof (oo_tiltV _ _ _ _ Ob) as T; rewrite E in T; exact (tiltvel_level _ _ M _ _ T)).
  unfold z_problem, elsewhere in H'. cbn [zl zb zo zr zw zc zdX zX zqp zsol zfo zfc rvel rpos rcop rcom rshift rgrav] in H'. unfold z_problem in H.
  rewrite (com_part _ _ a b M), (tilt_part _ _ a b _ _ L1), (tilt_part _ _ a b _ _ L2) in H'.
  cbn [l_setStates lN b_setStates bN bvelD bposD] in H'.
  rewrite (vel_part _ _ a b M), (pos_part _ _ a b M) in H'.
  cbv zeta in H, H'. unfold horizon. pose proof (qi_p _ Q) as Lp. pose proof (mo_N _ _ M) as EN. pose proof (bf_pos _ (mo_b _ _ M)) as BP.
  assert (PN : (0 < bN (zb z))%nat) by (destruct (z_period_pos z hb cl Z) as (_ & PN); unfold horizon in PN; lia).
  (* The same values before the centre of pressure... *)
  Local Ltac same H H' := let x := fresh "x" in let E := fresh "E" in let x' := fresh "x" in let E' := fresh "E" in
    apply bind_ok in H; destruct H as (x & E & H); apply bind_ok in H'; destruct H' as (x' & E' & H'); rewrite E in E'; injection E' as <-.
  Local Ltac two H H' g E g' E' := apply bind_ok in H; destruct H as (g & E & H); apply bind_ok in H'; destruct H' as (g' & E' & H').
  do 5 same H H'. two H H' gc Ec gc' Ec'. two H H' t1 Et1 t1' Et1'. clear Et1 Et1'. do 10 same H H'.
  two H H' p3 Ep3 p3' Ep3'. two H H' p4 Ep4 p4' Ep4'. two H H' p5 Ep5 p5' Ep5'. two H H' p6 Ep6 p6' Ep6'. two H H' p7 Ep7 p7' Ep7'.
  pose proof (addG_two _ _ _ _ _ _ W Ep3 Ep3') as D. 
  pose proof (addG_diff _ _ _ _ _ _ _ Ep4 Ep4' D) as D4. pose proof (addG_diff _ _ _ _ _ _ _ Ep5 Ep5' D4) as D5.
  pose proof (addGo_diff _ _ _ _ _ _ _ Ep6 Ep6' D5) as D6. pose proof (addGo_diff _ _ _ _ _ _ _ Ep7 Ep7' D6) as D7.
  do 8 (let y := fresh "y" in let Ey := fresh "E" in let y' := fresh "y" in let Ey' := fresh "E" in two H H' y Ey y' Ey'). injection H as <-. injection H' as <-. cbn [qp vscale vget]. specialize (D7 (2 * lN (zl z))%nat). cbv beta in D7.
  pose proof (light_cop _ _ a b _ _ _ _ _ M B2 Ec Ec' PN) as K. rewrite EN in K at 1 2. rewrite K in D7.
  pose proof (pos_sum_pos _ _ _ BP) as S. pose proof (total_pos _ _ M) as TP.
  assert (F : 1 <= zfo z) by (destruct (qi_Q _ Q) as (Q0 & _ & _ & ->); apply getNormalizationFactor_pos; unfold EPS; rsimpl; lra).
  intros X. rsimpl. apply Rmult_eq_reg_l in X; [|lra]. rewrite X in D7. rewrite Rminus_diag_eq in D7 by reflexivity. symmetry in D7.
  assert (0 < bm (zb z) / bM (zb z)) by (apply Rdiv_lt_0_compat; lra).
  apply Rmult_integral in D7. destruct D7 as [D7|D7]; [lra|]. apply Rmult_integral in D7. destruct D7 as [D7|D7]; [|lra]. apply Rmult_integral in D7. destruct D7; lra.
Qed.

(** ** Cases *)
(** The demo of C41 to C44 (two samples, a base of mass 1, references, polygons, all the objectives) with any
    of the constraints, at (3, -2). *)
Example C74_case : forall k, exists z0 z q, newZeb 0 0 = Ok z0 /\ zsteps (demo k) z0 = Ok z /\ zreach z (1/2) false /\ base_counted z
  /\ zsteps (map (elsewhere_call 3 (-2)) (demo k)) (elsewhere 3 (-2) z0) = Ok (elsewhere 3 (-2) z)
  /\ z_problem z = Ok q /\ z_problem (elsewhere 3 (-2) z) = Ok q /\ pos (lsx (zl z)) = 1/10 /\ pos (lsx (zl (elsewhere 3 (-2) z))) = 31/10.
Proof.
  intros k. destruct (at_calls 0 0 (demo k) (demo_accepted k)) as (z0 & z & H0 & H & R & V).
  assert (EN : lN (zl z) = 2%nat) by from V (fun v => oN (vl v)). assert (Emb : bm (zb z) = 1) by from V (fun v => pm (vb v)).
  assert (Ex : lsx (zl z) = St3 (1/10) 0 0) by from V (fun v => osx (vl v)).
  assert (B : base_counted z) by (right; rewrite Emb; lra).
  assert (Q : exists q, z_problem z = Ok q).
  { apply (problem_ok z _ _ (reach_zinv _ _ _ R)). unfold refs_sized, horizon. rewrite EN.
    assert (R1 : rvel (zr z) = vfill 4 (1/5)) by from V vvel. assert (R2 : rpos (zr z) = vfill 4 (1/10)) by from V vpos.
    assert (R3 : rcop (zr z) = vfill 4 0) by from V vcop. rewrite R1, R2, R3. repeat split. }
  destruct Q as (q & Q). exists z0, z, q. split; [exact H0|]. split; [exact H|]. split; [exact R|]. split; [exact B|].
  split.
  - rewrite (C74_histories_anywhere 3 (-2) (demo k) z0 0 true (zreach_new _ _ _ H0)), H; [reflexivity| |].
    + left. from (new_view _ _ _ H0) (fun v => pm (vb v)).
    + unfold demo. repeat constructor. cbn [heavy_base]. lra.
  - split; [exact Q|]. split; [rewrite (proj1 (C74_same_problem_anywhere 3 (-2) z _ _ R B)); exact Q|].
    split; [rewrite Ex; reflexivity|]. cbn [elsewhere zl l_setStates lsx carried pos]. rewrite Ex. cbn [pos]. lra.
Qed.
(** A base of mass 1/20000 and the objective of the centre of pressure alone, one sample: here, and a hundred
    metres away. *)
Definition light_calls : list (zcall R) := [ZSetBaseMass (1/20000); ZSetWeightings (MkZW 0 0 1 0 0 0 0)].
Example C74_light_base_refuted_case : exists z hb cl q q', zreach z hb cl /\ 0 < bm (zb z) <= 1/10000 /\ 0 < zwCop (zw z)
  /\ z_problem z = Ok q /\ zsteps (put_at 100 0 z) z = Ok (elsewhere 100 0 z) /\ z_problem (elsewhere 100 0 z) = Ok q'
  /\ vget (qp q') 2 <> vget (qp q) 2.
Proof.
  assert (A : vaccept light_calls (view0 0 0) 0) by (unfold light_calls; vred; vok).
  destruct (at_calls 0 0 light_calls A) as (z0 & z & H0 & H & R & V).
  assert (EN : lN (zl z) = 1%nat) by from V (fun v => oN (vl v)). assert (Emb : bm (zb z) = 1/20000) by from V (fun v => pm (vb v)).
  assert (EbN : bN (zb z) = 1%nat) by from V (fun v => pN (vb v)). assert (Ew : zw z = MkZW 0 0 1 0 0 0 0) by from V vw.
  assert (S : refs_sized z).
  { unfold refs_sized, horizon. rewrite EN. assert (R1 : rvel (zr z) = vzero 2) by from V vvel. assert (R2 : rpos (zr z) = vzero 2) by from V vpos.
    assert (R3 : rcop (zr z) = vzero 2) by from V vcop. rewrite R1, R2, R3. repeat split. }
  assert (P : zsteps (put_at 100 0 z) z = Ok (elsewhere 100 0 z)).
  { apply C74_put_anywhere. assert (R2 : rpos (zr z) = vzero 2) by from V vpos. rewrite R2, EbN. reflexivity. }
  destruct (problem_ok z _ _ (reach_zinv _ _ _ R) S) as (q & Q).
  destruct (history_reach _ _ _ _ _ R P) as (hb' & R' & _).
  destruct (problem_ok (elsewhere 100 0 z) _ _ (reach_zinv _ _ _ R') S) as (q' & Q').
  exists z; do 2 eexists; exists q, q'. split; [exact R|]. split; [rewrite Emb; lra|]. split; [rewrite Ew; cbn [zwCop]; lra|].
  split; [exact Q|]. split; [exact P|]. split; [exact Q'|].
  pose proof (C74_light_base_refuted 100 0 z _ _ q q' R) as K. unfold horizon in K. rewrite EN, Emb, Ew in K. apply K; try assumption; cbn [zwCop]; lra.
Qed.

Print Assumptions C74_same_problem_anywhere.
Print Assumptions C74_histories_anywhere.
Print Assumptions C74_put_anywhere.
Print Assumptions C74_light_base_refuted.
