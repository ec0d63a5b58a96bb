(** A configured humanoid walk generator can be used for ever: what each call of solve needs. *)

From Coq Require Import Reals List ZArith Arith Bool Lra Lia.
From Verif Require Import Scalar LinAlg LinAlgFacts ToolsModel ToolsSpec ToolsFacts NoDynModel PolygonModel PolygonFacts QPModel QPFacts TrajModel LipModel FootModel
  ModelsSpec ModelsFacts SupModel SupSpec SupFacts SupTime SupWalk PropTools PropModels PropSup PropSteps HumModel HumAlg HumSpec HumFacts HumObj HumProb HumWorld HullFacts HumTable HumRunSpec.
Import ListNotations.
Local Open Scope R_scope.

(** ** Returning *)
Lemma tabulateM_abort A (f : nat -> res A) n : (forall i, (i < n)%nat -> is_ok (f i) \/ f i = Abort) ->
  (forall i, (i < n)%nat -> is_ok (f i)) \/ ((exists i, (i < n)%nat /\ f i = Abort) /\ tabulateM f n = Abort).
Proof.
  induction n as [|n IH]; intros H; [left; lia|]. cbn [tabulateM]. destruct IH as [IH|((i & Hi & E) & E')]; [intros; apply H; lia| |].
  - destruct (H n ltac:(lia)) as [Hn|Hn].
    + left. intros i Hi. destruct (Nat.eq_dec i n) as [->|]; [exact Hn|apply IH; lia].
    + right. split; [exists n; split; [lia|exact Hn]|]. destruct (tabulateM_ok _ f n) as (l & ->); [intros i Hi; exact (IH i Hi)|]. cbn [bind]. rewrite Hn. reflexivity.
  - right. split; [exists i; split; [lia|exact E]|]. rewrite E'. reflexivity.
Qed.
Lemma addObj_ok (w : R) H g (q : qpmats R) n : mrows (qQ q) = n -> mcols (qQ q) = n -> vlen (qp q) = n ->
  (exists Hm gv, H = Ok Hm /\ g = Ok gv /\ mrows Hm = n /\ mcols Hm = n /\ vlen gv = n) ->
  exists q', addObj w H g q = Ok q' /\ mrows (qQ q') = n /\ mcols (qQ q') = n /\ vlen (qp q') = n
    /\ qxl q' = qxl q /\ qxu q' = qxu q /\ qA q' = qA q /\ qbu q' = qbu q /\ qbl q' = qbl q.
Proof.
  intros E1 E2 E3 (Hm & gv & -> & -> & E4 & E5 & E6). unfold addObj. destruct (sltb s0 w); [|eexists; split; [reflexivity|auto 10]].
  cbn [bind]. unfold hasSize. rewrite E4, E5, E1, E2, Nat.eqb_refl. cbn [andb guard bind]. unfold vaddE. cbn [vscale vlen]. rewrite E3, E6, Nat.eqb_refl. cbn [guard bind].
  eexists. split; [reflexivity|]. cbn [qQ qp qxl qxu qA qbu qbl madd mrows mcols vadd vlen]. auto 10.
Qed.
Lemma addCtr_ok r0 k v0 m size G f b (q : qpmats R) : (r0 + k <= mrows (qA q))%nat -> mcols (qA q) = size -> vlen (qbu q) = mrows (qA q) ->
  vlen (qxl q) = size -> vlen (qxu q) = size -> (v0 + m <= size)%nat ->
  mrows G = k -> mcols G = size -> vlen f = k -> vlen (fst b) = m -> vlen (snd b) = m ->
  exists q', addCtr r0 k v0 m size G f b q = Ok q' /\ mrows (qA q') = mrows (qA q) /\ mcols (qA q') = size /\ vlen (qbu q') = mrows (qA q)
    /\ vlen (qxl q') = size /\ vlen (qxu q') = size /\ qbl q' = qbl q /\ qQ q' = qQ q /\ qp q' = qp q.
Proof.
  intros H1 H2 H3 H4 H5 H6 G1 G2 G3 G4 G5. unfold addCtr, maddblockE, vcwiseE, hasSize. rewrite H2, G1, G2, Nat.leb_refl, !Nat.eqb_refl.
  rewrite (proj2 (Nat.leb_le _ _) H1). cbn [andb guard bind vopp vlen]. rewrite H3, (proj2 (Nat.leb_le _ _) H1), G3, Nat.eqb_refl. cbn [guard bind].
  rewrite H4, H5, G4, G5, (proj2 (Nat.leb_le _ _) H6), Nat.eqb_refl. cbn [guard bind]. eexists. split; [reflexivity|].
  cbn [qA qbu qxl qxu qbl qQ qp maddblock mrows mcols vcwise vlen]. auto 10.
Qed.

Section Run.
Context {TK : Trig R}.

(** ** The objectives return *)
Lemma obj_jerk h z cx cy Vx Vy fx fy X n : hinv h -> gets h z cx cy Vx Vy fx fy -> n = (2 * lN (hlip h) + 2 * snb (hsup h))%nat -> vlen X = n ->
  exists Hm gv, h_jerkHessian (hlip h) (hsup h) = Ok Hm /\ h_jerkGradient (hlip h) (hsup h) X = Ok gv /\ mrows Hm = n /\ mcols Hm = n /\ vlen gv = n.
Proof.
  intros I [G1 G2 G3 G4 G5 (vx & vy & F1 & F2 & F3 & F4 & _ & _)] -> HX.
  destruct (getCopX_fresh _ _ _ (hi_fresh _ I) G2) as (_ & Fx). destruct (getCopY_fresh _ _ _ (hi_fresh _ I) G3) as (_ & Fy).
  pose proof (cp_UTi _ _ (cop_pre_fresh _ _ _ _ Fx)) as Tx. pose proof (cp_UTi _ _ (cop_pre_fresh _ _ _ _ Fy)) as Ty. rewrite G4 in Tx. rewrite G5 in Ty. cbn [omtr] in Tx, Ty.
  assert (EH : exists Hm, h_jerkHessian (hlip h) (hsup h) = Ok Hm /\ mrows Hm = (2 * lN (hlip h) + 2 * snb (hsup h))%nat /\ mcols Hm = (2 * lN (hlip h) + 2 * snb (hsup h))%nat).
  { unfold h_jerkHessian. rewrite (hi_N _ I), Nat.eqb_refl. cbn [guard bind]. rewrite G1. cbn [bind]. rewrite G2. cbn [bind]. rewrite G3. cbn [bind].
    rewrite G4, G5, Tx, Ty. cbn [oinv bind]. eexists. split; [reflexivity|]. split; reflexivity. }
  destruct EH as (Hm & EH & D1 & D2). exists Hm. unfold h_jerkGradient. rewrite EH. rewrite HX, Nat.eqb_refl. cbn [guard bind]. rewrite G1. cbn [bind]. rewrite G2. cbn [bind]. rewrite G3. cbn [bind].
  rewrite G4, G5, Tx, Ty. cbn [oinv bind]. rewrite F1. cbn [bind]. unfold vread. rewrite (proj2 (Nat.ltb_lt _ _) F3). cbn [guard bind]. rewrite F2. cbn [bind]. rewrite (proj2 (Nat.ltb_lt _ _) F4). cbn [guard bind].
  eexists. split; [reflexivity|]. split; [reflexivity|]. split; [exact D1|]. split; [exact D2|]. reflexivity.
Qed.
Lemma obj_vel h z cx cy Vx Vy fx fy v X n : hinv h -> gets h z cx cy Vx Vy fx fy -> l_getComVel (hlip h) z = Ok v ->
  n = (2 * lN (hlip h) + 2 * snb (hsup h))%nat -> vlen X = n -> vlen (hvelRef h) = (2 * lN (hlip h))%nat ->
  exists Hm gv, h_velHessian (hlip h) (hsup h) = Ok Hm /\ h_velGradient (hlip h) (hsup h) (hvelRef h) X = Ok gv /\ mrows Hm = n /\ mcols Hm = n /\ vlen gv = n.
Proof.
  intros I [G1 G2 G3 G4 G5 (vx & vy & F1 & F2 & F3 & F4 & _ & _)] Gv -> HX Hr.
  destruct (getCopX_fresh _ _ _ (hi_fresh _ I) G2) as (_ & Fx). destruct (getCopY_fresh _ _ _ (hi_fresh _ I) G3) as (_ & Fy).
  pose proof (cp_UTi _ _ (cop_pre_fresh _ _ _ _ Fx)) as Tx. pose proof (cp_UTi _ _ (cop_pre_fresh _ _ _ _ Fy)) as Ty. rewrite G4 in Tx. rewrite G5 in Ty. cbn [omtr] in Tx, Ty.
  assert (EH : exists Hm, h_velHessian (hlip h) (hsup h) = Ok Hm /\ mrows Hm = (2 * lN (hlip h) + 2 * snb (hsup h))%nat /\ mcols Hm = (2 * lN (hlip h) + 2 * snb (hsup h))%nat).
  { unfold h_velHessian. rewrite (hi_N _ I), Nat.eqb_refl. cbn [guard bind]. rewrite G1. cbn [bind]. rewrite G2. cbn [bind]. rewrite G3. cbn [bind]. rewrite Gv. cbn [bind].
    rewrite G4, G5, Tx, Ty. cbn [oinv bind]. eexists. split; [reflexivity|]. split; reflexivity. }
  destruct EH as (Hm & EH & D1 & D2). exists Hm. unfold h_velGradient. rewrite EH. rewrite Hr, (hi_N _ I), HX, !Nat.eqb_refl. cbn [guard bind]. rewrite G1. cbn [bind]. rewrite G2. cbn [bind]. rewrite G3. cbn [bind]. rewrite Gv. cbn [bind].
  rewrite G4, G5, Tx, Ty. cbn [oinv bind]. rewrite F1. cbn [bind]. unfold vread. rewrite (proj2 (Nat.ltb_lt _ _) F3). cbn [guard bind]. rewrite F2. cbn [bind]. rewrite (proj2 (Nat.ltb_lt _ _) F4). cbn [guard bind].
  eexists. split; [reflexivity|]. split; [reflexivity|]. split; [exact D1|]. split; [exact D2|]. reflexivity.
Qed.
Lemma obj_cop h X n : hinv h -> n = (2 * lN (hlip h) + 2 * snb (hsup h))%nat -> vlen X = n ->
  exists Hm gv, Ok (h_copHessian (hlip h) (hsup h)) = Ok Hm /\ h_copGradient (hlip h) (hsup h) X = Ok gv /\ mrows Hm = n /\ mcols Hm = n /\ vlen gv = n.
Proof.
  intros I -> HX. eexists. unfold h_copGradient. rewrite (hi_N _ I), HX, !Nat.eqb_refl. cbn [guard bind]. eexists. split; [reflexivity|]. split; [reflexivity|]. split; [|split]; reflexivity.
Qed.

(** ** The problem is assembled *)
Definition cops_known (h : hum R) : Prop := hcopC h = true -> forall i, (i < lN (hlip h))%nat -> is_ok (s_getCopConvexPolygon i (hsup h)).
Definition steps_known (h : hum R) : Prop := hfeetC h = true -> forall i, (i < snb (hsup h))%nat -> is_ok (s_getKinematicConvexPolygon i (hsup h)).
Lemma copRows_ok N (s : sup R) : (forall i, (i < N)%nat -> is_ok (s_getCopConvexPolygon i s)) -> exists rc, copRows N s = Ok rc.
Proof.
  intros H. unfold copRows. destruct (tabulateM_ok _ (fun i => do p <- s_getCopConvexPolygon i s; Ok (map (copRow N i) (pgen p))) N) as (l & ->); [|cbn [bind]; eexists; reflexivity].
  intros i Hi. destruct (H i Hi) as (p & ->). cbn [bind]. eexists; reflexivity.
Qed.
Lemma footRows_ok N (s : sup R) fx fy : support_is s fx fy -> (forall i, (i < snb s)%nat -> is_ok (s_getKinematicConvexPolygon i s)) -> exists rf, footRows N s = Ok rf.
Proof.
  intros (vx & vy & F1 & F2 & F3 & F4 & _ & _) H. unfold footRows.
  match goal with |- exists rf, bind (tabulateM ?f ?n) _ = _ => destruct (tabulateM_ok _ f n) as (l & ->); [|cbn [bind]; eexists; reflexivity] end.
  intros i Hi. cbv beta. destruct (H i Hi) as (p & ->). cbn [bind]. destruct (_ && _)%bool; [|eexists; reflexivity].
  rewrite F1. cbn [bind]. unfold vread. rewrite (proj2 (Nat.ltb_lt _ _) F3). cbn [guard bind]. rewrite F2. cbn [bind]. rewrite (proj2 (Nat.ltb_lt _ _) F4). cbn [guard bind]. eexists; reflexivity.
Qed.
Lemma problem_ok h z cx cy Vx Vy fx fy v n : hinv h -> gets h z cx cy Vx Vy fx fy -> l_getComVel (hlip h) z = Ok v ->
  n = (2 * lN (hlip h) + 2 * snb (hsup h))%nat -> vlen (hX h) = n -> vlen (hvelRef h) = (2 * lN (hlip h))%nat ->
  cops_known h -> steps_known h -> (hcopC h = true -> counted (hsup h)) ->
  (length (pgen (fkin (sleft (hsup h)))) <= length (pverts (fkin (sleft (hsup h)))))%nat -> (length (pgen (fkin (sright (hsup h)))) <= length (pverts (fkin (sright (hsup h)))))%nat -> room h -> (snb (hsup h) <= lN (hlip h))%nat ->
  exists q idx, h_problem h = Ok (q, idx) /\ vlen (qxl q) = n /\ vlen (qxu q) = n /\ vlen (qbl q) = mrows (qA q) /\ vlen (qbu q) = mrows (qA q).
Proof.
  intros I G Gv En HX Hr Hc Hf Ct Ck1 Ck2 Rm HM. unfold h_problem.
  assert (C : exists rc, length rc = length rc /\ (hcopC h = true -> copRows (lN (hlip h)) (hsup h) = Ok rc /\ (length rc <= lN (hlip h) * s_getMaximumNbOfCopConstraints (hsup h))%nat) /\ (hcopC h = false -> rc = [])).
  { destruct (hcopC h) eqn:E.
    - destruct (copRows_ok (lN (hlip h)) (hsup h) (Hc E)) as (rc & Erc). exists rc. split; [reflexivity|]. split; [|discriminate]. intros _. split; [exact Erc|exact (copRows_le _ _ _ (Ct eq_refl) Erc)].
    - exists []. split; [reflexivity|]. split; [discriminate|reflexivity]. }
  assert (F : exists rf, length rf = length rf /\ (hfeetC h = true -> footRows (lN (hlip h)) (hsup h) = Ok rf /\ (length rf <= lN (hlip h) * s_getMaximumNbOfKinematicConstraints (hsup h))%nat) /\ (hfeetC h = false -> rf = [])).
  { destruct (hfeetC h) eqn:E.
    - destruct (footRows_ok (lN (hlip h)) (hsup h) _ _ (gt_foot _ _ _ _ _ _ _ _ G) (Hf E)) as (rf & Erf). exists rf. split; [reflexivity|]. split; [|discriminate]. intros _. split; [exact Erf|].
      pose proof (footRows_sides_le _ _ _ Ck1 Ck2 Erf). pose proof (Nat.mul_le_mono_r _ _ (s_getMaximumNbOfKinematicConstraints (hsup h)) HM). lia.
    - exists []. split; [reflexivity|]. split; [discriminate|reflexivity]. }
  destruct C as (rc & _ & C1 & C2), F as (rf & _ & F1 & F2).
  assert (En1 : h_nbCtr h = Ok (length rc, length rf)).
  { unfold h_nbCtr. destruct (hcopC h); [destruct (C1 eq_refl) as (-> & _)|rewrite (C2 eq_refl)]; cbn [bind]; (destruct (hfeetC h); [destruct (F1 eq_refl) as (-> & _)|rewrite (F2 eq_refl)]; reflexivity). }
  rewrite En1. cbn [bind].
  assert (Et : tableAt (hmats h) (snb (hsup h) * (hmaxC h + 1) + (length rc + length rf)) = Ok (n, length rc + length rf)%nat).
  { apply rd_some. rewrite (hi_mats _ I), En. apply qpTable_at; [rewrite (hi_maxS _ I); exact HM|]. unfold room in Rm. rewrite (hi_N _ I) in Rm.
    assert (length rc <= if hcopC h then s_getMaximumNbOfCopConstraints (hsup h) * lN (hlip h) else 0)%nat by (destruct (hcopC h); [destruct (C1 eq_refl); lia|rewrite (C2 eq_refl); cbn; lia]).
    assert (length rf <= if hfeetC h then s_getMaximumNbOfKinematicConstraints (hsup h) * lN (hlip h) else 0)%nat by (destruct (hfeetC h); [destruct (F1 eq_refl); lia|rewrite (F2 eq_refl); cbn; lia]).
    lia. }
  rewrite Et. cbn [bind fst snd].
  edestruct (addObj_ok (wVelT (hw h)) _ _ (blankQP n (length rc + length rf)) n eq_refl eq_refl eq_refl (obj_vel h _ _ _ _ _ _ _ _ (hX h) n I G Gv En HX Hr)) as (q1 & -> & A1 & A2 & A3 & A4 & A5 & A6 & A7 & A8). cbn [bind].
  edestruct (addObj_ok (wJerkM (hw h)) _ _ q1 n A1 A2 A3 (obj_jerk h _ _ _ _ _ _ _ (hX h) n I G En HX)) as (q2 & -> & B1 & B2 & B3 & B4 & B5 & B6 & B7 & B8). cbn [bind].
  edestruct (addObj_ok (wCopC (hw h)) _ _ q2 n B1 B2 B3 (obj_cop h (hX h) n I En HX)) as (q3 & -> & D1 & D2 & D3 & D4 & D5 & D6 & D7 & D8). cbn [bind].
  assert (S3 : mrows (qA q3) = (length rc + length rf)%nat /\ mcols (qA q3) = n /\ vlen (qbu q3) = mrows (qA q3) /\ vlen (qbl q3) = mrows (qA q3) /\ vlen (qxl q3) = n /\ vlen (qxu q3) = n).
  { rewrite D4, D5, D6, D7, D8, B4, B5, B6, B7, B8, A4, A5, A6, A7, A8. auto 10. }
  destruct S3 as (S1 & S2 & S3 & S4 & S5 & S6).
  assert (P4 : exists q4, (if hcopC h then do _ <- guard (Nat.eqb (vlen (hX h)) (2 * lN (hlip h) + 2 * snb (hsup h)));
               do r <- copRows (lN (hlip h)) (hsup h);
               do b <- copBounds (lN (hlip h)) (hcopLen h) (hsup h) (vseg (hX h) 0 (2 * lN (hlip h)));
               addCtr 0 (length rc) 0 (2 * lN (hlip h)) (2 * lN (hlip h) + 2 * snb (hsup h)) (rowsA (vlen (hX h)) r) (rowsF r (hX h)) b q3 else Ok q3) = Ok q4
      /\ mrows (qA q4) = mrows (qA q3) /\ mcols (qA q4) = n /\ vlen (qbu q4) = mrows (qA q3) /\ vlen (qbl q4) = mrows (qA q3) /\ vlen (qxl q4) = n /\ vlen (qxu q4) = n).
  { destruct (hcopC h) eqn:E; [|exists q3; split; [reflexivity|auto 10]]. rewrite HX, En, Nat.eqb_refl. cbn [guard bind]. destruct (C1 eq_refl) as (-> & _). cbn [bind].
    unfold copBounds. destruct (tabulateM_ok _ (fun i => s_getCopConvexPolygon i (hsup h)) (lN (hlip h))) as (ps & ->); [exact (Hc E)|]. cbn [bind]. rewrite (hi_len _ I), Nat.eqb_refl. cbn [guard bind].
    rewrite <- En. edestruct (addCtr_ok 0 (length rc) 0 (2 * lN (hlip h)) n (rowsA n rc) (rowsF rc (hX h))) as (q4 & -> & R); [| | | | | | | | | | |exists q4; split; [reflexivity|]]; try reflexivity; try assumption; try lia.
    destruct R as (R1 & R2 & R3 & R4 & R5 & R6 & _). rewrite R6. auto 10. }
  destruct P4 as (q4 & E4 & T1 & T2 & T3 & T4 & T5 & T6). rewrite E4. cbn [bind].
  assert (P5 : exists q5, (if hfeetC h then do _ <- guard (Nat.eqb (vlen (hX h)) (2 * lN (hlip h) + 2 * snb (hsup h)));
               do r <- footRows (lN (hlip h)) (hsup h);
               do b <- footBounds (hsup h) (vseg (hX h) (2 * lN (hlip h)) (2 * snb (hsup h)));
               addCtr (length rc) (length rf) (2 * lN (hlip h)) (2 * snb (hsup h)) (2 * lN (hlip h) + 2 * snb (hsup h)) (rowsA (vlen (hX h)) r) (rowsF r (hX h)) b q4 else Ok q4) = Ok q5
      /\ mrows (qA q5) = mrows (qA q3) /\ vlen (qbu q5) = mrows (qA q3) /\ vlen (qbl q5) = mrows (qA q3) /\ vlen (qxl q5) = n /\ vlen (qxu q5) = n).
  { destruct (hfeetC h) eqn:E; [|exists q4; split; [reflexivity|auto 10]]. rewrite HX, En, Nat.eqb_refl. cbn [guard bind]. destruct (F1 eq_refl) as (-> & _). cbn [bind].
    unfold footBounds. destruct (tabulateM_ok _ (fun i => s_getKinematicConvexPolygon i (hsup h)) (snb (hsup h))) as (ps & ->); [exact (Hf E)|]. cbn [bind].
    destruct (gt_foot _ _ _ _ _ _ _ _ G) as (vx & vy & K1 & K2 & K3 & K4 & _ & _).
    assert (EF : exists fxy, match snb (hsup h) with O => Ok (s0, s0) | S _ => do vx <- s_getSupportFootStateX (hsup h); do fx <- vread vx 0;
                      do vy <- s_getSupportFootStateY (hsup h); do fy <- vread vy 0; Ok (fx, fy) end = Ok fxy).
    { destruct (snb (hsup h)); [eexists; reflexivity|]. rewrite K1. cbn [bind]. unfold vread. rewrite (proj2 (Nat.ltb_lt _ _) K3). cbn [guard bind]. rewrite K2. cbn [bind]. rewrite (proj2 (Nat.ltb_lt _ _) K4). cbn [guard bind]. eexists; reflexivity. }
    destruct EF as ((fx' & fy') & ->). cbn [bind]. rewrite <- En.
    edestruct (addCtr_ok (length rc) (length rf) (2 * lN (hlip h)) (2 * snb (hsup h)) n (rowsA n rf) (rowsF rf (hX h))) as (q5 & -> & R); [| | | | | | | | | | |exists q5; split; [reflexivity|]]; try reflexivity; try assumption; try lia; try congruence.
    destruct R as (R1 & R2 & R3 & R4 & R5 & R6 & _). rewrite R1, R3, R6, R4, R5. repeat split; congruence. }
  destruct P5 as (q5 & E5 & U1 & U2 & U3 & U4 & U5). rewrite E5. cbn [bind]. eexists. eexists. split; [reflexivity|]. rewrite U1. auto.
Qed.

(** ** The models *)
Section Walk.
Context (N n a b : nat) (fb : R).
Context (HN : (0 < N)%nat) (Hn : (0 < n)%nat) (Ha : (0 < a)%nat) (HaN : (a <= S N)%nat) (Hb : (0 < b)%nat) (Hfb : EPS < fb).

Record lipw (l : lip R) : Prop := {
  lw_N : lN l = N; lw_T : lT l = INR n * fb; lw_g : lg l = GRAVITY; lw_m : lm l = 1; lw_M : lM l = 1;
  lw_fb : 0 < lfb l /\ (lfb l = fb \/ EPS < Rabs (fb - lfb l)); lw_h : regular_height n fb (lh l) }.

Lemma T_pos : 0 < INR n * fb.
Proof. assert (0 < EPS) by (rsimpl; lra). apply Rmult_lt_0_compat; [apply lt_0_INR; exact Hn|lra]. Qed.
Lemma lipw_valid l f : lipw l -> 0 < f -> lip_obs_valid (lobs_step (lobs_of l) (LSetFeedbackPeriod f)).
Proof.
  intros W Hf. unfold lip_obs_valid, valid_params, lobs_of, lobs_step. cbn [ofb oT oN og om oM]. pose proof T_pos.
  rewrite (lw_T _ W), (lw_N _ W), (lw_g _ W), (lw_m _ W), (lw_M _ W). cbn [GRAVITY gz]. rsimpl. rewrite Rabs_right by lra. repeat split; try lra; lia.
Qed.
Lemma lipw_valid0 l : lipw l -> lip_obs_valid (lobs_of l).
Proof. intros W. exact (lipw_valid l (lfb l) W (proj1 (lw_fb _ W))). Qed.
Lemma feedbacks_n l k : lip_fresh l k -> lT l = INR n * fb -> lfb l = fb -> k = n.
Proof.
  intros F ET Ef. assert (HE : 0 < EPS) by (rsimpl; lra). apply Nat2Z.inj. rewrite (lf_n _ _ F), ET, Ef. change (1/10000) with (EPS (K:=R)).
  replace ((INR n * fb + EPS) / fb) with (INR n + EPS / fb) by (field; lra).
  assert (0 < EPS / fb) by (apply Rdiv_lt_0_compat; lra). assert (EPS / fb < 1) by (apply (Rmult_lt_reg_r fb); [lra|]; unfold Rdiv; rewrite Rmult_assoc, Rinv_l; lra).
  pose proof (pos_INR n). rewrite strunc_pos by lra. rewrite INR_IZR_INZ. symmetry. apply Int_part_spec. lra.
Qed.
Lemma lip_feedback l : (exists k, lip_fresh l k) -> lauto l = true -> lipw l ->
  exists l', (if Rltb EPS (Rabs (fb - lfb l)) then l_setFeedbackPeriod fb l else Ok l) = Ok l' /\ lip_fresh l' n /\ lauto l' = true /\ lfb l' = fb /\ lipw l' /\ lh l' = lh l.
Proof.
  intros (k & F) A W. assert (HE : 0 < EPS) by (rsimpl; lra). destruct (Rltb_spec EPS (Rabs (fb - lfb l))) as [L|L].
  - destruct (lstep_returns (LSetFeedbackPeriod fb) l k F A (lipw_valid0 _ W) I (lipw_valid l fb W ltac:(lra))) as (l' & E). exists l'. split; [exact E|].
    destruct (lstep_fresh _ _ _ _ F A E) as ((k' & F') & O & A'). injection O as O1 O2 O3 O4 O5 O6 O7 O8 O9 O10 O11.
    assert (W' : lipw l') by (destruct W; constructor; try congruence; [rewrite O3; split; [lra|auto]|rewrite O4; assumption]).
    split; [rewrite <- (feedbacks_n l' k' F'); [exact F'|apply W'|exact O3]|auto].
  - exists l. split; [reflexivity|]. assert (Ef : lfb l = fb) by (destruct (proj2 (lw_fb _ W)); [assumption|lra]).
    split; [rewrite <- (feedbacks_n l k F (lw_T _ W) Ef); exact F|auto].
Qed.

Lemma getters h m f rest : lip_fresh (hlip h) n -> lfb (hlip h) = fb -> lipw (hlip h) ->
  sT (hsup h) = INR n * fb -> sfb (hsup h) = fb -> (0 < m)%nat -> sttnp (hsup h) = INR m * fb ->
  cbl (stl (hsup h)) = f :: rest -> foot3 (sleft (hsup h)) -> foot3 (sright (hsup h)) ->
  exists z cx cy Vx Vy fx fy v, gets h z cx cy Vx Vy fx fy /\ l_getComVel (hlip h) z = Ok v.
Proof.
  intros F Ef W ET Esf Hm Et El (L1 & L2 & _) (R1 & R2 & _). set (k := ((m - 1) mod n)%nat). assert (Hk : (k < n)%nat) by (apply Nat.mod_upper_bound; lia).
  assert (Ez : h_nb (hsup h) = Ok (Z.of_nat k)).
  { unfold h_nb. rewrite (calls_before_sample (hsup h) n fb m Hfb Hn Hm ET Esf Et). cbn [bind]. f_equal. fold k. lia. }
  destruct (proj2 (lf_cx _ _ F) k Hk) as (cx & Nx & Ex). destruct (proj2 (lf_cy _ _ F) k Hk) as (cy & Ny & Ey). destruct (proj2 (lf_vel _ _ F) k Hk) as (v & Nv & Ev).
  assert (Reg : cop_regular (lfst (hlip h) k) (lT (hlip h)) (lN (hlip h)) (lh (hlip h)) (gz (lg (hlip h))) (lm (hlip h) / lM (hlip h))).
  { unfold cop_regular, lfst. rewrite (lw_m _ W), (lw_M _ W), (lw_g _ W), (lw_T _ W), Ef. cbn [GRAVITY gz]. change GRAVITY_NORM with (981/100 : R) || rsimpl. split; [lra|].
    pose proof (lw_h _ W (S k) ltac:(lia)) as A1. pose proof (lw_h _ W n ltac:(lia)) as A2. rewrite S_INR in A1. auto. }
  assert (Hx : exists Vx, dUinv cx = Some Vx).
  { destruct (C08_cop_inverse _ _ _ _ _ _ _ _ _ Ex) as (_ & D). destruct (dUinv cx) as [V|]; [eexists; reflexivity|]. exfalso. apply (proj1 D eq_refl). exact Reg. }
  assert (Hy : exists Vy, dUinv cy = Some Vy).
  { destruct (C08_cop_inverse _ _ _ _ _ _ _ _ _ Ey) as (_ & D). destruct (dUinv cy) as [V|]; [eexists; reflexivity|]. exfalso. apply (proj1 D eq_refl). exact Reg. }
  destruct Hx as (Vx & Hx), Hy as (Vy & Hy).
  assert (Hs : exists fx fy, support_is (hsup h) fx fy).
  { unfold support_is, s_getSupportFootStateX, s_getSupportFootStateY, s_front, cb_at. rewrite El. cbn [rd nth_error bind].
    destruct (phType f); [destruct (smove (hsup h))| |].
    - do 4 eexists. split; [reflexivity|]. split; [reflexivity|]. rewrite L1, L2. repeat split; lia.
    - unfold middle. rewrite L1, L2, R1, R2. cbn [Nat.eqb guard bind]. do 4 eexists. split; [reflexivity|]. split; [reflexivity|]. cbn [vlen]. repeat split; lia.
    - do 4 eexists. split; [reflexivity|]. split; [reflexivity|]. rewrite L1, L2. repeat split; lia.
    - do 4 eexists. split; [reflexivity|]. split; [reflexivity|]. rewrite R1, R2. repeat split; lia. }
  destruct Hs as (fx & fy & Hs). exists (Z.of_nat k), cx, cy, Vx, Vy, fx, fy, v. split; [constructor; auto|].
  - exact (nth_at _ n _ _ _ (lf_nb _ _ F) Hk Nx).
  - exact (nth_at _ n _ _ _ (lf_nb _ _ F) Hk Ny).
  - exact (nth_at _ n _ _ _ (lf_nb _ _ F) Hk Nv).
Qed.

(** ** One call of solve *)
Definition sides_counted (s : sup R) : Prop :=
  (length (pgen (fcop (sleft s))) <= length (pverts (fcop (sleft s))))%nat
  /\ (length (pgen (fcop (sright s))) <= length (pverts (fcop (sright s))))%nat
  /\ (length (pgen (fkin (sleft s))) <= length (pverts (fkin (sleft s))))%nat
  /\ (length (pgen (fkin (sright s))) <= length (pverts (fkin (sright s))))%nat.
Record hwalk (h : hum R) : Prop := {
  hk_inv : hinv h; hk_lip : lipw (hlip h); hk_tab : forall i e, nth_error (hmats h) i = Some e -> nth_error (hsolvers h) i = Some e; hk_ref : vlen (hvelRef h) = (2 * N)%nat;
  hk_room : room h; hk_poly : sides_counted (hsup h);
  hk_walk : exists s f i m k, walking N n a b fb s (hX h) f i m k /\ k = nbs (smove s) (phType f) i
     /\ hsup h = s_setMove (smove (hsup h)) s /\ (smove (hsup h) = false -> smove s = true -> phType f <> DS) }.
Definition hull_known (h : hum R) : Prop :=
  hcopC h = true -> forall s v, s_updateTimeline (hX h) fb (hsup h) = Ok (s, v) -> hull_ok s.

Lemma hull_counted (s : sup R) : sides_counted s -> hull_ok s -> counted s.
Proof.
  intros (C1 & C2 & C3 & C4) (g & E & L). unfold counted. repeat (split; [assumption|]). intros g' E'. rewrite E in E'. injection E' as <-.
  unfold s_computeDSCopConvexPolygon in E. apply bind_ok in E. destruct E as (? & _ & E). apply bind_ok in E. destruct E as (? & _ & E). apply bind_ok in E. destruct E as (? & _ & E). apply bind_ok in E. destruct E as (? & _ & E).
  apply bind_ok in E. destruct E as (? & _ & E). apply bind_ok in E. destruct E as (((lp & rp) & tr) & _ & E). unfold makePolygon in E. apply bind_ok in E. destruct E as (v & _ & E). injection E as <-.
  pose proof (polygon_counted v) as (P1 & _). lia.
Qed.
Lemma cops_after s v k f tn S0 r0 s1 v1 w n1 i : updated s v k f tn S0 r0 a b fb s1 v1 w n1 i -> hull_ok s1 ->
  forall r, (r < sN s)%nat -> is_ok (s_getCopConvexPolygon r s1).
Proof.
  intros U (g & Eg & _) r Hr. unfold s_getCopConvexPolygon. destruct (u_dims _ _ _ _ _ _ _ _ _ _ _ _ _ _ _ U) as (_ & _ & _ & D). rewrite D, (proj2 (Nat.ltb_lt _ _) Hr). cbn [guard bind].
  destruct (row_phase_exists s f r0 a b r i) as (j & Hj & Hji); [pose proof (u_high _ _ _ _ _ _ _ _ _ _ _ _ _ _ _ U); lia|].
  destruct (u_sel _ _ _ _ _ _ _ _ _ _ _ _ _ _ _ U r j Hr Hj) as (-> & _). unfold cb_at. rewrite (u_tl _ _ _ _ _ _ _ _ _ _ _ _ _ _ _ U).
  assert (exists p, nth_error (tlist s f i) j = Some p) as (p & Hp).
  { destruct (nth_error (tlist s f i) j) eqn:E; [eauto|]. apply nth_error_None in E. rewrite tlist_length in E. lia. }
  rewrite (rd_some _ _ _ Hp). cbn [bind]. destruct (phType p); [exists g; exact Eg| |]; eexists; reflexivity.
Qed.

Lemma solve_ok o h : hwalk h -> hull_known h -> exists r, h_solve o fb h = Ok r /\ hwalk (snd r).
Proof.
  intros [I W Et Er Rm Pc (s & f & i & m & k & Wk & Ek & Es & Hmv)] Hh. assert (HE : 0 < EPS) by (rsimpl; lra). set (mv := smove (hsup h)) in *.
  destruct (cycle_ok N n a b fb HN Hn Ha HaN Hb Hfb s (hX h) f i m k mv (fun w => w) Wk (fun _ => eq_refl)) as (s1 & v1 & s2 & S0 & w & n1 & i1 & Eu & U & _ & _ & _ & _ & _ & _).
  pose proof (exact_size N n a b fb HN Hn Ha HaN Hb Hfb s (hX h) f i m k mv S0 s1 v1 w n1 i1 Wk Ek Hmv U) as Ex.
  destruct (u_static _ _ _ _ _ _ _ _ _ _ _ _ _ _ _ U) as (UN & UT & Uf & Ul & Ur & _ & _ & Um & Ut). cbn [sN sT sleft sright smove s_setMove] in UN, UT, Ul, Ur, Um. rewrite (w_N _ _ _ _ _ _ _ _ _ _ _ Wk) in UN. rewrite (w_T _ _ _ _ _ _ _ _ _ _ _ Wk) in UT.
  pose proof (next_m_pos N n a b HN Hn Ha HaN Hb s f m) as Hm1.
  assert (Sz : vlen v1 = (2 * N + 2 * snb s1)%nat) by (rewrite (u_size _ _ _ _ _ _ _ _ _ _ _ _ _ _ _ U); cbn [sN s_setMove]; rewrite (w_N _ _ _ _ _ _ _ _ _ _ _ Wk); cbn [sN s_setMove] in Ex; rewrite Ex; reflexivity).
  assert (Eu' : s_updateTimeline (hX h) fb (hsup h) = Ok (s1, v1)) by (rewrite Es; exact Eu).
  destruct (lip_feedback (hlip h) (hi_fresh _ I) (hi_auto _ I) W) as (l1 & El & F1 & A1 & Ef & W1 & _).
  assert (L3 : foot3 (sleft s1)) by (rewrite Ul; apply Wk). assert (R3 : foot3 (sright s1)) by (rewrite Ur; apply Wk).
  (* the models *)
  assert (H1 : exists h1, h_updateModels fb h = Ok h1 /\ hsup h1 = s1 /\ hlip h1 = l1 /\ hX h1 = v1 /\ hcopC h1 = hcopC h /\ hfeetC h1 = hfeetC h).
  { unfold h_updateModels. rewrite Eu'. cbn [bind]. rewrite sabs_Rabs. change (sltb EPS (Rabs (ssub fb (lfb (hlip h))))) with (Rltb EPS (Rabs (fb - lfb (hlip h)))). rewrite El. cbn [bind].
    change (sltb s0 fb) with (Rltb 0 fb). rewrite (proj2 (Rltb_true 0 fb)) by lra. cbn [guard bind]. rewrite UN, (lw_N _ W1), Nat.eqb_refl. cbn [guard bind]. eexists. split; [reflexivity|]. auto 10. }
  destruct H1 as (h1 & E1 & Q1 & Q2 & Q3 & Q4 & Q5).
  assert (Tl : exists rest, cbl (stl s1) = next_f s f m :: rest) by (rewrite (u_tl _ _ _ _ _ _ _ _ _ _ _ _ _ _ _ U); eexists; reflexivity). destruct Tl as (rest & Tl).
  destruct (getters h1 (next_m n a b s f m) (next_f s f m) rest) as (z & cx & cy & Vx & Vy & fx & fy & vv & G & Gv); rewrite ?Q1, ?Q2; try assumption.
  assert (Ck : hcopC h = true -> forall r, (r < N)%nat -> is_ok (s_getCopConvexPolygon r s1)).
  { intros E r Hr. eapply cops_after; [exact U|exact (Hh E _ _ Eu')|]. cbn [sN s_setMove]. rewrite (w_N _ _ _ _ _ _ _ _ _ _ _ Wk). exact Hr. }
  assert (Kk : forall r, (r < snb s1)%nat -> is_ok (s_getKinematicConvexPolygon r s1)).
  { intros r Hr. eexists. eapply kin_getter; [exact U|exact Hr]. }
  (* the first part of solve *)
  assert (H2 : exists h2, h_prepare fb h = Ok h2 /\ hsup h2 = s1 /\ hlip h2 = l1 /\ hcopC h2 = hcopC h /\ hfeetC h2 = hfeetC h /\ vlen (hX h2) = vlen v1).
  { unfold h_prepare. rewrite E1. cbn [bind].
    assert (En : exists c, h_nbCtr h1 = Ok c).
    { unfold h_nbCtr. rewrite Q1, Q2, Q4, Q5, (lw_N _ W1). assert (Ec : exists c, (if hcopC h then do r <- copRows N s1; Ok (length r) else Ok 0%nat) = Ok c).
      { destruct (hcopC h); [|eexists; reflexivity]. destruct (copRows_ok N s1 (Ck eq_refl)) as (rc & ->). cbn [bind]. eexists; reflexivity. }
      destruct Ec as (c & ->). cbn [bind]. destruct (hfeetC h); [|eexists; reflexivity]. pose proof (gt_foot _ _ _ _ _ _ _ _ G) as Gf. rewrite Q1 in Gf. destruct (footRows_ok N s1 _ _ Gf Kk) as (rf & ->). cbn [bind]. eexists; reflexivity. }
    destruct En as (c & ->). cbn [bind]. unfold h_firstFill. destruct (hfirst h1); [|exists h1; rewrite Q3; auto 10].
    rewrite Q1. destruct L3 as (La & Lb & _). unfold vread. rewrite La, Lb. cbn [Nat.ltb Nat.leb guard bind]. rewrite Q2, Q3, Sz, (lw_N _ W1), (proj2 (Nat.leb_le _ _)) by lia. cbn [guard bind].
    eexists. split; [reflexivity|]. cbn [hsup hlip hcopC hfeetC hX vsetseg vlen]. auto 10. }
  destruct H2 as (h2 & E2 & P1 & P2 & P3 & P4 & P5). rewrite Sz in P5.
  pose proof (prepare_inv _ _ _ I E2) as I2. destruct (h_prepare_cases _ _ _ E2) as (s' & X' & l' & _ & _ & _ & _ & _ & _ & Y1 & _ & Y2 & Y3 & _ & _ & _ & Y4 & _ & _).
  destruct (prepare_same _ _ _ E2) as (SP & _ & _ & Y5 & _).
  assert (G2 : gets h2 z cx cy Vx Vy fx fy) by (destruct G as [g1 g2 g3 g4 g5 g6]; rewrite Q1, Q2 in *; constructor; rewrite ?P1, ?P2; assumption).
  assert (Gv2 : l_getComVel (hlip h2) z = Ok vv) by (rewrite P2, <- Q2; exact Gv).
  assert (Nb : (snb s1 <= N)%nat).
  { destruct (walking_ready N n a b fb HN Hn Ha HaN Hb Hfb s (hX h) f i m k mv Wk) as (tn & S0' & Rd & _ & _). rewrite <- Es in Rd.
    destruct (ry_v _ _ _ _ Rd) as (k' & Hk' & _). destruct (C32_size_after_update _ _ _ _ fb k' Rd Hk') as (s'' & v'' & ph & Hu'' & _ & HM & _). rewrite Eu' in Hu''. injection Hu'' as <- <-.
    rewrite Es in HM. cbn [sN s_setMove] in HM. rewrite (w_N _ _ _ _ _ _ _ _ _ _ _ Wk) in HM. exact HM. }
  assert (Pc2 : sides_counted s1) by (unfold sides_counted; rewrite Ul, Ur; rewrite Es in Pc; exact Pc).
  assert (Rm2 : room h2) by (eapply room_same; [exact SP|congruence|congruence|exact Y5|exact Rm]).
  destruct (problem_ok h2 z cx cy Vx Vy fx fy vv (2 * N + 2 * snb s1)%nat I2 G2 Gv2) as (q & idx & Eq & D1 & D2 & D3 & D4);
    try (rewrite ?P1, ?P2, ?Y1, ?(lw_N _ W1); first [reflexivity|assumption|apply Pc2|exact (fun E => hull_counted _ Pc2 (Hh E _ _ Eu'))]).
  { unfold cops_known. rewrite P1, P2, P3, (lw_N _ W1). exact Ck. }
  { unfold steps_known. rewrite P1. intros _. exact Kk. }
  { rewrite P3, P1. exact (fun E => hull_counted _ Pc2 (Hh E _ _ Eu')). }
  destruct (problem_inv _ _ _ I2 Eq) as (rc & rf & bc & bf & _ & _ & _ & _ & Ei & B1 & B2 & B3 & B4 & B5 & B6 & B7 & _). rewrite P1, P2, (lw_N _ W1) in *.
  assert (Tb : tableAt (hsolvers h2) idx = Ok (2 * N + 2 * snb s1, mrows (qA q))%nat).
  { apply rd_some. rewrite Y2. apply Et. rewrite <- Y3, Ei, B6, (hi_mats _ I2), P2, (lw_N _ W1). apply qpTable_at; assumption. }
  set (sz := (2 * N + 2 * snb s1)%nat) in *.
  assert (Sv : exists sv dX fd, solver_solve o (newSolver sz (mrows (qA q))) (normalizeMatrices EPS q) 10000%Z (MkVec sz (vget (hdX h2))) false false = Ok (sv, dX, fd) /\ vlen dX = sz).
  { unfold solver_solve, dimensionsAreConsistent, normalizeMatrices, scale_qp, newSolver. cbn [qQ qp qxl qxu qA qbl qbu mscale vscale mrows mcols vlen snbVar snbCtr smem].
    rewrite B3, B4, B5, D1, D2, B7, D3, D4, !Nat.eqb_refl. cbn [andb guard bind]. destruct (o _ _) as (x & ok). cbn [snbVar vlen]. rewrite Nat.leb_refl. cbn [ubguard bind]. rewrite Bool.andb_false_r.
    do 3 eexists. split; reflexivity. }
  destruct Sv as (sv & dX & fd & Sv & LdX).
  assert (Ev : exists X, vaddE (hX h2) dX = Ok X /\ vlen X = sz).
  { unfold vaddE. rewrite P5, LdX. fold sz. rewrite Nat.eqb_refl. cbn [guard bind]. eexists. split; [reflexivity|]. cbn [vadd vlen]. exact P5. }
  destruct Ev as (X & EX & LX).
  assert (Ec : exists t, h_convert l1 s1 X = Ok t /\ vlen t = sz).
  { destruct G2 as [g1 g2 g3 g4 g5 (vx & vy & K1 & K2 & K3 & K4 & _)]. rewrite ?P1, ?P2 in *. unfold h_convert. rewrite g1. cbn [bind]. rewrite g2. cbn [bind]. rewrite g3. cbn [bind].
    rewrite (lw_N _ W1), LX. fold sz. rewrite Nat.leb_refl. cbn [guard bind]. rewrite K1. cbn [bind]. unfold vread. rewrite (proj2 (Nat.ltb_lt _ _) K3). cbn [guard bind]. rewrite K2. cbn [bind]. rewrite (proj2 (Nat.ltb_lt _ _) K4). cbn [guard bind].
    rewrite g4, g5. cbn [oinv bind]. eexists. split; [reflexivity|]. cbn [vsetseg vlen]. exact LX. }
  destruct Ec as (t & Et' & Lt).
  assert (Ul1 : exists l2, l_updateStateX (vget t 0) fb l1 = Ok l2).
  { unfold l_updateStateX, updateState. change (sltb s0 fb) with (Rltb 0 fb). rewrite (proj2 (Rltb_true 0 fb)) by lra. cbn [guard bind]. eexists; reflexivity. }
  destruct Ul1 as (l2 & El2).
  assert (Ul2 : exists l3, l_updateStateY (vget t N) fb l2 = Ok l3).
  { unfold l_updateStateY, updateState. change (sltb s0 fb) with (Rltb 0 fb). rewrite (proj2 (Rltb_true 0 fb)) by lra. cbn [guard bind]. eexists; reflexivity. }
  destruct Ul2 as (l3 & El3).
  destruct (cycle_ok N n a b fb HN Hn Ha HaN Hb Hfb s (hX h) f i m k mv (fun w => if Nat.eqb (vlen w) sz then t else w) Wk) as (s1' & v1' & s3 & S0' & w' & n1' & i1' & Eu2 & U' & _ & _ & Ecy & Em3 & En3 & Wk').
  { intros w0. cbv beta. destruct (Nat.eqb_spec (vlen w0) sz); congruence. }
  rewrite Eu in Eu2. injection Eu2 as <- <-. cbv beta in Wk', Ecy. rewrite Sz in Wk', Ecy. fold sz in Wk', Ecy. rewrite Nat.eqb_refl in Wk', Ecy.
  unfold cycle in Ecy. cbn [ssteps fst snd bind] in Ecy. rewrite Eu in Ecy. cbn [bind] in Ecy. rewrite Sz in Ecy. fold sz in Ecy. rewrite Nat.eqb_refl, UN in Ecy.
  apply bind_ok in Ecy. destruct Ecy as (s3' & Efe & Ecy). injection Ecy as ->.
  assert (Es3 : s_setMove (smove s3) s3 = s3) by (destruct s3; reflexivity).
  assert (Eso : exists r, h_solve o fb h = Ok r /\ hsup (snd r) = s3 /\ hlip (snd r) = l3 /\ hX (snd r) = X /\ hsolvers (snd r) = hsolvers h2 /\ hmats (snd r) = hmats h2 /\ hvelRef (snd r) = hvelRef h2).
  { unfold h_solve. rewrite E2. cbn [bind]. rewrite Eq. cbn [bind fst snd]. unfold h_finish. rewrite Tb. cbn [bind fst snd]. rewrite P1, P2, (lw_N _ W1). fold sz. rewrite Sv. cbn [bind]. rewrite EX. cbn [bind]. rewrite Et'. cbn [bind].
    rewrite El2. cbn [bind]. rewrite El3. cbn [bind]. rewrite Efe. cbn [bind]. eexists. split; [reflexivity|]. cbn [snd hsup hlip hX hsolvers hmats hvelRef]. auto 10. }
  destruct Eso as (r & Eso & Z1 & Z2 & Z3 & Z4 & Z5 & Z6). exists r. split; [exact Eso|].
  assert (Est : hstep (HSolve o fb) h = Ok (snd r)) by (cbn [hstep]; rewrite Eso; reflexivity).
  constructor.
  - exact (solve_inv _ _ _ _ I Eso).
  - rewrite Z2. destruct (lstep_inv (LUpdateStateX (vget t 0) fb) l1 l2 (ex_intro _ n F1) A1 El2) as (F2 & A2 & O2). destruct (lstep_inv (LUpdateStateY (vget t N) fb) l2 l3 F2 A2 El3) as (_ & _ & O3).
    injection O2 as O21 O22 O23 O24 O25 O26 O27 _ _ _ _. injection O3 as O31 O32 O33 O34 O35 O36 O37 _ _ _ _. destruct W1 as [w1 w2 w3 w4 w5 w6 w7].
    constructor; first [congruence|rewrite O33, O23; exact w6|rewrite O34, O24; exact w7].
  - rewrite Z4, Z5, Y2, Y3. exact Et.
  - rewrite Z6, Y1. exact Er.
  - eapply step_room; [exact Est|]. right. split; [exact (fun x => x)|exact Rm].
  - destruct (step_kept _ _ _ Est (fun x => x) (fun x => x)) as ((S1 & S2 & S3 & S4 & _) & _). unfold sides_counted. rewrite S1, S2, S3, S4. exact Pc.
  - rewrite Z1, Z3. exists s3, (next_f s f m), i1', (next_m n a b s f m - 1)%nat, (grown s3 n1' (snb s1)). split; [|split; [|split]].
    + destruct Wk' as [k1 k2 k3 k4 k5 k6 k7 k8 k9 k10 k11 k12 k13]. constructor; try assumption. rewrite LX, <- Lt. exact k12.
    + pose proof (exact_size N n a b fb HN Hn Ha HaN Hb Hfb s (hX h) f i m k mv S0' s1 v1 w' n1' i1' Wk Ek Hmv U') as Ex'. unfold grown in *. cbn [smove s_setMove] in Ex'. rewrite Em3. rewrite Ex'. exact (u_nb _ _ _ _ _ _ _ _ _ _ _ _ _ _ _ U').
    + symmetry. exact Es3.
    + intros E. congruence.
Qed.

(** ** The other calls *)
Lemma keep_walk h h' : hwalk h -> hinv h' -> lipw (hlip h') -> hsolvers h' = hsolvers h -> hmats h' = hmats h -> vlen (hvelRef h') = (2 * N)%nat -> room h' ->
  same_polygons (hsup h) (hsup h') -> vlen (hX h') = vlen (hX h) ->
  (forall s f i m k, walking N n a b fb s (hX h) f i m k -> k = nbs (smove s) (phType f) i -> hsup h = s_setMove (smove (hsup h)) s ->
    (smove (hsup h) = false -> smove s = true -> phType f <> DS) ->
    exists s', walking N n a b fb s' (hX h) f i m k /\ smove s' = smove s /\ hsup h' = s_setMove (smove (hsup h')) s' /\ (smove (hsup h') = false -> smove s' = true -> phType f <> DS)) ->
  hwalk h'.
Proof.
  intros [I W Et Er Rm Pc (s & f & i & m & k & Wk & Ek & Es & Hmv)] I' W' E1 E2 E3 R' (S1 & S2 & S3 & S4 & _) E4 Hw. constructor; try assumption.
  - intros j e. rewrite E1, E2. apply Et.
  - unfold sides_counted. rewrite S1, S2, S3, S4. exact Pc.
  - destruct (Hw s f i m k Wk Ek Es Hmv) as (s' & Wk' & Em & Es' & Hmv'). exists s', f, i, m, k. rewrite Em in Hmv' |- *. split; [|auto].
    destruct Wk' as [k1 k2 k3 k4 k5 k6 k7 k8 k9 k10 k11 k12 k13]. constructor; try assumption. congruence.
Qed.
Lemma foot_step c h h' : hwalk h -> foot_call c -> forall s1, sstep_call c (hsup h) = Ok s1 -> hinv h' -> room h' -> same_polygons (hsup h) (hsup h') ->
  h' = h_setSup h s1 -> (forall s s', sstep_call c s = Ok s' -> sstep_call c (s_setMove (smove (hsup h)) s) = Ok (s_setMove (smove (hsup h)) s')) -> hwalk h'.
Proof.
  intros Wh Hc s1 E1 I R SP -> Hcomm. pose proof Wh as [I0 W0 _ Er0 _ _ _]. eapply keep_walk; try exact Wh; try assumption; try reflexivity. cbn [h_setSup h_setModels hsup hX].
  intros s f i m k Wk Ek Es Hmv. destruct (foot_calls_ok [c] s) as (s' & E'); [constructor; [exact Hc|constructor]|]. cbn [ssteps] in E'. apply bind_ok in E'. destruct E' as (s'' & E' & E''). injection E'' as ->.
  destruct (walking_foot N n a b fb c s (hX h) f i m k s' Wk Hc E') as (Wk' & Em & _). exists s'. split; [exact Wk'|]. split; [exact Em|].
  assert (Q : s1 = s_setMove (smove (hsup h)) s') by (specialize (Hcomm _ _ E'); rewrite <- Es, E1 in Hcomm; injection Hcomm; auto).
  rewrite Q. cbn [smove s_setMove]. split; [reflexivity|]. rewrite Em. exact Hmv.
Qed.
Lemma call_ok c h : hwalk h -> may n fb c h -> (is_solve c -> hull_known h) -> exists h', hstep c h = Ok h' /\ hwalk h'.
Proof.
  intros Wh Hc Hs. pose proof Wh as [I W Et Er Rm Pc (s & f & i & m & k & Wk & Ek & Es & Hmv)].
  assert (EN : sN (hsup h) = N) by (rewrite (hi_N _ I); apply W).
  assert (Gen : forall h', hstep c h = Ok h' -> ~ rebuilds c -> ~ sets_polygon c -> hinv h' /\ room h' /\ same_polygons (hsup h) (hsup h')).
  { intros h' E H1 H2. split; [exact (step_inv _ _ _ I E)|]. split; [eapply step_room; eauto|]. apply (step_kept _ _ _ E H1 H2). }
  destruct c; cbn [may] in Hc; try contradiction.
  - (* max height *) eexists. split; [reflexivity|]. destruct (Gen _ eq_refl (fun x => x) (fun x => x)) as (G1 & G2 & G3). eapply (foot_step (SSetMaxHeight d z)); try eassumption; try reflexivity.
    intros t t' Ht. cbn [sstep_call] in *. injection Ht as <-. destruct d; reflexivity.
  - (* reference *) assert (E : exists h', hstep (HSetVelRef r) h = Ok h' /\ hsup h' = hsup h /\ hlip h' = hlip h /\ hsolvers h' = hsolvers h /\ hmats h' = hmats h /\ hvelRef h' = r /\ hX h' = hX h).
    { cbn [hstep]. unfold h_setVelRef. rewrite Hc, (hi_N _ I), Nat.eqb_refl. cbn [guard bind]. eexists. split; [reflexivity|]. cbn. auto 10. }
    destruct E as (h' & E & Q1 & Q2 & Q3 & Q4 & Q5 & Q6). exists h'. split; [exact E|]. destruct (Gen _ E (fun x => x) (fun x => x)) as (G1 & G2 & G3).
    eapply keep_walk; try eassumption; rewrite ?Q2, ?Q5, ?Q6; [exact W|rewrite Hc, EN; reflexivity|reflexivity|]. intros s' f' i' m' k' A1 A2 A3 A4. exists s'. rewrite Q1. auto.
  - cbn [hstep]. unfold h_setFootStateX, s_setFootStateX. rewrite Hc. cbn [Nat.eqb guard bind]. eexists. split; [reflexivity|].
    destruct (Gen (h_setSup h (s_setFoot d (f_setStateX v (s_foot d (hsup h))) (hsup h)))) as (G1 & G2 & G3); [cbn [hstep]; unfold h_setFootStateX, s_setFootStateX; rewrite Hc; reflexivity|exact (fun x => x)|exact (fun x => x)|].
    eapply (foot_step (SSetFootX d v)); try eassumption; try reflexivity; [cbn [sstep_call]; unfold s_setFootStateX; rewrite Hc; reflexivity|].
    intros t t' Ht. cbn [sstep_call] in *. unfold s_setFootStateX in *. rewrite Hc in *. cbn [Nat.eqb guard bind] in *. injection Ht as <-. destruct d; reflexivity.
  - cbn [hstep]. unfold h_setFootStateY, s_setFootStateY. rewrite Hc. cbn [Nat.eqb guard bind]. eexists. split; [reflexivity|].
    destruct (Gen (h_setSup h (s_setFoot d (f_setStateY v (s_foot d (hsup h))) (hsup h)))) as (G1 & G2 & G3); [cbn [hstep]; unfold h_setFootStateY, s_setFootStateY; rewrite Hc; reflexivity|exact (fun x => x)|exact (fun x => x)|].
    eapply (foot_step (SSetFootY d v)); try eassumption; try reflexivity; [cbn [sstep_call]; unfold s_setFootStateY; rewrite Hc; reflexivity|].
    intros t t' Ht. cbn [sstep_call] in *. unfold s_setFootStateY in *. rewrite Hc in *. cbn [Nat.eqb guard bind] in *. injection Ht as <-. destruct d; reflexivity.
  - cbn [hstep]. unfold h_setFootStateZ, s_setFootStateZ. rewrite Hc. cbn [Nat.eqb guard bind]. eexists. split; [reflexivity|].
    destruct (Gen (h_setSup h (s_setFoot d (f_setStateZ v (s_foot d (hsup h))) (hsup h)))) as (G1 & G2 & G3); [cbn [hstep]; unfold h_setFootStateZ, s_setFootStateZ; rewrite Hc; reflexivity|exact (fun x => x)|exact (fun x => x)|].
    eapply (foot_step (SSetFootZ d v)); try eassumption; try reflexivity; [cbn [sstep_call]; unfold s_setFootStateZ; rewrite Hc; reflexivity|].
    intros t t' Ht. cbn [sstep_call] in *. unfold s_setFootStateZ in *. rewrite Hc in *. cbn [Nat.eqb guard bind] in *. injection Ht as <-. destruct d; reflexivity.
  - (* CoM x *) assert (E : exists h', hstep (HSetComX v) h = Ok h' /\ hsup h' = hsup h /\ lipw (hlip h') /\ hsolvers h' = hsolvers h /\ hmats h' = hmats h /\ hvelRef h' = hvelRef h /\ hX h' = hX h).
    { cbn [hstep]. unfold h_setComStateX, l_setStateX, st3_of_vec. rewrite Hc. cbn [Nat.eqb guard bind]. eexists. split; [reflexivity|]. split; [reflexivity|]. split; [destruct W; constructor; assumption|]. cbn. auto 10. }
    destruct E as (h' & E & Q1 & Q2 & Q3 & Q4 & Q5 & Q6). exists h'. split; [exact E|]. destruct (Gen _ E (fun x => x) (fun x => x)) as (G1 & G2 & G3).
    eapply keep_walk; try eassumption; rewrite ?Q5, ?Q6; [exact Er|reflexivity|]. intros s' f' i' m' k' A1 A2 A3 A4. exists s'. rewrite Q1. auto.
  - (* CoM y *) assert (E : exists h', hstep (HSetComY v) h = Ok h' /\ hsup h' = hsup h /\ lipw (hlip h') /\ hsolvers h' = hsolvers h /\ hmats h' = hmats h /\ hvelRef h' = hvelRef h /\ hX h' = hX h).
    { cbn [hstep]. unfold h_setComStateY, l_setStateY, st3_of_vec. rewrite Hc. cbn [Nat.eqb guard bind]. eexists. split; [reflexivity|]. split; [reflexivity|]. split; [destruct W; constructor; assumption|]. cbn. auto 10. }
    destruct E as (h' & E & Q1 & Q2 & Q3 & Q4 & Q5 & Q6). exists h'. split; [exact E|]. destruct (Gen _ E (fun x => x) (fun x => x)) as (G1 & G2 & G3).
    eapply keep_walk; try eassumption; rewrite ?Q5, ?Q6; [exact Er|reflexivity|]. intros s' f' i' m' k' A1 A2 A3 A4. exists s'. rewrite Q1. auto.
  - (* CoM z *) destruct Hc as (Hc & Hc1 & Hc2 & Hc3). destruct (hi_fresh _ I) as (n0 & F).
    assert (V : lip_obs_valid (lobs_step (lobs_of (hlip h)) (LSetComHeight (vget v 0)))) by exact (lipw_valid0 _ W).
    destruct (lstep_returns (LSetComHeight (vget v 0)) _ n0 F (hi_auto _ I) (lipw_valid0 _ W) Logic.I V) as (l' & El).
    destruct (lstep_fresh _ _ _ _ F (hi_auto _ I) El) as (_ & O & _). injection O as O1 O2 O3 O4 O5 O6 O7 _ _ _ _.
    assert (E : exists h', hstep (HSetComZ v) h = Ok h' /\ hsup h' = hsup h /\ hlip h' = l' /\ hsolvers h' = hsolvers h /\ hmats h' = hmats h /\ hvelRef h' = hvelRef h /\ hX h' = hX h).
    { cbn [hstep]. unfold h_setComStateZ. rewrite Hc, Hc1, Hc2. change (seqb 0 s0) with (Reqb 0 0). rewrite (proj2 (Reqb_true 0 0) eq_refl). cbn [Nat.eqb guard bind]. cbn [lstep] in El. rewrite El. cbn [bind]. eexists. split; [reflexivity|]. cbn. auto 10. }
    destruct E as (h' & E & Q1 & Q2 & Q3 & Q4 & Q5 & Q6). exists h'. split; [exact E|]. destruct (Gen _ E (fun x => x) (fun x => x)) as (G1 & G2 & G3).
    eapply keep_walk; try eassumption; rewrite ?Q2, ?Q5, ?Q6; [|exact Er|reflexivity|intros s' f' i' m' k' A1 A2 A3 A4; exists s'; rewrite Q1; auto].
    destruct W as [w1 w2 w3 w4 w5 w6 w7]. constructor; first [congruence|rewrite O3; exact w6|rewrite O4; exact Hc3].
  - (* weights *) destruct Hc as (H1 & H2 & H3).
    assert (E : exists h', hstep (HSetWeightings w) h = Ok h' /\ hsup h' = hsup h /\ hlip h' = hlip h /\ hsolvers h' = hsolvers h /\ hmats h' = hmats h /\ hvelRef h' = hvelRef h /\ hX h' = hX h).
    { cbn [hstep]. unfold h_setWeightings. change (sleb s0) with (Rleb 0). rewrite (proj2 (Rleb_true _ _) H1), (proj2 (Rleb_true _ _) H2), (proj2 (Rleb_true _ _) H3). cbn [guard bind]. eexists. split; [reflexivity|]. cbn. auto 10. }
    destruct E as (h' & E & Q1 & Q2 & Q3 & Q4 & Q5 & Q6). exists h'. split; [exact E|]. destruct (Gen _ E (fun x => x) (fun x => x)) as (G1 & G2 & G3).
    eapply keep_walk; try eassumption; rewrite ?Q2, ?Q5, ?Q6; [exact W|exact Er|reflexivity|]. intros s' f' i' m' k' A1 A2 A3 A4. exists s'. rewrite Q1. auto.
  - (* move *) assert (Ed : s_isInDS (s_setMove b0 (hsup h)) = Ok (is_DS (phType f))).
    { rewrite Es. unfold s_isInDS, s_front, cb_at. cbn [stl s_setMove]. rewrite (w_tl _ _ _ _ _ _ _ _ _ _ _ Wk). reflexivity. }
    assert (E : exists h', hstep (HSetMove b0) h = Ok h' /\ hsup h' = s_setMove b0 (hsup h) /\ hlip h' = hlip h /\ hsolvers h' = hsolvers h /\ hmats h' = hmats h /\ hvelRef h' = hvelRef h /\ hX h' = hX h).
    { cbn [hstep]. unfold h_setMove. rewrite Ed. cbn [bind]. eexists. split; [reflexivity|]. cbn. auto 10. }
    destruct E as (h' & E & Q1 & Q2 & Q3 & Q4 & Q5 & Q6). exists h'. split; [exact E|]. destruct (Gen _ E (fun x => x) (fun x => x)) as (G1 & G2 & G3).
    eapply keep_walk; try eassumption; rewrite ?Q2, ?Q5, ?Q6; [exact W|exact Er|reflexivity|]. intros s' f' i' m' k' A1 A2 A3 A4. exists s'. rewrite Q1. cbn [smove s_setMove].
    split; [exact A1|]. split; [reflexivity|]. split; [rewrite A3; reflexivity|]. intros -> Hm. destruct Hc as [Hc|Hc]; [exact (A4 Hc Hm)|].
    unfold s_isInDS, s_front, cb_at in Hc. rewrite A3 in Hc. cbn [stl s_setMove] in Hc. rewrite (w_tl _ _ _ _ _ _ _ _ _ _ _ A1) in Hc. cbn in Hc. injection Hc as Hc. intros E'. rewrite E' in Hc. discriminate Hc.
  - (* solve *) subst. destruct (solve_ok o h Wh (Hs Logic.I)) as (r & E & Wh'). exists (snd r). cbn [hstep]. rewrite E. split; [reflexivity|exact Wh'].
Qed.
Lemma run_ok cs : forall h, hwalk h -> permitted n fb cs h ->
  (exists h', hsteps cs h = Ok h' /\ hwalk h')
  \/ exists cs1 o cs2 h1, cs = cs1 ++ HSolve o fb :: cs2 /\ hsteps cs1 h = Ok h1 /\ hull_fails fb h1.
Proof.
  induction cs as [|c cs IH]; intros h Wh Hp; cbn [hsteps permitted] in *; [left; eauto|]. destruct Hp as (Hc & Hp).
  assert (D : (exists o, c = HSolve o fb /\ hull_fails fb h) \/ (is_solve c -> hull_known h)).
  { destruct c; try (right; intros []; fail). cbn [may] in Hc. subst. destruct (hcopC h) eqn:Ec; [|right; intros _ E; congruence].
    destruct (s_updateTimeline (hX h) fb (hsup h)) as [(s & v)| | | |] eqn:Eu; try (right; intros _ _ s v E; congruence).
    assert (D : hull_ok s \/ ~ hull_ok s).
    { unfold hull_ok. destruct (s_computeDSCopConvexPolygon s) as [g| | | |]; [destruct (le_dec (length (pverts g)) (length (pverts (fcop (sleft s))) + length (pverts (fcop (sright s)))));
        [left; eauto|right; intros (g' & E & L); injection E as <-; contradiction]|right; intros (? & E & _); discriminate E..]. }
    destruct D as [D|D]; [right; intros _ _ s' v' E; rewrite Eu in E; injection E as <- <-; exact D|left; exists o; split; [reflexivity|]; split; [exact Ec|eauto]]. }
  destruct D as [(o & -> & D)|D]; [right; exists [], o, cs, h; auto|].
  destruct (call_ok c h Wh Hc D) as (h' & E & Wh'). rewrite E. cbn [bind]. destruct (IH h' Wh' (Hp h' E)) as [IH'|(cs1 & o & cs2 & h1 & -> & E1 & F)]; [left; exact IH'|].
  right. exists (c :: cs1), o, cs2, h1. split; [reflexivity|]. split; [cbn [hsteps]; rewrite E; exact E1|exact F].
Qed.
End Walk.

(** ** Before walking *)
Lemma settled_up h : settled h -> set_up h.
Proof. induction 1 as [h H|c h h' H Hc E|c h h' _ IH Hc _ E]; [apply up_new; exact H| |]; (eapply up_call; [eassumption| |exact E]); [destruct c; cbn in *; auto|exact Hc]. Qed.
Lemma up_reached h : set_up h -> reached h.
Proof. induction 1 as [h H|c h h' _ IH _ E]; [apply reached_new; exact H|eapply reached_call; eassumption]. Qed.
Record idle (h : hum R) : Prop := {
  id_sup : fresh (hsup h); id_nb : snb (hsup h) = 0%nat; id_X : vlen (hX h) = (2 * sN (hsup h))%nat;
  id_g : lg (hlip h) = GRAVITY; id_m : lm (hlip h) = 1; id_M : lM (hlip h) = 1; id_fb : 0 < lfb (hlip h) }.
Lemma up_idle h : set_up h -> idle h.
Proof.
  induction 1 as [h H|c h h' Hu [F NB LX G M1 M2 FB] Hc E].
  - unfold newHum in H. apply bind_ok in H. destruct H as (s & Hs & H). apply bind_ok in H. destruct H as (l & Hl & H). injection H as <-.
    destruct (fresh_new _ _ _ Hs) as (F & _). assert (Q : snb s = 0%nat /\ sN s = 1%nat) by (unfold newSupDefault, newSup in Hs; binds Hs; injection Hs as <-; auto). destruct Q as (Q1 & Q2).
    destruct (newLip_fresh _ _ _ Hl) as (_ & O & _). injection O as O1 O2 O3 O4 O5 O6 O7 _ _ _ _.
    constructor; cbn [hsup hlip hX h_computeConstantPart]; try assumption.
    + cbn [vzero vlen]. rewrite Q1, Q2, O1. reflexivity.
    + rewrite O3. rsimpl. lra.
  - pose proof (reached_inv _ (up_reached _ Hu)) as I. destruct c; cbn [hstep is_solve] in *; try (exfalso; exact (Hc Logic.I)).
    + unfold h_setNbSamples in E. apply guard_ok in E. destruct E as (_ & E). apply bind_ok in E. destruct E as (l & Hl & E). apply bind_ok in E. destruct E as (s & Hs & E). injection E as <-.
      destruct (lstep_inv (LSetNbSamples n) _ _ (hi_fresh _ I) (hi_auto _ I) Hl) as (_ & _ & O). injection O as O1 O2 O3 O4 O5 O6 O7 _ _ _ _.
      pose proof (fresh_step (SSetNbSamples n) _ _ F Logic.I Hs) as F'. assert (snb s = snb (hsup h)) by (unfold s_setNbSamples, f_setNbSamples in Hs; binds Hs; injection Hs as <-; reflexivity).
      constructor; cbn [hsup hlip hX h_computeConstantPart vzero vlen]; try assumption; try congruence; lia.
    + unfold h_setSamplingPeriod in E. apply guard_ok in E. destruct E as (_ & E). apply bind_ok in E. destruct E as (l & Hl & E). apply bind_ok in E. destruct E as (s & Hs & E). injection E as <-.
      pose proof Hl as Hl'. unfold l_setSamplingPeriod in Hl'. apply guard_ok in Hl'. destruct Hl' as (Hpos & _). change (sltb s0 T) with (Rltb 0 T) in Hpos. apply Rltb_true in Hpos.
      destruct (lstep_inv (LSetSamplingPeriod T) _ _ (hi_fresh _ I) (hi_auto _ I) Hl) as (_ & _ & O). injection O as O1 O2 O3 O4 O5 O6 O7 _ _ _ _.
      pose proof (fresh_step (SSetSamplingPeriod T) _ _ F Logic.I Hs) as F'. assert (Q : snb s = snb (hsup h) /\ sN s = sN (hsup h)) by (unfold s_setSamplingPeriod, f_setSamplingPeriod in Hs; binds Hs; injection Hs as <-; auto). destruct Q as (Q1 & Q2).
      constructor; cbn [hsup hlip hX]; try assumption; try congruence. 
    + unfold h_setStepPeriod in E. apply guard_ok in E. destruct E as (_ & E). apply guard_ok in E. destruct E as (_ & E). apply bind_ok in E. destruct E as (s & Hs & E). injection E as <-.
      pose proof (fresh_step (SSetStepPeriod p) _ _ F Logic.I Hs) as F'. pose proof (s_setStepPeriod_N _ _ _ Hs). assert (snb s = snb (hsup h)) by (unfold s_setStepPeriod in Hs; binds Hs; destruct x; [|binds Hs]; injection Hs as <-; reflexivity).
      constructor; cbn [h_setSup h_setModels hsup hlip hX]; try assumption; congruence.
    + unfold h_setInitialDoubleSupportLength in E. apply bind_ok in E. destruct E as (s & Hs & E). injection E as <-.
      pose proof (fresh_step (SSetDSLength L) _ _ F Logic.I Hs) as F'. pose proof (s_setDS_N _ _ _ Hs).
      assert (snb s = snb (hsup h)). { unfold s_setInitialDoubleSupportLength in Hs. apply bind_ok in Hs. destruct Hs as (ds & _ & Hs). destruct ds; [apply bind_ok in Hs; destruct Hs as (? & _ & Hs); binds Hs|]; injection Hs as <-; reflexivity. }
      constructor; cbn [h_setSup h_setModels hsup hlip hX]; try assumption; congruence.
    + injection E as <-. pose proof (fresh_step (SSetKin d p) _ _ F Logic.I eq_refl) as F'. constructor; cbn [h_setKinematicConvexPolygon h_setSup h_setModels hsup hlip hX]; try assumption; destruct d; assumption.
    + injection E as <-. pose proof (fresh_step (SSetCop d p) _ _ F Logic.I eq_refl) as F'. constructor; cbn [h_setCopConvexPolygon h_setSup h_setModels hsup hlip hX]; try assumption; destruct d; assumption.
    + injection E as <-. pose proof (fresh_step (SSetMaxHeight d z) _ _ F Logic.I eq_refl) as F'. constructor; cbn [h_setMaxHeight h_setSup h_setModels hsup hlip hX]; try assumption; destruct d; assumption.
    + unfold h_setVelRef in E. binds E. injection E as <-. constructor; assumption.
    + unfold h_setFootStateX in E. apply guard_ok in E. destruct E as (_ & E). apply bind_ok in E. destruct E as (s & Hs & E). injection E as <-. pose proof (fresh_step (SSetFootX d v) _ _ F Logic.I Hs) as F'.
      unfold s_setFootStateX in Hs. apply guard_ok in Hs. destruct Hs as (_ & Hs). injection Hs as <-. constructor; cbn [h_setSup h_setModels hsup hlip hX]; try assumption; destruct d; assumption.
    + unfold h_setFootStateY in E. apply guard_ok in E. destruct E as (_ & E). apply bind_ok in E. destruct E as (s & Hs & E). injection E as <-. pose proof (fresh_step (SSetFootY d v) _ _ F Logic.I Hs) as F'.
      unfold s_setFootStateY in Hs. apply guard_ok in Hs. destruct Hs as (_ & Hs). injection Hs as <-. constructor; cbn [h_setSup h_setModels hsup hlip hX]; try assumption; destruct d; assumption.
    + unfold h_setFootStateZ in E. apply guard_ok in E. destruct E as (_ & E). apply bind_ok in E. destruct E as (s & Hs & E). injection E as <-. pose proof (fresh_step (SSetFootZ d v) _ _ F Logic.I Hs) as F'.
      unfold s_setFootStateZ in Hs. apply guard_ok in Hs. destruct Hs as (_ & Hs). injection Hs as <-. constructor; cbn [h_setSup h_setModels hsup hlip hX]; try assumption; destruct d; assumption.
    + unfold h_setComStateX, l_setStateX in E. apply guard_ok in E. destruct E as (_ & E). apply bind_ok in E. destruct E as (l & Hl & E). injection E as <-. binds Hl. injection Hl as <-. constructor; assumption.
    + unfold h_setComStateY, l_setStateY in E. apply guard_ok in E. destruct E as (_ & E). apply bind_ok in E. destruct E as (l & Hl & E). injection E as <-. binds Hl. injection Hl as <-. constructor; assumption.
    + unfold h_setComStateZ in E. apply guard_ok in E. destruct E as (_ & E). apply guard_ok in E. destruct E as (_ & E). apply guard_ok in E. destruct E as (_ & E). apply bind_ok in E. destruct E as (l & Hl & E). injection E as <-.
      destruct (lstep_inv (LSetComHeight (vget v 0)) _ _ (hi_fresh _ I) (hi_auto _ I) Hl) as (_ & _ & O). injection O as O1 O2 O3 O4 O5 O6 O7 _ _ _ _.
      constructor; cbn [h_setLip h_setModels hsup hlip hX]; try assumption; congruence.
    + unfold h_setWeightings in E. binds E. injection E as <-. constructor; assumption.
    + injection E as <-. constructor; assumption.
    + unfold h_setMove in E. apply bind_ok in E. destruct E as (ds & _ & E). injection E as <-. constructor; assumption.
Qed.
Lemma settled_room h : settled h -> room h.
Proof.
  induction 1 as [h H|c h h' H Hc E|c h h' _ IH Hc Hp E].
  - unfold newHum in H. apply bind_ok in H. destruct H as (s & Hs & H). apply bind_ok in H. destruct H as (l & Hl & H). injection H as <-. apply const_room.
  - eapply step_room; [exact E|]. left. destruct c; exact Hc.
  - eapply step_room; [exact E|]. right. split; [destruct c; exact Hp|exact IH].
Qed.
Lemma built_counted (p : polygon R) : built p -> (length (pgen p) <= length (pverts p))%nat.
Proof. intros E. pose proof (polygon_counted (pverts p)) as (A & B). rewrite <- E in A. exact A. Qed.
Lemma ready_walks n a b fb h : ready_to_walk n a b fb h -> (0 < sN (hsup h))%nat /\ hwalk (sN (hsup h)) n a b fb h.
Proof.
  intros [(h0 & t & St & -> & Ht) Hfb Hn Ha Hb ET Ea Eb (K1 & K2) (B1 & B2 & B3 & B4) Er Hh Hp]. cbn [h_setSolvers hsup hlip hvelRef] in *.
  pose proof (up_reached _ (settled_up _ St)) as Rc. pose proof (reached_inv _ Rc) as I. pose proof (up_idle _ (settled_up _ St)) as [F NB LX G M1 M2 FB]. split; [apply F|].
  constructor; cbn [h_setSolvers hsup hlip hvelRef hsolvers hmats hX].
  - destruct I. constructor; assumption.
  - constructor; try assumption; [symmetry; apply (hi_N _ I)|rewrite <- (reached_T _ Rc); exact ET|split; assumption].
  - exact Ht.
  - exact Er.
  - exact (settled_room _ St).
  - unfold sides_counted. auto using built_counted.
  - exists (hsup h0), (MkPhase DS (sDS (hsup h0))), 0%nat, (b * n)%nat, 0%nat. split; [apply fresh_walking; assumption|]. split; [reflexivity|]. split; [destruct (hsup h0); reflexivity|]. intros; congruence.
Qed.
End Run.
