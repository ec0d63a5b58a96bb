(** Proofs of property C70: the calls on a humanoid generator carried elsewhere. *)

From Coq Require Import Reals List ZArith Lra Lia Arith Bool.
From Verif Require Import Scalar LinAlg LinAlgFacts ToolsModel ToolsSpec ToolsFacts InterpModel NoDynModel PolygonModel PolygonFacts
  QPModel QPFacts TrajModel TrajFacts LipModel FootModel ModelsSpec ModelsFacts SupModel SupSpec SupFacts PropSup PropGait HumModel HumSpec HumAlg HumFacts HumObj HumProb HumWorld PropHumCalls
  ShiftSpec SupShift SelCover HumShift.
Import ListNotations.
Local Open Scope R_scope.

Section Moved.
Context {TK : Trig R}.
Variables a b : R.

(** ** The model of the centre of mass *)
Lemma compute_states (l l1 : lip R) x y w : l_computeDynamics l = Ok l1 ->
  l_computeDynamics (l_setStates l x y w) = Ok (l_setStates l1 x y w) /\ lsx l1 = lsx l /\ lsy l1 = lsy l /\ lsyaw l1 = lsyaw l /\ lm l1 = lm l /\ lM l1 = lM l.
Proof.
  unfold l_computeDynamics. intros H. cbn [l_setStates lT lfb lN lg lh lm lM]. apply bind_ok in H. destruct H as (nb & -> & H). cbn [bind].
  apply bind_ok in H. destruct H as (n & Hn & H). unfold l_count in *. cbn [l_setNb lnb] in *. rewrite Hn. cbn [bind].
  apply bind_ok in H. destruct H as (cx & Hcx & H). unfold l_cop, l_first in *. cbn [l_setNb l_setStates lT lfb lN lg lh lm lM] in *. rewrite Hcx. cbn [bind].
  apply bind_ok in H. destruct H as (cy & Hcy & H). rewrite Hcy. cbn [bind].
  apply bind_ok in H. destruct H as (p & Hp & H). rewrite Hp. cbn [bind]. apply bind_ok in H. destruct H as (v & Hv & H). rewrite Hv. cbn [bind].
  apply bind_ok in H. destruct H as (ac & Ha & H). rewrite Ha. cbn [bind]. apply guard_ok in H. destruct H as (Hg & H). rewrite Hg. cbn [guard bind]. injection H as <-. repeat split.
Qed.
Lemma auto_states (l l1 : lip R) x y w : l_auto l = Ok l1 ->
  l_auto (l_setStates l x y w) = Ok (l_setStates l1 x y w) /\ lsx l1 = lsx l /\ lsy l1 = lsy l /\ lsyaw l1 = lsyaw l /\ lm l1 = lm l /\ lM l1 = lM l.
Proof.
  unfold l_auto. cbn [l_setStates lauto]. destruct (lauto l); [apply compute_states|]. intros H. injection H as <-. repeat split.
Qed.
Lemma autoCop_states (l l1 : lip R) x y w : l_autoCop l = Ok l1 ->
  l_autoCop (l_setStates l x y w) = Ok (l_setStates l1 x y w) /\ lsx l1 = lsx l /\ lsy l1 = lsy l /\ lsyaw l1 = lsyaw l.
Proof.
  unfold l_autoCop. change (lauto (l_setStates l x y w)) with (lauto l). destruct (lauto l); [|intros H; injection H as <-; repeat split]. intros H.
  apply bind_ok in H. destruct H as (n & Hn & H). change (l_count (l_setStates l x y w)) with (l_count l). rewrite Hn. cbn [bind].
  unfold l_cop, l_first in *. cbn [l_setStates lT lfb lN lg lh lm lM] in *. apply bind_ok in H. destruct H as (cx & Hcx & H). rewrite Hcx. cbn [bind].
  apply bind_ok in H. destruct H as (cy & Hcy & H). rewrite Hcy. cbn [bind]. injection H as <-. repeat split.
Qed.
(** A call that recomputes the dynamics keeps the place. *)
Lemma par_moved l l1 l' n T fb h g m M z : moved_lip a b l l' -> l_auto (l_setPar l n T fb h g m M z) = Ok l1 ->
  exists l1', l_auto (l_setPar l' n T fb h g m M z) = Ok l1' /\ moved_lip a b l1 l1'.
Proof.
  intros -> H. destruct (auto_states _ _ (carried a (lsx l)) (carried b (lsy l)) (lsyaw l) H) as (E & Ex & Ey & Ew & _). eexists. split; [exact E|]. unfold moved_lip. rewrite Ex, Ey, Ew. reflexivity.
Qed.
Lemma height_moved l l1 l' h : moved_lip a b l l' -> l_setComHeight h l = Ok l1 -> exists l1', l_setComHeight h l' = Ok l1' /\ moved_lip a b l1 l1'.
Proof.
  intros -> H. unfold l_setComHeight in *. destruct (autoCop_states _ _ (carried a (lsx l)) (carried b (lsy l)) (lsyaw l) H) as (E & Ex & Ey & Ew). eexists. split; [exact E|]. unfold moved_lip. rewrite Ex, Ey, Ew. reflexivity.
Qed.

(** ** Solve *)
Lemma feedback_moved (l l1 l' : lip R) fb : moved_lip a b l l' -> (if Rltb EPS (Rabs (fb - lfb l)) then l_setFeedbackPeriod fb l else Ok l) = Ok l1 ->
  exists l1', (if Rltb EPS (Rabs (fb - lfb l')) then l_setFeedbackPeriod fb l' else Ok l') = Ok l1' /\ moved_lip a b l1 l1' /\ lm l1 = lm l /\ lM l1 = lM l.
Proof.
  intros Ml H. assert (Ef : lfb l' = lfb l) by (rewrite Ml; reflexivity). rewrite Ef. destruct (Rltb _ _); [|injection H as <-; exists l'; auto].
  unfold l_setFeedbackPeriod in *. apply guard_ok in H. destruct H as (Hg & H). rewrite Hg. cbn [guard bind].
  assert (P : lN l' = lN l /\ lT l' = lT l /\ lh l' = lh l /\ lg l' = lg l /\ lm l' = lm l /\ lM l' = lM l /\ lsz l' = lsz l) by (rewrite Ml; repeat split). destruct P as (-> & -> & -> & -> & -> & -> & ->).
  destruct (par_moved _ _ _ _ _ _ _ _ _ _ _ Ml H) as (l1' & H' & Ml1). exists l1'. split; [exact H'|]. split; [exact Ml1|].
  destruct (auto_states _ _ (lsx l) (lsy l) (lsyaw l) H) as (_ & _ & _ & _ & E1 & E2). rewrite E1, E2. split; reflexivity.
Qed.
Lemma loop_keep fuel : forall (s : sup R) i pt h v r, timeline_loop fuel s i pt h v = Ok r -> sN (fst (fst r)) = sN s /\ sT (fst (fst r)) = sT s /\ sttnp (fst (fst r)) = sttnp s.
Proof.
  induction fuel as [|fuel IH]; intros s i pt h v r H; cbn [timeline_loop] in H; destruct (sltb _ _); try discriminate; try (injection H as <-; auto).
  apply bind_ok in H. destruct H as (((s1 & i1) & p1) & H1 & H). apply bind_ok in H. destruct H as (v1 & _ & H). apply IH in H. destruct H as (-> & -> & ->).
  destruct (sltb pt EPS); [|injection H1 as <- _ _; auto].
  apply bind_ok in H1. destruct H1 as (s2 & H2 & H1). apply bind_ok in H1. destruct H1 as (p & _ & H1). injection H1 as <- _ _.
  unfold phase_change in H2. apply bind_ok in H2. destruct H2 as (la & _ & H2). destruct (processFSM _ _ _) as (ph & nb).
  destruct (Nat.eqb _ _); [injection H2 as <-; auto|]. apply bind_ok in H2. destruct H2 as (t & _ & H2). injection H2 as <-. auto.
Qed.
Lemma updated_cover v fb s s1 v1 : s_updateTimeline v fb s = Ok (s1, v1) -> 0 < sT s1 -> (forall k, sttnp s1 <> INR k * sT s1 + EPS) ->
  forall r, (r < sN s1)%nat -> attributed (snb s1) (selV (ssel s1)) (selV0 (ssel s1)) r = 1.
Proof.
  intros H HT Hk r Hr. unfold s_updateTimeline in H. apply guard_ok in H. destruct H as (_ & H). apply guard_ok in H. destruct H as (_ & H).
  apply bind_ok in H. destruct H as (((v2 & t1) & tn) & _ & H). apply bind_ok in H. destruct H as (((s2 & i) & v3) & Hl & H). apply bind_ok in H. destruct H as (sel & Hsel & H). injection H as <- <-.
  cbn [sT sttnp sN snb ssel] in *. unfold computeSelection in Hsel. apply bind_ok in Hsel. destruct Hsel as (W & _ & Hsel). apply bind_ok in Hsel. destruct Hsel as (e & He & Hsel). injection Hsel as <-. cbn [selV selV0].
  destruct (loop_keep _ _ _ _ _ _ _ Hl) as (E1 & E2 & E3). cbn [fst sN sT sttnp] in E1, E2, E3.
  apply (selection_cover _ _ He); cbn [s_setTl sT sttnp sN]; rewrite ?E1, ?E2, ?E3; assumption.
Qed.
(** What holds of a generator that is about to pose its problem. *)
Lemma posed_ready h fb h1 : reached h -> h_prepare fb h = Ok h1 -> (forall k, sttnp (hsup h1) <> INR k * sT (hsup h1) + EPS) -> vlen (hX h1) = (2 * lN (hlip h1) + 2 * snb (hsup h1))%nat ->
  hinv h1 /\ shapes (hsup h1) /\ (0 < lN (hlip h1))%nat /\ lm (hlip h1) / lM (hlip h1) = 1
  /\ (forall r, (r < sN (hsup h1))%nat -> attributed (snb (hsup h1)) (selV (ssel (hsup h1))) (selV0 (ssel (hsup h1))) r = 1)
  /\ vlen (sstepVec (hsup h1)) = (2 * snb (hsup h1))%nat.
Proof.
  intros Hr H Hk LX. destruct (prepared _ _ _ Hr H) as (I & Sh & HN). split; [exact I|]. split; [exact Sh|]. split; [exact HN|].
  destruct (prepared_T _ _ _ Hr H) as (_ & HT & _). pose proof (reached_valid _ Hr) as V. pose proof (reached_T _ Hr) as ET. unfold com_valid, lobs_of in V. cbn [oT om oM] in V.
  destruct (h_prepare_cases _ _ _ H) as (s & X & l & Hu & Hl & _ & EN & Es & El & _ & _ & _ & _ & _ & _ & _ & _ & _ & _ & Lx & _).
  assert (Hfull : full (hsup h)). { destruct (C63_models_histories _ Hr) as (Hs & _). exact (proj1 (reachable_inv _ Hs)). }
  destruct (update_shape _ _ _ _ _ Hfull Hu) as (f & i & _ & _ & _ & N1 & T1 & _ & _ & _ & _ & _ & _ & Sv & _).
  destruct (feedback_moved (hlip h) l (l_setStates (hlip h) (carried a (lsx (hlip h))) (carried b (lsy (hlip h))) (lsyaw (hlip h))) fb eq_refl Hl) as (_ & _ & _ & Em & EM).
  split; [rewrite El, Em, EM; destruct V as (_ & _ & _ & _ & -> & ->); field|].
  split; [rewrite Es in *; apply (updated_cover _ _ _ _ _ Hu); [rewrite HT, ET; tauto|exact Hk]|].
  rewrite Es in *. rewrite El in LX. rewrite Sv. cbn [vseg vlen]. lia.
Qed.

Lemma state_read c (v v' : vec R) x : moved_state c v v' -> vread v 0 = Ok x -> vread v' 0 = Ok (x + c).
Proof.
  intros (L & E) H. unfold vread in *. rewrite L. destruct (Nat.ltb 0 (vlen v)) eqn:Eb; [|discriminate]. apply Nat.ltb_lt in Eb. rewrite E by exact Eb. cbn [Nat.eqb]. injection H as <-. reflexivity.
Qed.
Lemma fill_moved h h' h1 : moved_hum a b h h' -> lN (hlip h) = sN (hsup h) -> h_firstFill h = Ok h1 -> exists h1', h_firstFill h' = Ok h1' /\ moved_hum a b h1 h1'.
Proof.
  intros (s & l & X & t & -> & Ms & Ml & MX) HN H. unfold h_firstFill in *. cbn [hfirst hlip hsup hX]. destruct (hfirst h) eqn:Ef.
  - destruct Ms as (fl & fr & sv & -> & (x & y & Efl & Mx & My) & Mr & Msv). cbn [sleft ssel]. apply bind_ok in H. destruct H as (lx & Hx & H). apply bind_ok in H. destruct H as (ly & Hy & H).
    rewrite Efl. cbn [f_setStates fsx fsy]. rewrite (state_read _ _ _ _ Mx Hx), (state_read _ _ _ _ My Hy). cbn [bind]. rewrite Ml. cbn [l_setStates lN lsx lsy lsz carried pos acc]. rewrite <- Ml.
    assert (LX : vlen X = vlen (hX h)) by (destruct MX as (m & A & B & _); congruence). rewrite LX. apply guard_ok in H. destruct H as (Hg & H). rewrite Hg. cbn [guard bind]. apply Nat.leb_le in Hg.
    set (cx := (pos (lsx (hlip h)) - _)%sc) in *. set (cy := (pos (lsy (hlip h)) - _)%sc) in *.
    assert (Ex : (pos (lsx (hlip h)) + a - pos (lsz (hlip h)) * acc (lsx (hlip h)) / GRAVITY_NORM - (lx + a))%sc = (cx - lx)%sc) by (unfold cx; rsimpl; ring).
    assert (Ey : (pos (lsy (hlip h)) + b - pos (lsz (hlip h)) * acc (lsy (hlip h)) / GRAVITY_NORM - (ly + b))%sc = (cy - ly)%sc) by (unfold cy; rsimpl; ring).
    change (((pos (lsx (hlip h)) + a)%R - pos (lsz (hlip h)) * acc (lsx (hlip h)) / GRAVITY_NORM - (lx + a)%R)%sc = (cx - lx)%sc) in Ex.
    change (((pos (lsy (hlip h)) + b)%R - pos (lsz (hlip h)) * acc (lsy (hlip h)) / GRAVITY_NORM - (ly + b)%R)%sc = (cy - ly)%sc) in Ey.
    rewrite Ex, Ey. injection H as <-. eexists. split; [reflexivity|]. eexists _, _, _, _. split; [reflexivity|]. cbn [hsup hlip hX].
    split; [|split; [exact Ml|]].
    + eexists _, _, _. split; [reflexivity|]. split; [exists x, y; auto|]. auto.
    + rewrite <- HN in *. set (N := lN (hlip h)) in *. destruct MX as (m & L1 & L2 & E & E1 & E2). exists m. unfold vsetseg, mblock, mv, vadd. cbn [vlen vget mrows]. split; [exact L1|]. split; [exact L2|].
      split; [|split]; intros k Hk; bools; try lia; auto.
  - injection H as <-. eexists. split; [reflexivity|]. eexists _, _, _, _. rewrite Ef. split; [reflexivity|]. auto.
Qed.
Lemma prepare_moved o h h' fb h1 : reached h -> moved_hum a b h h' -> undisturbed_call (HSolve o fb) h -> h_prepare fb h = Ok h1 -> vlen (hX h1) = (2 * lN (hlip h1) + 2 * snb (hsup h1))%nat ->
  exists h1', h_prepare fb h' = Ok h1' /\ moved_hum a b h1 h1'.
Proof.
  intros Hr Mh U H LX. pose proof H as Hp. cbn [undisturbed_call] in U. destruct (U _ H) as (Uk & Us). destruct (posed_ready _ _ _ Hr H Uk LX) as (I & Sh & HN0 & Hm & Cov & Lsv).
  assert (Hfull : full (hsup h)). { destruct (C63_models_histories _ Hr) as (Hs & _). exact (proj1 (reachable_inv _ Hs)). }
  destruct Mh as (s' & l' & X' & t' & -> & Ms & Ml & MX). unfold h_prepare in *. apply bind_ok in H. destruct H as (h0 & Hu & H). apply bind_ok in H. destruct H as (c & Hc & H).
  destruct (h_prepare_cases _ _ _ Hp) as (s2 & X2 & l2 & Hu2 & Hl2 & _ & EN & Es & El & _ & _ & _ & _ & _ & _ & _ & _ & _ & _ & Lx & _).
  unfold h_updateModels in *. cbn [hX hsup hlip]. rewrite Hu2 in Hu. cbn [bind] in Hu. 
  assert (Us' : s_isInDS s2 = Ok true \/ snb s2 = 0%nat \/ exists m, vlen (hX h) = (2 * sN (hsup h) + 2 * m)%nat /\ (0 < m)%nat /\ (sttnp (hsup h) < EPS -> s_isInDS (hsup h) = Ok false -> (1 < m)%nat)) by (rewrite <- Es; exact Us).
  destruct (update_moved a b _ _ _ _ _ _ _ Hfull Ms MX Hu2 Us') as (s2' & X2' & Hu2' & Ms2 & MX2). rewrite Hu2'. cbn [bind].
  destruct (feedback_moved _ _ _ _ Ml Hl2) as (l2' & Hl2' & Ml2 & _).
  apply bind_ok in Hu. destruct Hu as (l3 & Hl3 & Hu). rewrite sabs_Rabs in Hl3. assert (l3 = l2) by (enough (Ok l3 = Ok l2) as EE by (injection EE as ->; reflexivity); rewrite <- Hl3; exact Hl2). subst l3.
  assert (Hl2'' : (if sltb EPS (sabs (fb - lfb l')%sc) then l_setFeedbackPeriod fb l' else Ok l') = Ok l2') by (rewrite sabs_Rabs; exact Hl2'). rewrite Hl2''. cbn [bind].
  apply guard_ok in Hu. destruct Hu as (G1 & Hu). rewrite G1. cbn [guard bind]. assert (EN' : sN s2' = sN s2 /\ lN l2' = lN l2). { split; [destruct Ms2 as (? & ? & ? & -> & _); reflexivity|rewrite Ml2; reflexivity]. } destruct EN' as (-> & ->).
  apply guard_ok in Hu. destruct Hu as (G2 & Hu). rewrite G2. cbn [guard bind]. injection Hu as <-.
  cbn [hvelRef hcopLen hsolvers hmats hdX htX hw hcopC hfeetC hmaxC hmaxS hmove hfirst].
  assert (N2 : sN s2 = sN (hsup h)) by (destruct (update_shape _ _ _ _ _ Hfull Hu2) as (f & i & _ & _ & _ & N1 & _); exact N1).
  set (h0 := MkHum s2 l2 _ _ _ _ _ X2 _ _ _ _ _ _ _ _) in *. set (h0' := MkHum s2' l2' _ _ _ _ _ X2' _ _ _ _ _ _ _ _) in *.
  assert (M0 : moved_hum a b h0 h0'). { exists s2', l2', X2', t'. split; [reflexivity|]. cbn [h0 hsup hlip hX]. rewrite N2. auto. }
  assert (E0 : hsup h1 = hsup h0 /\ hlip h1 = hlip h0 /\ hmats h1 = hmats h0 /\ hmaxS h1 = hmaxS h0 /\ hmaxC h1 = hmaxC h0 /\ hcopLen h1 = hcopLen h0).
  { unfold h_firstFill in H. destruct (hfirst h0); [|injection H as <-; auto 10]. apply bind_ok in H. destruct H as (? & _ & H). apply bind_ok in H. destruct H as (? & _ & H). apply guard_ok in H. destruct H as (_ & H). injection H as <-. cbn [hsup hlip hmats hmaxS hmaxC hcopLen]. auto 10. }
  destruct E0 as (D1 & D2 & D3 & D4 & D5 & D6).
  assert (I0 : hinv h0). { destruct I as [F A B C D Q]. rewrite ?D1, ?D2, ?D3, ?D4, ?D5, ?D6 in *. constructor; assumption. }
  rewrite D1, D2 in *. cbn [hsup hlip h0] in Sh, Lsv, Cov, Hm, LX.
  assert (Hc' : h_nbCtr h0' = Ok c).
  { apply (nbCtr_moved a b h0 s2' l2'); cbn [h0 hsup hlip hX]; try assumption; rewrite <- ?EN; try rewrite N2; try assumption. rewrite <- N2, EN. lia. }
  rewrite Hc'. cbn [bind]. apply (fill_moved h0); [exact M0|symmetry; exact EN|exact H].
Qed.
Lemma finish_len (o : oracle R) fb q i h found g : h_finish o fb q i h = Ok (found, g) -> vlen (hX h) = (2 * lN (hlip h) + 2 * snb (hsup h))%nat.
Proof.
  unfold h_finish. intros H. apply bind_ok in H. destruct H as (e & He & H). apply bind_ok in H. destruct H as (((sv & dX) & fo) & Hs & H).
  apply bind_ok in H. destruct H as (X2 & HX2 & _). unfold vaddE in HX2. apply guard_ok in HX2. destruct HX2 as (Ln & _). apply Nat.eqb_eq in Ln. rewrite Ln.
  unfold solver_solve in Hs. apply guard_ok in Hs. destruct Hs as (_ & Hs). destruct (o _ _) as (x & su). apply ubguard_ok in Hs. destruct Hs as (_ & Hs). destruct (_ && _)%bool; injection Hs as _ <- _; reflexivity.
Qed.
(** A solve at the other place poses the same problem, reports the same and moves the robot the same way. *)
Lemma solve_moved o fb h h' found g : reached h -> moved_hum a b h h' -> undisturbed_call (HSolve o fb) h -> h_solve o fb h = Ok (found, g) ->
  exists g', h_solve o fb h' = Ok (found, g') /\ moved_hum a b g g'
    /\ exists h1 h1' q, h_prepare fb h = Ok h1 /\ h_prepare fb h' = Ok h1' /\ h_problem h1 = Ok q /\ h_problem h1' = Ok q.
Proof.
  intros Hr Mh U H. unfold h_solve in *. apply bind_ok in H. destruct H as (h1 & Hp & H). apply bind_ok in H. destruct H as (q & Hq & H). pose proof (finish_len _ _ _ _ _ _ _ H) as LX.
  destruct (prepare_moved o _ _ _ _ Hr Mh U Hp LX) as (h1' & Hp' & M1). rewrite Hp'. cbn [bind].
  cbn [undisturbed_call] in U. destruct (U _ Hp) as (Uk & _). destruct (posed_ready _ _ _ Hr Hp Uk LX) as (I & Sh & HN0 & Hm & Cov & Lsv).
  destruct M1 as (s1 & l1 & X1 & t1 & E1 & Ms & Ml & MX). rewrite (hi_N _ I) in MX.
  assert (Hq' : h_problem h1' = Ok q) by (rewrite E1; exact (problem_moved a b h1 s1 l1 I Sh Ms Ml Hm Cov Lsv X1 t1 q MX LX Hq)). rewrite Hq'. cbn [bind].
  destruct (finish_moved a b h1 s1 l1 I Sh Ms Ml Hm Cov Lsv o fb (fst q) (snd q) X1 t1 found g MX H HN0) as (g' & Hg & Mg). rewrite E1. exists g'. split; [exact Hg|]. split; [exact Mg|].
  exists h1, h1', q. rewrite <- E1. auto.
Qed.

(** ** The other calls *)
Lemma vec_moved c (v : vec R) : moved_state c v (carried_vec c v).
Proof. split; [reflexivity|]. intros k _. cbn [carried_vec vget]. destruct (Nat.eqb k 0); ring. Qed.
Lemma state_of_moved c v x : st3_of_vec v = Ok x -> st3_of_vec (carried_vec c v) = Ok (carried c x).
Proof. unfold st3_of_vec. intros H. cbn [carried_vec vlen]. apply guard_ok in H. destruct H as (Hg & H). rewrite Hg. cbn [guard bind]. injection H as <-. unfold carried. cbn [vget pos vel acc Nat.eqb]. reflexivity. Qed.
Lemma foot_of_moved d s s' : moved_sup a b s s' -> moved_foot a b (s_foot d s) (s_foot d s').
Proof. intros (l & r & sv & -> & Hl & Hr & _). destruct d; assumption. Qed.
Lemma setFoot_moved d s s' f f' : moved_sup a b s s' -> moved_foot a b f f' -> moved_sup a b (s_setFoot d f s) (s_setFoot d f' s').
Proof. intros (l & r & sv & -> & Hl & Hr & Hv) Hf. destruct d; eexists _, _, _; (split; [reflexivity|]); auto. Qed.
Lemma front_moved s s' : moved_sup a b s s' -> s_front s' = s_front s /\ s_isInDS s' = s_isInDS s.
Proof. intros (l & r & sv & -> & _). split; reflexivity. Qed.
Lemma hum_sup h s0 s s' l X t : moved_sup a b s s' -> moved_lip a b (hlip h) l -> sN s = sN (hsup h) -> moved_steps a b (2 * sN (hsup h)) (hX h) X ->
  moved_hum a b (h_setSup h s) (h_setSup (MkHum s0 l (hvelRef h) (hcopLen h) (hsolvers h) (hmats h) (hdX h) X t (hw h) (hcopC h) (hfeetC h) (hmaxC h) (hmaxS h) (hmove h) (hfirst h)) s').
Proof. intros Ms Ml EN MX. exists s', l, X, t. split; [reflexivity|]. cbn [h_setSup h_setModels hsup hlip hX]. rewrite EN. auto. Qed.
Lemma hum_lip h s l0 l l' X t : moved_sup a b (hsup h) s -> moved_lip a b l l' -> moved_steps a b (2 * sN (hsup h)) (hX h) X ->
  moved_hum a b (h_setLip h l) (h_setLip (MkHum s l0 (hvelRef h) (hcopLen h) (hsolvers h) (hmats h) (hdX h) X t (hw h) (hcopC h) (hfeetC h) (hmaxC h) (hmaxS h) (hmove h) (hfirst h)) l').
Proof. intros Ms Ml MX. exists s, l', X, t. split; [reflexivity|]. cbn [h_setLip h_setModels hsup hlip hX]. auto. Qed.
Lemma max_moved s s' : moved_sup a b s s' -> s_getMaximumNbOfCopConstraints s' = s_getMaximumNbOfCopConstraints s /\ s_getMaximumNbOfKinematicConstraints s' = s_getMaximumNbOfKinematicConstraints s.
Proof. intros (l & r & sv & -> & (x & y & -> & _) & (x2 & y2 & -> & _) & _). split; reflexivity. Qed.
Lemma setFoot_N d f (s : sup R) : sN (s_setFoot d f s) = sN s.
Proof. destruct d; reflexivity. Qed.

Lemma step_moved c h h' g : reached h -> moved_hum a b h h' -> undisturbed_call c h -> hstep c h = Ok g ->
  exists g', hstep (moved_call a b c) h' = Ok g' /\ moved_hum a b g g'.
Proof.
  intros Hr Mh U H. destruct c; cbn [hstep moved_call] in *.
  18: { apply bind_ok in H. destruct H as ((found & g1) & H & E). injection E as <-. destruct (solve_moved _ _ _ _ _ _ Hr Mh U H) as (g' & H' & Mg & _). rewrite H'. cbn [bind snd]. exists g'. auto. }
  all: destruct Mh as (s & l & X & t & -> & Ms & Ml & MX).
  - (* samples *) unfold h_setNbSamples in *. apply guard_ok in H. destruct H as (Hg & H). rewrite Hg. cbn [guard bind hlip hsup]. apply bind_ok in H. destruct H as (l1 & Hl & H). apply bind_ok in H. destruct H as (s1 & Hs & H).
    unfold l_setNbSamples in *. rewrite Hg in *. cbn [guard bind] in *. assert (P : lT l = lT (hlip h) /\ lfb l = lfb (hlip h) /\ lh l = lh (hlip h) /\ lg l = lg (hlip h) /\ lm l = lm (hlip h) /\ lM l = lM (hlip h) /\ lsz l = lsz (hlip h)) by (rewrite Ml; repeat split).
    destruct P as (-> & -> & -> & -> & -> & -> & ->). destruct (par_moved _ _ _ _ _ _ _ _ _ _ _ Ml Hl) as (l1' & -> & Ml1). cbn [bind].
    destruct Ms as (fl & fr & sv & -> & (x & y & -> & Mx & My) & (x2 & y2 & -> & Mx2 & My2) & Mv). unfold s_setNbSamples, f_setNbSamples in *. rewrite Hg in *. cbn [guard bind sleft sright] in *. injection Hs as <-. injection H as <-.
    eexists. split; [reflexivity|]. assert (EN : lN l1' = lN l1) by (rewrite Ml1; reflexivity).
    unfold h_computeConstantPart, s_getMaximumNbOfCopConstraints, s_getMaximumNbOfKinematicConstraints. cbn [hsup hlip hcopC hfeetC hmaxC hvelRef hcopLen hsolvers hmats hdX hX htX hw hmaxS hmove hfirst s_setN sN snb sleft sright fcop fkin f_setStates]. rewrite EN.
    eexists _, _, _, _. split; [reflexivity|]. cbn [hsup hlip hX s_setN sN snb]. split; [|split; [exact Ml1|]].
    + eexists _, _, _. split; [reflexivity|]. cbn [s_setN sleft sright sstepVec]. split; [exists x, y; auto|]. split; [exists x2, y2; auto|]. exact Mv.
    + cbn [undisturbed_call] in U. rewrite U. exists 0%nat. cbn [vzero vfill vlen vget]. repeat split; intros; lia.
  - (* sampling period *) unfold h_setSamplingPeriod in *. apply guard_ok in H. destruct H as (Hg & H). rewrite Hg. cbn [guard bind hlip hsup]. apply bind_ok in H. destruct H as (l1 & Hl & H). apply bind_ok in H. destruct H as (s1 & Hs & H).
    unfold l_setSamplingPeriod in *. apply guard_ok in Hl. destruct Hl as (Hg2 & Hl). rewrite Hg2 in *. cbn [guard bind] in *. assert (P : lN l = lN (hlip h) /\ lh l = lh (hlip h) /\ lg l = lg (hlip h) /\ lm l = lm (hlip h) /\ lM l = lM (hlip h) /\ lsz l = lsz (hlip h)) by (rewrite Ml; repeat split).
    destruct P as (-> & -> & -> & -> & -> & ->). destruct (par_moved _ _ _ _ _ _ _ _ _ _ _ Ml Hl) as (l1' & -> & Ml1). cbn [bind].
    destruct Ms as (fl & fr & sv & -> & (x & y & -> & Mx & My) & (x2 & y2 & -> & Mx2 & My2) & Mv). unfold s_setSamplingPeriod, f_setSamplingPeriod in *. rewrite Hg, Hg2 in *. cbn [guard bind sleft sright] in *. injection Hs as <-. injection H as <-.
    eexists. split; [reflexivity|]. assert (EN : lN l1' = lN l1) by (rewrite Ml1; reflexivity). rewrite EN. eexists _, _, _, _. split; [reflexivity|]. cbn [hsup hlip hX sN]. split; [|split; [exact Ml1|exact MX]].
    eexists _, _, _. split; [reflexivity|]. cbn [sleft sright sstepVec]. split; [exists x, y; auto|]. split; [exists x2, y2; auto|]. exact Mv.
  - (* step period *) unfold h_setStepPeriod in *. apply guard_ok in H. destruct H as (Hg & H). rewrite Hg. cbn [guard bind hsup]. assert (ET : sT s = sT (hsup h)) by (destruct Ms as (? & ? & ? & -> & _); reflexivity). rewrite ET. apply guard_ok in H. destruct H as (Hg2 & H). rewrite Hg2. cbn [guard bind].
    apply bind_ok in H. destruct H as (s1 & Hs & H). injection H as <-.
    assert (Q : exists s1', s_setStepPeriod p s = Ok s1' /\ moved_sup a b s1 s1' /\ sN s1 = sN (hsup h)).
    { destruct (front_moved _ _ Ms) as (E1 & E2). unfold s_setStepPeriod in *. rewrite Hg in *. cbn [guard bind] in *. rewrite E2. apply bind_ok in Hs. destruct Hs as (ds & Hd & Hs). rewrite Hd. cbn [bind]. rewrite E1.
      destruct Ms as (fl & fr & sv & -> & Mf & Mr & Mv). destruct ds.
      - injection Hs as <-. eexists. split; [reflexivity|]. split; [|reflexivity]. eexists _, _, _. split; [reflexivity|]. auto.
      - cbn [sttnp sstep stl]. apply guard_ok in Hs. destruct Hs as (Hg3 & Hs). rewrite Hg3. cbn [guard bind]. apply bind_ok in Hs. destruct Hs as (f & Hf & Hs). rewrite Hf. cbn [bind]. apply bind_ok in Hs. destruct Hs as (t0 & Ht & Hs). rewrite Ht. cbn [bind].
        injection Hs as <-. eexists. split; [reflexivity|]. split; [|reflexivity]. eexists _, _, _. split; [reflexivity|]. auto. }
    destruct Q as (s1' & -> & Ms1 & EN). cbn [bind]. eexists. split; [reflexivity|]. apply hum_sup; assumption.
  - (* double support *) unfold h_setInitialDoubleSupportLength in *. apply bind_ok in H. destruct H as (s1 & Hs & H). injection H as <-. cbn [hsup].
    assert (Q : exists s1', s_setInitialDoubleSupportLength L s = Ok s1' /\ moved_sup a b s1 s1' /\ sN s1 = sN (hsup h)).
    { destruct (front_moved _ _ Ms) as (E1 & E2). unfold s_setInitialDoubleSupportLength in *. rewrite E2. apply bind_ok in Hs. destruct Hs as (ds & Hd & Hs). rewrite Hd. cbn [bind]. rewrite E1.
      destruct Ms as (fl & fr & sv & -> & Mf & Mr & Mv). destruct ds.
      - cbn [sttnp sDS stl]. apply bind_ok in Hs. destruct Hs as (u & Hg3 & Hs). rewrite Hg3. cbn [guard bind]. apply bind_ok in Hs. destruct Hs as (f & Hf & Hs). rewrite Hf. cbn [bind]. apply bind_ok in Hs. destruct Hs as (t0 & Ht & Hs). rewrite Ht. cbn [bind].
        injection Hs as <-. eexists. split; [reflexivity|]. split; [|reflexivity]. eexists _, _, _. split; [reflexivity|]. auto.
      - injection Hs as <-. eexists. split; [reflexivity|]. split; [|reflexivity]. eexists _, _, _. split; [reflexivity|]. auto. }
    destruct Q as (s1' & -> & Ms1 & EN). cbn [bind]. eexists. split; [reflexivity|]. apply hum_sup; assumption.
  - injection H as <-. eexists. split; [reflexivity|]. apply hum_sup; try assumption; [|apply setFoot_N]. apply setFoot_moved; [exact Ms|]. cbn [hsup]. destruct (foot_of_moved d _ _ Ms) as (x & y & -> & Mx & My). exists x, y. auto.
  - injection H as <-. eexists. split; [reflexivity|]. apply hum_sup; try assumption; [|apply setFoot_N]. apply setFoot_moved; [exact Ms|]. cbn [hsup]. destruct (foot_of_moved d _ _ Ms) as (x & y & -> & Mx & My). exists x, y. auto.
  - injection H as <-. eexists. split; [reflexivity|]. apply hum_sup; try assumption; [|apply setFoot_N]. apply setFoot_moved; [exact Ms|]. cbn [hsup]. destruct (foot_of_moved d _ _ Ms) as (x & y & -> & Mx & My). exists x, y. auto.
  - unfold h_setVelRef in *. cbn [hlip]. assert (EN : lN l = lN (hlip h)) by (rewrite Ml; reflexivity). rewrite EN. apply guard_ok in H. destruct H as (Hg & H). rewrite Hg. cbn [guard bind]. injection H as <-. eexists. split; [reflexivity|]. exists s, l, X, t. split; [reflexivity|]. auto.
  - unfold h_setFootStateX, s_setFootStateX in *. apply guard_ok in H. destruct H as (Hg & H). cbn [carried_vec vlen hsup]. rewrite Hg in *. cbn [guard bind] in *. injection H as <-. eexists. split; [reflexivity|]. apply hum_sup; try assumption; [|apply setFoot_N].
    apply setFoot_moved; [exact Ms|]. cbn [hsup]. destruct (foot_of_moved d _ _ Ms) as (x & y & -> & Mx & My). exists (carried_vec a v), y. split; [reflexivity|]. split; [apply vec_moved|exact My].
  - unfold h_setFootStateY, s_setFootStateY in *. apply guard_ok in H. destruct H as (Hg & H). cbn [carried_vec vlen hsup]. rewrite Hg in *. cbn [guard bind] in *. injection H as <-. eexists. split; [reflexivity|]. apply hum_sup; try assumption; [|apply setFoot_N].
    apply setFoot_moved; [exact Ms|]. cbn [hsup]. destruct (foot_of_moved d _ _ Ms) as (x & y & -> & Mx & My). exists x, (carried_vec b v). split; [reflexivity|]. split; [exact Mx|apply vec_moved].
  - unfold h_setFootStateZ, s_setFootStateZ in *. apply guard_ok in H. destruct H as (Hg & H). cbn [hsup]. rewrite Hg in *. cbn [guard bind] in *. injection H as <-. eexists. split; [reflexivity|]. apply hum_sup; try assumption; [|apply setFoot_N].
    apply setFoot_moved; [exact Ms|]. cbn [hsup]. destruct (foot_of_moved d _ _ Ms) as (x & y & -> & Mx & My). exists x, y. auto.
  - unfold h_setComStateX, l_setStateX in *. apply guard_ok in H. destruct H as (Hg & H). cbn [hlip]. change (vlen (carried_vec a v)) with (vlen v). rewrite Hg. cbn [guard bind]. apply bind_ok in H. destruct H as (l1 & Hl & H). injection H as <-. apply bind_ok in Hl. destruct Hl as (x & Hx & Hl). injection Hl as <-.
    rewrite (state_of_moved _ _ _ Hx). cbn [bind]. eexists. split; [reflexivity|]. apply hum_lip; try assumption. rewrite Ml. reflexivity.
  - unfold h_setComStateY, l_setStateY in *. apply guard_ok in H. destruct H as (Hg & H). cbn [hlip]. change (vlen (carried_vec b v)) with (vlen v). rewrite Hg. cbn [guard bind]. apply bind_ok in H. destruct H as (l1 & Hl & H). injection H as <-. apply bind_ok in Hl. destruct Hl as (x & Hx & Hl). injection Hl as <-.
    rewrite (state_of_moved _ _ _ Hx). cbn [bind]. eexists. split; [reflexivity|]. apply hum_lip; try assumption. rewrite Ml. reflexivity.
  - unfold h_setComStateZ in *. apply guard_ok in H. destruct H as (Hg & H). rewrite Hg. cbn [guard bind hlip]. apply guard_ok in H. destruct H as (Hg1 & H). rewrite Hg1. cbn [guard bind]. apply guard_ok in H. destruct H as (Hg2 & H). rewrite Hg2. cbn [guard bind].
    apply bind_ok in H. destruct H as (l1 & Hl & H). injection H as <-. destruct (height_moved _ _ _ _ Ml Hl) as (l1' & -> & Ml1). cbn [bind]. eexists. split; [reflexivity|]. apply hum_lip; assumption.
  - unfold h_setWeightings in *. cbn [hw]. apply guard_ok in H. destruct H as (Hg & H). rewrite Hg. cbn [guard bind]. apply guard_ok in H. destruct H as (Hg1 & H). rewrite Hg1. cbn [guard bind]. apply guard_ok in H. destruct H as (Hg2 & H). rewrite Hg2. cbn [guard bind].
    injection H as <-. eexists. split; [reflexivity|]. exists s, l, X, t. split; [reflexivity|]. auto.
  - injection H as <-. eexists. split; [reflexivity|]. unfold h_setConfig, h_computeConstantPart. cbn [hsup hlip hvelRef hcopLen hsolvers hmats hdX hX htX hw hcopC hfeetC hmaxC hmaxS hmove hfirst].
    destruct (max_moved _ _ Ms) as (-> & ->). assert (EN : sN s = sN (hsup h) /\ lN l = lN (hlip h)) by (split; [destruct Ms as (? & ? & ? & -> & _); reflexivity|rewrite Ml; reflexivity]). destruct EN as (-> & ->).
    exists s, l, X, t. split; [reflexivity|]. auto.
  - unfold h_setMove in *. cbn [hsup]. apply bind_ok in H. destruct H as (ds & Hd & H). injection H as <-.
    assert (Ms1 : moved_sup a b (s_setMove b0 (hsup h)) (s_setMove b0 s)) by (destruct Ms as (fl & fr & sv & -> & Mf & Mr & Mv); eexists _, _, _; split; [reflexivity|]; auto).
    rewrite (proj2 (front_moved _ _ Ms1)), Hd. cbn [bind]. eexists. split; [reflexivity|]. eexists _, _, _, _. split; [reflexivity|]. cbn [hsup hlip hX s_setMove sN]. auto.
Qed.
Lemma steps_moved cs : forall h h' g, reached h -> moved_hum a b h h' -> undisturbed cs h -> hsteps cs h = Ok g ->
  exists g', hsteps (map (moved_call a b) cs) h' = Ok g' /\ moved_hum a b g g'.
Proof.
  induction cs as [|c cs IH]; intros h h' g Hr Mh U H; cbn [hsteps map] in *.
  - injection H as <-. exists h'. auto.
  - apply bind_ok in H. destruct H as (h1 & H1 & H). destruct U as (U & Uc). destruct (step_moved _ _ _ _ Hr Mh U H1) as (h1' & H1' & M1). rewrite H1'. cbn [bind]. apply (IH h1 h1' g); auto. exact (reached_call c _ _ Hr H1).
Qed.
End Moved.
