(** Facts about the humanoid walk generator: what every reachable generator satisfies, and what the
    timeline update leaves for the objectives and constraints. *)

From Coq Require Import Reals List ZArith Lra Lia Arith Bool.
From Verif Require Import Scalar LinAlg LinAlgFacts ToolsModel ToolsSpec ToolsFacts TriFacts NoDynModel PolygonModel PolygonFacts
  QPModel QPFacts TrajModel TrajFacts LipModel FootModel ModelsSpec ModelsFacts SupModel SupSpec SupFacts HumModel HumSpec HumAlg.
Import ListNotations.
Local Open Scope R_scope.

Section Facts.
Context {TK : Trig R}.

(** ** Invariant *)
Record hinv (h : hum R) : Prop := {
  hi_fresh : exists n, lip_fresh (hlip h) n;
  hi_auto : lauto (hlip h) = true;
  hi_N : sN (hsup h) = lN (hlip h);
  hi_mats : hmats h = qpTable (lN (hlip h)) (hmaxS h) (hmaxC h);
  hi_maxS : hmaxS h = lN (hlip h);
  hi_len : hcopLen h = (2 * lN (hlip h))%nat }.

Lemma const_inv h : (exists n, lip_fresh (hlip h) n) -> lauto (hlip h) = true -> sN (hsup h) = lN (hlip h) ->
  hcopLen h = (2 * lN (hlip h))%nat -> hinv (h_computeConstantPart h).
Proof. intros A B C D. unfold h_computeConstantPart. constructor; cbn [hlip hsup hmats hmaxS hmaxC hcopLen]; auto. Qed.

Lemma obs_N l l' c : lobs_of l' = lobs_step (lobs_of l) c -> (forall n, c <> LSetNbSamples n) -> lN l' = lN l.
Proof. intros E Hc. destruct c; cbn in E; injection E as E; intros; try congruence. exfalso. eapply Hc. reflexivity. Qed.
Lemma lstep_inv c l l' : (exists n, lip_fresh l n) -> lauto l = true -> lstep c l = Ok l' ->
  (exists n, lip_fresh l' n) /\ lauto l' = true /\ lobs_of l' = lobs_step (lobs_of l) c.
Proof. intros (n & F) A H. destruct (lstep_fresh _ _ _ _ F A H) as (B & C & D). auto. Qed.

Lemma s_setStepPeriod_N p s s' : s_setStepPeriod p s = Ok s' -> sN s' = sN s.
Proof.
  unfold s_setStepPeriod. intros H. binds H. destruct x; [injection H as <-; reflexivity|]. binds H. injection H as <-. reflexivity.
Qed.
Lemma s_setDS_N L s s' : s_setInitialDoubleSupportLength L s = Ok s' -> sN s' = sN s.
Proof.
  unfold s_setInitialDoubleSupportLength. intros H. apply bind_ok in H. destruct H as (ds & _ & H).
  destruct ds; [|injection H as <-; reflexivity]. apply bind_ok in H. destruct H as (? & _ & H). binds H. injection H as <-. reflexivity.
Qed.
Lemma s_setFoot_N d f (s : sup R) : sN (s_setFoot d f s) = sN s.
Proof. destruct d; reflexivity. Qed.
Lemma s_updateFeet_N v fb s s' : s_updateFeetStates v fb s = Ok s' -> sN s' = sN s /\ sT s' = sT s /\ snb s' = snb s /\ ssel s' = ssel s.
Proof.
  unfold s_updateFeetStates. intros H. apply bind_ok in H. destruct H as (p & _ & H). destruct (negb _ && _)%bool.
  - apply bind_ok in H. destruct H as (a & _ & H). apply bind_ok in H. destruct H as (b & _ & H).
    destruct (phType p); [discriminate| |]; apply bind_ok in H; destruct H as (q & _ & H); injection H as <-; auto.
  - injection H as <-. auto.
Qed.
Lemma h_prepare_cases fb h h' : h_prepare fb h = Ok h' ->
  exists s X l, s_updateTimeline (hX h) fb (hsup h) = Ok (s, X)
    /\ (if Rltb EPS (Rabs (fb - lfb (hlip h))) then l_setFeedbackPeriod fb (hlip h) else Ok (hlip h)) = Ok l
    /\ 0 < fb /\ sN s = lN l
    /\ hsup h' = s /\ hlip h' = l /\ hvelRef h' = hvelRef h /\ hcopLen h' = hcopLen h /\ hsolvers h' = hsolvers h /\ hmats h' = hmats h
    /\ hw h' = hw h /\ hcopC h' = hcopC h /\ hfeetC h' = hfeetC h /\ hmaxC h' = hmaxC h /\ hmaxS h' = hmaxS h /\ hmove h' = hmove h
    /\ vlen (hX h') = vlen X /\ hdX h' = hdX h
    /\ (forall k, (2 * lN l <= k)%nat -> vget (hX h') k = vget X k)
    /\ (hfirst h = false -> hX h' = X).
Proof.
  unfold h_prepare, h_updateModels. intros H. apply bind_ok in H. destruct H as (h1 & H1 & H).
  apply bind_ok in H1. destruct H1 as ((s & X) & Hu & H1). apply bind_ok in H1. destruct H1 as (l & Hl & H1).
  apply guard_ok in H1. destruct H1 as (Hfb & H1). apply guard_ok in H1. destruct H1 as (HN & H1). injection H1 as <-.
  apply bind_ok in H. destruct H as (c & _ & H).
  change (sltb s0 fb) with (Rltb 0 fb) in Hfb. apply Rltb_true in Hfb. apply Nat.eqb_eq in HN.
  rewrite sabs_Rabs in Hl. exists s, X, l. split; [exact Hu|]. split; [exact Hl|]. split; [exact Hfb|]. split; [exact HN|].
  unfold h_firstFill in H. cbn [hfirst hlip hsup hX] in H. destruct (hfirst h) eqn:Ef.
  - apply bind_ok in H. destruct H as (lx & _ & H). apply bind_ok in H. destruct H as (ly & _ & H).
    apply guard_ok in H. destruct H as (Hs & H). injection H as <-. apply Nat.leb_le in Hs.
    cbn [hlip hsup hvelRef hcopLen hsolvers hmats hw hcopC hfeetC hmaxC hmaxS hmove hX hdX].
    repeat (split; [reflexivity|]). split.
    + intros k Hk. cbn [vsetseg vget vlen vadd mv mblock mrows]. bools; try reflexivity.
    + discriminate.
  - injection H as <-. cbn. repeat split; auto.
Qed.
Lemma update_N v fb s s' v' : s_updateTimeline v fb s = Ok (s', v') -> sN s' = sN s.
Proof.
  unfold s_updateTimeline. intros H. apply guard_ok in H. destruct H as (_ & H). apply guard_ok in H. destruct H as (_ & H).
  apply bind_ok in H. destruct H as (((v1 & t1) & tn) & _ & H).
  apply bind_ok in H. destruct H as (((s2 & i) & v2) & _ & H). apply bind_ok in H. destruct H as (sel & _ & H). injection H as <- _. reflexivity.
Qed.

Lemma fb_inv fb (l l' : lip R) : (exists n, lip_fresh l n) -> lauto l = true ->
  (if Rltb EPS (Rabs (fb - lfb l)) then l_setFeedbackPeriod fb l else Ok l) = Ok l' ->
  (exists n, lip_fresh l' n) /\ lauto l' = true /\ lN l' = lN l.
Proof.
  intros F A H. destruct (Rltb _ _).
  - destruct (lstep_inv (LSetFeedbackPeriod fb) l l' F A H) as (B & C & D). split; [exact B|]. split; [exact C|]. injection D as D; congruence.
  - injection H as <-. auto.
Qed.
Lemma prepare_inv fb h h' : hinv h -> h_prepare fb h = Ok h' -> hinv h'.
Proof.
  intros [F A HN HM HS HL] H. destruct (h_prepare_cases _ _ _ H) as (s & X & l & Hu & Hl & _ & E & E5 & E6 & _ & E1 & _ & E2 & _ & _ & _ & E3 & E4 & _).
  destruct (fb_inv _ _ _ F A Hl) as (B & C & D). apply update_N in Hu.
  constructor; rewrite ?E1, ?E2, ?E3, ?E4, ?E5, ?E6; rewrite ?D; auto. congruence.
Qed.
Lemma finish_cases o fb q i h r : h_finish o fb q i h = Ok r ->
  exists dX X t l1 l2 s, vlen X = vlen (hX h) /\ vlen dX = vlen X /\ (forall k, vget X k = vget (hX h) k + vget dX k)
    /\ h_convert (hlip h) (hsup h) X = Ok t
    /\ l_updateStateX (vget t 0) fb (hlip h) = Ok l1 /\ l_updateStateY (vget t (lN (hlip h))) fb l1 = Ok l2
    /\ s_updateFeetStates (vseg t (2 * lN (hlip h)) (2 * snb (hsup h))) fb (hsup h) = Ok s
    /\ (exists e, nth_error (hsolvers h) i = Some e /\ exists sv, solver_solve o (newSolver (fst e) (snd e)) (normalizeMatrices EPS q) 10000%Z
              (MkVec (2 * lN (hlip h) + 2 * snb (hsup h)) (vget (hdX h))) false false = Ok (sv, dX, fst r))
    /\ snd r = MkHum s l2 (hvelRef h) (hcopLen h) (hsolvers h) (hmats h) dX X t
                 (hw h) (hcopC h) (hfeetC h) (hmaxC h) (hmaxS h) (hmove h) (hfirst h).
Proof.
  unfold h_finish. intros H. apply bind_ok in H. destruct H as (e & He & H). apply bind_ok in H. destruct H as (((sv & dX) & fd) & Hs & H).
  apply bind_ok in H. destruct H as (X & HX & H). apply bind_ok in H. destruct H as (t & Ht & H).
  apply bind_ok in H. destruct H as (l1 & H1 & H). apply bind_ok in H. destruct H as (l2 & H2 & H).
  apply bind_ok in H. destruct H as (s & H3 & H). injection H as <-.
  unfold vaddE in HX. apply guard_ok in HX. destruct HX as (HX1 & HX). injection HX as <-. apply Nat.eqb_eq in HX1.
  exists dX, (vadd (hX h) dX), t, l1, l2, s. cbn [vadd vlen vget fst snd]. repeat (split; [solve [auto]|]).
  split; [|reflexivity]. exists e. split; [apply rd_inv; exact He|]. exists sv. exact Hs.
Qed.
Lemma solve_inv o fb h r : hinv h -> h_solve o fb h = Ok r -> hinv (snd r).
Proof.
  intros I H. unfold h_solve in H. apply bind_ok in H. destruct H as (h1 & H1 & H). apply bind_ok in H. destruct H as ((q & i) & _ & H).
  apply (prepare_inv _ _ _ I) in H1. cbn [fst snd] in H. apply finish_cases in H.
  destruct H as (dX & X & t & l1 & l2 & s & _ & _ & _ & _ & E1 & E2 & E3 & _ & E). destruct H1 as [F A HN HM HS HL].
  destruct (lstep_inv (LUpdateStateX _ _) _ _ F A E1) as (F1 & A1 & O1). destruct (lstep_inv (LUpdateStateY _ _) _ _ F1 A1 E2) as (F2 & A2 & O2).
  assert (N1 : lN l1 = lN (hlip h1)) by (injection O1 as O1; congruence). assert (N2 : lN l2 = lN l1) by (injection O2 as O2; congruence).
  destruct (s_updateFeet_N _ _ _ _ E3) as (N3 & _). rewrite E.
  constructor; cbn [hlip hsup hmats hmaxS hmaxC hcopLen]; auto; congruence.
Qed.
Lemma step_inv c h h' : hinv h -> hstep c h = Ok h' -> hinv h'.
Proof.
  intros I H. pose proof I as [F A HN HM HS HL]. destruct c; cbn [hstep] in H.
  - unfold h_setNbSamples in H. apply guard_ok in H. destruct H as (_ & H). apply bind_ok in H. destruct H as (l & Hl & H).
    apply bind_ok in H. destruct H as (s & Hs & H). injection H as <-.
    destruct (lstep_inv (LSetNbSamples n) _ _ F A Hl) as (F1 & A1 & O1).
    assert (lN l = n) by (injection O1 as O1; congruence).
    apply const_inv; cbn [hlip hsup hcopLen]; auto. unfold s_setNbSamples in Hs. binds Hs. injection Hs as <-. cbn. congruence.
  - unfold h_setSamplingPeriod in H. apply guard_ok in H. destruct H as (_ & H). apply bind_ok in H. destruct H as (l & Hl & H).
    apply bind_ok in H. destruct H as (s & Hs & H). injection H as <-.
    destruct (lstep_inv (LSetSamplingPeriod T) _ _ F A Hl) as (F1 & A1 & O1).
    assert (lN l = lN (hlip h)) by (injection O1 as O1; congruence).
    unfold s_setSamplingPeriod in Hs. binds Hs. injection Hs as <-.
    constructor; cbn [hlip hsup hmats hmaxS hmaxC hcopLen sN]; auto; congruence.
  - unfold h_setStepPeriod in H. binds H. injection H as <-. match goal with E : s_setStepPeriod _ _ = _ |- _ => apply s_setStepPeriod_N in E end.
    constructor; cbn [hlip hsup hmats hmaxS hmaxC hcopLen h_setSup h_setModels]; auto; congruence.
  - unfold h_setInitialDoubleSupportLength in H. binds H. injection H as <-. match goal with E : s_setInitialDoubleSupportLength _ _ = _ |- _ => apply s_setDS_N in E end.
    constructor; cbn [hlip hsup hmats hmaxS hmaxC hcopLen h_setSup h_setModels]; auto; congruence.
  - injection H as <-. constructor; cbn [hlip hsup hmats hmaxS hmaxC hcopLen h_setSup h_setModels h_setKinematicConvexPolygon]; auto.
    unfold s_setKinematicConvexPolygon. rewrite s_setFoot_N. assumption.
  - injection H as <-. constructor; cbn [hlip hsup hmats hmaxS hmaxC hcopLen h_setSup h_setModels h_setCopConvexPolygon]; auto.
    unfold s_setCopConvexPolygon. rewrite s_setFoot_N. assumption.
  - injection H as <-. constructor; cbn [hlip hsup hmats hmaxS hmaxC hcopLen h_setSup h_setModels h_setMaxHeight]; auto.
    unfold s_setMaxHeight. rewrite s_setFoot_N. assumption.
  - unfold h_setVelRef in H. binds H. injection H as <-. constructor; cbn [hlip hsup hmats hmaxS hmaxC hcopLen]; auto.
  - unfold h_setFootStateX, s_setFootStateX in H. binds H. injection H as <-. match goal with E : bind _ _ = Ok _ |- _ => binds E; injection E as <- end.
    constructor; cbn [hlip hsup hmats hmaxS hmaxC hcopLen h_setSup h_setModels]; auto. rewrite s_setFoot_N. assumption.
  - unfold h_setFootStateY, s_setFootStateY in H. binds H. injection H as <-. match goal with E : bind _ _ = Ok _ |- _ => binds E; injection E as <- end.
    constructor; cbn [hlip hsup hmats hmaxS hmaxC hcopLen h_setSup h_setModels]; auto. rewrite s_setFoot_N. assumption.
  - unfold h_setFootStateZ, s_setFootStateZ in H. binds H. injection H as <-. match goal with E : bind _ _ = Ok _ |- _ => binds E; injection E as <- end.
    constructor; cbn [hlip hsup hmats hmaxS hmaxC hcopLen h_setSup h_setModels]; auto. rewrite s_setFoot_N. assumption.
  - unfold h_setComStateX in H. apply guard_ok in H. destruct H as (_ & H). apply bind_ok in H. destruct H as (l & Hl & H). injection H as <-.
    destruct (lstep_inv (LSetStateX v) _ _ F A Hl) as (F1 & A1 & O1). assert (lN l = lN (hlip h)) by (injection O1 as O1; congruence).
    constructor; cbn [hlip hsup hmats hmaxS hmaxC hcopLen h_setLip h_setModels]; auto; congruence.
  - unfold h_setComStateY in H. apply guard_ok in H. destruct H as (_ & H). apply bind_ok in H. destruct H as (l & Hl & H). injection H as <-.
    destruct (lstep_inv (LSetStateY v) _ _ F A Hl) as (F1 & A1 & O1). assert (lN l = lN (hlip h)) by (injection O1 as O1; congruence).
    constructor; cbn [hlip hsup hmats hmaxS hmaxC hcopLen h_setLip h_setModels]; auto; congruence.
  - unfold h_setComStateZ in H. apply guard_ok in H. destruct H as (_ & H). apply guard_ok in H. destruct H as (_ & H). apply guard_ok in H. destruct H as (_ & H).
    apply bind_ok in H. destruct H as (l & Hl & H). injection H as <-.
    destruct (lstep_inv (LSetComHeight _) _ _ F A Hl) as (F1 & A1 & O1). assert (lN l = lN (hlip h)) by (injection O1 as O1; congruence).
    constructor; cbn [hlip hsup hmats hmaxS hmaxC hcopLen h_setLip h_setModels]; auto; congruence.
  - unfold h_setWeightings in H. binds H. injection H as <-. constructor; cbn [hlip hsup hmats hmaxS hmaxC hcopLen]; auto.
  - injection H as <-. apply const_inv; cbn [hlip hsup hcopLen]; auto.
  - unfold h_setMove in H. apply bind_ok in H. destruct H as (ds & _ & H). injection H as <-.
    constructor; cbn [hlip hsup hmats hmaxS hmaxC hcopLen s_setMove sN]; auto.
  - apply bind_ok in H. destruct H as (r & Hr & H). injection H as <-. eapply solve_inv; eassumption.
Qed.
Lemma new_inv h : newHum = Ok h -> hinv h.
Proof.
  unfold newHum. intros H. apply bind_ok in H. destruct H as (s & Hs & H). apply bind_ok in H. destruct H as (l & Hl & H). injection H as <-.
  destruct (newLip_fresh _ _ _ Hl) as (F & O & A). assert (lN l = 1%nat) by (injection O as O; congruence).
  unfold newSupDefault, newSup in Hs. apply bind_ok in Hs. destruct Hs as (a & _ & Hs). apply bind_ok in Hs. destruct Hs as (b & _ & Hs). injection Hs as <-.
  apply const_inv; cbn [hlip hsup hcopLen sN]; auto.
Qed.
Lemma reached_inv h : reached h -> hinv h.
Proof.
  induction 1 as [h H|c h h' _ IH H|t h _ IH].
  - apply new_inv. assumption.
  - eapply step_inv; eassumption.
  - destruct IH as [F A HN HM HS HL]. constructor; auto.
Qed.
Lemma hsteps_reached cs : forall h h', reached h -> hsteps cs h = Ok h' -> reached h'.
Proof.
  induction cs as [|c cs IH]; intros h h' R H; cbn [hsteps] in H; [injection H as <-; assumption|].
  apply bind_ok in H. destruct H as (h1 & H1 & H). eapply IH; [|exact H]. eapply reached_call; eassumption.
Qed.

(** ** What the timeline update computes *)
Record shapes (s : sup R) : Prop := {
  sh_V : mrows (selV (ssel s)) = sN s /\ mcols (selV (ssel s)) = snb s;
  sh_V0 : vlen (selV0 (ssel s)) = sN s;
  sh_W : mrows (selW (ssel s)) = sN s /\ mcols (selW (ssel s)) = sN s /\ forall a b, a <> b -> mget (selW (ssel s)) a b = 0;
  sh_dyn : selDyn (ssel s) = toLinearDynamics (selV (ssel s)) (MkMat (mcols (selV (ssel s))) (mrows (selV (ssel s))) (fun i j => mget (selV (ssel s)) j i)) (selV0 (ssel s));
  sh_rot : selRot (ssel s) = mid (2 * sN s) /\ selRotT (ssel s) = mtr (mid (2 * sN s)) }.

Lemma v0_loop_len fuel T : forall pt N row V0 q, v0_loop fuel T pt N row V0 = Ok q -> vlen (snd q) = vlen V0.
Proof.
  induction fuel as [|fuel IH]; intros pt N row V0 q H; cbn [v0_loop] in H; destruct (_ && _)%bool; try discriminate; try (injection H as <-; reflexivity).
  apply IH in H. exact H.
Qed.
Lemma sel_inner_dims fuel s ds j c : forall pt e e', sel_inner fuel s ds j c pt e = Ok e' ->
  mrows (eV e') = mrows (eV e) /\ mcols (eV e') = mcols (eV e) /\ vlen (eV0 e') = vlen (eV0 e).
Proof.
  induction fuel as [|fuel IH]; intros pt e e' H; cbn [sel_inner] in H; destruct (_ && _)%bool; try discriminate; try (injection H as <-; auto; fail).
  destruct (_ && _)%bool.
  - apply IH in H. exact H.
  - apply guard_ok in H. destruct H as (_ & H). apply IH in H. exact H.
Qed.
Lemma sel_outer_dims fuel s ds : forall j c e e', sel_outer fuel s ds j c e = Ok e' ->
  mrows (eV e') = mrows (eV e) /\ mcols (eV e') = mcols (eV e) /\ vlen (eV0 e') = vlen (eV0 e).
Proof.
  induction fuel as [|fuel IH]; intros j c e e' H; cbn [sel_outer] in H; destruct (sltb _ _); try discriminate; try (injection H as <-; auto; fail).
  apply bind_ok in H. destruct H as (p & _ & H). apply bind_ok in H. destruct H as (e1 & H1 & H).
  apply IH in H. apply sel_inner_dims in H1. destruct H as (-> & -> & ->), H1 as (-> & -> & ->). auto.
Qed.
Lemma selection_shapes s d : computeSelection s = Ok d ->
  mrows (selV d) = sN s /\ mcols (selV d) = snb s /\ vlen (selV0 d) = sN s
  /\ (mrows (selW d) = sN s /\ mcols (selW d) = sN s /\ forall a b, a <> b -> mget (selW d) a b = 0)
  /\ selDyn d = toLinearDynamics (selV d) (MkMat (mcols (selV d)) (mrows (selV d)) (fun i j => mget (selV d) j i)) (selV0 d)
  /\ selRot d = mid (2 * sN s) /\ selRotT d = mtr (mid (2 * sN s)).
Proof.
  unfold computeSelection. intros H. apply bind_ok in H. destruct H as (W & HW & H). apply bind_ok in H. destruct H as (e & He & H). injection H as <-.
  cbn [selV selV0 selW selDyn selRot selRotT]. unfold selectionMatrix in He. apply guard_ok in He. destruct He as (HN & He).
  apply bind_ok in He. destruct He as (ds & _ & He). apply bind_ok in He. destruct He as (((pt & row) & V0) & Hv & He).
  apply sel_outer_dims in He. apply v0_loop_len in Hv. cbn [eV eV0 mrows mcols snd vlen] in He, Hv. destruct He as (D1 & D2 & D3).
  split; [exact D1|]. split; [exact D2|]. split; [congruence|]. split; [|auto].
  unfold sampleWeights in HW. apply bind_ok in HW. destruct HW as (t & _ & HW). injection HW as <-. cbn [mset mrows mcols mid mget].
  split; [reflexivity|]. split; [reflexivity|]. intros a b Hab. bools; try lia; rsimpl; try reflexivity; exfalso; lia.
Qed.
Lemma timeline_loop_N fuel : forall s i pt h v r, timeline_loop fuel s i pt h v = Ok r -> sN (fst (fst r)) = sN s.
Proof.
  induction fuel as [|fuel IH]; intros s i pt h v r H; cbn [timeline_loop] in H; destruct (sltb _ _); try discriminate; try (injection H as <-; reflexivity).
  apply bind_ok in H. destruct H as (((s1 & i1) & p1) & H1 & H). apply bind_ok in H. destruct H as (v1 & _ & H). apply IH in H. rewrite H.
  destruct (sltb pt EPS); [|injection H1 as <- _ _; reflexivity].
  apply bind_ok in H1. destruct H1 as (s2 & H2 & H1). apply bind_ok in H1. destruct H1 as (p & _ & H1). injection H1 as <- _ _.
  unfold phase_change in H2. apply bind_ok in H2. destruct H2 as (la & _ & H2). destruct (processFSM _ _ _) as (ph & nb).
  destruct (Nat.eqb _ _); [injection H2 as <-; reflexivity|]. apply bind_ok in H2. destruct H2 as (t & _ & H2). injection H2 as <-. reflexivity.
Qed.
Lemma update_shapes v fb s s' v' : s_updateTimeline v fb s = Ok (s', v') -> shapes s' /\ (0 < sN s')%nat /\ sfb s' = fb.
Proof.
  unfold s_updateTimeline. intros H. apply guard_ok in H. destruct H as (_ & H). apply guard_ok in H. destruct H as (_ & H).
  apply bind_ok in H. destruct H as (((v1 & t1) & tn) & _ & H).
  apply bind_ok in H. destruct H as (((s2 & i) & v2) & Hl & H). apply bind_ok in H. destruct H as (sel & Hsel & H). injection H as <- _.
  apply timeline_loop_N in Hl. cbn [fst sN] in Hl. pose proof (selection_shapes _ _ Hsel) as (D1 & D2 & D3 & D4 & D5 & D6 & D7).
  cbn [s_setTl sN snb] in D1, D2, D3, D4, D6, D7. rewrite Hl in D1, D3, D4, D6, D7.
  split; [|split; [|reflexivity]].
  - constructor; cbn [ssel sN snb]; auto.
  - cbn [sN]. unfold computeSelection, selectionMatrix in Hsel. apply bind_ok in Hsel. destruct Hsel as (W & _ & Hsel).
    apply bind_ok in Hsel. destruct Hsel as (e & He & _). apply guard_ok in He. destruct He as (He & _). apply Nat.ltb_lt in He.
    cbn [s_setTl sN] in He. rewrite Hl in He. exact He.
Qed.

(** ** The previews used by one call *)
Lemma at_fresh A (l : lip R) n (f : nat -> res A) (v : list A) z d : lip_fresh l n -> tab f n v ->
  match lnb l with
  | None => UB
  | Some y => do _ <- guard (Z.ltb z y); do _ <- ubguard (Z.leb 0 z); match nth_error v (Z.to_nat z) with Some d => Ok d | None => UB end
  end = Ok d -> (0 <= z < Z.of_nat n)%Z /\ f (Z.to_nat z) = Ok d.
Proof.
  intros F (L & Hv) H. rewrite (lf_nb _ _ F) in H. apply guard_ok in H. destruct H as (H1 & H). apply ubguard_ok in H. destruct H as (H2 & H).
  apply Z.ltb_lt in H1. apply Z.leb_le in H2. split; [lia|]. destruct (Hv (Z.to_nat z)) as (d' & E1 & E2); [lia|]. rewrite E1 in H. congruence.
Qed.
Definition cop_fresh (l : lip R) (g0 : R) (z : Z) (d : lindyn R) : Prop :=
  computeCopDynamic (IZR (z + 1) * lfb l) (lT l) (lN l) (lh l) g0 (gz (lg l)) (lm l) (lM l) = Ok d.
Lemma lfst_Z l z : (0 <= z)%Z -> lfst l (Z.to_nat z) = IZR (z + 1) * lfb l.
Proof. intros H. unfold lfst. rewrite INR_IZR_INZ, Z2Nat.id by assumption. rewrite plus_IZR. ring. Qed.
Lemma getCopX_fresh l z d : (exists n, lip_fresh l n) -> l_getCopX l z = Ok d -> (0 <= z)%Z /\ cop_fresh l (gx (lg l)) z d.
Proof. intros (n & F) H. apply (at_fresh _ _ _ _ _ _ _ F (lf_cx _ _ F)) in H. destruct H as (Hz & H). rewrite lfst_Z in H by lia. split; [lia|exact H]. Qed.
Lemma getCopY_fresh l z d : (exists n, lip_fresh l n) -> l_getCopY l z = Ok d -> (0 <= z)%Z /\ cop_fresh l (gy (lg l)) z d.
Proof. intros (n & F) H. apply (at_fresh _ _ _ _ _ _ _ F (lf_cy _ _ F)) in H. destruct H as (Hz & H). rewrite lfst_Z in H by lia. split; [lia|exact H]. Qed.
Lemma getVel_fresh l z d : (exists n, lip_fresh l n) -> l_getComVel l z = Ok d -> (0 <= z)%Z /\ computeVelDynamic (IZR (z + 1) * lfb l) (lT l) (lN l) = Ok d.
Proof. intros (n & F) H. apply (at_fresh _ _ _ _ _ _ _ F (lf_vel _ _ F)) in H. destruct H as (Hz & H). rewrite lfst_Z in H by lia. split; [lia|exact H]. Qed.

(** One CoP preview: sizes, and the CoP it predicts. *)
Record cop_pre (N : nat) (d : lindyn R) : Prop := {
  cp_U : mrows (dU d) = N /\ mcols (dU d) = N; cp_S : mrows (dS d) = N; cp_K : vlen (dK d) = N;
  cp_UT : dUT d = mtr (dU d); cp_UTi : dUTinv d = omtr (dUinv d);
  cp_inv : forall V, dUinv d = Some V -> mrows V = N /\ mcols V = N }.
Lemma cop_pre_fresh l g0 z d : cop_fresh l g0 z d -> cop_pre (lN l) d.
Proof.
  unfold cop_fresh, computeCopDynamic. rewrite !guard_ok. intros (_ & _ & _ & _ & _ & _ & _ & E). injection E as <-.
  constructor; cbn [dU dUT dUinv dUTinv dS dK]; try (split; reflexivity); try reflexivity.
  intros V HV. unfold inverseLU in HV. destruct (diag_nonzero _ _); [|discriminate]. injection HV as <-. split; reflexivity.
Qed.
Lemma cop_predicts l g0 z d x J i : cop_fresh l g0 z d -> (i < lN l)%nat ->
  ssum (lN l) (fun k => mget (dU d) i k * J k) + (vget (mv (dS d) (vec_of_st3 x)) i + vget (dK d) i)
  = cop_of (lh l) g0 (gz (lg l)) (lm l) (lM l) (sim (IZR (z + 1) * lfb l) (lT l) x J i).
Proof.
  intros H Hi. pose proof (computeCopDynamic_inv _ _ _ _ _ _ _ _ _ H) as (HS & HT & _).
  destruct (preview_cop _ _ _ _ _ _ _ _ _ x (MkVec (lN l) J) i H Hi) as (s & Hs & E).
  rewrite run_sim in Hs by assumption. injection Hs as <-. unfold cop_of. cbn [vget] in E. rewrite <- E. unfold predict, mv. cbn [vget].
  destruct (cop_pre_fresh _ _ _ _ H) as [(U1 & U2) _ _ _ _ _]. rewrite U2. rsimpl. ring.
Qed.
Lemma vel_predicts l z d x J i : computeVelDynamic (IZR (z + 1) * lfb l) (lT l) (lN l) = Ok d -> (i < lN l)%nat ->
  ssum (lN l) (fun k => mget (dU d) i k * J k) + vget (mv (dS d) (vec_of_st3 x)) i
  = vel (sim (IZR (z + 1) * lfb l) (lT l) x J i).
Proof.
  intros H Hi. pose proof (computeVelDynamic_inv _ _ _ _ H) as (HS & HT & _ & EU & ES & EK & _).
  destruct (preview_vel _ _ _ _ x (MkVec (lN l) J) i H Hi) as (s & Hs & E).
  rewrite run_sim in Hs by assumption. injection Hs as <-. rewrite <- E. unfold predict, mv. cbn [vget]. rewrite EK. cbn [vzero vget].
  rewrite EU. cbn [vel_U lower mcols]. rsimpl. ring.
Qed.

(** Inverses *)
Lemma inverse_left N (a b : mat R) (x y : nat -> R) : mrows a = N -> mcols a = N -> mrows b = N -> mcols b = N -> is_inverse N a b ->
  (forall i, (i < N)%nat -> ssum N (fun k => mget a i k * x k) = y i) ->
  forall i, (i < N)%nat -> ssum N (fun k => mget b i k * y k) = x i.
Proof.
  intros A1 A2 B1 B2 I E i Hi.
  rewrite (ssum_ext N _ (fun k => ssum N (fun j => mget b i k * mget a k j * x j))).
  - rewrite ssum_swap. rewrite (ssum_ext N _ (fun j => mget (mid N) i j * x j)).
    + cbn [mid mget]. rewrite (ssum_single N i); [rewrite Nat.eqb_refl; rsimpl; ring|assumption|].
      intros k _ Hk. replace (Nat.eqb i k) with false by (symmetry; apply Nat.eqb_neq; auto). rsimpl. ring.
    + intros j Hj. destruct (I i j Hi Hj) as (_ & <-). cbn [mmul mget]. rewrite B2, ssum_mul_r. reflexivity.
  - intros k Hk. rewrite <- E by assumption. rewrite <- ssum_mul_l. apply ssum_ext. intros; ring.
Qed.
Lemma is_inverse_sym N a b : is_inverse N a b -> is_inverse N b a.
Proof. intros H i j Hi Hj. destruct (H i j Hi Hj). auto. Qed.

(** The position of the foot on the ground at sample i, through the selection matrices *)
Definition foot_at (s : sup R) (f : R) (st : nat -> R) (i : nat) : R :=
  ssum (snb s) (fun k => IZR (mget (selV (ssel s)) i k) * st k) + IZR (vget (selV0 (ssel s)) i) * f.
End Facts.
