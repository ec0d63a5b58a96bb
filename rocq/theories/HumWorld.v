(** The humanoid problem in terms of the phases of the walk and of the simulated motion. *)

From Coq Require Import Reals List ZArith Arith Bool Lra Lia.
From Verif Require Import Scalar LinAlg LinAlgFacts ToolsModel ToolsSpec ToolsFacts NoDynModel PolygonModel PolygonFacts QPModel QPFacts TrajModel LipModel FootModel
  ModelsSpec ModelsFacts SupModel SupSpec SupFacts PropSup HumModel HumAlg HumSpec HumFacts HumObj HumProb.
Import ListNotations.
Local Open Scope R_scope.

Section World.
Context {TK : Trig R}.

(** A prepared generator *)
Lemma prepared h0 fb h : reached h0 -> h_prepare fb h0 = Ok h -> hinv h /\ shapes (hsup h) /\ (0 < lN (hlip h))%nat.
Proof.
  intros H0 H. pose proof (prepare_inv _ _ _ (reached_inv _ H0) H) as I. destruct (h_prepare_cases _ _ _ H) as (s & X & l & Hu & _ & _ & _ & E & _).
  destruct (update_shapes _ _ _ _ _ Hu) as (Sh & HN & _). rewrite <- E in Sh, HN. rewrite (hi_N _ I) in HN. auto.
Qed.
Lemma prepared_T h0 fb h : reached h0 -> h_prepare fb h0 = Ok h -> lT (hlip h) = lT (hlip h0) /\ sT (hsup h) = sT (hsup h0) /\ sN (hsup h) = sN (hsup h0).
Proof.
  intros H0 H. destruct (h_prepare_cases _ _ _ H) as (s & X & l & Hu & Hl & _ & _ & E & E' & _). pose proof (reached_inv _ H0) as I.
  assert (L : lT l = lT (hlip h0)).
  { destruct (Rltb _ _); [|injection Hl as <-; reflexivity].
    destruct (lstep_inv (LSetFeedbackPeriod fb) _ _ (hi_fresh _ I) (hi_auto _ I) Hl) as (_ & _ & O). injection O. intros. assumption. }
  rewrite E, E', L. split; [reflexivity|]. split; [|exact (update_N _ _ _ _ _ Hu)].
  unfold s_updateTimeline in Hu. apply guard_ok in Hu. destruct Hu as (_ & Hu). apply guard_ok in Hu. destruct Hu as (_ & Hu).
  apply bind_ok in Hu. destruct Hu as (((v1 & t1) & tn) & _ & Hu).
  apply bind_ok in Hu. destruct Hu as (((s2 & i) & v2) & _ & Hu). apply bind_ok in Hu. destruct Hu as (sel & _ & Hu). injection Hu as <- _. reflexivity.
Qed.

(** The two models always have the same sampling period. *)
Lemma l_auto_T (l l' : lip R) : l_auto l = Ok l' -> lT l' = lT l.
Proof. unfold l_auto, l_computeDynamics. intros H. destruct (lauto l); [|injection H as <-; reflexivity]. binds H. injection H as <-. reflexivity. Qed.
Lemma update_T v fb (s s' : sup R) v' : s_updateTimeline v fb s = Ok (s', v') -> sT s' = sT s.
Proof.
  intros Hu. unfold s_updateTimeline in Hu. apply guard_ok in Hu. destruct Hu as (_ & Hu). apply guard_ok in Hu. destruct Hu as (_ & Hu).
  apply bind_ok in Hu. destruct Hu as (((v1 & t1) & tn) & _ & Hu).
  apply bind_ok in Hu. destruct Hu as (((s2 & i) & v2) & _ & Hu). apply bind_ok in Hu. destruct Hu as (sel & _ & Hu). injection Hu as <- _. reflexivity.
Qed.
Lemma s_setFoot_T d f (s : sup R) : sT (s_setFoot d f s) = sT s.
Proof. destruct d; reflexivity. Qed.
Lemma step_T c (h h' : hum R) : sT (hsup h) = lT (hlip h) -> hstep c h = Ok h' -> sT (hsup h') = lT (hlip h').
Proof.
  intros HT H. destruct c; cbn [hstep] in H.
  - unfold h_setNbSamples in H. apply guard_ok in H. destruct H as (_ & H). apply bind_ok in H. destruct H as (l & Hl & H).
    apply bind_ok in H. destruct H as (s & Hs & H). injection H as <-. cbn [hsup hlip h_computeConstantPart].
    unfold l_setNbSamples in Hl. binds Hl. apply l_auto_T in Hl. rewrite Hl. unfold s_setNbSamples in Hs. binds Hs. injection Hs as <-. exact HT.
  - unfold h_setSamplingPeriod in H. apply guard_ok in H. destruct H as (_ & H). apply bind_ok in H. destruct H as (l & Hl & H).
    apply bind_ok in H. destruct H as (s & Hs & H). injection H as <-. cbn [hsup hlip].
    unfold l_setSamplingPeriod in Hl. binds Hl. apply l_auto_T in Hl. rewrite Hl. unfold s_setSamplingPeriod in Hs. binds Hs. injection Hs as <-. reflexivity.
  - unfold h_setStepPeriod in H. apply guard_ok in H. destruct H as (_ & H). apply guard_ok in H. destruct H as (_ & H). apply bind_ok in H. destruct H as (s & Hs & H). injection H as <-. cbn [hsup hlip h_setSup h_setModels]. rewrite <- HT.
    unfold s_setStepPeriod in Hs. binds Hs. destruct x; [injection Hs as <-; reflexivity|]. binds Hs. injection Hs as <-. reflexivity.
  - unfold h_setInitialDoubleSupportLength in H. apply bind_ok in H. destruct H as (s & Hs & H). injection H as <-. cbn [hsup hlip h_setSup h_setModels]. rewrite <- HT.
    unfold s_setInitialDoubleSupportLength in Hs. apply bind_ok in Hs. destruct Hs as (ds & _ & Hs).
    destruct ds; [|injection Hs as <-; reflexivity]. apply bind_ok in Hs. destruct Hs as (? & _ & Hs). binds Hs. injection Hs as <-. reflexivity.
  - injection H as <-. cbn [hsup hlip h_setSup h_setModels h_setKinematicConvexPolygon]. unfold s_setKinematicConvexPolygon. rewrite s_setFoot_T. exact HT.
  - injection H as <-. cbn [hsup hlip h_setSup h_setModels h_setCopConvexPolygon]. unfold s_setCopConvexPolygon. rewrite s_setFoot_T. exact HT.
  - injection H as <-. cbn [hsup hlip h_setSup h_setModels h_setMaxHeight]. unfold s_setMaxHeight. rewrite s_setFoot_T. exact HT.
  - unfold h_setVelRef in H. binds H. injection H as <-. exact HT.
  - unfold h_setFootStateX, s_setFootStateX in H. binds H. injection H as <-. match goal with E : bind _ _ = Ok _ |- _ => binds E; injection E as <- end. cbn [hsup hlip h_setSup h_setModels]. rewrite s_setFoot_T. exact HT.
  - unfold h_setFootStateY, s_setFootStateY in H. binds H. injection H as <-. match goal with E : bind _ _ = Ok _ |- _ => binds E; injection E as <- end. cbn [hsup hlip h_setSup h_setModels]. rewrite s_setFoot_T. exact HT.
  - unfold h_setFootStateZ, s_setFootStateZ in H. binds H. injection H as <-. match goal with E : bind _ _ = Ok _ |- _ => binds E; injection E as <- end. cbn [hsup hlip h_setSup h_setModels]. rewrite s_setFoot_T. exact HT.
  - unfold h_setComStateX, l_setStateX in H. binds H. injection H as <-. match goal with E : bind _ _ = Ok _ |- _ => binds E; injection E as <- end. exact HT.
  - unfold h_setComStateY, l_setStateY in H. binds H. injection H as <-. match goal with E : bind _ _ = Ok _ |- _ => binds E; injection E as <- end. exact HT.
  - unfold h_setComStateZ in H. apply guard_ok in H. destruct H as (_ & H). apply guard_ok in H. destruct H as (_ & H). apply guard_ok in H. destruct H as (_ & H).
    apply bind_ok in H. destruct H as (l & Hl & H). injection H as <-. cbn [hsup hlip h_setLip h_setModels]. unfold l_setComHeight, l_autoCop in Hl. binds Hl. match type of Hl with context [if ?b then _ else _] => destruct b end; [|injection Hl as <-; exact HT]. binds Hl. injection Hl as <-. exact HT.
  - unfold h_setWeightings in H. binds H. injection H as <-. exact HT.
  - injection H as <-. exact HT.
  - unfold h_setMove in H. apply bind_ok in H. destruct H as (ds & _ & H). injection H as <-. exact HT.
  - apply bind_ok in H. destruct H as (r & Hr & H). injection H as <-. unfold h_solve in Hr. apply bind_ok in Hr. destruct Hr as (h1 & H1 & Hr). apply bind_ok in Hr. destruct Hr as ((q & i) & _ & Hr).
    destruct (h_prepare_cases _ _ _ H1) as (s & X & l & Hu & Hl & _ & _ & E & E' & _). cbn [fst snd] in Hr. apply finish_cases in Hr.
    destruct Hr as (dX & Y & t & l1 & l2 & s2 & _ & _ & _ & _ & E1 & E2 & E3 & _ & ER). rewrite ER. cbn [hsup hlip].
    destruct (s_updateFeet_N _ _ _ _ E3) as (_ & -> & _). rewrite E, (update_T _ _ _ _ _ Hu), HT.
    unfold l_updateStateX in E1. unfold l_updateStateY in E2. binds E1. injection E1 as <-. binds E2. injection E2 as <-. cbn [lT l_setStates]. rewrite E'.
    destruct (Rltb _ _); [|injection Hl as <-; reflexivity]. unfold l_setFeedbackPeriod in Hl. binds Hl. apply l_auto_T in Hl. rewrite Hl. reflexivity.
Qed.
Lemma reached_T h : reached h -> sT (hsup h) = lT (hlip h).
Proof.
  induction 1 as [h H|c h h' _ IH H|t h _ IH]; [|eapply step_T; eassumption|exact IH].
  unfold newHum in H. apply bind_ok in H. destruct H as (s & Hs & H). apply bind_ok in H. destruct H as (l & Hl & H). injection H as <-. cbn [hsup hlip h_computeConstantPart].
  unfold newSupDefault, newSup in Hs. apply bind_ok in Hs. destruct Hs as (a & _ & Hs). apply bind_ok in Hs. destruct Hs as (b & _ & Hs). injection Hs as <-.
  unfold newLipDefault, newLip in Hl. apply l_auto_T in Hl. rewrite Hl. reflexivity.
Qed.

(** The foot on the ground at each sample *)
Lemma foot_on_ground h0 fb h tn S0 f st i : h_prepare fb h0 = Ok h -> ready (hsup h0) (hX h0) tn S0 -> (i < sN (hsup h0))%nat ->
  on_ground (cbl (stl (hsup h))) tn (S0 + INR i * sT (hsup h0)) f st (foot_at (hsup h) f st i).
Proof.
  intros H Rd Hi. destruct (h_prepare_cases _ _ _ H) as (s & X & l & Hu & _ & _ & _ & E & _). subst s.
  destruct (C29_one_support_per_sample _ _ _ _ fb Rd) as (s' & v' & E1 & _ & V1 & V2 & V3 & _ & Q). rewrite Hu in E1. injection E1 as <- <-.
  destruct (Q i Hi) as (j & Hj & _ & Hm & H0 & Hc). exists j. split; [exact Hj|]. unfold foot_at. cbn zeta in *.
  rewrite H0. set (m := steps_before (cbl (stl (hsup h))) j) in *. destruct m as [|k].
  - rewrite ssum_0; [cbn [Nat.eqb]; ring|]. intros c Hc'. destruct (Hc c Hc') as (-> & _). cbn [Nat.eqb]. ring.
  - rewrite (ssum_single (snb (hsup h)) k).
    + destruct (Hc k ltac:(lia)) as (-> & _). rewrite Nat.eqb_refl. cbn [Nat.eqb]. ring.
    + lia.
    + intros c Hc' Hne. destruct (Hc c Hc') as (-> & _). destruct (Nat.eqb_spec (S k) (S c)); [lia|ring].
Qed.
(** The polygon of each sample *)
Lemma polygon_of_phase h0 fb h tn S0 i p : h_prepare fb h0 = Ok h -> ready (hsup h0) (hX h0) tn S0 -> (i < sN (hsup h0))%nat ->
  s_getCopConvexPolygon i (hsup h) = Ok p ->
  exists j ph, in_progress tn (cbl (stl (hsup h))) (S0 + INR i * sT (hsup h0)) j /\ nth_error (cbl (stl (hsup h))) j = Some ph /\ phase_polygon (hsup h) (phType ph) p.
Proof.
  intros H Rd Hi Hp. destruct (h_prepare_cases _ _ _ H) as (s & X & l & Hu & _ & _ & _ & E & _). subst s.
  destruct (C30_timeline_covers_horizon _ _ _ _ fb Rd) as (s' & v' & E1 & _ & V & Q & _). rewrite Hu in E1. injection E1 as <- <-.
  unfold s_getCopConvexPolygon in Hp. apply guard_ok in Hp. destruct Hp as (_ & Hp). apply bind_ok in Hp. destruct Hp as (ph & Hph & Hp).
  exists (vget (selIdx (ssel (hsup h))) i), ph. split; [apply Q; assumption|]. split.
  - unfold cb_at in Hph. apply rd_inv. exact Hph.
  - unfold phase_polygon. destruct (phType ph); [exact Hp|injection Hp as <-; reflexivity|injection Hp as <-; reflexivity].
Qed.
Lemma weights h0 fb h tn S0 i : h_prepare fb h0 = Ok h -> ready (hsup h0) (hX h0) tn S0 -> (i < sN (hsup h0))%nat ->
  mget (selW (ssel (hsup h))) i i = sample_weight (sN (hsup h0)) S0 (sT (hsup h0)) i.
Proof.
  intros H Rd Hi. destruct (h_prepare_cases _ _ _ H) as (s & X & l & Hu & _ & _ & _ & E & _). subst s.
  destruct (C35_sample_weights _ _ _ _ fb Rd) as (s' & v' & E1 & _ & _ & _ & W1 & W2 & W3 & _). rewrite Hu in E1. injection E1 as <- <-.
  unfold sample_weight. destruct (Nat.eqb_spec i (sN (hsup h0) - 1)) as [->|N1]; [exact W2|].
  destruct (Nat.eqb_spec i 0) as [->|N2]; [apply W3; lia|apply W1; lia].
Qed.

(** The cost of the problem *)
Lemma problem_cost h q idx t0 t d S : hinv h -> shapes (hsup h) -> h_problem h = Ok (q, idx) -> first_interval h S ->
  h_convert (hlip h) (hsup h) (hX h) = Ok t0 -> h_convert (hlip h) (hsup h) (vadd (hX h) d) = Ok t ->
  let N := lN (hlip h) in
  let w i := mget (selW (ssel (hsup h))) i i in
  qcost q (vget d) = hum_cost h S w (moved h (vget d)) (vget t) (fun i => vget t (N + i)) - hum_cost h S w (vget (hX h)) (vget t0) (fun i => vget t0 (N + i)).
Proof.
  intros I Sh H (nb & Hnb & ->) H0 H1 N w.
  destruct (convert_inv _ _ _ I Sh H0) as (z & cx & cy & Vx & Vy & fx & fy & F0). pose proof (convert_gets _ _ _ _ _ _ _ _ _ _ F0) as G.
  destruct (convert_inv _ _ _ I Sh H1) as (z' & cx' & cy' & Vx' & Vy' & fx' & fy' & F1). pose proof (convert_gets _ _ _ _ _ _ _ _ _ _ F1) as G'.
  destruct (gets_unique _ _ _ _ _ _ _ _ _ _ _ _ _ _ _ G G') as (-> & -> & -> & -> & -> & -> & ->). clear G'.
  assert (Ez : nb = (z + 1)%Z). { pose proof (gt_nb _ _ _ _ _ _ _ _ G) as E. unfold h_nb in E. rewrite Hnb in E. cbn [bind] in E. injection E as <-. lia. } subst nb.
  destruct (problem_inv _ _ _ I H) as (rc & rf & bc & bf & _ & _ & _ & _ & _ & _ & _ & _ & _ & Ln & _ & _ & _ & _ & _ & _ & Jv & Jj & Jc & EJ & HJv & HJj & HJc).
  fold N in HJv, HJj, HJc, Ln. set (n := (2 * N + 2 * snb (hsup h))%nat) in *.
  set (Y := moved h (vget d)). set (X := vget (hX h)) in *.
  assert (T0x : forall i, (i < N)%nat -> vget t0 i = jerkX h cx Vx fx X i) by exact (cv_x _ _ _ _ _ _ _ _ _ _ F0).
  assert (T0y : forall i, (i < N)%nat -> vget t0 (N + i) = jerkY h cy Vy fy X i) by exact (cv_y _ _ _ _ _ _ _ _ _ _ F0).
  assert (T1x : forall i, (i < N)%nat -> vget t i = jerkX h cx Vx fx Y i) by exact (cv_x _ _ _ _ _ _ _ _ _ _ F1).
  assert (T1y : forall i, (i < N)%nat -> vget t (N + i) = jerkY h cy Vy fy Y i) by exact (cv_y _ _ _ _ _ _ _ _ _ _ F1).
  rewrite EJ. unfold hum_cost. fold N.
  assert (Ev : Jv (vget d) = Rmax 0 (wVelT (hw h)) * (/ 2 * ssum N (fun i => w i * ((vel (sim (IZR (z + 1) * lfb (hlip h)) (lT (hlip h)) (lsx (hlip h)) (vget t) i) - vget (hvelRef h) i) ^ 2
                 + (vel (sim (IZR (z + 1) * lfb (hlip h)) (lT (hlip h)) (lsy (hlip h)) (fun i => vget t (N + i)) i) - vget (hvelRef h) (N + i)) ^ 2))
       - / 2 * ssum N (fun i => w i * ((vel (sim (IZR (z + 1) * lfb (hlip h)) (lT (hlip h)) (lsx (hlip h)) (vget t0) i) - vget (hvelRef h) i) ^ 2
                 + (vel (sim (IZR (z + 1) * lfb (hlip h)) (lT (hlip h)) (lsy (hlip h)) (fun i => vget t0 (N + i)) i) - vget (hvelRef h) (N + i)) ^ 2)))).
  { destruct HJv as [(W & E)|(W & Hm & g & EH & Eg & E)].
    - rewrite E, Rmax_left by lra. ring.
    - rewrite E, Rmax_right by lra. f_equal.
      assert (Hv : exists v, l_getComVel (hlip h) z = Ok v).
      { unfold h_velHessian in EH. apply guard_ok in EH. destruct EH as (_ & EH). apply bind_ok in EH. destruct EH as (z' & Ez & EH). rewrite (gt_nb _ _ _ _ _ _ _ _ G) in Ez. injection Ez as <-.
        apply bind_ok in EH. destruct EH as (? & _ & EH). apply bind_ok in EH. destruct EH as (? & _ & EH). apply bind_ok in EH. destruct EH as (v & Hv & _). eauto. }
      destruct Hv as (v & Hv). destruct (getVel_fresh _ _ _ (hi_fresh _ I) Hv) as (_ & Fv).
      destruct (vel_obj h z cx cy Vx Vy fx fy I Sh G v (hX h) (hvelRef h) Hm g (vget d) Hv EH Eg) as (_ & _ & _ & _ & _ & Q). cbn zeta in Q.
      fold N X n in Q. change (fun k => X k + vget d k) with Y in Q. rewrite Q. clear Q.
      f_equal; f_equal; apply ssum_ext; intros i Hi; fold (w i); f_equal; f_equal; f_equal; f_equal;
        rewrite <- (vel_predicts _ _ _ _ _ _ Fv Hi); f_equal; apply ssum_ext; intros k Hk; f_equal; symmetry; auto. }
  assert (Ej : Jj (vget d) = Rmax 0 (wJerkM (hw h)) * (/ 2 * ssum N (fun i => w i * (vget t i ^ 2 + vget t (N + i) ^ 2)) - / 2 * ssum N (fun i => w i * (vget t0 i ^ 2 + vget t0 (N + i) ^ 2)))).
  { destruct HJj as [(W & E)|(W & Hm & g & EH & Eg & E)].
    - rewrite E, Rmax_left by lra. ring.
    - rewrite E, Rmax_right by lra. f_equal.
      destruct (jerk_obj h z cx cy Vx Vy fx fy I Sh G (hX h) Hm g (vget d) EH Eg) as (_ & _ & _ & _ & Q). fold N X n in Q. change (fun k => X k + vget d k) with Y in Q. rewrite Q. clear Q.
      f_equal; f_equal; apply ssum_ext; intros i Hi; fold (w i); rewrite ?T0x, ?T0y, ?T1x, ?T1y by assumption; reflexivity. }
  assert (Ec : Jc (vget d) = Rmax 0 (wCopC (hw h)) * (/ 2 * ssum N (fun i => dCopX Y i ^ 2 + dCopY N Y i ^ 2) - / 2 * ssum N (fun i => dCopX X i ^ 2 + dCopY N X i ^ 2))).
  { destruct HJc as [(W & E)|(W & g & Eg & E)].
    - rewrite E, Rmax_left by lra. ring.
    - rewrite E, Rmax_right by lra. f_equal. destruct (cop_obj h (hX h) g (vget d) Eg) as (_ & _ & Q). fold N X n in Q. rewrite Q. rewrite !ssum_2N, <- !ssum_plus. reflexivity. }
  rewrite Ev, Ej, Ec. ring.
Qed.

(** ** The Hessian: symmetric, positive semidefinite *)
Lemma support_read s (vx vy : vec R) fx fy : s_getSupportFootStateX s = Ok vx -> vread vx 0 = Ok fx -> s_getSupportFootStateY s = Ok vy -> vread vy 0 = Ok fy -> support_is s fx fy.
Proof. intros A B C D. apply vread_inv in B, D. exists vx, vy. destruct B as (? & ->), D as (? & ->). auto 10. Qed.
Lemma jerkGradient_gets h x0 g : h_jerkGradient (hlip h) (hsup h) x0 = Ok g -> exists z cx cy Vx Vy fx fy, gets h z cx cy Vx Vy fx fy.
Proof.
  unfold h_jerkGradient. intros H. apply guard_ok in H. destruct H as (_ & H). apply bind_ok in H. destruct H as (z & Hz & H).
  apply bind_ok in H. destruct H as (cx & Hcx & H). apply bind_ok in H. destruct H as (cy & Hcy & H).
  apply bind_ok in H. destruct H as (Vx & HVx & H). apply bind_ok in H. destruct H as (? & _ & H). apply bind_ok in H. destruct H as (Vy & HVy & H). apply bind_ok in H. destruct H as (? & _ & H).
  apply bind_ok in H. destruct H as (vx & Hvx & H). apply bind_ok in H. destruct H as (fx & Hfx & H).
  apply bind_ok in H. destruct H as (vy & Hvy & H). apply bind_ok in H. destruct H as (fy & Hfy & H).
  exists z, cx, cy, Vx, Vy, fx, fy. apply oinv_inv in HVx, HVy. constructor; auto. exact (support_read _ _ _ _ _ Hvx Hfx Hvy Hfy).
Qed.
Lemma velGradient_gets h vr x0 g : h_velGradient (hlip h) (hsup h) vr x0 = Ok g -> exists z cx cy Vx Vy fx fy v, gets h z cx cy Vx Vy fx fy /\ l_getComVel (hlip h) z = Ok v.
Proof.
  unfold h_velGradient. intros H. apply guard_ok in H. destruct H as (_ & H). apply guard_ok in H. destruct H as (_ & H). apply bind_ok in H. destruct H as (z & Hz & H).
  apply bind_ok in H. destruct H as (cx & Hcx & H). apply bind_ok in H. destruct H as (cy & Hcy & H). apply bind_ok in H. destruct H as (v & Hv & H).
  apply bind_ok in H. destruct H as (Vx & HVx & H). apply bind_ok in H. destruct H as (? & _ & H). apply bind_ok in H. destruct H as (Vy & HVy & H). apply bind_ok in H. destruct H as (? & _ & H).
  apply bind_ok in H. destruct H as (vx & Hvx & H). apply bind_ok in H. destruct H as (fx & Hfx & H).
  apply bind_ok in H. destruct H as (vy & Hvy & H). apply bind_ok in H. destruct H as (fy & Hfy & H).
  exists z, cx, cy, Vx, Vy, fx, fy, v. apply oinv_inv in HVx, HVy. split; [|assumption]. constructor; auto. exact (support_read _ _ _ _ _ Hvx Hfx Hvy Hfy).
Qed.
Lemma foot_mid s f (a b : nat -> R) i : foot_at s f (fun k => a k + b k) i + foot_at s f (fun k => a k - b k) i = 2 * foot_at s f a i.
Proof.
  unfold foot_at. rewrite (ssum_ext (snb s) (fun k => IZR (mget (selV (ssel s)) i k) * (a k + b k)) (fun k => IZR (mget (selV (ssel s)) i k) * a k + IZR (mget (selV (ssel s)) i k) * b k)) by (intros; ring).
  rewrite (ssum_ext (snb s) (fun k => IZR (mget (selV (ssel s)) i k) * (a k - b k)) (fun k => IZR (mget (selV (ssel s)) i k) * a k - IZR (mget (selV (ssel s)) i k) * b k)) by (intros; ring).
  rewrite ssum_plus, ssum_minus. generalize (IZR (vget (selV0 (ssel s)) i)). intros V0. ring.
Qed.
Lemma jerkX_mid h cx Vx fx X d i : jerkX h cx Vx fx (fun k => X k + d k) i + jerkX h cx Vx fx (fun k => X k + - d k) i = 2 * jerkX h cx Vx fx X i.
Proof.
  unfold jerkX. rewrite <- ssum_plus, <- ssum_mul_l. apply ssum_ext. intros k _.
  pose proof (foot_mid (hsup h) fx (dStepX (lN (hlip h)) X) (dStepX (lN (hlip h)) d) k) as E.
  change (dStepX (lN (hlip h)) (fun k => X k + d k)) with (fun k => dStepX (lN (hlip h)) X k + dStepX (lN (hlip h)) d k).
  change (dStepX (lN (hlip h)) (fun k => X k + - d k)) with (fun k => dStepX (lN (hlip h)) X k - dStepX (lN (hlip h)) d k). cbn beta.
  match goal with |- _ = 2 * (?c * (_ + ?a - _)) => replace a with ((2 * a) / 2) by field end. rewrite <- E. field.
Qed.
Lemma jerkY_mid h cy Vy fy X d i : jerkY h cy Vy fy (fun k => X k + d k) i + jerkY h cy Vy fy (fun k => X k + - d k) i = 2 * jerkY h cy Vy fy X i.
Proof.
  unfold jerkY. rewrite <- ssum_plus, <- ssum_mul_l. apply ssum_ext. intros k _.
  pose proof (foot_mid (hsup h) fy (dStepY (lN (hlip h)) (snb (hsup h)) X) (dStepY (lN (hlip h)) (snb (hsup h)) d) k) as E.
  change (dStepY (lN (hlip h)) (snb (hsup h)) (fun k => X k + d k)) with (fun k => dStepY (lN (hlip h)) (snb (hsup h)) X k + dStepY (lN (hlip h)) (snb (hsup h)) d k).
  change (dStepY (lN (hlip h)) (snb (hsup h)) (fun k => X k + - d k)) with (fun k => dStepY (lN (hlip h)) (snb (hsup h)) X k - dStepY (lN (hlip h)) (snb (hsup h)) d k). cbn beta.
  match goal with |- _ = 2 * (?c * (_ + ?a - _)) => replace a with ((2 * a) / 2) by field end. rewrite <- E. field.
Qed.
Lemma mid_sq a b m : a + b = 2 * m -> 0 <= a ^ 2 + b ^ 2 - 2 * m ^ 2.
Proof. intros E. replace m with ((a + b) / 2) by lra. pose proof (pow2_ge_0 (a - b)). nra. Qed.
Lemma quad_even n Q p d : quad n Q p d + quad n Q p (fun k => - d k) = ssum n (fun i => d i * ssum n (fun j => Q i j * d j)).
Proof.
  unfold quad. rewrite (ssum_ext n (fun i => - d i * ssum n (fun j => Q i j * - d j)) (fun i => d i * ssum n (fun j => Q i j * d j))).
  - rewrite (ssum_ext n (fun i => p i * - d i) (fun i => - (p i * d i))) by (intros; ring). rewrite ssum_opp. field.
  - intros i _. rewrite (ssum_ext n (fun j => Q i j * - d j) (fun j => - (Q i j * d j))) by (intros; ring). rewrite ssum_opp. ring.
Qed.
Lemma mid_sums N w (a b m a' b' m' : nat -> R) : (forall i, (i < N)%nat -> 0 <= w i) ->
  (forall i, (i < N)%nat -> a i + b i = 2 * m i) -> (forall i, (i < N)%nat -> a' i + b' i = 2 * m' i) ->
  0 <= (/ 2 * ssum N (fun i => w i * (a i ^ 2 + a' i ^ 2)) - / 2 * ssum N (fun i => w i * (m i ^ 2 + m' i ^ 2)))
     + (/ 2 * ssum N (fun i => w i * (b i ^ 2 + b' i ^ 2)) - / 2 * ssum N (fun i => w i * (m i ^ 2 + m' i ^ 2))).
Proof.
  intros Hw E E'. 
  assert (Q : 0 <= ssum N (fun i => w i * (a i ^ 2 + a' i ^ 2) + w i * (b i ^ 2 + b' i ^ 2) - 2 * (w i * (m i ^ 2 + m' i ^ 2)))).
  { apply ssum_nonneg. intros i Hi. pose proof (mid_sq _ _ _ (E i Hi)). pose proof (mid_sq _ _ _ (E' i Hi)). pose proof (Hw i Hi).
    replace (w i * (a i ^ 2 + a' i ^ 2) + w i * (b i ^ 2 + b' i ^ 2) - 2 * (w i * (m i ^ 2 + m' i ^ 2)))
      with (w i * ((a i ^ 2 + b i ^ 2 - 2 * m i ^ 2) + (a' i ^ 2 + b' i ^ 2 - 2 * m' i ^ 2))) by ring. apply Rmult_le_pos; lra. }
  rewrite ssum_minus, ssum_plus, ssum_mul_l in Q. lra.
Qed.
Lemma problem_psd h q idx d : hinv h -> shapes (hsup h) -> h_problem h = Ok (q, idx) ->
  (forall i, (i < lN (hlip h))%nat -> 0 <= mget (selW (ssel (hsup h))) i i) ->
  0 <= ssum (vlen (qp q)) (fun i => d i * ssum (vlen (qp q)) (fun j => mget (qQ q) i j * d j)).
Proof.
  intros I Sh H Hw. rewrite <- (quad_even _ _ (vget (qp q))), <- !qcost_quad.
  destruct (problem_inv _ _ _ I H) as (rc & rf & bc & bf & _ & _ & _ & _ & _ & _ & _ & _ & _ & Ln & _ & _ & _ & _ & _ & _ & Jv & Jj & Jc & EJ & HJv & HJj & HJc).
  set (N := lN (hlip h)) in *. set (n := (2 * N + 2 * snb (hsup h))%nat) in *. set (X := vget (hX h)) in *.
  assert (Ev : 0 <= Jv d + Jv (fun k => - d k)).
  { destruct HJv as [(W & E)|(W & Hm & g & EH & Eg & E)]; [rewrite !E; lra|]. rewrite !E.
    destruct (velGradient_gets _ _ _ _ Eg) as (z & cx & cy & Vx & Vy & fx & fy & v & G & Hv).
    rewrite <- Rmult_plus_distr_l. apply Rmult_le_pos; [lra|].
    destruct (vel_obj h z cx cy Vx Vy fx fy I Sh G v (hX h) (hvelRef h) Hm g d Hv EH Eg) as (_ & _ & _ & _ & _ & Q1).
    destruct (vel_obj h z cx cy Vx Vy fx fy I Sh G v (hX h) (hvelRef h) Hm g (fun k => - d k) Hv EH Eg) as (_ & _ & _ & _ & _ & Q2). cbn zeta in Q1, Q2.
    fold N X n in Q1, Q2. rewrite Q1, Q2. apply mid_sums; [exact Hw| |]; intros i Hi.
    - assert (A : ssum N (fun k => mget (dU v) i k * jerkX h cx Vx fx (fun k => X k + d k) k) + ssum N (fun k => mget (dU v) i k * jerkX h cx Vx fx (fun k => X k + - d k) k)
                  = 2 * ssum N (fun k => mget (dU v) i k * jerkX h cx Vx fx X k)); [|lra].
      rewrite <- ssum_plus, <- ssum_mul_l. apply ssum_ext. intros k _. pose proof (jerkX_mid h cx Vx fx X d k) as M. rewrite <- Rmult_plus_distr_l, M. ring.
    - assert (A : ssum N (fun k => mget (dU v) i k * jerkY h cy Vy fy (fun k => X k + d k) k) + ssum N (fun k => mget (dU v) i k * jerkY h cy Vy fy (fun k => X k + - d k) k)
                  = 2 * ssum N (fun k => mget (dU v) i k * jerkY h cy Vy fy X k)); [|lra].
      rewrite <- ssum_plus, <- ssum_mul_l. apply ssum_ext. intros k _. pose proof (jerkY_mid h cy Vy fy X d k) as M. rewrite <- Rmult_plus_distr_l, M. ring. }
  assert (Ej : 0 <= Jj d + Jj (fun k => - d k)).
  { destruct HJj as [(W & E)|(W & Hm & g & EH & Eg & E)]; [rewrite !E; lra|]. rewrite !E.
    destruct (jerkGradient_gets _ _ _ Eg) as (z & cx & cy & Vx & Vy & fx & fy & G).
    rewrite <- Rmult_plus_distr_l. apply Rmult_le_pos; [lra|].
    destruct (jerk_obj h z cx cy Vx Vy fx fy I Sh G (hX h) Hm g d EH Eg) as (_ & _ & _ & _ & Q1).
    destruct (jerk_obj h z cx cy Vx Vy fx fy I Sh G (hX h) Hm g (fun k => - d k) EH Eg) as (_ & _ & _ & _ & Q2). fold N X n in Q1, Q2. rewrite Q1, Q2.
    apply mid_sums; [exact Hw| |]; intros i Hi; [apply jerkX_mid|apply jerkY_mid]. }
  assert (Ec : 0 <= Jc d + Jc (fun k => - d k)).
  { destruct HJc as [(W & E)|(W & g & Eg & E)]; [rewrite !E; lra|]. rewrite !E. rewrite <- Rmult_plus_distr_l. apply Rmult_le_pos; [lra|].
    destruct (cop_obj h (hX h) g d Eg) as (_ & _ & Q1). destruct (cop_obj h (hX h) g (fun k => - d k) Eg) as (_ & _ & Q2). fold N X n in Q1, Q2. rewrite Q1, Q2.
    assert (Q : forall f : nat -> R, ssum (2 * N) (fun i => f i ^ 2) = ssum (2 * N) (fun i => 1 * (f i ^ 2 + (fun _ => 0) i ^ 2))) by (intros f; apply ssum_ext; intros; ring).
    rewrite (Q (fun i => X i + d i)), (Q (fun i => X i + - d i)), (Q X).
    apply mid_sums with (w := fun _ => 1); intros; lra. }
  rewrite !EJ. lra.
Qed.

Definition symmetric (n : nat) (m : mat R) : Prop := forall i j, (i < n)%nat -> (j < n)%nat -> mget m i j = mget m j i.
Lemma addObj_sym (w : R) H g q q' n : addObj w H g q = Ok q' -> symmetric n (qQ q) -> (forall Hm gv, H = Ok Hm -> g = Ok gv -> symmetric n Hm) -> symmetric n (qQ q').
Proof.
  unfold addObj. intros H0 S HS. destruct (sltb s0 w); [|injection H0 as <-; exact S].
  apply bind_ok in H0. destruct H0 as (Hm & EH & H0). apply guard_ok in H0. destruct H0 as (_ & H0). apply bind_ok in H0. destruct H0 as (gv & Eg & H0).
  apply bind_ok in H0. destruct H0 as (p & _ & H0). injection H0 as <-. intros i j Hi Hj. cbn [qQ madd mscale mget]. rewrite (S i j Hi Hj), (HS _ _ EH Eg i j Hi Hj). reflexivity.
Qed.
Lemma addCtr_Q r0 k v0 m size G f b (q q' : qpmats R) : addCtr r0 k v0 m size G f b q = Ok q' -> qQ q' = qQ q.
Proof. intros H. apply (addCtr_inv _ _ _ _ _ _ _ _ _ _ H). Qed.
Lemma problem_sym h q idx n : hinv h -> shapes (hsup h) -> h_problem h = Ok (q, idx) -> symmetric n (qQ q).
Proof.
  intros I Sh H. unfold h_problem in H. apply bind_ok in H. destruct H as ((nc & nf) & _ & H). apply bind_ok in H. destruct H as (e & _ & H).
  apply bind_ok in H. destruct H as (q1 & H1 & H). apply bind_ok in H. destruct H as (q2 & H2 & H). apply bind_ok in H. destruct H as (q3 & H3 & H).
  apply bind_ok in H. destruct H as (q4 & H4 & H). apply bind_ok in H. destruct H as (q5 & H5 & H). injection H as -> _.
  assert (E5 : qQ q = qQ q4).
  { destruct (hfeetC h); [|injection H5 as <-; reflexivity]. apply guard_ok in H5. destruct H5 as (_ & H5). apply bind_ok in H5. destruct H5 as (? & _ & H5).
    apply bind_ok in H5. destruct H5 as (? & _ & H5). exact (addCtr_Q _ _ _ _ _ _ _ _ _ _ H5). }
  assert (E4 : qQ q4 = qQ q3).
  { destruct (hcopC h); [|injection H4 as <-; reflexivity]. apply guard_ok in H4. destruct H4 as (_ & H4). apply bind_ok in H4. destruct H4 as (? & _ & H4).
    apply bind_ok in H4. destruct H4 as (? & _ & H4). exact (addCtr_Q _ _ _ _ _ _ _ _ _ _ H4). }
  rewrite E5, E4. clear E5 E4 H5 H4.
  eapply addObj_sym; [exact H3| |].
  2:{ intros Hm gv E _. injection E as <-. intros i j Hi Hj. unfold h_copHessian. cbn [msetblock mid mzero mget mrows mcols]. bools; try (exfalso; lia); reflexivity. }
  eapply addObj_sym; [exact H2| |].
  2:{ intros Hm gv EH Eg. destruct (jerkGradient_gets _ _ _ Eg) as (z & cx & cy & Vx & Vy & fx & fy & G).
      pose proof (Vx_dims h z cx cy Vx Vy fx fy I G) as DX. pose proof (Vy_dims h z cx cy Vx Vy fx fy I G) as DY. pose proof (Wdims h I Sh) as DW.
      unfold h_jerkHessian in EH. rewrite (gt_nb _ _ _ _ _ _ _ _ G) in EH. cbn [bind] in EH. apply guard_ok in EH. destruct EH as (_ & EH). rewrite (gt_cx _ _ _ _ _ _ _ _ G), (gt_cy _ _ _ _ _ _ _ _ G) in EH. cbn [bind] in EH.
      rewrite (gt_Vx _ _ _ _ _ _ _ _ G), (gt_Vy _ _ _ _ _ _ _ _ G), (VxT h z cx cy Vx Vy fx fy I G), (VyT h z cx cy Vx Vy fx fy I G) in EH. cbn [oinv bind] in EH. injection EH as <-.
      intros i j _ _. set (W := selW (ssel (hsup h))) in *. set (N := lN (hlip h)) in *.
      pose proof (two_hess N (h_tmp N (snb (hsup h)) (hsup h)) (fun i => mget W i i) (mget Vx) (mget Vy) (mmul (mmul (mtr Vx) W) Vx) (mmul (mmul (mtr Vy) W) Vy) eq_refl) as E.
      destruct DX as (X1 & X2), DY as (Y1 & Y2). 
      assert (Q : forall j k, mget (sandwich (h_tmp N (snb (hsup h)) (hsup h)) (diag2 N (mmul (mmul (mtr Vx) W) Vx) (mmul (mmul (mtr Vy) W) Vy))) j k
                 = ssum N (fun i => mget W i i * (uX N (h_tmp N (snb (hsup h)) (hsup h)) (mget Vx) i j * uX N (h_tmp N (snb (hsup h)) (hsup h)) (mget Vx) i k))
                 + ssum N (fun i => mget W i i * (uY N (h_tmp N (snb (hsup h)) (hsup h)) (mget Vy) i j * uY N (h_tmp N (snb (hsup h)) (hsup h)) (mget Vy) i k))).
      { intros a b. apply E.
        - split; [exact X2|exact X2].
        - split; [exact Y2|exact Y2].
        - intros; apply (jerk_P N Vx W); auto. apply (Wdiag h Sh).
        - intros; apply (jerk_P N Vy W); auto. apply (Wdiag h Sh). }
      rewrite !Q. f_equal; apply ssum_ext; intros; ring. }
  eapply addObj_sym; [exact H1| |].
  2:{ intros Hm gv EH Eg. destruct (velGradient_gets _ _ _ _ Eg) as (z & cx & cy & Vx & Vy & fx & fy & v & G & Hv).
      pose proof (Vx_dims h z cx cy Vx Vy fx fy I G) as DX. pose proof (Vy_dims h z cx cy Vx Vy fx fy I G) as DY. pose proof (Wdims h I Sh) as DW.
      destruct (getVel_fresh _ _ _ (hi_fresh _ I) Hv) as (_ & Fv). destruct (computeVelDynamic_inv _ _ _ _ Fv) as (_ & _ & _ & EU & ES & EK & ET & _).
      assert (DU : mrows (dU v) = lN (hlip h) /\ mcols (dU v) = lN (hlip h)) by (rewrite EU; split; reflexivity).
      unfold h_velHessian in EH. rewrite (gt_nb _ _ _ _ _ _ _ _ G) in EH. cbn [bind] in EH. apply guard_ok in EH. destruct EH as (_ & EH). rewrite (gt_cx _ _ _ _ _ _ _ _ G), (gt_cy _ _ _ _ _ _ _ _ G) in EH. cbn [bind] in EH.
      rewrite Hv in EH. cbn [bind] in EH.
      rewrite (gt_Vx _ _ _ _ _ _ _ _ G), (gt_Vy _ _ _ _ _ _ _ _ G), (VxT h z cx cy Vx Vy fx fy I G), (VyT h z cx cy Vx Vy fx fy I G), ET in EH. cbn [oinv bind] in EH. injection EH as <-.
      intros i j _ _. set (W := selW (ssel (hsup h))) in *. set (N := lN (hlip h)) in *.
      set (P := mmul (mmul (mmul (mmul (mtr Vx) (mtr (dU v))) W) (dU v)) Vx). set (Q := mmul (mmul (mmul (mmul (mtr Vy) (mtr (dU v))) W) (dU v)) Vy).
      pose proof (two_hess N (h_tmp N (snb (hsup h)) (hsup h)) (fun i => mget W i i) (UX N Vx (dU v)) (UX N Vy (dU v)) P Q eq_refl) as E.
      destruct DX as (X1 & X2), DY as (Y1 & Y2).
      assert (Q' : forall j k, mget (sandwich (h_tmp N (snb (hsup h)) (hsup h)) (diag2 N P Q)) j k
                 = ssum N (fun i => mget W i i * (uX N (h_tmp N (snb (hsup h)) (hsup h)) (UX N Vx (dU v)) i j * uX N (h_tmp N (snb (hsup h)) (hsup h)) (UX N Vx (dU v)) i k))
                 + ssum N (fun i => mget W i i * (uY N (h_tmp N (snb (hsup h)) (hsup h)) (UX N Vy (dU v)) i j * uY N (h_tmp N (snb (hsup h)) (hsup h)) (UX N Vy (dU v)) i k))).
      { intros a b. apply E.
        - split; [exact X2|exact X2].
        - split; [exact Y2|exact Y2].
        - intros; apply (vel_P N Vx (dU v) W); auto. apply (Wdiag h Sh).
        - intros; apply (vel_P N Vy (dU v) W); auto. apply (Wdiag h Sh). }
      rewrite !Q'. f_equal; apply ssum_ext; intros; ring. }
  intros i j _ _. reflexivity.
Qed.
End World.
