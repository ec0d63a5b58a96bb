(** C49: which weights the three generators accept, and what they do with a negative one. *)

From Coq Require Import Reals List ZArith Lra Lia Arith Bool.
From Verif Require Import Scalar LinAlg LinAlgFacts ToolsModel ToolsSpec ToolsFacts NoDynModel PolygonModel HullFacts
  QPModel QPFacts TrajModel TrajSpec TrajFacts PropTraj LipModel BaseModel ModelsSpec ModelsFacts SupModel
  HumModel HumSpec HumFacts HumTable HumAlg ZebModel ZebAlg ZebSpec ZebCalls ZebInv ZebView PropZeb PropZebCases PropZebCalls.
Import ListNotations.
Local Open Scope R_scope.

(** ** The trajectory generator: the position weight is not checked *)
Theorem C49_trajectory : forall t w, reachable t ->
  (is_ok (t_setWeightings w t) <-> 0 <= wVel w /\ 0 <= wJerk w)
  /\ forall t', t_setWeightings w t = Ok t' -> tw t' = w.
Proof.
  intros t w R. split; [split|].
  - intros (t' & H). unfold t_setWeightings in H. apply guard_ok in H. destruct H as (A & H). apply guard_ok in H. destruct H as (_ & H).
    apply guard_ok in H. destruct H as (B & _). revert A B. rsimpl. rewrite !Rleb_true. auto.
  - intros (A & B). destruct (C23_calls_return t R) as (_ & _ & _ & _ & _ & _ & C & _). exact (C w A B).
  - intros t' H. unfold t_setWeightings in H. do 3 (apply guard_ok in H; destruct H as (_ & H)).
    unfold t_computeConstantPart in H. binds H. injection H as <-. reflexivity.
Qed.
(** A negative position weight is accepted (it has the effect of a zero one, see C20). *)
Theorem C49_trajectory_negative_refuted : exists t t', reachable t /\ t_setWeightings (MkTW 1 (-1) 1) t = Ok t' /\ wPos (tw t') < 0.
Proof.
  destruct newTraj_ok as (t & H & _). assert (R : reachable t) by (exists t, []; split; [exact H|reflexivity]).
  destruct (C49_trajectory t (MkTW 1 (-1) 1) R) as (A & B). destruct (proj2 A) as (t' & E); [cbn; lra|]. exists t, t'. split; [exact R|]. split; [exact E|].
  rewrite (B _ E). cbn. lra.
Qed.

(** ** The Zebulon generator: neither the position weight nor the tilt velocity weight is checked *)
Theorem C49_zebulon : forall z hb cleared w, zreach z hb cleared ->
  (is_ok (zstep (ZSetWeightings w) z) <->
     0 <= zwCop w /\ 0 <= zwCom w /\ 0 <= zwVel w /\ 0 <= zwJerk w /\ 0 <= zwTilt w
     /\ tilt_regular w (period z) (lm (zl z)) (lh (zl z)) (bm (zb z)) hb)
  /\ forall z', zstep (ZSetWeightings w) z = Ok z' -> zw z' = w.
Proof.
  intros z hb cl w Z. split; [exact (C57_call_returns_iff z hb cl (ZSetWeightings w) Z)|].
  intros z' H. exact (f_equal vw (C59_call_effect z hb cl _ _ Z H)).
Qed.
(** They are accepted when negative (with the effect of zero, see C41). *)
Theorem C49_zebulon_negative_refuted : forall ux uy z, newZeb ux uy = Ok z ->
  exists z', zstep (ZSetWeightings (MkZW 0 (-1) 0 0 0 0 (-1))) z = Ok z' /\ zwPos (zw z') < 0 /\ zwTiltVel (zw z') < 0.
Proof.
  intros ux uy z H. destruct (C49_zebulon z 0 true (MkZW 0 (-1) 0 0 0 0 (-1)) (zreach_new _ _ _ H)) as (A & B).
  destruct (proj2 A) as (z' & E).
  - cbn [zwCop zwCom zwVel zwJerk zwTilt]. repeat (split; [lra|]). intros [K|K]; cbn in K; lra.
  - exists z'. split; [exact E|]. rewrite (B _ E). cbn. lra.
Qed.

(** ** The humanoid generator: the old weights are checked, not the new ones *)
Definition nonneg_hw (w : hweights R) : Prop := 0 <= wVelT w /\ 0 <= wCopC w /\ 0 <= wJerkM w.
Theorem C49_humanoid : forall (h : hum R) w,
  (is_ok (h_setWeightings w h) <-> nonneg_hw (hw h))
  /\ forall h', h_setWeightings w h = Ok h' -> hw h' = w.
Proof.
  intros h w. unfold h_setWeightings, nonneg_hw. split.
  - rsimpl. rewrite <- !Rleb_true. split.
    + intros (h' & H). apply guard_ok in H. destruct H as (A & H). apply guard_ok in H. destruct H as (B & H). apply guard_ok in H. tauto.
    + intros (A & B & C). rewrite A, B, C. cbn [guard bind]. eexists. reflexivity.
  - intros h' H. do 3 (apply guard_ok in H; destruct H as (_ & H)). injection H as <-. reflexivity.
Qed.
(** No other call changes the weights. *)
Lemma weights_kept {TK : Trig R} c (h h' : hum R) : hstep c h = Ok h' -> (forall w, c <> HSetWeightings w) -> hw h' = hw h.
Proof.
  intros H N. destruct c; cbn [hstep] in H; try (exfalso; eapply N; reflexivity);
    try (unfold h_setNbSamples, h_setSamplingPeriod, h_setStepPeriod, h_setInitialDoubleSupportLength, h_setVelRef, h_setFootStateX, h_setFootStateY,
           h_setFootStateZ, h_setComStateX, h_setComStateY, h_setComStateZ, h_setMove in H; binds H; injection H as <-; reflexivity);
    try (injection H as <-; reflexivity).
  apply bind_ok in H. destruct H as (r & Hr & H). injection H as <-. unfold h_solve in Hr. apply bind_ok in Hr. destruct Hr as (h1 & H1 & Hr). apply bind_ok in Hr. destruct Hr as ((q & i) & _ & Hr).
  destruct (h_prepare_cases _ _ _ H1) as (s & X & l & _ & _ & _ & _ & _ & _ & _ & _ & _ & _ & E & _).
  apply finish_cases in Hr. destruct Hr as (dX & Y & t & l1 & l2 & s2 & _ & _ & _ & _ & _ & _ & _ & _ & ER). rewrite ER. exact E.
Qed.
(** So a negative weight is accepted, and from then on the weights can never be set again. *)
Theorem C49_humanoid_negative_refuted : forall (TK : Trig R) (h h1 h2 : hum R) w cs w',
  h_setWeightings w h = Ok h1 -> ~ nonneg_hw w ->
  (forall c, In c cs -> forall v, c <> HSetWeightings v) -> hsteps cs h1 = Ok h2 ->
  ~ is_ok (h_setWeightings w' h2) /\ hw h2 = w.
Proof.
  intros TK h h1 h2 w cs w' H N NC HS. assert (E : hw h2 = w).
  { apply C49_humanoid in H. rewrite <- H. clear H N w'. revert h1 HS. induction cs as [|c cs IH]; intros h1 HS; cbn [hsteps] in HS; [injection HS as <-; reflexivity|].
    apply bind_ok in HS. destruct HS as (h3 & H3 & HS). rewrite (IH (fun c Hc => NC c (or_intror Hc)) h3 HS).
    apply (weights_kept c h1 h3 H3). apply NC. left. reflexivity. }
  split; [|exact E]. intros K. apply C49_humanoid in K. rewrite E in K. contradiction.
Qed.
(** A new generator accepts any weights. *)
Theorem C49_humanoid_first_call : forall (TK : Trig R) (h : hum R) w, newHum = Ok h -> is_ok (h_setWeightings w h).
Proof.
  intros TK h w H. apply C49_humanoid. unfold newHum in H. apply bind_ok in H. destruct H as (s & _ & H). apply bind_ok in H. destruct H as (l & _ & H). injection H as <-.
  unfold nonneg_hw. cbn [hw h_computeConstantPart wVelT wCopC wJerkM]. rsimpl. lra.
Qed.
(** ** Concrete cases *)
(** The weights (-1, 0, 0) on a new humanoid generator, then a velocity reference of the right size. *)
Example C49_case : forall TK : Trig R, exists (h h1 h2 : hum R) w r, newHum = Ok h /\ h_setWeightings w h = Ok h1 /\ ~ nonneg_hw w
  /\ hsteps [HSetVelRef r] h1 = Ok h2.
Proof.
  intros TK.
  assert (K : exists h : hum R, newHum = Ok h).
  { destruct ZebCalls.newLipDefault_ok as (l & Hl). unfold newHum, newSupDefault, newSup, FootModel.newFoot. rsimpl. rewrite (proj2 (Rltb_true 0 1)) by lra.
    cbn [Nat.ltb Nat.leb guard bind]. rewrite Hl. cbn [bind]. eexists. reflexivity. }
  destruct K as (h & H). destruct (C49_humanoid_first_call TK h (MkHW (-1) 0 0) H) as (h1 & H1).
  exists h, h1. eexists. exists (MkHW (-1) 0 0), (vzero (2 * lN (hlip h1))). split; [exact H|]. split; [exact H1|].
  split; [unfold nonneg_hw; cbn; lra|]. cbn [hsteps hstep]. unfold h_setVelRef. cbn [vlen vzero]. rewrite Nat.eqb_refl. cbn [guard bind]. reflexivity.
Qed.
Print Assumptions C49_trajectory.
Print Assumptions C49_trajectory_negative_refuted.
Print Assumptions C49_zebulon.
Print Assumptions C49_zebulon_negative_refuted.
Print Assumptions C49_humanoid.
Print Assumptions C49_humanoid_negative_refuted.
Print Assumptions C49_humanoid_first_call.
