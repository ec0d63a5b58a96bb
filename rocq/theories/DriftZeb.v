(** C73 for the Zebulon generator: the base and the body. *)

From Coq Require Import Reals List ZArith Arith Bool Lra Lia.
From Verif Require Import Scalar LinAlg LinAlgFacts ModelsFacts ToolsModel NoDynModel QPModel TrajModel PolygonModel LipModel BaseModel ZebModel HumModel.
From Verif Require Import RoundModel RoundSpec DriftSpec DriftFacts PropRound PropDrift.
Import ListNotations.
Local Open Scope R_scope.

(** ** Specification *)
(** One of the four coordinates: of the body (centre of mass of the upper body) or of the base, along x or y *)
Inductive coord : Type := BodyX | BodyY | BaseX | BaseY.
Section Log.
  Context {K : Type} {SK : Scalar K} {TK : Trig K} {CK : SinCos K}.
  (** getComStateX, getComStateY, getBaseStateX, getBaseStateY *)
  Definition z_state (c : coord) (z : zeb K) : st3 K :=
    match c with BodyX => lsx (zl z) | BodyY => lsy (zl z) | BaseX => bsx (zb z) | BaseY => bsy (zb z) end.
  (** The first jerk of the coordinate in the solution *)
  Definition z_firstJerk (c : coord) (z : zeb K) : K :=
    let N := lN (zl z) in vget (zX z) (match c with BodyX => 0 | BodyY => N | BaseX => 2 * N | BaseY => 3 * N end)%nat.
  Fixpoint z_log (x : coord) (cs : list (zcall K)) (z : zeb K) : list (st3 K * K) :=
    match cs with
    | [] => []
    | c :: r => match zstep c z with
                | Ok z' => match c with ZSolve _ _ => (z_state x z, z_firstJerk x z') :: z_log x r z' | _ => z_log x r z' end
                | _ => [] end
    end.
  (** Any calls but those that set one of the four states; solves with feedback period f *)
  Definition z_steady (f : K) (c : zcall K) : Prop :=
    match c with ZSetBaseStateX _ | ZSetBaseStateY _ | ZSetComStateX _ | ZSetComStateY _ => False | ZSolve _ g => g = f | _ => True end.
End Log.

(** ** Proofs *)
Section State.
  Context {K : Type} {SK : Scalar K} {TK : Trig K} {CK : SinCos K}.
  (** Same models *)
  Definition sm (z z' : zeb K) : Prop := zl z' = zl z /\ zb z' = zb z.
  (** Same states *)
  Definition ss (z z' : zeb K) : Prop := forall x, z_state x z' = z_state x z.
  Lemma sm_refl z : sm z z. Proof. split; reflexivity. Qed.
  Lemma sm_trans a b c : sm a b -> sm b c -> sm a c.
  Proof. intros (A & B) (C & D). split; congruence. Qed.
  Lemma sm_ss a b c : ss a b -> sm b c -> ss a c.
  Proof. intros A (B & C) x. rewrite <- A. destruct x; cbn [z_state]; congruence. Qed.
  Ltac one f := unfold f; intros H; binds H; injection H as <-; split; reflexivity.
  Lemma vel_sm z z' : z_vel z = Ok z' -> sm z z'. Proof. one (@z_vel). Qed.
  Lemma pos_sm z z' : z_pos z = Ok z' -> sm z z'. Proof. one (@z_pos). Qed.
  Lemma jerk_sm z z' : z_jerk z = Ok z' -> sm z z'. Proof. one (@z_jerk). Qed.
  Lemma tilt_sm z z' : z_tilt z = Ok z' -> sm z z'. Proof. one (@z_tilt). Qed.
  Lemma tiltV_sm z z' : z_tiltV z = Ok z' -> sm z z'. Proof. one (@z_tiltV). Qed.
  Lemma cop_sm z z' : z_cop z = Ok z' -> sm z z'. Proof. one (@z_cop). Qed.
  Lemma com_sm z z' : z_com z = Ok z' -> sm z z'. Proof. one (@z_com). Qed.
  Lemma copC_sm z z' : z_copC z = Ok z' -> sm z z'. Proof. one (@z_copC). Qed.
  Lemma comC_sm z z' : z_comC z = Ok z' -> sm z z'. Proof. one (@z_comC). Qed.
  Lemma motion_sm z z' : z_motion z = Ok z' -> sm z z'. Proof. one (@z_motion). Qed.
  Lemma tmotion_sm z z' : z_tmotion z = Ok z' -> sm z z'. Proof. one (@z_tmotion). Qed.
  Lemma gravity_sm z z' : z_gravity z = Ok z' -> sm z z'. Proof. one (@z_gravity). Qed.
  Lemma contact_sm z z' : z_contact z = Ok z' -> sm z z'. Proof. one (@z_contact). Qed.
  Lemma compute_sm z z' : z_compute z = Ok z' -> sm z z'. Proof. one (@z_compute). Qed.
  Lemma comRef_sm v z z' : z_setComRef v z = Ok z' -> sm z z'. Proof. one (@z_setComRef). Qed.
  (** After the models have changed, only the objectives are recomputed. *)
  Ltac chain H :=
    lazymatch type of H with
    | bind _ _ = Ok _ => let E := fresh in apply bind_ok in H; destruct H as (? & E & H);
        first [apply vel_sm in E|apply pos_sm in E|apply jerk_sm in E|apply tilt_sm in E|apply tiltV_sm in E|apply cop_sm in E|apply com_sm in E
              |apply copC_sm in E|apply comC_sm in E|apply motion_sm in E|apply tmotion_sm in E|apply gravity_sm in E];
        chain H; apply (sm_trans _ _ _ E) in H
    | z_compute _ = Ok _ => apply compute_sm in H
    | z_contact _ = Ok _ => apply contact_sm in H
    end.
  Definition sl (l l' : lip K) : Prop := lsx l' = lsx l /\ lsy l' = lsy l.
  Definition sb (b b' : base K) : Prop := bsx b' = bsx b /\ bsy b' = bsy b.
  Lemma models_ss z l b : sl (zl z) l -> sb (zb z) b -> ss z (z_setModels z l b).
  Proof. intros (A & B) (C & D) x. destruct x; assumption. Qed.
  Lemma sl_refl l : sl l l. Proof. split; reflexivity. Qed.
  Lemma sb_refl b : sb b b. Proof. split; reflexivity. Qed.
  Lemma b_auto_sb b b' : b_auto b = Ok b' -> sb b b'.
  Proof. unfold b_auto, b_computeDynamics. destruct (bauto b); intros H; [binds H|]; injection H as <-; split; reflexivity. Qed.
  Lemma b_autoCop_sb b b' : b_autoCop b = Ok b' -> sb b b'.
  Proof. unfold b_autoCop. destruct (bauto b); intros H; [binds H|]; injection H as <-; split; reflexivity. Qed.
  Lemma sl_trans a b c : sl a b -> sl b c -> sl a c. Proof. unfold sl. intros (? & ?) (? & ?). split; congruence. Qed.
  Lemma sb_trans a b c : sb a b -> sb b c -> sb a c. Proof. unfold sb. intros (? & ?) (? & ?). split; congruence. Qed.
  Lemma step_sl c l l' : lstep c l = Ok l' ->
    match c with LSetStateX _ | LSetStateY _ | LUpdateStateX _ _ | LUpdateStateY _ _ => True | _ => sl l l' end.
  Proof.
    destruct c; cbn [lstep]; intros H; try exact Logic.I.
    - unfold l_computeDynamics in H. binds H. injection H as <-. split; reflexivity.
    - unfold l_setNbSamples in H. binds H. exact (l_auto_states _ _ H).
    - unfold l_setSamplingPeriod in H. binds H. exact (l_auto_states _ _ H).
    - unfold l_setFeedbackPeriod in H. binds H. exact (l_auto_states _ _ H).
    - exact (l_autoCop_states _ _ H).
    - unfold l_setGravity in H. binds H. exact (l_autoCop_states _ _ H).
    - exact (l_autoCop_states _ _ H).
    - unfold l_setTotalMass in H. apply guard_ok in H. destruct H as (_ & H). exact (l_autoCop_states _ _ H).
    - unfold l_setStateYaw in H. binds H. injection H as <-. split; reflexivity.
    - unfold l_updateStateYaw in H. binds H. injection H as <-. split; reflexivity.
  Qed.
  Lemma step_sb c b b' : bstep c b = Ok b' ->
    match c with BSetStateX _ | BSetStateY _ | BUpdateStateX _ _ | BUpdateStateY _ _ => True | _ => sb b b' end.
  Proof.
    destruct c; cbn [bstep]; intros H; try exact Logic.I.
    - unfold b_computeDynamics in H. binds H. injection H as <-. split; reflexivity.
    - unfold b_setNbSamples in H. apply guard_ok in H. destruct H as (_ & H). exact (b_auto_sb _ _ H).
    - unfold b_setSamplingPeriod in H. apply guard_ok in H. destruct H as (_ & H). exact (b_auto_sb _ _ H).
    - exact (b_autoCop_sb _ _ H).
    - unfold b_setGravity in H. apply guard_ok in H. destruct H as (_ & H). exact (b_autoCop_sb _ _ H).
    - unfold b_setMass in H. apply guard_ok in H. destruct H as (_ & H). exact (b_autoCop_sb _ _ H).
    - unfold b_setTotalMass in H. do 2 (apply guard_ok in H; destruct H as (_ & H)). exact (b_autoCop_sb _ _ H).
    - unfold b_setStateRoll in H. binds H. injection H as <-. split; reflexivity.
    - unfold b_setStatePitch in H. binds H. injection H as <-. split; reflexivity.
    - unfold b_setStateYaw in H. binds H. injection H as <-. split; reflexivity.
    - unfold b_setVelocityLimit in H. binds H. injection H as <-. split; reflexivity.
    - unfold b_setAccelerationLimit in H. binds H. injection H as <-. split; reflexivity.
    - unfold b_setJerkLimit in H. binds H. injection H as <-. split; reflexivity.
    - unfold b_setCopSupportConvexPolygon in H. binds H. injection H as <-. split; reflexivity.
    - unfold b_setComSupportConvexPolygon in H. binds H. injection H as <-. split; reflexivity.
    - injection H as <-. split; reflexivity.
    - injection H as <-. split; reflexivity.
  Qed.
  Ltac go H := first [apply guard_ok in H; destruct H as (_ & H)].
  Ltac dol H l E c := apply bind_ok in H; destruct H as (l & E & H); apply (step_sl c) in E.
  Ltac dob H b E c := apply bind_ok in H; destruct H as (b & E & H); apply (step_sb c) in E.
  Lemma cop_poly p z z' : z_setBaseCopConvexPolygon p z = Ok z' -> ss z z'.
  Proof.
    intros H. unfold z_setBaseCopConvexPolygon in H. go H. dob H b Eb (BSetCopPolygon p). chain H.
    exact (sm_ss _ _ _ (models_ss _ _ _ (sl_refl _) Eb) H).
  Qed.
  Lemma com_poly p z z' : z_setBaseComConvexPolygon p z = Ok z' -> ss z z'.
  Proof.
    intros H. unfold z_setBaseComConvexPolygon in H. go H. dob H b Eb (BSetComPolygon p). chain H.
    exact (sm_ss _ _ _ (models_ss _ _ _ (sl_refl _) Eb) H).
  Qed.
  Lemma onBase_ss c z z' : match c with BSetStateX _ | BSetStateY _ | BUpdateStateX _ _ | BUpdateStateY _ _ => False | _ => True end ->
    z_onBase c z = Ok z' -> ss z z'.
  Proof.
    intros C H. unfold z_onBase in H. dob H b E c. injection H as <-. apply models_ss; [apply sl_refl|]. destruct c; try exact E; destruct C.
  Qed.
  (** No call but a solve and the setters of the four states changes them. *)
  Lemma z_keeps c z z' : zstep c z = Ok z' ->
    match c with ZSolve _ _ | ZSetBaseStateX _ | ZSetBaseStateY _ | ZSetComStateX _ | ZSetComStateY _ => True | _ => ss z z' end.
  Proof.
    destruct c; cbn [zstep]; intros H; try exact Logic.I.
    - unfold z_setNbSamples in H. go H. dol H l El (LSetNbSamples (K:=K) n). dob H b Eb (BSetNbSamples (K:=K) n). chain H.
      exact (sm_ss _ _ _ (models_ss _ _ _ El Eb) H).
    - unfold z_setSamplingPeriod in H. go H. dol H l El (LSetSamplingPeriod T). dob H b Eb (BSetSamplingPeriod T). chain H.
      exact (sm_ss _ _ _ (models_ss _ _ _ El Eb) H).
    - unfold z_setGravity in H. go H. dol H l El (LSetGravity g). dob H b Eb (BSetGravity g). chain H.
      exact (sm_ss _ _ _ (models_ss _ _ _ El Eb) H).
    - exact (cop_poly _ _ _ H).
    - exact (com_poly _ _ _ H).
    - unfold z_setBaseCopHull in H. apply bind_ok in H. destruct H as (q & _ & H). exact (cop_poly _ _ _ H).
    - unfold z_setBaseComHull in H. apply bind_ok in H. destruct H as (q & _ & H). exact (com_poly _ _ _ H).
    - unfold z_setComBodyHeight in H. dol H l El (LSetComHeight h). chain H. exact (sm_ss _ _ _ (models_ss _ _ _ El (sb_refl _)) H).
    - unfold z_setComBaseHeight in H. dob H b Eb (BSetComHeight h). chain H. exact (sm_ss _ _ _ (models_ss _ _ _ (sl_refl _) Eb) H).
    - unfold z_setBodyMass in H. cbv zeta in H. dol H l El (LSetTotalMass (sadd m (bm (zb z)))). dob H b Eb (BSetTotalMass (sadd m (bm (zb z)))).
      dol H l2 El2 (LSetMass m). chain H. exact (sm_ss _ _ _ (models_ss _ _ _ (sl_trans _ _ _ El El2) Eb) H).
    - unfold z_setBaseMass in H. cbv zeta in H. dol H l El (LSetTotalMass (sadd (lm (zl z)) m)). dob H b Eb (BSetTotalMass (sadd (lm (zl z)) m)).
      dob H b2 Eb2 (BSetMass m). chain H. exact (sm_ss _ _ _ (models_ss _ _ _ El (sb_trans _ _ _ Eb Eb2)) H).
    - unfold z_setVelRef in H. go H. injection H as <-. intros x; destruct x; reflexivity.
    - unfold z_setPosRef in H. go H. injection H as <-. intros x; destruct x; reflexivity.
    - unfold z_setCopRef in H. binds H. injection H as <-. intros y; destruct y; reflexivity.
    - apply comRef_sm in H. apply (sm_ss z z z'); [intros x; reflexivity|exact H].
    - unfold z_setComAndCopRef in H. do 4 (apply guard_ok in H; destruct H as (_ & H)). apply bind_ok in H. destruct H as (z1 & E & H).
      apply comRef_sm in E. apply bind_ok in H. destruct H as (c & _ & H). injection H as <-. apply (sm_ss z z); [intros x; reflexivity|].
      destruct E as (A & B). split; assumption.
    - exact (onBase_ss (BSetVelocityLimit l) _ _ Logic.I H).
    - exact (onBase_ss (BSetAccelerationLimit l) _ _ Logic.I H).
    - exact (onBase_ss (BSetJerkLimit l) _ _ Logic.I H).
    - exact (onBase_ss (BSetStateRoll v) _ _ Logic.I H).
    - exact (onBase_ss (BSetStatePitch v) _ _ Logic.I H).
    - unfold z_setBaseStateYaw in H. dob H b Eb (BSetStateYaw v). chain H. exact (sm_ss _ _ _ (models_ss _ _ _ (sl_refl _) Eb) H).
    - unfold z_setTiltContactPointX in H. dob H b Eb (BSetTiltContactPointX x). chain H. exact (sm_ss _ _ _ (models_ss _ _ _ (sl_refl _) Eb) H).
    - unfold z_setTiltContactPointY in H. dob H b Eb (BSetTiltContactPointY y). chain H. exact (sm_ss _ _ _ (models_ss _ _ _ (sl_refl _) Eb) H).
    - unfold z_setWeightings in H. do 6 (apply guard_ok in H; destruct H as (_ & H)). chain H. intros x. destruct H as (A & B). destruct x; cbn [z_state]; rewrite ?A, ?B; reflexivity.
    - unfold z_setConfig in H. chain H. intros x. destruct H as (A & B). destruct x; cbn [z_state]; rewrite ?A, ?B; reflexivity.
  Qed.
  Lemma z_moves o f z z' x : zstep (ZSolve o f) z = Ok z' -> z_state x z' = updateState_raw (z_firstJerk x z') f (z_state x z).
  Proof.
    cbn [zstep]. intros H. apply bind_ok in H. destruct H as (r & H & E). injection E as <-. unfold z_solve in H.
    apply bind_ok in H. destruct H as (q & _ & H). apply guard_ok in H. destruct H as (_ & H).
    apply bind_ok in H. destruct H as (((sv & dX) & fd) & _ & H). apply bind_ok in H. destruct H as (X & _ & H). cbv zeta in H.
    apply bind_ok in H. destruct H as (l1 & H1 & H). apply bind_ok in H. destruct H as (l2 & H2 & H).
    apply bind_ok in H. destruct H as (b1 & H3 & H). apply bind_ok in H. destruct H as (b2 & H4 & H). injection H as <-.
    unfold l_updateStateX in H1. apply bind_ok in H1. destruct H1 as (y1 & E1 & H1). injection H1 as <-.
    unfold l_updateStateY in H2. apply bind_ok in H2. destruct H2 as (y2 & E2 & H2). injection H2 as <-.
    unfold b_updateStateX in H3. apply bind_ok in H3. destruct H3 as (y3 & E3 & H3). injection H3 as <-.
    unfold b_updateStateY in H4. apply bind_ok in H4. destruct H4 as (y4 & E4 & H4). injection H4 as <-.
    apply update_raw in E1, E2, E3, E4. destruct x; [exact E1|exact E2|exact E3|exact E4].
  Qed.
End State.

Lemma zeb_drift rnd (TK : Trig (fl rnd)) (CK : SinCos (fl rnd)) u eta P V A J (f : fl rnd) x : rounding rnd u eta -> u <= 1/1000 -> eta <= 1 -> 0 < val f <= 1 -> forall cs z z' n r,
  zsteps cs z = Ok z' -> Forall (z_steady f) cs -> calm_log (val f) P V A J (z_log x cs z) ->
  drift n (val f) (err_pos u eta P A J) (err_vel u eta V J) (err_acc u eta A) (exact_of (z_state x z)) r ->
  drift (length (z_log x cs z) + n) (val f) (err_pos u eta P A J) (err_vel u eta V J) (err_acc u eta A)
    (exact_of (z_state x z')) (motion (val f) (jerks (z_log x cs z)) r).
Proof.
  intros HR Hu He (F0 & F1). induction cs as [|c cs IH]; intros z z' n r H S C D.
  - injection H as <-. exact D.
  - cbn [zsteps] in H. apply bind_ok in H. destruct H as (z1 & H1 & H). inversion S as [|? ? S1 S2]; subst.
    cbn [z_log] in *. rewrite H1 in *. pose proof (z_keeps _ _ _ H1) as K.
    destruct c; try (destruct S1; fail); try (apply (IH z1 z' n r H S2 C); rewrite (K x); exact D).
    cbn [z_steady] in S1. subst feedBackPeriod. cbn [length jerks map motion fold_left fst snd] in *. inversion C as [|? ? C1 C2]; subst. cbn [fst snd] in C1.
    replace (Datatypes.S (length (z_log x cs z1)) + n)%nat with (length (z_log x cs z1) + Datatypes.S n)%nat by lia.
    apply (IH z1 z' (Datatypes.S n)); auto. rewrite (z_moves _ _ _ _ x H1). apply drift_step; assumption.
Qed.

(** Each of the four coordinates of the Zebulon generator stays close to the exact motion under its jerks. *)
Theorem C73_zebulon : forall rnd (TK : Trig (fl rnd)) (CK : SinCos (fl rnd)) u eta P V A J (f : fl rnd) cs z z' x, rounding rnd u eta -> u <= 1/1000 -> eta <= 1 -> 0 < val f <= 1 ->
  zsteps cs z = Ok z' -> Forall (z_steady f) cs -> calm_log (val f) P V A J (z_log x cs z) ->
  drift (length (z_log x cs z)) (val f) (err_pos u eta P A J) (err_vel u eta V J) (err_acc u eta A)
    (exact_of (z_state x z')) (motion (val f) (jerks (z_log x cs z)) (exact_of (z_state x z))).
Proof.
  intros rnd TK CK u eta P V A J f cs z z' x HR Hu He F H S C.
  pose proof (zeb_drift rnd TK CK u eta P V A J f x HR Hu He F cs z z' 0 _ H S C (no_drift _ _ _ _ _)) as D. rewrite Nat.add_0_r in D. exact D.
Qed.
Print Assumptions C73_zebulon.
