(** Facts about the robot models: freshness of the stored previews after any history of calls. *)

From Coq Require Import Reals List ZArith Lra Lia Arith Bool.
From Verif Require Import Scalar LinAlg LinAlgFacts ToolsModel ToolsSpec ToolsFacts NoDynModel PolygonModel
  LipModel BaseModel FootModel ModelsSpec TrajFacts.
Import ListNotations.
Local Open Scope R_scope.

Lemma tabulateM_length A (f : nat -> res A) n l : tabulateM f n = Ok l -> length l = n.
Proof.
  revert l. induction n as [|n IH]; intros l H; cbn [tabulateM] in H.
  - injection H as <-. reflexivity.
  - apply bind_ok in H. destruct H as (l0 & H0 & H). apply bind_ok in H. destruct H as (x & Hx & H).
    injection H as <-. rewrite app_length. cbn. rewrite (IH _ H0). lia.
Qed.
Lemma tabulateM_nth A (f : nat -> res A) n l i : tabulateM f n = Ok l -> (i < n)%nat ->
  exists d, nth_error l i = Some d /\ f i = Ok d.
Proof.
  revert l. induction n as [|n IH]; intros l H Hi; cbn [tabulateM] in H; [lia|].
  apply bind_ok in H. destruct H as (l0 & H0 & H). apply bind_ok in H. destruct H as (x & Hx & H).
  injection H as <-. pose proof (tabulateM_length _ _ _ _ H0) as L.
  destruct (Nat.eq_dec i n) as [->|Hne].
  - exists x. split; [|assumption]. rewrite nth_error_app2 by lia. rewrite L, Nat.sub_diag. reflexivity.
  - destruct (IH _ H0) as (d & E & F); [lia|]. exists d. split; [|assumption]. rewrite nth_error_app1 by lia. assumption.
Qed.
Lemma tabulateM_ok A (f : nat -> res A) n :
  (forall i, (i < n)%nat -> exists d, f i = Ok d) -> exists l, tabulateM f n = Ok l.
Proof.
  induction n as [|n IH]; intros H; cbn [tabulateM]; [eexists; reflexivity|].
  destruct IH as (l & E); [intros; apply H; lia|]. destruct (H n) as (x & Ex); [lia|].
  rewrite E. cbn [bind]. rewrite Ex. cbn [bind]. eexists; reflexivity.
Qed.

Definition tab {A} (f : nat -> res A) (n : nat) (l : list A) : Prop :=
  length l = n /\ forall i, (i < n)%nat -> exists d, nth_error l i = Some d /\ f i = Ok d.
Lemma tabulateM_tab A (f : nat -> res A) n l : tabulateM f n = Ok l -> tab f n l.
Proof. intros H. split; [exact (tabulateM_length _ _ _ _ H)|intros i Hi; exact (tabulateM_nth _ _ _ _ _ H Hi)]. Qed.

(** ** LIP *)
Definition lfst (l : lip R) (i : nat) : R := (INR i + 1) * lfb l.
Lemma l_first_eq l i : l_first (K:=R) l i = lfst l i.
Proof. unfold l_first, lfst. rewrite sofnat_INR, plus_INR. reflexivity. Qed.

Record lip_fresh (l : lip R) (n : nat) : Prop := {
  lf_N : (0 < lN l)%nat;
  lf_fb : lfb l <> 0;
  lf_n : Z.of_nat n = strunc ((lT l + 1/10000) / lfb l);
  lf_nb : lnb l = Some (Z.of_nat n);
  lf_pos : tab (fun i => computePosDynamic (lfst l i) (lT l) (lN l)) n (lposD l);
  lf_vel : tab (fun i => computeVelDynamic (lfst l i) (lT l) (lN l)) n (lvelD l);
  lf_acc : tab (fun i => computeAccDynamic (lfst l i) (lT l) (lN l)) n (laccD l);
  lf_cx : tab (fun i => computeCopDynamic (lfst l i) (lT l) (lN l) (lh l) (gx (lg l)) (gz (lg l)) (lm l) (lM l)) n (lcxD l);
  lf_cy : tab (fun i => computeCopDynamic (lfst l i) (lT l) (lN l) (lh l) (gy (lg l)) (gz (lg l)) (lm l) (lM l)) n (lcyD l);
  lf_jerk : ljerkD l = computeJerkDynamic (lN l)
}.

Lemma tab_ext A (f g : nat -> res A) n l : (forall i, f i = g i) -> tab f n l -> tab g n l.
Proof. intros E (H1 & H2). split; [assumption|]. intros i Hi. destruct (H2 i Hi) as (d & A1 & A2). exists d. rewrite <- E. auto. Qed.

Ltac binds H :=
  repeat match type of H with
  | bind (guard _) _ = Ok _ => apply guard_ok in H; destruct H as (? & H)
  | bind (ubguard _) _ = Ok _ => apply ubguard_ok in H; destruct H as (? & H)
  | bind _ _ = Ok _ => apply bind_ok in H; destruct H as (? & ? & H)
  end.

Lemma l_count_inv (l : lip R) n : l_count l = Ok n -> lnb l = Some (Z.of_nat n).
Proof.
  unfold l_count. destruct (lnb l) as [z|]; [|discriminate]. intros H. apply guard_ok in H. destruct H as (H & E).
  injection E as <-. apply Z.leb_le in H. rewrite Z2Nat.id by assumption. reflexivity.
Qed.
Lemma l_count_some (l : lip R) n : lnb l = Some (Z.of_nat n) -> l_count l = Ok n.
Proof.
  intros E. unfold l_count. rewrite E. destruct (Z.leb_spec 0 (Z.of_nat n)); [|lia]. cbn [guard bind].
  rewrite Nat2Z.id. reflexivity.
Qed.

Lemma compute_lfresh l l' : l_computeDynamics l = Ok l' ->
  (exists n, lip_fresh l' n) /\ lobs_of l' = lobs_of l /\ lauto l' = lauto l.
Proof.
  unfold l_computeDynamics, nbFeedback. intros H. apply bind_ok in H. destruct H as (nb & Hnb & H).
  apply ubguard_ok in Hnb. destruct Hnb as (Hfb & Hnb). injection Hnb as <-. apply negb_true_iff in Hfb.
  change (seqb (lfb l) s0) with (Reqb (lfb l) 0) in Hfb. apply Reqb_false in Hfb.
  set (nb := strunc _) in *.
  apply bind_ok in H. destruct H as (n & Hn & H). apply l_count_inv in Hn. cbn [lnb l_setNb] in Hn.
  apply bind_ok in H. destruct H as (cx & Hcx & H). apply bind_ok in H. destruct H as (cy & Hcy & H).
  apply bind_ok in H. destruct H as (dp & Hp & H). apply bind_ok in H. destruct H as (dv & Hv & H).
  apply bind_ok in H. destruct H as (da & Hac & H).
   apply guard_ok in H. destruct H as (HN & E). injection E as <-.
  apply Nat.ltb_lt in HN. injection Hn as Hn.
  split; [|split; reflexivity]. exists n. constructor; cbn [lN lfb lT lnb lposD lvelD laccD lcxD lcyD ljerkD lh lg lm lM l_setDyn l_setNb].
  - exact HN.
  - exact Hfb.
  - rewrite <- Hn. reflexivity.
  - rewrite Hn. reflexivity.
  - eapply tab_ext; [|exact (tabulateM_tab _ _ _ _ Hp)]. intros i. cbv beta. rewrite l_first_eq. reflexivity.
  - eapply tab_ext; [|exact (tabulateM_tab _ _ _ _ Hv)]. intros i. cbv beta. rewrite l_first_eq. reflexivity.
  - eapply tab_ext; [|exact (tabulateM_tab _ _ _ _ Hac)]. intros i. cbv beta. rewrite l_first_eq. reflexivity.
  - eapply tab_ext; [|exact (tabulateM_tab _ _ _ _ Hcx)]. intros i. cbv beta. rewrite l_first_eq. reflexivity.
  - eapply tab_ext; [|exact (tabulateM_tab _ _ _ _ Hcy)]. intros i. cbv beta. rewrite l_first_eq. reflexivity.
  - reflexivity.
Qed.

(** Only the CoP previews depend on height, gravity and masses. *)
Lemma autoCop_lfresh l0 l l' n : lip_fresh l0 n -> lauto l = true ->
  lN l = lN l0 -> lT l = lT l0 -> lfb l = lfb l0 -> lnb l = lnb l0 -> lposD l = lposD l0 -> lvelD l = lvelD l0 ->
  laccD l = laccD l0 -> ljerkD l = ljerkD l0 -> l_autoCop l = Ok l' ->
  lip_fresh l' n /\ lobs_of l' = lobs_of l /\ lauto l' = lauto l.
Proof.
  intros [F1 F2 F3 F4 F5 F6 F7 F8 F9 F10] Ha E1 E2 E3 E4 E5 E6 E7 E8 H. unfold l_autoCop in H. rewrite Ha in H.
  apply bind_ok in H. destruct H as (n' & Hn & H). apply l_count_inv in Hn. rewrite E4, F4 in Hn. injection Hn as Hn.
  apply Nat2Z.inj in Hn. subst n'.
  apply bind_ok in H. destruct H as (cx & Hcx & H). apply bind_ok in H. destruct H as (cy & Hcy & H). injection H as <-.
  split; [|split; reflexivity].
  constructor; cbn [lN lfb lT lnb lposD lvelD laccD lcxD lcyD ljerkD lh lg lm lM l_setDyn]; unfold lfst in *; cbn [lfb l_setDyn];
    rewrite ?E1, ?E2, ?E3, ?E4, ?E5, ?E6, ?E7, ?E8;
    [exact F1|exact F2|exact F3|exact F4|exact F5|exact F6|exact F7| | |exact F10].
  - eapply tab_ext; [|exact (tabulateM_tab _ _ _ _ Hcx)]. intros i. cbv beta. rewrite l_first_eq. unfold lfst. rewrite E1, E2, E3. reflexivity.
  - eapply tab_ext; [|exact (tabulateM_tab _ _ _ _ Hcy)]. intros i. cbv beta. rewrite l_first_eq. unfold lfst. cbn [lfb l_setDyn lT lN lh lg lm lM]. rewrite E1, E2, E3. reflexivity.
Qed.
Lemma lfresh_states l n a b c : lip_fresh l n -> lip_fresh (l_setStates l a b c) n.
Proof. intros [F1 F2 F3 F4 F5 F6 F7 F8 F9 F10]. constructor; [exact F1|exact F2|exact F3|exact F4|exact F5|exact F6|exact F7|exact F8|exact F9|exact F10]. Qed.

Lemma lstep_fresh c l l' n : lip_fresh l n -> lauto l = true -> lstep c l = Ok l' ->
  (exists n', lip_fresh l' n') /\ lobs_of l' = lobs_step (lobs_of l) c /\ lauto l' = true.
Proof.
  intros F Ha H. destruct c; cbn [lstep] in H.
  - apply compute_lfresh in H. destruct H as (A & B & C). rewrite B, C. split; [exact A|]. split; [reflexivity|exact Ha].
  - unfold l_setNbSamples in H. apply guard_ok in H. destruct H as (_ & H). unfold l_auto in H.
    cbn [lauto l_setPar] in H. rewrite Ha in H. apply compute_lfresh in H. destruct H as (A & B & C). rewrite B, C. split; [exact A|]. split; [reflexivity|exact Ha].
  - unfold l_setSamplingPeriod in H. apply guard_ok in H. destruct H as (_ & H). unfold l_auto in H.
    cbn [lauto l_setPar] in H. rewrite Ha in H. apply compute_lfresh in H. destruct H as (A & B & C). rewrite B, C. split; [exact A|]. split; [reflexivity|exact Ha].
  - unfold l_setFeedbackPeriod in H. apply guard_ok in H. destruct H as (_ & H). unfold l_auto in H.
    cbn [lauto l_setPar] in H. rewrite Ha in H. apply compute_lfresh in H. destruct H as (A & B & C). rewrite B, C. split; [exact A|]. split; [reflexivity|exact Ha].
  - unfold l_setComHeight in H. apply (autoCop_lfresh l _ _ n F) in H; try reflexivity; try exact Ha. destruct H as (A & B & C). rewrite B, C. split; [exists n; exact A|]. split; [reflexivity|exact Ha].
  - unfold l_setGravity in H. apply guard_ok in H. destruct H as (_ & H).
    apply (autoCop_lfresh l _ _ n F) in H; try reflexivity; try exact Ha. destruct H as (A & B & C). rewrite B, C. split; [exists n; exact A|]. split; [reflexivity|exact Ha].
  - unfold l_setMass in H. apply (autoCop_lfresh l _ _ n F) in H; try reflexivity; try exact Ha. destruct H as (A & B & C). rewrite B, C. split; [exists n; exact A|]. split; [reflexivity|exact Ha].
  - unfold l_setTotalMass in H. apply guard_ok in H. destruct H as (_ & H).
    apply (autoCop_lfresh l _ _ n F) in H; try reflexivity; try exact Ha. destruct H as (A & B & C). rewrite B, C. split; [exists n; exact A|]. split; [reflexivity|exact Ha].
  - unfold l_setStateX, st3_of_vec in H. binds H. match goal with E : bind _ _ = Ok _ |- _ => binds E; injection E as <- end.
    injection H as <-. split; [exists n; apply lfresh_states; assumption|]. split; [reflexivity|assumption].
  - unfold l_setStateY, st3_of_vec in H. binds H. match goal with E : bind _ _ = Ok _ |- _ => binds E; injection E as <- end.
    injection H as <-. split; [exists n; apply lfresh_states; assumption|]. split; [reflexivity|assumption].
  - unfold l_setStateYaw, st3_of_vec in H. binds H. match goal with E : bind _ _ = Ok _ |- _ => binds E; injection E as <- end.
    injection H as <-. split; [exists n; apply lfresh_states; assumption|]. split; [reflexivity|assumption].
  - unfold l_updateStateX, updateState in H. binds H. match goal with E : bind _ _ = Ok _ |- _ => binds E; injection E as <- end.
    injection H as <-. split; [exists n; apply lfresh_states; assumption|]. split; [reflexivity|assumption].
  - unfold l_updateStateY, updateState in H. binds H. match goal with E : bind _ _ = Ok _ |- _ => binds E; injection E as <- end.
    injection H as <-. split; [exists n; apply lfresh_states; assumption|]. split; [reflexivity|assumption].
  - unfold l_updateStateYaw, updateState in H. binds H. match goal with E : bind _ _ = Ok _ |- _ => binds E; injection E as <- end.
    injection H as <-. split; [exists n; apply lfresh_states; assumption|]. split; [reflexivity|assumption].
Qed.
Lemma lsteps_fresh cs : forall l l' n, lip_fresh l n -> lauto l = true -> lsteps cs l = Ok l' ->
  (exists n', lip_fresh l' n') /\ lobs_of l' = fold_left lobs_step cs (lobs_of l) /\ lauto l' = true.
Proof.
  induction cs as [|c cs IH]; intros l l' n F Ha H; cbn [lsteps fold_left] in *.
  - injection H as <-. eauto.
  - apply bind_ok in H. destruct H as (l1 & H1 & H). destruct (lstep_fresh _ _ _ _ F Ha H1) as ((n1 & F1) & O & A).
    destruct (IH _ _ _ F1 A H) as (B & C & D). rewrite C, O. auto.
Qed.
Lemma newLip_fresh N T l : newLip N T true = Ok l -> (exists n, lip_fresh l n) /\ lobs_of l = lobs0 N T /\ lauto l = true.
Proof. intros H. unfold newLip, l_auto in H. cbn [lauto] in H. apply compute_lfresh in H. exact H. Qed.

(** ** Base *)
Record base_fresh (b : base R) : Prop := {
  bf_pos : computePosDynamic (bT b) (bT b) (bN b) = Ok (bposD b);
  bf_vel : computeVelDynamic (bT b) (bT b) (bN b) = Ok (bvelD b);
  bf_acc : computeAccDynamic (bT b) (bT b) (bN b) = Ok (baccD b);
  bf_jerk : bjerkD b = computeJerkDynamic (bN b);
  bf_cx : computeCopDynamic (bT b) (bT b) (bN b) (bh b) (gx (bg b)) (gz (bg b)) (bm b) (bM b) = Ok (bcxD b);
  bf_cy : computeCopDynamic (bT b) (bT b) (bN b) (bh b) (gy (bg b)) (gz (bg b)) (bm b) (bM b) = Ok (bcyD b);
  bf_ta : computeOrder2PosDynamic (bT b) (bT b) (bN b) = Ok (btaD b);
  bf_tv : computeOrder2VelDynamic (bT b) (bT b) (bN b) = Ok (btvD b)
}.
Lemma compute_bfresh b b' : b_computeDynamics b = Ok b' -> base_fresh b' /\ bobs_of b' = bobs_of b /\ bauto b' = bauto b.
Proof.
  unfold b_computeDynamics. intros H.
  apply bind_ok in H. destruct H as (dp & Hp & H). apply bind_ok in H. destruct H as (dv & Hv & H).
  apply bind_ok in H. destruct H as (da & Hac & H). apply bind_ok in H. destruct H as (cx & Hcx & H).
  apply bind_ok in H. destruct H as (cy & Hcy & H). apply bind_ok in H. destruct H as (ta & Hta & H).
  apply bind_ok in H. destruct H as (tv & Htv & H). injection H as <-.
  split; [|split; reflexivity]. constructor; [exact Hp|exact Hv|exact Hac|reflexivity|exact Hcx|exact Hcy|exact Hta|exact Htv].
Qed.
Lemma autoCop_bfresh b0 b b' : base_fresh b0 -> bauto b = true -> bN b = bN b0 -> bT b = bT b0 ->
  bposD b = bposD b0 -> bvelD b = bvelD b0 -> baccD b = baccD b0 -> bjerkD b = bjerkD b0 -> btaD b = btaD b0 -> btvD b = btvD b0 ->
  b_autoCop b = Ok b' -> base_fresh b' /\ bobs_of b' = bobs_of b /\ bauto b' = bauto b.
Proof.
  intros [F1 F2 F3 F4 F5 F6 F7 F8] Ha E1 E2 E3 E4 E5 E6 E7 E8 H. unfold b_autoCop in H. rewrite Ha in H.
  apply bind_ok in H. destruct H as (cx & Hcx & H). apply bind_ok in H. destruct H as (cy & Hcy & H). injection H as <-.
  split; [|split; reflexivity]. constructor; cbn [bN bT bposD bvelD baccD bjerkD btaD btvD bcxD bcyD bh bg bm bM b_setDyn] in *;
    rewrite ?E1, ?E2, ?E3, ?E4, ?E5, ?E6, ?E7, ?E8;
    [exact F1|exact F2|exact F3|exact F4|rewrite <- E1, <- E2; exact Hcx|rewrite <- E1, <- E2; exact Hcy|exact F7|exact F8].
Qed.
Lemma bfresh_states b s1 s2 s3 s4 s5 : base_fresh b -> base_fresh (b_setStates b s1 s2 s3 s4 s5).
Proof. intros [F1 F2 F3 F4 F5 F6 F7 F8]. constructor; [exact F1|exact F2|exact F3|exact F4|exact F5|exact F6|exact F7|exact F8]. Qed.
Lemma bfresh_misc b lv la lj tx ty p q : base_fresh b -> base_fresh (b_setMisc b lv la lj tx ty p q).
Proof. intros [F1 F2 F3 F4 F5 F6 F7 F8]. constructor; [exact F1|exact F2|exact F3|exact F4|exact F5|exact F6|exact F7|exact F8]. Qed.
Ltac bstate H :=
  unfold b_setStateX, b_setStateY, b_setStateRoll, b_setStatePitch, b_setStateYaw, b_updateStateX, b_updateStateY, st3_of_vec, updateState in H;
  binds H; match goal with E : bind _ _ = Ok _ |- _ => binds E; injection E as <- end;
  injection H as <-; split; [apply bfresh_states; assumption|]; split; [reflexivity|assumption].
Ltac bmisc H :=
  unfold b_setVelocityLimit, b_setAccelerationLimit, b_setJerkLimit, b_setCopSupportConvexPolygon, b_setComSupportConvexPolygon,
    b_setTiltContactPointX, b_setTiltContactPointY in H;
  binds H; injection H as <-; split; [apply bfresh_misc; assumption|]; split; [reflexivity|assumption].
Lemma bstep_fresh c b b' : base_fresh b -> bauto b = true -> bstep c b = Ok b' ->
  base_fresh b' /\ bobs_of b' = bobs_step (bobs_of b) c /\ bauto b' = true.
Proof.
  intros F Ha H. destruct c; cbn [bstep] in H.
  - apply compute_bfresh in H. destruct H as (A & B & C). rewrite B, C. split; [exact A|]. split; [reflexivity|exact Ha].
  - unfold b_setNbSamples in H. apply guard_ok in H. destruct H as (_ & H). unfold b_auto in H.
    cbn [bauto b_setPar] in H. rewrite Ha in H. apply compute_bfresh in H. destruct H as (A & B & C). rewrite B, C. split; [exact A|]. split; [reflexivity|exact Ha].
  - unfold b_setSamplingPeriod in H. apply guard_ok in H. destruct H as (_ & H). unfold b_auto in H.
    cbn [bauto b_setPar] in H. rewrite Ha in H. apply compute_bfresh in H. destruct H as (A & B & C). rewrite B, C. split; [exact A|]. split; [reflexivity|exact Ha].
  - unfold b_setComHeight in H. apply (autoCop_bfresh b _ _ F) in H; try reflexivity; try exact Ha. destruct H as (A & B & C). rewrite B, C. split; [exact A|]. split; [reflexivity|exact Ha].
  - unfold b_setGravity in H. apply guard_ok in H. destruct H as (_ & H).
    apply (autoCop_bfresh b _ _ F) in H; try reflexivity; try exact Ha. destruct H as (A & B & C). rewrite B, C. split; [exact A|]. split; [reflexivity|exact Ha].
  - unfold b_setMass in H. apply guard_ok in H. destruct H as (_ & H).
    apply (autoCop_bfresh b _ _ F) in H; try reflexivity; try exact Ha. destruct H as (A & B & C). rewrite B, C. split; [exact A|]. split; [reflexivity|exact Ha].
  - unfold b_setTotalMass in H. apply guard_ok in H. destruct H as (_ & H). apply guard_ok in H. destruct H as (_ & H).
    apply (autoCop_bfresh b _ _ F) in H; try reflexivity; try exact Ha. destruct H as (A & B & C). rewrite B, C. split; [exact A|]. split; [reflexivity|exact Ha].
  - bstate H.
  - bstate H.
  - bstate H.
  - bstate H.
  - bstate H.
  - bstate H.
  - bstate H.
  - bmisc H.
  - bmisc H.
  - bmisc H.
  - bmisc H.
  - bmisc H.
  - bmisc H.
  - bmisc H.
Qed.
Lemma bsteps_fresh cs : forall b b', base_fresh b -> bauto b = true -> bsteps cs b = Ok b' ->
  base_fresh b' /\ bobs_of b' = fold_left bobs_step cs (bobs_of b) /\ bauto b' = true.
Proof.
  induction cs as [|c cs IH]; intros b b' F Ha H; cbn [bsteps fold_left] in *.
  - injection H as <-. auto.
  - apply bind_ok in H. destruct H as (b1 & H1 & H). destruct (bstep_fresh _ _ _ F Ha H1) as (F1 & O & A).
    destruct (IH _ _ F1 A H) as (B & C & D). rewrite C, O. auto.
Qed.
Lemma newBase_fresh N T b : newBase N T true = Ok b -> base_fresh b /\ bobs_of b = bobs0 N T (Some 0) /\ bauto b = true.
Proof.
  intros H. unfold newBase in H. apply guard_ok in H. destruct H as (_ & H). apply guard_ok in H. destruct H as (_ & H).
  unfold b_auto in H. cbn [bauto b_init] in H. apply compute_bfresh in H. exact H.
Qed.
Lemma newBaseDefault_fresh b : newBaseDefault = Ok b -> base_fresh b /\ bobs_of b = bobs0 1 1 None /\ bauto b = true.
Proof. intros H. unfold newBaseDefault, b_auto in H. cbn [bauto b_init] in H. apply compute_bfresh in H. exact H. Qed.

(** ** NoDynamic *)
Lemma nstep_fresh c m m' : nodyn_fresh m -> nauto m = true -> nstep c m = Ok m' ->
  nodyn_fresh m' /\ nobs_of m' = nobs_step (nobs_of m) c /\ nauto m' = true.
Proof.
  intros F Ha H. destruct c; cbn [nstep] in H.
  - unfold nodyn_setNbSamples in H. apply guard_ok in H. destruct H as (_ & H). apply nodyn_auto_fresh in H; [|assumption].
    destruct H as (A & B & C1 & C2 & C3 & C4 & C5 & C6). unfold nobs_of. rewrite C1, C2, C3, C4, C5, C6. auto.
  - unfold nodyn_setSamplingPeriod in H. apply guard_ok in H. destruct H as (_ & H). apply nodyn_auto_fresh in H; [|assumption].
    destruct H as (A & B & C1 & C2 & C3 & C4 & C5 & C6). unfold nobs_of. rewrite C1, C2, C3, C4, C5, C6. auto.
  - unfold nodyn_setState, st3_of_vec in H. binds H. match goal with E : bind _ _ = Ok _ |- _ => binds E; injection E as <- end.
    injection H as <-. split; [apply (nodyn_fresh_eq m); try reflexivity; exact F|]. auto.
  - unfold nodyn_updateState, updateState in H. binds H. match goal with E : bind _ _ = Ok _ |- _ => binds E; injection E as <- end.
    injection H as <-. split; [apply (nodyn_fresh_eq m); try reflexivity; exact F|]. auto.
  - unfold nodyn_setVelocityLimit in H. binds H. injection H as <-.
    split; [apply (nodyn_fresh_eq m); try reflexivity; exact F|]. auto.
  - unfold nodyn_setAccelerationLimit in H. binds H. injection H as <-.
    split; [apply (nodyn_fresh_eq m); try reflexivity; exact F|]. auto.
  - unfold nodyn_setJerkLimit in H. binds H. injection H as <-.
    split; [apply (nodyn_fresh_eq m); try reflexivity; exact F|]. auto.
  - apply nodyn_compute_fresh in H. destruct H as (A & B & C1 & C2 & C3 & C4 & C5 & C6). unfold nobs_of. rewrite C1, C2, C3, C4, C5, C6, B. auto.
Qed.
Lemma nsteps_fresh cs : forall m m', nodyn_fresh m -> nauto m = true -> nsteps cs m = Ok m' ->
  nodyn_fresh m' /\ nobs_of m' = fold_left nobs_step cs (nobs_of m) /\ nauto m' = true.
Proof.
  induction cs as [|c cs IH]; intros m m' F Ha H; cbn [nsteps fold_left] in *.
  - injection H as <-. auto.
  - apply bind_ok in H. destruct H as (m1 & H1 & H). destruct (nstep_fresh _ _ _ F Ha H1) as (F1 & O & A).
    destruct (IH _ _ F1 A H) as (B & C & D). rewrite C, O. auto.
Qed.
Lemma newNoDyn_fresh N T m : newNoDyn N T true = Ok m -> nodyn_fresh m /\ nobs_of m = nobs0 N T /\ nauto m = true.
Proof.
  intros H. unfold newNoDyn in H. apply guard_ok in H. destruct H as (_ & H). apply guard_ok in H. destruct H as (_ & H).
  apply nodyn_auto_fresh in H; [|reflexivity]. destruct H as (A & B & C1 & C2 & C3 & C4 & C5 & C6).
  unfold nobs_of. rewrite C1, C2, C3, C4, C5, C6. auto.
Qed.

(** ** When the previews can be computed *)
Lemma guard_is_ok A b (k : res A) : is_ok (do _ <- guard b; k) <-> b = true /\ is_ok k.
Proof. unfold is_ok. split; [intros (a & H); apply guard_ok in H; destruct H; eauto|intros (-> & H); exact H]. Qed.
Lemma bind_is_ok A B (r : res A) (f : A -> res B) : is_ok (bind r f) <-> exists a, r = Ok a /\ is_ok (f a).
Proof.
  unfold is_ok. split.
  - intros (b & H). apply bind_ok in H. destruct H as (a & H1 & H2). eauto.
  - intros (a & -> & b & H). cbn [bind]. eauto.
Qed.
Lemma cop_is_ok S T N h g0 gz m M : is_ok (computeCopDynamic (K:=R) S T N h g0 gz m M) <->
  0 < S /\ 0 < T /\ (0 < N)%nat /\ 1/10000 < Rabs gz /\ m <= M /\ 1/10000 < M /\ 0 <= m.
Proof.
  unfold computeCopDynamic. rewrite !guard_is_ok. rewrite sabs_Rabs. rsimpl.
  rewrite !Rltb_true, !Rleb_true, Nat.ltb_lt. unfold is_ok. intuition eauto.
Qed.
Lemma pos_is_ok S T N : is_ok (computePosDynamic (K:=R) S T N) <-> 0 < S /\ 0 < T /\ (0 < N)%nat.
Proof.
  unfold computePosDynamic. rewrite !guard_is_ok. rsimpl. rewrite !Rltb_true, Nat.ltb_lt. unfold is_ok. intuition eauto.
Qed.
Lemma vel_is_ok S T N : is_ok (computeVelDynamic (K:=R) S T N) <-> 0 < S /\ 0 < T /\ (0 < N)%nat.
Proof.
  unfold computeVelDynamic. rewrite !guard_is_ok. rsimpl. rewrite !Rltb_true, Nat.ltb_lt. unfold is_ok. intuition eauto.
Qed.
Lemma acc_is_ok S T N : is_ok (computeAccDynamic (K:=R) S T N) <-> S <> 0 /\ 0 < T /\ (0 < N)%nat.
Proof.
  unfold computeAccDynamic. rewrite !guard_is_ok, sabs_Rabs. rsimpl. rewrite !Rltb_true, Nat.ltb_lt.
  assert (E : 0 < Rabs S <-> S <> 0). { split; [intros H ->; rewrite Rabs_R0 in H; lra|apply Rabs_pos_lt]. }
  rewrite E. unfold is_ok. intuition eauto.
Qed.
Lemma ta_is_ok S T N : is_ok (computeOrder2PosDynamic (K:=R) S T N) <-> 0 < S /\ 0 < T /\ (0 < N)%nat.
Proof.
  unfold computeOrder2PosDynamic. rewrite !guard_is_ok. rsimpl. rewrite !Rltb_true, Nat.ltb_lt. unfold is_ok. intuition eauto.
Qed.
Lemma tv_is_ok S T N : is_ok (computeOrder2VelDynamic (K:=R) S T N) <-> S <> 0 /\ 0 < T /\ (0 < N)%nat.
Proof.
  unfold computeOrder2VelDynamic. rewrite !guard_is_ok, sabs_Rabs. rsimpl. rewrite !Rltb_true, Nat.ltb_lt.
  assert (E : 0 < Rabs S <-> S <> 0). { split; [intros H ->; rewrite Rabs_R0 in H; lra|apply Rabs_pos_lt]. }
  rewrite E. unfold is_ok. intuition eauto.
Qed.

Lemma first_pos i fb : 0 < fb -> 0 < (INR i + 1) * fb.
Proof. intros H. pose proof (pos_INR i). apply Rmult_lt_0_compat; lra. Qed.

Lemma l_cop_returns (l : lip R) g0 n :
  ((0 < n)%nat -> 0 < lfb l /\ valid_params (lT l) (lN l) (lg l) (lm l) (lM l)) -> is_ok (l_cop l g0 n).
Proof.
  intros V. unfold l_cop. apply tabulateM_ok. intros i Hi. cbv beta. rewrite l_first_eq.
  destruct V as (Hf & V1 & V2 & V3 & V4 & V5); [lia|]. apply cop_is_ok. pose proof (first_pos i _ Hf). unfold lfst. tauto.
Qed.
Lemma l_cop_valid (l : lip R) g0 n : (0 < n)%nat -> is_ok (l_cop l g0 n) ->
  0 < lfb l /\ valid_params (lT l) (lN l) (lg l) (lm l) (lM l).
Proof.
  intros Hn (c & H). destruct (tabulateM_nth _ _ _ _ 0%nat H Hn) as (d & _ & E). cbv beta in E. rewrite l_first_eq in E.
  assert (K := ex_intro _ d E : is_ok _). apply cop_is_ok in K. unfold lfst in K. cbn [INR] in K. unfold valid_params.
  replace ((0+1) * lfb l) with (lfb l) in K by ring. tauto.
Qed.
Lemma l_autoCop_is_ok (l : lip R) n : lauto l = true -> lnb l = Some (Z.of_nat n) ->
  (is_ok (l_autoCop l) <-> ((0 < n)%nat -> 0 < lfb l /\ valid_params (lT l) (lN l) (lg l) (lm l) (lM l))).
Proof.
  intros Ha Hn. unfold l_autoCop. rewrite Ha, (l_count_some _ _ Hn). cbn [bind]. split.
  - intros H Hp. apply bind_is_ok in H. destruct H as (c & H & _). apply (l_cop_valid l (gx (lg l)) n Hp). exists c; exact H.
  - intros V. destruct (l_cop_returns l (gx (lg l)) n V) as (cx & ->). cbn [bind].
    destruct (l_cop_returns l (gy (lg l)) n V) as (cy & ->). cbn [bind]. eexists; reflexivity.
Qed.
Lemma Int_part_nonneg x : 0 <= x -> (0 <= Int_part x)%Z.
Proof. intros H. pose proof (base_Int_part x) as (_ & B). assert (IZR (Int_part x) > -1) by lra. apply lt_IZR in H0. lia. Qed.
Lemma strunc_pos x : 0 <= x -> strunc (K:=R) x = Int_part x.
Proof. intros H. unfold strunc. change (sltb x s0) with (Rltb x 0). destruct (Rltb_spec x 0); [lra|reflexivity]. Qed.
Lemma l_compute_returns (l : lip R) : 0 < lfb l -> valid_params (lT l) (lN l) (lg l) (lm l) (lM l) ->
  exists l', l_computeDynamics l = Ok l' /\ (exists n, lnb l' = Some (Z.of_nat n)).
Proof.
  intros Hf V. unfold l_computeDynamics, nbFeedback. change (seqb (lfb l) s0) with (Reqb (lfb l) 0).
  destruct (Reqb_spec (lfb l) 0) as [|_]; [lra|]. cbn [negb ubguard bind]. set (nb := strunc _).
  assert (Hn : (0 <= nb)%Z).
  { unfold nb. rewrite strunc_pos; [apply Int_part_nonneg|]; (change (0 <= (lT l + 1/10000)/lfb l); destruct V as (V & _);
      apply Rmult_le_pos; [lra|apply Rlt_le, Rinv_0_lt_compat; assumption]). }
  set (l1 := l_setNb l (Some nb)). assert (V1 : valid_params (lT l1) (lN l1) (lg l1) (lm l1) (lM l1)) by exact V.
  assert (Hf1 : 0 < lfb l1) by exact Hf.
  assert (E : lnb l1 = Some (Z.of_nat (Z.to_nat nb))) by (rewrite Z2Nat.id by assumption; reflexivity).
  rewrite (l_count_some l1 _ E). cbn [bind]. set (n := Z.to_nat nb) in *.
  destruct (l_cop_returns l1 (gx (lg l1)) n) as (cx & ->); [tauto|]. cbn [bind].
  destruct (l_cop_returns l1 (gy (lg l1)) n) as (cy & ->); [tauto|]. cbn [bind].
  destruct V1 as (W1 & W2 & W3 & W4 & W5).
  destruct (tabulateM_ok _ (fun i => computePosDynamic (l_first l1 i) (lT l1) (lN l1)) n) as (p & ->).
  { intros i _. rewrite l_first_eq. apply pos_is_ok. pose proof (first_pos i _ Hf1). unfold lfst. tauto. }
  cbn [bind]. destruct (tabulateM_ok _ (fun i => computeVelDynamic (l_first l1 i) (lT l1) (lN l1)) n) as (v & ->).
  { intros i _. rewrite l_first_eq. apply vel_is_ok. pose proof (first_pos i _ Hf1). unfold lfst. tauto. }
  cbn [bind]. destruct (tabulateM_ok _ (fun i => computeAccDynamic (l_first l1 i) (lT l1) (lN l1)) n) as (a & ->).
  { intros i _. rewrite l_first_eq. apply acc_is_ok. pose proof (first_pos i _ Hf1). unfold lfst. split; [lra|tauto]. }
  cbn [bind]. apply Nat.ltb_lt in W2. rewrite W2. cbn [guard bind]. eexists. split; [reflexivity|]. exists n. exact E.
Qed.
Lemma lfresh_valid (l : lip R) n : lip_fresh l n -> (0 < n)%nat -> 0 < lfb l /\ valid_params (lT l) (lN l) (lg l) (lm l) (lM l).
Proof.
  intros [F1 F2 F3 F4 F5 F6 F7 (_ & F8) F9 F10] Hn. destruct (F8 0%nat Hn) as (d & _ & E).
  assert (K := ex_intro _ d E : is_ok _). apply cop_is_ok in K. unfold lfst in K. cbn [INR] in K. unfold valid_params.
  replace ((0+1) * lfb l) with (lfb l) in K by ring. tauto.
Qed.

Lemma nth_error_ext A (l l' : list A) : (forall i, nth_error l i = nth_error l' i) -> l = l'.
Proof.
  revert l'. induction l as [|a l IH]; intros [|b l'] H; auto.
  - discriminate (H 0%nat).
  - discriminate (H 0%nat).
  - pose proof (H 0%nat) as E. injection E as <-. f_equal. apply IH. intros i. exact (H (S i)).
Qed.
(** A table is determined by its function. *)
Lemma tab_tabulateM A (f : nat -> res A) n l : tab f n l -> tabulateM f n = Ok l.
Proof.
  intros (L & H). destruct (tabulateM_ok _ f n) as (l' & E).
  { intros i Hi. destruct (H i Hi) as (d & _ & E). eauto. }
  rewrite E. f_equal. apply nth_error_ext. intros i. destruct (Nat.lt_ge_cases i n) as [Hi|Hi].
  - destruct (H i Hi) as (d & E1 & E2). destruct (tabulateM_nth _ _ _ _ i E Hi) as (d' & E3 & E4). congruence.
  - rewrite (proj2 (nth_error_None l' i)), (proj2 (nth_error_None l i)); [reflexivity|lia|].
    rewrite (tabulateM_length _ _ _ _ E). lia.
Qed.
Lemma lfresh_recompute (l : lip R) n : lip_fresh l n -> l_computeDynamics l = Ok l.
Proof.
  intros [F1 F2 F3 F4 F5 F6 F7 F8 F9 F10]. unfold l_computeDynamics, nbFeedback. change (seqb (lfb l) s0) with (Reqb (lfb l) 0).
  destruct (Reqb_spec (lfb l) 0); [contradiction|]. cbn [negb ubguard bind].
  change (strunc (sdiv (sadd (lT l) EPS) (lfb l))) with (strunc (K:=R) ((lT l + 1/10000)/lfb l)). rewrite <- F3, <- F4.
  assert (E : l_setNb l (lnb l) = l) by (destruct l; reflexivity). rewrite E. rewrite (l_count_some _ _ F4). cbn [bind]. unfold l_cop.
  assert (X : forall i, lfst l i = l_first l i) by (intros; rewrite l_first_eq; reflexivity).
  rewrite (tab_tabulateM _ _ _ (lcxD l)) by (eapply tab_ext; [|exact F8]; intros; cbv beta; rewrite X; reflexivity). cbn [bind].
  rewrite (tab_tabulateM _ _ _ (lcyD l)) by (eapply tab_ext; [|exact F9]; intros; cbv beta; rewrite X; reflexivity). cbn [bind].
  rewrite (tab_tabulateM _ _ _ (lposD l)) by (eapply tab_ext; [|exact F5]; intros; cbv beta; rewrite X; reflexivity). cbn [bind].
  rewrite (tab_tabulateM _ _ _ (lvelD l)) by (eapply tab_ext; [|exact F6]; intros; cbv beta; rewrite X; reflexivity). cbn [bind].
  rewrite (tab_tabulateM _ _ _ (laccD l)) by (eapply tab_ext; [|exact F7]; intros; cbv beta; rewrite X; reflexivity). cbn [bind].
  apply Nat.ltb_lt in F1. rewrite F1. cbn [guard bind]. rewrite <- F10. destruct l; reflexivity.
Qed.
Lemma bfresh_recompute (b : base R) : base_fresh b -> b_computeDynamics b = Ok b.
Proof.
  intros [F1 F2 F3 F4 F5 F6 F7 F8]. unfold b_computeDynamics, b_cop. rewrite F1. cbn [bind]. rewrite F2. cbn [bind]. rewrite F3. cbn [bind].
  rewrite F5. cbn [bind]. rewrite F6. cbn [bind]. rewrite F7. cbn [bind]. rewrite F8. cbn [bind]. rewrite <- F4. destruct b; reflexivity.
Qed.
Lemma nfresh_recompute (m : nodyn R) : nodyn_fresh m -> nodyn_computeDynamics m = Ok m.
Proof.
  intros [F1 F2 F3 F4 F5 F6]. unfold nodyn_computeDynamics. rewrite F3. cbn [bind]. rewrite F4. cbn [bind]. rewrite F5. cbn [bind].
  rewrite <- F6. destruct m; reflexivity.
Qed.

(** ** Base: when calls return *)
Lemma b_cop_is_ok (b : base R) g0 : is_ok (b_cop b g0) <-> valid_params (bT b) (bN b) (bg b) (bm b) (bM b).
Proof. unfold b_cop. rewrite cop_is_ok. unfold valid_params. tauto. Qed.
Lemma b_autoCop_is_ok (b : base R) : bauto b = true ->
  (is_ok (b_autoCop b) <-> valid_params (bT b) (bN b) (bg b) (bm b) (bM b)).
Proof.
  intros Ha. unfold b_autoCop. rewrite Ha. split.
  - intros H. apply bind_is_ok in H. destruct H as (c & H & _). apply (b_cop_is_ok b (gx (bg b))). exists c; exact H.
  - intros V. destruct (proj2 (b_cop_is_ok b (gx (bg b))) V) as (cx & ->). cbn [bind].
    destruct (proj2 (b_cop_is_ok b (gy (bg b))) V) as (cy & ->). cbn [bind]. eexists; reflexivity.
Qed.
Lemma b_compute_is_ok (b : base R) : is_ok (b_computeDynamics b) <-> valid_params (bT b) (bN b) (bg b) (bm b) (bM b).
Proof.
  split.
  - intros H. unfold b_computeDynamics in H. do 3 (apply bind_is_ok in H; destruct H as (? & _ & H)).
    apply bind_is_ok in H. destruct H as (c & H & _). apply (b_cop_is_ok b (gx (bg b))). exists c; exact H.
  - intros V. assert (V' := V). destruct V as (V1 & V2 & _). unfold b_computeDynamics.
    destruct (proj2 (pos_is_ok (bT b) (bT b) (bN b))) as (p & ->); [tauto|]. cbn [bind].
    destruct (proj2 (vel_is_ok (bT b) (bT b) (bN b))) as (v & ->); [tauto|]. cbn [bind].
    destruct (proj2 (acc_is_ok (bT b) (bT b) (bN b))) as (a & ->); [split; [lra|tauto]|]. cbn [bind].
    destruct (proj2 (b_cop_is_ok b (gx (bg b))) V') as (cx & ->). cbn [bind].
    destruct (proj2 (b_cop_is_ok b (gy (bg b))) V') as (cy & ->). cbn [bind].
    destruct (proj2 (ta_is_ok (bT b) (bT b) (bN b))) as (ta & ->); [tauto|]. cbn [bind].
    destruct (proj2 (tv_is_ok (bT b) (bT b) (bN b))) as (tv & ->); [split; [lra|tauto]|]. cbn [bind]. eexists; reflexivity.
Qed.
Lemma bfresh_valid (b : base R) : base_fresh b -> valid_params (bT b) (bN b) (bg b) (bm b) (bM b).
Proof. intros F. apply b_compute_is_ok. exists b. apply bfresh_recompute, F. Qed.

(** Each setter of a fresh model returns exactly on the values that keep the parameters valid. *)
Lemma l_setters_exact l n : lauto l = true -> (0 < n)%nat -> lip_fresh l n ->
  (forall g, is_ok (l_setGravity g l) <-> 1/10000 < Rabs (gz g))
  /\ (forall m, is_ok (l_setMass m l) <-> 0 <= m <= lM l)
  /\ (forall M, is_ok (l_setTotalMass M l) <-> lm l <= M /\ 1/10000 < M)
  /\ (forall h, is_ok (l_setComHeight h l))
  /\ (forall n, is_ok (l_setNbSamples n l) <-> (0 < n)%nat)
  /\ (forall T, is_ok (l_setSamplingPeriod T l) <-> 0 < T)
  /\ (forall f, is_ok (l_setFeedbackPeriod f l) <-> 0 < f).
Proof.
  intros Ha Hn F. pose proof (lfresh_valid l n F Hn) as (Hf & V).
  assert (Nb := lf_nb _ _ F). assert (V' := V). destruct V' as (V1 & V2 & V3 & V4 & V5).
  repeat split.
  - intros H. unfold l_setGravity in H. apply guard_is_ok in H. destruct H as (_ & H).
    rewrite (l_autoCop_is_ok _ n) in H; [|exact Ha|exact Nb]. destruct (H Hn) as (_ & _ & _ & W & _). exact W.
  - intros H. unfold l_setGravity. apply guard_is_ok. split; [rewrite sabs_Rabs; apply Rltb_true; exact V3|].
    rewrite (l_autoCop_is_ok _ n); [|exact Ha|exact Nb]. intros _. split; [exact Hf|]. split; [exact V1|]. split; [exact V2|]. split; [exact H|]. split; [exact V4|exact V5].
  - unfold l_setMass in H. rewrite (l_autoCop_is_ok _ n) in H; [|exact Ha|exact Nb]. destruct (H Hn) as (_ & _ & _ & _ & W & _). exact (proj1 W).
  - unfold l_setMass in H. rewrite (l_autoCop_is_ok _ n) in H; [|exact Ha|exact Nb]. destruct (H Hn) as (_ & _ & _ & _ & W & _). exact (proj2 W).
  - intros H. unfold l_setMass. rewrite (l_autoCop_is_ok _ n); [|exact Ha|exact Nb]. intros _.
    split; [exact Hf|]. split; [exact V1|]. split; [exact V2|]. split; [exact V3|]. split; [exact H|exact V5].
  - unfold l_setTotalMass in H. apply guard_is_ok in H. destruct H as (H & _). apply Rleb_true in H. exact H.
  - unfold l_setTotalMass in H. apply guard_is_ok in H. destruct H as (_ & H). rewrite (l_autoCop_is_ok _ n) in H; [|exact Ha|exact Nb].
    destruct (H Hn) as (_ & _ & _ & _ & _ & W). exact W.
  - intros (H1 & H2). unfold l_setTotalMass. apply guard_is_ok. split; [apply Rleb_true; exact H1|].
    rewrite (l_autoCop_is_ok _ n); [|exact Ha|exact Nb]. intros _. destruct V4 as (V4 & _).
    split; [exact Hf|]. split; [exact V1|]. split; [exact V2|]. split; [exact V3|]. split; [split; assumption|exact H2].
  - intros h. unfold l_setComHeight. rewrite (l_autoCop_is_ok _ n); [|exact Ha|exact Nb]. intros _. split; [exact Hf|exact V].
  - intros H. unfold l_setNbSamples in H. apply guard_is_ok in H. destruct H as (H & _). apply Nat.ltb_lt in H. exact H.
  - intros H. unfold l_setNbSamples. apply guard_is_ok. split; [apply Nat.ltb_lt; exact H|]. unfold l_auto. cbn [lauto l_setPar]. rewrite Ha.
    edestruct (l_compute_returns) as (l' & E & _); [| |exists l'; exact E]; [exact Hf|].
    split; [exact V1|]. split; [exact H|]. split; [exact V3|]. split; [exact V4|exact V5].
  - intros H. unfold l_setSamplingPeriod in H. apply guard_is_ok in H. destruct H as (H & _). apply Rltb_true in H. exact H.
  - intros H. unfold l_setSamplingPeriod. apply guard_is_ok. split; [apply Rltb_true; exact H|]. unfold l_auto. cbn [lauto l_setPar]. rewrite Ha.
    edestruct (l_compute_returns) as (l' & E & _); [| |exists l'; exact E]; [exact H|].
    split; [exact H|]. split; [exact V2|]. split; [exact V3|]. split; [exact V4|exact V5].
  - intros H. unfold l_setFeedbackPeriod in H. apply guard_is_ok in H. destruct H as (H & K). apply Rleb_true in H. change (0 <= f) in H.
    destruct H as [H|<-]; [exact H|]. exfalso. unfold l_auto in K. cbn [lauto l_setPar] in K. rewrite Ha in K. destruct K as (l' & K).
    apply compute_lfresh in K. destruct K as ((n' & [_ K _ _ _ _ _ _ _ _]) & O & _). apply K.
    exact (f_equal ofb O).
  - intros H. unfold l_setFeedbackPeriod. apply guard_is_ok. split; [apply Rleb_true; change (0 <= f); lra|]. unfold l_auto. cbn [lauto l_setPar]. rewrite Ha.
    edestruct (l_compute_returns) as (l' & E & _); [| |exists l'; exact E]; [exact H|exact V].
Qed.
Lemma b_setters_exact b : bauto b = true -> base_fresh b ->
  (forall g, is_ok (b_setGravity g b) <-> 1/10000 < Rabs (gz g))
  /\ (forall m, is_ok (b_setMass m b) <-> 0 < m <= bM b)
  /\ (forall M, is_ok (b_setTotalMass M b) <-> bm b <= M /\ 1/10000 < M)
  /\ (forall h, is_ok (b_setComHeight h b))
  /\ (forall n, is_ok (b_setNbSamples n b) <-> (0 < n)%nat)
  /\ (forall T, is_ok (b_setSamplingPeriod T b) <-> 0 < T).
Proof.
  intros Ha F. pose proof (bfresh_valid b F) as V.
  assert (V' := V). destruct V' as (V1 & V2 & V3 & V4 & V5). repeat split.
  - intros H. unfold b_setGravity in H. apply guard_is_ok in H. destruct H as (_ & H). rewrite b_autoCop_is_ok in H by exact Ha.
    destruct H as (_ & _ & W & _). exact W.
  - intros H. unfold b_setGravity. apply guard_is_ok. split; [rewrite sabs_Rabs; apply Rltb_true; exact V3|]. rewrite b_autoCop_is_ok by exact Ha.
    split; [exact V1|]. split; [exact V2|]. split; [exact H|]. split; [exact V4|exact V5].
  - unfold b_setMass in H. apply guard_is_ok in H. destruct H as (H & _). apply Rltb_true in H. exact H.
  - unfold b_setMass in H. apply guard_is_ok in H. destruct H as (_ & H). rewrite b_autoCop_is_ok in H by exact Ha.
    destruct H as (_ & _ & _ & W & _). exact (proj2 W).
  - intros (H1 & H2). unfold b_setMass. apply guard_is_ok. split; [apply Rltb_true; exact H1|]. rewrite b_autoCop_is_ok by exact Ha.
    split; [exact V1|]. split; [exact V2|]. split; [exact V3|]. split; [split; [apply Rlt_le; exact H1|exact H2]|exact V5].
  - unfold b_setTotalMass in H. apply guard_is_ok in H. destruct H as (H & _). apply Rleb_true in H. exact H.
  - unfold b_setTotalMass in H. apply guard_is_ok in H. destruct H as (_ & H). apply guard_is_ok in H. destruct H as (_ & H).
    rewrite b_autoCop_is_ok in H by exact Ha. destruct H as (_ & _ & _ & _ & W). exact W.
  - intros (H1 & H2). unfold b_setTotalMass. apply guard_is_ok. split; [apply Rleb_true; exact H1|]. apply guard_is_ok.
    split; [apply Rltb_true; change (0 < M); lra|]. rewrite b_autoCop_is_ok by exact Ha. destruct V4 as (V4 & _).
    split; [exact V1|]. split; [exact V2|]. split; [exact V3|]. split; [split; assumption|exact H2].
  - intros h. unfold b_setComHeight. rewrite b_autoCop_is_ok by exact Ha. exact V.
  - intros H. unfold b_setNbSamples in H. apply guard_is_ok in H. destruct H as (H & _). apply Nat.ltb_lt in H. exact H.
  - intros H. unfold b_setNbSamples. apply guard_is_ok. split; [apply Nat.ltb_lt; exact H|]. unfold b_auto. cbn [bauto b_setPar]. rewrite Ha.
    apply b_compute_is_ok. split; [exact V1|]. split; [exact H|]. split; [exact V3|]. split; [exact V4|exact V5].
  - intros H. unfold b_setSamplingPeriod in H. apply guard_is_ok in H. destruct H as (H & _). apply Rltb_true in H. exact H.
  - intros H. unfold b_setSamplingPeriod. apply guard_is_ok. split; [apply Rltb_true; exact H|]. unfold b_auto. cbn [bauto b_setPar]. rewrite Ha.
    apply b_compute_is_ok. split; [exact H|]. split; [exact V2|]. split; [exact V3|]. split; [exact V4|exact V5].
Qed.
