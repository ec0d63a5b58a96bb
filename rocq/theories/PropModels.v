(** Properties of the robot models: C24, C25, C50. *)

From Coq Require Import Reals List ZArith Lra Lia Arith Bool.
From Verif Require Import Scalar LinAlg LinAlgFacts ToolsModel ToolsSpec ToolsFacts NoDynModel PolygonModel
  LipModel BaseModel FootModel ModelsSpec TrajFacts ModelsFacts PropTools.
Import ListNotations.
Local Open Scope R_scope.

(** ** Previews of fresh dynamics *)
Lemma fresh_pos S T N d : computePosDynamic S T N = Ok d -> previews d S T N pos.
Proof.
  intros H. split; [|intros x X i Hi; exact (preview_pos _ _ _ _ x X i H Hi)].
  apply computePosDynamic_inv in H. destruct H as (_ & _ & _ & E & _ & _ & ET & _). rewrite ET, E. auto.
Qed.
Lemma fresh_vel S T N d : computeVelDynamic S T N = Ok d -> previews d S T N vel.
Proof.
  intros H. split; [|intros x X i Hi; exact (preview_vel _ _ _ _ x X i H Hi)].
  apply computeVelDynamic_inv in H. destruct H as (_ & _ & _ & E & _ & _ & ET & _). rewrite ET, E. auto.
Qed.
Lemma fresh_acc S T N d : 0 < S -> computeAccDynamic S T N = Ok d -> previews d S T N acc.
Proof.
  intros HS H. split; [|intros x X i Hi; exact (preview_acc _ _ _ _ x X i H HS Hi)].
  apply computeAccDynamic_inv in H. destruct H as (_ & _ & _ & E & _ & _ & ET & _). rewrite ET, E. auto.
Qed.
Lemma fresh_cop S T N h g0 gz m M d : computeCopDynamic S T N h g0 gz m M = Ok d -> previews d S T N (cop_of h g0 gz m M).
Proof.
  intros H. split; [|intros x X i Hi; exact (preview_cop _ _ _ _ _ _ _ _ _ x X i H Hi)].
  apply computeCopDynamic_inv in H. destruct H as (_ & _ & _ & _ & _ & _ & _ & E & _ & _ & ET & _). rewrite ET, E. auto.
Qed.
Lemma fresh_ta T N d : computeOrder2PosDynamic T T N = Ok d -> previews2 d T N ang.
Proof.
  intros H. split; [|intros x X i Hi; exact (preview_ord2pos _ _ _ _ x X i H Hi)].
  unfold computeOrder2PosDynamic in H. rewrite !guard_ok in H. destruct H as (_ & _ & _ & E). injection E as <-. auto.
Qed.
Lemma fresh_tv T N d : computeOrder2VelDynamic T T N = Ok d -> previews2 d T N angv.
Proof.
  intros H. split; [|intros x X i Hi; exact (preview_ord2vel _ _ _ _ x X i H Hi)].
  apply computeOrder2VelDynamic_inv in H. destruct H as (_ & _ & _ & E & _ & _ & ET & _). rewrite ET, E. auto.
Qed.

Lemma strunc_nat n x : 0 <= x -> Z.of_nat n = strunc (K:=R) x -> INR n <= x < INR n + 1.
Proof.
  intros Hx H. unfold strunc in H. change (sltb x s0) with (Rltb x 0) in H.
  destruct (Rltb_spec x 0); [lra|]. change (sfloor x) with (Int_part x) in H.
  rewrite INR_IZR_INZ, H. pose proof (base_Int_part x). lra.
Qed.
Lemma nth_at (l : lip R) n v k d : lnb l = Some (Z.of_nat n) -> (k < n)%nat -> nth_error v k = Some d ->
  l_at l v (Z.of_nat k) = Ok d.
Proof.
  intros E Hk H. unfold l_at. rewrite E. destruct (Z.ltb_spec (Z.of_nat k) (Z.of_nat n)); [|lia]. cbn [guard bind].
  destruct (Z.leb_spec 0 (Z.of_nat k)); [|lia]. cbn [ubguard bind]. rewrite Nat2Z.id, H. reflexivity.
Qed.
Lemma at_nth (l : lip R) n v k d : lnb l = Some (Z.of_nat n) -> l_at l v k = Ok d ->
  exists j, (j < n)%nat /\ k = Z.of_nat j /\ nth_error v j = Some d.
Proof.
  intros E H. unfold l_at in H. rewrite E in H. apply guard_ok in H. destruct H as (H1 & H). apply ubguard_ok in H. destruct H as (H2 & H).
  apply Z.ltb_lt in H1. apply Z.leb_le in H2. exists (Z.to_nat k). split; [lia|]. split; [lia|].
  destruct (nth_error v (Z.to_nat k)); [|discriminate]. injection H as ->. reflexivity.
Qed.

(** C24, LIPModel.  After any history of calls with automatic computation on:
    - the parameters and states are those of the history (each setter changes its parameter
      only; setSamplingPeriod also resets the feedback period);
    - the number n of feedback periods per sample is the integer part of (T+0.0001)/f;
    - for each k < n the getters return previews of the motion whose first interval lasts
      (k+1) f, for the current parameters; the getters without index are those of k = n-1. *)
Theorem C24_lip_previews_current : forall N T calls l0 l,
  newLip N T true = Ok l0 -> lsteps calls l0 = Ok l ->
  let o := fold_left lobs_step calls (lobs0 N T) in
  lobs_of l = o
  /\ (forall x (X : vec R) i, (i < oN o)%nat -> predict (ljerkD l) (vec_of_st3 x) X i = vget X i)
  /\ exists n,
     (0 < oT o -> 0 < ofb o -> INR n <= (oT o + 1/10000) / ofb o < INR n + 1)
     /\ (forall k, (k < n)%nat ->
         exists dp dv da dx dy,
           l_getComPos l (Z.of_nat k) = Ok dp /\ l_getComVel l (Z.of_nat k) = Ok dv /\ l_getComAcc l (Z.of_nat k) = Ok da
           /\ l_getCopX l (Z.of_nat k) = Ok dx /\ l_getCopY l (Z.of_nat k) = Ok dy
           /\ previews dp ((INR k + 1) * ofb o) (oT o) (oN o) pos
           /\ previews dv ((INR k + 1) * ofb o) (oT o) (oN o) vel
           /\ previews da ((INR k + 1) * ofb o) (oT o) (oN o) acc
           /\ previews dx ((INR k + 1) * ofb o) (oT o) (oN o) (cop_of (oh o) (gx (og o)) (gz (og o)) (om o) (oM o))
           /\ previews dy ((INR k + 1) * ofb o) (oT o) (oN o) (cop_of (oh o) (gy (og o)) (gz (og o)) (om o) (oM o)))
     /\ (forall k, (Z.of_nat n <= k)%Z -> l_getComPos l k = Abort /\ l_getCopX l k = Abort)
     /\ (forall v, (0 < n)%nat -> l_last l v = l_at l v (Z.of_nat n - 1)).
Proof.
  intros N T calls l0 l H0 H o. destruct (newLip_fresh _ _ _ H0) as ((n0 & F0) & O0 & A0).
  destruct (lsteps_fresh _ _ _ _ F0 A0 H) as ((n & F) & O & A). rewrite O0 in O. fold o in O.
  split; [exact O|]. destruct F as [F1 F2 F3 F4 F5 F6 F7 F8 F9 F10].
  assert (EN : oN o = lN l) by (rewrite <- O; reflexivity).
  assert (ET : oT o = lT l) by (rewrite <- O; reflexivity).
  assert (Ef : ofb o = lfb l) by (rewrite <- O; reflexivity).
  split; [intros; rewrite F10; apply preview_jerk; rewrite <- EN; assumption|]. exists n.
  split; [|split; [|split]].
  - intros HT Hf. apply strunc_nat.
    + apply Rmult_le_pos; [lra|]. apply Rlt_le, Rinv_0_lt_compat. assumption.
    + rewrite ET, Ef. exact F3.
  - intros k Hk. destruct F5 as (_ & F5), F6 as (_ & F6), F7 as (_ & F7), F8 as (_ & F8), F9 as (_ & F9).
    destruct (F5 k Hk) as (dp & P1 & P2), (F6 k Hk) as (dv & V1 & V2), (F7 k Hk) as (da & A1 & A2),
      (F8 k Hk) as (dx & X1 & X2), (F9 k Hk) as (dy & Y1 & Y2).
    exists dp, dv, da, dx, dy.
    assert (Eh : oh o = lh l) by (rewrite <- O; reflexivity). assert (Eg : og o = lg l) by (rewrite <- O; reflexivity).
    assert (Em : om o = lm l) by (rewrite <- O; reflexivity). assert (EM : oM o = lM l) by (rewrite <- O; reflexivity).
    rewrite ET, Ef, EN, Eh, Eg, Em, EM. change ((INR k + 1) * lfb l) with (lfst l k).
    pose proof (proj1 (computePosDynamic_inv _ _ _ _ P2)) as HS.
    repeat split; try (eapply nth_at; eassumption);
      [apply (fresh_pos _ _ _ _ P2)..|apply (fresh_vel _ _ _ _ V2)|apply (fresh_vel _ _ _ _ V2)|apply (fresh_vel _ _ _ _ V2)|apply (fresh_vel _ _ _ _ V2)
      |apply (fresh_acc _ _ _ _ HS A2)|apply (fresh_acc _ _ _ _ HS A2)|apply (fresh_acc _ _ _ _ HS A2)|apply (fresh_acc _ _ _ _ HS A2)
      |apply (fresh_cop _ _ _ _ _ _ _ _ _ X2)|apply (fresh_cop _ _ _ _ _ _ _ _ _ X2)|apply (fresh_cop _ _ _ _ _ _ _ _ _ X2)|apply (fresh_cop _ _ _ _ _ _ _ _ _ X2)
      |apply (fresh_cop _ _ _ _ _ _ _ _ _ Y2)|apply (fresh_cop _ _ _ _ _ _ _ _ _ Y2)|apply (fresh_cop _ _ _ _ _ _ _ _ _ Y2)|apply (fresh_cop _ _ _ _ _ _ _ _ _ Y2)].
  - intros k Hk. unfold l_getComPos, l_getCopX, l_at. rewrite F4. destruct (Z.ltb_spec k (Z.of_nat n)); [lia|]. split; reflexivity.
  - intros v Hn. unfold l_last, l_at. rewrite F4. destruct (Z.leb_spec 1 (Z.of_nat n)); [|lia].
    destruct (Z.ltb_spec (Z.of_nat n - 1) (Z.of_nat n)); [|lia]. destruct (Z.leb_spec 0 (Z.of_nat n - 1)); [|lia]. reflexivity.
Qed.
(** Recomputing everything explicitly never changes a model with automatic computation. *)
Theorem C24_lip_recompute_changes_nothing : forall N T calls l0 l,
  newLip N T true = Ok l0 -> lsteps calls l0 = Ok l -> l_computeDynamics l = Ok l.
Proof.
  intros N T calls l0 l H0 H. destruct (newLip_fresh _ _ _ H0) as ((n0 & F0) & O0 & A0).
  destruct (lsteps_fresh _ _ _ _ F0 A0 H) as ((n & F) & _). exact (lfresh_recompute l n F).
Qed.

(** C24, BaseModel. *)
Theorem C24_base_previews_current : forall N T tc calls b0 b,
  newBase N T true = Ok b0 /\ tc = Some 0 \/ newBaseDefault = Ok b0 /\ N = 1%nat /\ T = 1 /\ tc = None ->
  bsteps calls b0 = Ok b ->
  let o := fold_left bobs_step calls (bobs0 N T tc) in
  bobs_of b = o
  /\ previews (bposD b) (pT o) (pT o) (pN o) pos
  /\ previews (bvelD b) (pT o) (pT o) (pN o) vel
  /\ previews (baccD b) (pT o) (pT o) (pN o) acc
  /\ (forall x (X : vec R) i, (i < pN o)%nat -> predict (bjerkD b) (vec_of_st3 x) X i = vget X i)
  /\ previews (bcxD b) (pT o) (pT o) (pN o) (cop_of (ph o) (gx (pg o)) (gz (pg o)) (pm o) (pM o))
  /\ previews (bcyD b) (pT o) (pT o) (pN o) (cop_of (ph o) (gy (pg o)) (gz (pg o)) (pm o) (pM o))
  /\ previews2 (btaD b) (pT o) (pN o) ang
  /\ previews2 (btvD b) (pT o) (pN o) angv
  /\ b_computeDynamics b = Ok b.
Proof.
  intros N T tc calls b0 b H0 H o.
  assert (B : base_fresh b0 /\ bobs_of b0 = bobs0 N T tc /\ bauto b0 = true).
  { destruct H0 as [(H0 & ->)|(H0 & -> & -> & ->)]; [apply newBase_fresh|apply newBaseDefault_fresh]; assumption. }
  destruct B as (F0 & O0 & A0). destruct (bsteps_fresh _ _ _ F0 A0 H) as (F & O & A). rewrite O0 in O. fold o in O.
  split; [exact O|]. rewrite <- O. assert (F' := F). destruct F as [F1 F2 F3 F4 F5 F6 F7 F8].
  cbn [bobs_of pN pT ph pg pm pM].
  assert (HT := proj1 (computePosDynamic_inv _ _ _ _ F1)).
  split; [apply fresh_pos, F1|]. split; [apply fresh_vel, F2|]. split; [apply fresh_acc; [exact HT|exact F3]|].
  split; [intros; rewrite F4; apply preview_jerk; assumption|]. split; [apply fresh_cop, F5|]. split; [apply fresh_cop, F6|].
  split; [apply fresh_ta, F7|]. split; [apply fresh_tv, F8|apply bfresh_recompute, F'].
Qed.

(** C24, NoDynamicModel. *)
Theorem C24_nodyn_previews_current : forall N T calls m0 m,
  newNoDyn N T true = Ok m0 -> nsteps calls m0 = Ok m ->
  let o := fold_left nobs_step calls (nobs0 N T) in
  nobs_of m = o
  /\ previews (nposD m) (qT o) (qT o) (qN o) pos
  /\ previews (nvelD m) (qT o) (qT o) (qN o) vel
  /\ previews (naccD m) (qT o) (qT o) (qN o) acc
  /\ (forall x (X : vec R) i, (i < qN o)%nat -> predict (njerkD m) (vec_of_st3 x) X i = vget X i)
  /\ nodyn_computeDynamics m = Ok m.
Proof.
  intros N T calls m0 m H0 H o. destruct (newNoDyn_fresh _ _ _ H0) as (F0 & O0 & A0).
  destruct (nsteps_fresh _ _ _ F0 A0 H) as (F & O & A). rewrite O0 in O. fold o in O. split; [exact O|]. rewrite <- O. cbn [nobs_of qN qT].
  assert (F' := F). destruct F as [F1 F2 F3 F4 F5 F6].
  split; [apply fresh_pos, F3|]. split; [apply fresh_vel, F4|]. split; [apply fresh_acc; [exact F2|exact F5]|].
  split; [intros; rewrite F6; apply preview_jerk; assumption|apply nfresh_recompute, F'].
Qed.

(** ** C25: what the setters accept *)

(** NoDynamicModel: in both modes, after any calls, the number of samples and the period are positive and
    the limits are not negative, and each call returns exactly on the values that keep it so. *)
Definition nodyn_valid (m : nodyn R) : Prop := (0 < nN m)%nat /\ 0 < nT m /\ 0 <= nvelLim m /\ 0 <= naccLim m /\ 0 <= njerkLim m.
Lemma nodyn_compute_same m m' : nodyn_computeDynamics (K:=R) m = Ok m' -> nodyn_valid m -> nodyn_valid m'.
Proof. intros H V. unfold nodyn_computeDynamics in H. binds H. injection H as <-. exact V. Qed.
Lemma nodyn_auto_same m m' : nodyn_auto (K:=R) m = Ok m' -> nodyn_valid m -> nodyn_valid m'.
Proof. unfold nodyn_auto. destruct (nauto m); [apply nodyn_compute_same|intros H; injection H as <-; auto]. Qed.
Lemma nodyn_new_is_ok N T a : is_ok (newNoDyn (K:=R) N T a) <-> (0 < N)%nat /\ 0 < T.
Proof.
  unfold newNoDyn. rewrite !guard_is_ok. change (sltb s0 T) with (Rltb 0 T). rewrite Rltb_true, Nat.ltb_lt. split; [tauto|]. intros (A & B). do 2 (split; [assumption|]).
  apply nodyn_auto_ok; assumption.
Qed.
Lemma nodyn_step_valid c m m' : nodyn_valid m -> nstep c m = Ok m' -> nodyn_valid m'.
Proof.
  intros (V1 & V2 & V3 & V4 & V5) H. destruct c; cbn [nstep] in H.
  - unfold nodyn_setNbSamples in H. apply guard_ok in H. destruct H as (L & H). apply Nat.ltb_lt in L. apply nodyn_auto_same in H; [exact H|]. repeat split; assumption.
  - unfold nodyn_setSamplingPeriod in H. apply guard_ok in H. destruct H as (L & H). change (Rltb 0 T = true) in L. apply Rltb_true in L. apply nodyn_auto_same in H; [exact H|]. repeat split; assumption.
  - unfold nodyn_setState in H. apply bind_ok in H. destruct H as (x & _ & H). injection H as <-. repeat split; assumption.
  - unfold nodyn_updateState in H. apply bind_ok in H. destruct H as (x & _ & H). injection H as <-. repeat split; assumption.
  - unfold nodyn_setVelocityLimit in H. apply guard_ok in H. destruct H as (L & H). change (Rleb 0 l = true) in L. apply Rleb_true in L. injection H as <-. repeat split; assumption.
  - unfold nodyn_setAccelerationLimit in H. apply guard_ok in H. destruct H as (L & H). change (Rleb 0 l = true) in L. apply Rleb_true in L. injection H as <-. repeat split; assumption.
  - unfold nodyn_setJerkLimit in H. apply guard_ok in H. destruct H as (L & H). change (Rleb 0 l = true) in L. apply Rleb_true in L. injection H as <-. repeat split; assumption.
  - apply nodyn_compute_same in H; [exact H|]. repeat split; assumption.
Qed.
Theorem C25_nodyn_setters_exact : forall N T auto m0 calls m, newNoDyn N T auto = Ok m0 -> nsteps calls m0 = Ok m ->
  ((0 < nN m)%nat /\ 0 < nT m /\ 0 <= nvelLim m /\ 0 <= naccLim m /\ 0 <= njerkLim m)
  /\ (forall n, is_ok (nodyn_setNbSamples n m) <-> (0 < n)%nat)
  /\ (forall p, is_ok (nodyn_setSamplingPeriod p m) <-> 0 < p)
  /\ (forall v, is_ok (nodyn_setState v m) <-> vlen v = 3%nat)
  /\ (forall j t, is_ok (nodyn_updateState j t m) <-> 0 < t)
  /\ (forall l, is_ok (nodyn_setVelocityLimit l m) <-> 0 <= l)
  /\ (forall l, is_ok (nodyn_setAccelerationLimit l m) <-> 0 <= l)
  /\ (forall l, is_ok (nodyn_setJerkLimit l m) <-> 0 <= l)
  /\ is_ok (nodyn_computeDynamics m).
Proof.
  intros N T auto m0 calls m H0 H.
  assert (V0 : nodyn_valid m0).
  { destruct (proj1 (nodyn_new_is_ok N T auto) (ex_intro _ _ H0)) as (A & B). unfold newNoDyn in H0. apply guard_ok in H0. destruct H0 as (_ & H0). apply guard_ok in H0. destruct H0 as (_ & H0).
    apply nodyn_auto_same in H0; [exact H0|]. unfold nodyn_valid. cbn. rsimpl. repeat split; try assumption; lra. }
  assert (V : nodyn_valid m).
  { clear H0. revert m0 V0 H. induction calls as [|c calls IH]; intros m0 V0 H; cbn [nsteps] in H; [injection H as <-; exact V0|]. apply bind_ok in H. destruct H as (m1 & H1 & H). apply (IH m1); [apply (nodyn_step_valid c m0); assumption|exact H]. }
  split; [exact V|]. destruct V as (V1 & V2 & _).
  split; [|split; [|split; [|split; [|split; [|split; [|split]]]]]]; try intros x; try intros y.
  - unfold nodyn_setNbSamples. rewrite guard_is_ok, Nat.ltb_lt. split; [tauto|]. intros L. split; [exact L|]. apply nodyn_auto_ok; assumption.
  - unfold nodyn_setSamplingPeriod. rewrite guard_is_ok. change (sltb s0 x) with (Rltb 0 x). rewrite Rltb_true. split; [tauto|]. intros L. split; [exact L|]. apply nodyn_auto_ok; assumption.
  - unfold nodyn_setState, st3_of_vec. destruct (Nat.eqb_spec (vlen x) 3) as [E|E]; cbn [guard bind]; split; intros Q; try exact E; try (eexists; reflexivity); [destruct Q; discriminate|contradiction].
  - unfold nodyn_updateState, updateState. change (sltb s0 y) with (Rltb 0 y). destruct (Rltb_spec 0 y) as [E|E]; cbn [guard bind]; split; intros Q; try exact E; try (eexists; reflexivity); [destruct Q; discriminate|lra].
  - unfold nodyn_setVelocityLimit. rewrite guard_is_ok. change (sleb s0 x) with (Rleb 0 x). rewrite Rleb_true. split; [tauto|]. intros L. split; [exact L|eexists; reflexivity].
  - unfold nodyn_setAccelerationLimit. rewrite guard_is_ok. change (sleb s0 x) with (Rleb 0 x). rewrite Rleb_true. split; [tauto|]. intros L. split; [exact L|eexists; reflexivity].
  - unfold nodyn_setJerkLimit. rewrite guard_is_ok. change (sleb s0 x) with (Rleb 0 x). rewrite Rleb_true. split; [tauto|]. intros L. split; [exact L|eexists; reflexivity].
  - destruct (nodyn_auto_ok (MkNoDyn true (nN m) (nT m) (nstate m) (nvelLim m) (naccLim m) (njerkLim m) (nposD m) (nvelD m) (naccD m) (njerkD m)) V1 V2) as (m' & E).
    unfold nodyn_auto in E. cbn [nauto] in E. unfold nodyn_computeDynamics in *. cbn [nT nN] in E. binds E. clear E. repeat match goal with B : _ = Ok ?l |- context [bind _ _] => rewrite B; clear B; cbn [bind] end. eexists. reflexivity.
Qed.
(** What a call changes: the value it names, and no other parameter. *)
Definition nodyn_params (m : nodyn R) := (nN m, nT m, nstate m, (nvelLim m, naccLim m, njerkLim m)).
Lemma nodyn_compute_params m m' : nodyn_computeDynamics (K:=R) m = Ok m' -> nodyn_params m' = nodyn_params m.
Proof. intros H. unfold nodyn_computeDynamics in H. binds H. injection H as <-. reflexivity. Qed.
Lemma nodyn_auto_params m m' : nodyn_auto (K:=R) m = Ok m' -> nodyn_params m' = nodyn_params m.
Proof. unfold nodyn_auto. destruct (nauto m); [apply nodyn_compute_params|intros H; injection H as <-; auto]. Qed.
Theorem C25_nodyn_readback : forall m m',
  (forall n, nodyn_setNbSamples n m = Ok m' -> nodyn_params m' = (n, nT m, nstate m, (nvelLim m, naccLim m, njerkLim m)))
  /\ (forall p, nodyn_setSamplingPeriod p m = Ok m' -> nodyn_params m' = (nN m, p, nstate m, (nvelLim m, naccLim m, njerkLim m)))
  /\ (forall v, nodyn_setState v m = Ok m' -> nodyn_params m' = (nN m, nT m, St3 (vget v 0) (vget v 1) (vget v 2), (nvelLim m, naccLim m, njerkLim m)))
  /\ (forall l, nodyn_setVelocityLimit l m = Ok m' -> nodyn_params m' = (nN m, nT m, nstate m, (l, naccLim m, njerkLim m)))
  /\ (forall l, nodyn_setAccelerationLimit l m = Ok m' -> nodyn_params m' = (nN m, nT m, nstate m, (nvelLim m, l, njerkLim m)))
  /\ (forall l, nodyn_setJerkLimit l m = Ok m' -> nodyn_params m' = (nN m, nT m, nstate m, (nvelLim m, naccLim m, l)))
  /\ (nodyn_computeDynamics m = Ok m' -> nodyn_params m' = nodyn_params m).
Proof.
  intros m m'. split; [|split; [|split; [|split; [|split; [|split]]]]].
  - intros x H. unfold nodyn_setNbSamples in H. apply guard_ok in H. destruct H as (_ & H). exact (nodyn_auto_params _ _ H).
  - intros x H. unfold nodyn_setSamplingPeriod in H. apply guard_ok in H. destruct H as (_ & H). exact (nodyn_auto_params _ _ H).
  - intros x H. unfold nodyn_setState, st3_of_vec in H. apply bind_ok in H. destruct H as (y & E & H). apply bind_ok in E. destruct E as (_ & _ & E). injection E as <-. injection H as <-. reflexivity.
  - intros x H. unfold nodyn_setVelocityLimit in H. apply guard_ok in H. destruct H as (_ & H). injection H as <-. reflexivity.
  - intros x H. unfold nodyn_setAccelerationLimit in H. apply guard_ok in H. destruct H as (_ & H). injection H as <-. reflexivity.
  - intros x H. unfold nodyn_setJerkLimit in H. apply guard_ok in H. destruct H as (_ & H). injection H as <-. reflexivity.
  - intros H. exact (nodyn_compute_params _ _ H).
Qed.
Theorem C25_nodyn_constructor : forall N T auto, is_ok (newNoDyn (K:=R) N T auto) <-> (0 < N)%nat /\ 0 < T.
Proof. exact nodyn_new_is_ok. Qed.
Example C25_nodyn_case : exists m0 m, newNoDyn 3 (1/10) false = Ok m0 /\ nsteps [NSetVelocityLimit 0; NSetSamplingPeriod 2] m0 = Ok m /\ nvelLim m = 0 /\ nT m = 2.
Proof.
  unfold newNoDyn. change (sltb s0 (1/10)) with (Rltb 0 (1/10)). rewrite (proj2 (Rltb_true 0 (1/10))) by lra. cbn [Nat.ltb Nat.leb guard bind nodyn_auto nauto]. eexists. eexists. split; [reflexivity|].
  cbn [nsteps nstep]. unfold nodyn_setVelocityLimit, nodyn_setSamplingPeriod. change (sleb s0 0) with (Rleb 0 0). change (sltb s0 2) with (Rltb 0 2).
  rewrite (proj2 (Rleb_true 0 0)), (proj2 (Rltb_true 0 2)) by lra. cbn. split; [reflexivity|]. split; reflexivity.
Qed.

(** A LIPModel with automatic computation reached by some history, with at least one preview. *)
Definition lip_ready (l : lip R) : Prop :=
  (exists N T l0 calls, newLip N T true = Ok l0 /\ lsteps calls l0 = Ok l) /\ exists k d, l_getCopX l k = Ok d.
Lemma ready_fresh l : lip_ready l -> lauto l = true /\ exists n, (0 < n)%nat /\ lip_fresh l n.
Proof.
  intros ((N & T & l0 & calls & H0 & H) & k & d & Hk). destruct (newLip_fresh _ _ _ H0) as ((n0 & F0) & O0 & A0).
  destruct (lsteps_fresh _ _ _ _ F0 A0 H) as ((n & F) & _ & A). split; [exact A|]. exists n. split; [|exact F].
  unfold l_getCopX in Hk. apply (at_nth _ n) in Hk; [|exact (lf_nb _ _ F)]. destruct Hk as (j & Hj & _). lia.
Qed.
(** If a preview can be read, all parameters are valid, whatever the history. *)
Theorem C25_lip_available_implies_valid : forall l,
  lip_ready l -> 0 < lfb l /\ valid_params (lT l) (lN l) (lg l) (lm l) (lM l).
Proof. intros l H. apply ready_fresh in H. destruct H as (_ & n & Hn & F). exact (lfresh_valid l n F Hn). Qed.

(** Each setter then returns exactly on the values that keep the parameters valid. *)
Theorem C25_lip_setters_exact : forall l, lip_ready l ->
  (forall g, is_ok (l_setGravity g l) <-> 1/10000 < Rabs (gz g))
  /\ (forall m, is_ok (l_setMass m l) <-> 0 <= m <= lM l)
  /\ (forall M, is_ok (l_setTotalMass M l) <-> lm l <= M /\ 1/10000 < M)
  /\ (forall h, is_ok (l_setComHeight h l))
  /\ (forall n, is_ok (l_setNbSamples n l) <-> (0 < n)%nat)
  /\ (forall T, is_ok (l_setSamplingPeriod T l) <-> 0 < T)
  /\ (forall f, is_ok (l_setFeedbackPeriod f l) <-> 0 < f).
Proof. intros l H. apply ready_fresh in H. destruct H as (Ha & n & Hn & F). exact (l_setters_exact l n Ha Hn F). Qed.

(** Conversely every history whose parameters are valid after each call runs to its end. *)
Definition lip_obs_valid (o : lobs) : Prop := 0 < ofb o /\ valid_params (oT o) (oN o) (og o) (om o) (oM o).
Definition lip_args_ok (c : lcall R) : Prop :=
  match c with
  | LSetStateX v | LSetStateY v | LSetStateYaw v => vlen v = 3%nat
  | LUpdateStateX _ f | LUpdateStateY _ f | LUpdateStateYaw _ f => 0 < f
  | _ => True
  end.
Fixpoint lip_history_ok (o : lobs) (calls : list (lcall R)) : Prop :=
  match calls with
  | [] => True
  | c :: r => lip_args_ok c /\ lip_obs_valid (lobs_step o c) /\ lip_history_ok (lobs_step o c) r
  end.
Lemma lstep_returns c l n : lip_fresh l n -> lauto l = true -> lip_obs_valid (lobs_of l) ->
  lip_args_ok c -> lip_obs_valid (lobs_step (lobs_of l) c) -> is_ok (lstep c l).
Proof.
  intros F Ha V A W. assert (Nb := lf_nb _ _ F). destruct c; cbn [lstep lobs_step lobs_of lip_args_ok] in *.
  - exists l. exact (lfresh_recompute l n F).
  - unfold l_setNbSamples. destruct W as (W1 & W). apply guard_is_ok. split; [apply Nat.ltb_lt; exact (proj1 (proj2 W))|].
    unfold l_auto. cbn [lauto l_setPar]. rewrite Ha. edestruct l_compute_returns as (l' & E & _); [| |exists l'; exact E]; [exact W1|exact W].
  - unfold l_setSamplingPeriod. destruct W as (W1 & W). apply guard_is_ok. split; [apply Rltb_true; exact W1|].
    unfold l_auto. cbn [lauto l_setPar]. rewrite Ha. edestruct l_compute_returns as (l' & E & _); [| |exists l'; exact E]; [exact W1|exact W].
  - unfold l_setFeedbackPeriod. destruct W as (W1 & W). apply guard_is_ok. split; [apply Rleb_true; apply Rlt_le; exact W1|].
    unfold l_auto. cbn [lauto l_setPar]. rewrite Ha. edestruct l_compute_returns as (l' & E & _); [| |exists l'; exact E]; [exact W1|exact W].
  - unfold l_setComHeight. rewrite (l_autoCop_is_ok _ n); [|exact Ha|exact Nb]. intros _. exact W.
  - unfold l_setGravity. apply guard_is_ok. split; [rewrite sabs_Rabs; apply Rltb_true; destruct V as (_ & _ & _ & V & _); exact V|].
    rewrite (l_autoCop_is_ok _ n); [|exact Ha|exact Nb]. intros _. exact W.
  - unfold l_setMass. rewrite (l_autoCop_is_ok _ n); [|exact Ha|exact Nb]. intros _. exact W.
  - unfold l_setTotalMass. apply guard_is_ok. split; [apply Rleb_true; destruct W as (_ & _ & _ & _ & W & _); exact (proj2 W)|].
    rewrite (l_autoCop_is_ok _ n); [|exact Ha|exact Nb]. intros _. exact W.
  - unfold l_setStateX, st3_of_vec. rewrite A. cbn. eexists; reflexivity.
  - unfold l_setStateY, st3_of_vec. rewrite A. cbn. eexists; reflexivity.
  - unfold l_setStateYaw, st3_of_vec. rewrite A. cbn. eexists; reflexivity.
  - unfold l_updateStateX. rewrite updateState_ok by exact A. eexists; reflexivity.
  - unfold l_updateStateY. rewrite updateState_ok by exact A. eexists; reflexivity.
  - unfold l_updateStateYaw. rewrite updateState_ok by exact A. eexists; reflexivity.
Qed.
Theorem C25_lip_valid_histories_run : forall N T calls,
  (0 < N)%nat -> 0 < T -> lip_history_ok (lobs0 N T) calls ->
  exists l0 l, newLip N T true = Ok l0 /\ lsteps calls l0 = Ok l.
Proof.
  intros N T calls HN HT H.
  assert (V0 : lip_obs_valid (lobs0 N T)).
  { unfold lip_obs_valid, valid_params, lobs0. cbn [ofb oT oN og om oM gz]. rewrite Rabs_right by lra. repeat split; try lra; assumption. }
  assert (E : exists l0, newLip N T true = Ok l0).
  { unfold newLip, l_auto. cbn [lauto]. edestruct l_compute_returns as (l & E & _); [| |exists l; exact E]; [exact HT|exact (proj2 V0)]. }
  destruct E as (l0 & E). exists l0. destruct (newLip_fresh _ _ _ E) as ((n & F) & O & A). rewrite <- O in H, V0.
  enough (exists l, lsteps calls l0 = Ok l) as (l & ?) by eauto. clear E O. revert l0 n F A H V0.
  induction calls as [|c cs IH]; intros l0 n F A H V0; cbn [lsteps lip_history_ok] in *; [eauto|].
  destruct H as (H1 & H2 & H3). destruct (lstep_returns c l0 n F A V0 H1 H2) as (l1 & E).
  destruct (lstep_fresh _ _ _ _ F A E) as ((n1 & F1) & O1 & A1). rewrite E. cbn [bind].
  apply (IH l1 n1 F1 A1); rewrite O1; assumption.
Qed.

(** Two feedback periods per sample, another height, a tilted gravity, half of the mass, and a
    state update: the hypotheses of the theorems above can be met, with previews available. *)
Example C24_C25_lip_case : exists l0 l,
  newLip 2 1 true = Ok l0
  /\ lsteps [LSetFeedbackPeriod (1/2); LSetComHeight 2; LSetGravity (V3 1 0 10); LSetMass (1/2); LSetNbSamples 3;
              LUpdateStateX 1 (1/2)] l0 = Ok l
  /\ (exists k d, l_getCopX l k = Ok d) /\ lN l = 3%nat /\ lm l = 1/2 /\ pos (lsx l) = 1/48.
Proof.
  destruct (C25_lip_valid_histories_run 2 1 [LSetFeedbackPeriod (1/2); LSetComHeight 2; LSetGravity (V3 1 0 10); LSetMass (1/2); LSetNbSamples 3;
              LUpdateStateX 1 (1/2)]) as (l0 & l & H0 & H); [lia|lra| |].
  { cbn [lip_history_ok lobs_step lobs0 lip_args_ok]. unfold lip_obs_valid, valid_params. cbn [ofb oT oN og om oM gz].
    rewrite !Rabs_right by lra. repeat split; try lra; lia. }
  exists l0, l. split; [exact H0|]. split; [exact H|].
  destruct (C24_lip_previews_current 2 1 _ l0 l H0 H) as (O & _ & n & Hn & Hk & _). cbn in O, Hn, Hk.
  split; [|split; [exact (f_equal oN O)|split; [exact (f_equal om O)|rewrite (f_equal osx O : lsx l = _); cbn; field]]].
  destruct (Hk 0%nat) as (dp & dv & da & dx & dy & _ & _ & _ & K & _).
  { destruct Hn as (_ & Hn); [lra|lra|]. destruct n; [cbn in Hn; lra|lia]. }
  exists 0%Z, dx. exact K.
Qed.

(** Not every accepted call leaves valid parameters.  [violates]: the vertical gravity is zero,
    or the mass exceeds the total mass, or a period is not positive. *)
Definition violates (l : lip R) : Prop := gz (lg l) = 0 \/ lM l < lm l \/ lT l <= 0 \/ lfb l <= 0.
(** (a) Without automatic computation, every one of the four can be violated. *)
Theorem C25_lip_manual_refuted : exists l0,
  newLip 1 1 false = Ok l0
  /\ (exists l, l_setGravity (V3 0 0 0) l0 = Ok l /\ gz (lg l) = 0)
  /\ (exists l, l_setMass 2 l0 = Ok l /\ lM l < lm l)
  /\ (exists l, l_setFeedbackPeriod 0 l0 = Ok l /\ lfb l = 0)
  /\ (forall T, exists l, newLip 1 T false = Ok l /\ lT l = T).
Proof.
  eexists. split; [reflexivity|]. repeat split.
  - unfold l_setGravity. rewrite guard_pass; [eexists; split; reflexivity|].
    rewrite sabs_Rabs. apply Rltb_true. cbn [lg GRAVITY gz]. rsimpl. rewrite Rabs_right; lra.
  - eexists. split; [reflexivity|]. cbn. lra.
  - unfold l_setFeedbackPeriod. rewrite guard_pass; [eexists; split; reflexivity|]. apply Rleb_true. rsimpl. lra.
  - intros T. eexists. split; reflexivity.
Qed.
(** (b) With automatic computation, a feedback period longer than the sampling period (by more
    than 0.0001) disables the remaining checks. *)
Lemma nb_zero T fb : 0 < T -> T + 1/10000 < fb -> strunc (K:=R) ((T + 1/10000) / fb) = 0%Z.
Proof.
  intros HT H. assert (P : 0 <= (T + 1/10000) / fb) by (apply Rmult_le_pos; [lra|apply Rlt_le, Rinv_0_lt_compat; lra]).
  rewrite strunc_pos by exact P. pose proof (Int_part_nonneg _ P). pose proof (base_Int_part ((T+1/10000)/fb)) as (B & _).
  assert ((T + 1/10000) / fb < 1). { apply Rmult_lt_reg_r with fb; [lra|]. unfold Rdiv. rewrite Rmult_assoc, Rinv_l by lra. lra. }
  assert (L : IZR (Int_part ((T+1/10000)/fb)) < 1) by lra. apply lt_IZR in L. lia.
Qed.
Theorem C25_lip_long_feedback_refuted : forall l fb,
  lip_ready l -> lT l + 1/10000 < fb ->
  exists l1, l_setFeedbackPeriod fb l = Ok l1
  /\ (forall g, exists l2, l_setGravity g l1 = Ok l2 /\ lg l2 = g)
  /\ (forall m, exists l2, l_setMass m l1 = Ok l2 /\ lm l2 = m)
  /\ l_last l1 (lcxD l1) = UB /\ (forall k, (k < 0)%Z -> l_getCopX l1 k = UB).
Proof.
  intros l fb R Hfb. pose proof (C25_lip_available_implies_valid l R) as (Hf & V). destruct (C25_lip_setters_exact l R) as (_ & _ & _ & _ & _ & _ & S).
  assert (V1 := proj1 V). assert (V3 := proj1 (proj2 (proj2 V))).
  destruct (proj2 (S fb)) as (l1 & E); [lra|]. exists l1. split; [exact E|].
  destruct (ready_fresh l R) as (Ha & n & Hn & F).
  destruct (lstep_fresh (LSetFeedbackPeriod fb) _ _ _ F Ha E) as ((n1 & F1) & O & A1).
  assert (E1 : lT l1 = lT l) by exact (f_equal oT O). assert (E2 : lfb l1 = fb) by exact (f_equal ofb O).
  assert (E3 : lg l1 = lg l) by exact (f_equal og O).
  assert (Hn1 : n1 = 0%nat). { pose proof (lf_n _ _ F1) as B. rewrite E1, E2, nb_zero in B by assumption. lia. }
  subst n1. assert (Nb := lf_nb _ _ F1). repeat split.
  - intros g. assert (K : is_ok (l_setGravity g l1)).
    { unfold l_setGravity. apply guard_is_ok. split; [rewrite sabs_Rabs, E3; apply Rltb_true; exact V3|].
      rewrite (l_autoCop_is_ok _ 0); [lia|exact A1|exact Nb]. }
    destruct K as (l2 & K). exists l2. split; [exact K|]. exact (f_equal og (proj1 (proj2 (lstep_fresh (LSetGravity g) _ _ _ F1 A1 K)))).
  - intros m. assert (K : is_ok (l_setMass m l1)).
    { unfold l_setMass. rewrite (l_autoCop_is_ok _ 0); [lia|exact A1|exact Nb]. }
    destruct K as (l2 & K). exists l2. split; [exact K|]. exact (f_equal om (proj1 (proj2 (lstep_fresh (LSetMass m) _ _ _ F1 A1 K)))).
  - unfold l_last. rewrite Nb. reflexivity.
  - intros k Hk. unfold l_getCopX, l_at. rewrite Nb. destruct (Z.ltb_spec k (Z.of_nat 0)); [|lia]. cbn [guard bind].
    destruct (Z.leb_spec 0 k); [lia|reflexivity].
Qed.
(** (c) A zero feedback period passes the assertion; the cast of T/0 to int is undefined. *)
Theorem C25_lip_zero_feedback_refuted : forall l, lauto l = true -> l_setFeedbackPeriod 0 l = UB.
Proof.
  intros l Ha. unfold l_setFeedbackPeriod. rewrite guard_pass by (apply Rleb_true; rsimpl; lra). unfold l_auto. cbn [lauto l_setPar].
  rewrite Ha. unfold l_computeDynamics, nbFeedback. cbn [lT lfb l_setPar]. change (seqb 0 s0) with (Reqb 0 0).
  destruct (Reqb_spec 0 0); [reflexivity|lra].
Qed.
(** (d) The constructor accepts a negative sampling period with automatic computation. *)
Theorem C25_lip_negative_period_refuted : exists l, newLip 5 (-1) true = Ok l /\ lT l = -1 /\ l_last l (lposD l) = UB.
Proof.
  assert (E : strunc (K:=R) ((-1 + 1/10000) / -1) = 0%Z).
  { rewrite strunc_pos by lra. pose proof (Int_part_nonneg ((-1 + 1/10000) / -1)). pose proof (base_Int_part ((-1+1/10000)/-1)) as (B & _).
    assert (L : IZR (Int_part ((-1 + 1/10000) / -1)) < 1) by lra. apply lt_IZR in L. assert (0 <= (-1 + 1/10000) / -1) by lra. specialize (H H0). lia. }
  unfold newLip, l_auto. cbn [lauto]. unfold l_computeDynamics, nbFeedback. cbn [lT lfb].
  change (seqb (-1) s0) with (Reqb (-1) 0). destruct (Reqb_spec (-1) 0); [lra|]. cbn [negb ubguard bind].
  change (strunc (sdiv (sadd (-1) EPS) (-1))) with (strunc (K:=R) ((-1 + 1/10000) / -1)). rewrite E. cbn. eexists. repeat split; reflexivity.
Qed.

(** BaseModel: with automatic computation the parameters are valid after every history. *)
Definition base_reachable (b : base R) : Prop :=
  exists b0 calls, ((exists N T, newBase N T true = Ok b0) \/ newBaseDefault = Ok b0) /\ bsteps calls b0 = Ok b.
Lemma base_reachable_fresh b : base_reachable b -> base_fresh b /\ bauto b = true.
Proof.
  intros (b0 & calls & [(N & T & H0)|H0] & H).
  - destruct (newBase_fresh _ _ _ H0) as (F & _ & A). destruct (bsteps_fresh _ _ _ F A H) as (F1 & _ & A1). auto.
  - destruct (newBaseDefault_fresh _ H0) as (F & _ & A). destruct (bsteps_fresh _ _ _ F A H) as (F1 & _ & A1). auto.
Qed.
Theorem C25_base_always_valid : forall b, base_reachable b -> valid_params (bT b) (bN b) (bg b) (bm b) (bM b).
Proof. intros b R. apply bfresh_valid. exact (proj1 (base_reachable_fresh b R)). Qed.
Theorem C25_base_setters_exact : forall b, base_reachable b ->
  (forall g, is_ok (b_setGravity g b) <-> 1/10000 < Rabs (gz g))
  /\ (forall m, is_ok (b_setMass m b) <-> 0 < m <= bM b)
  /\ (forall M, is_ok (b_setTotalMass M b) <-> bm b <= M /\ 1/10000 < M)
  /\ (forall h, is_ok (b_setComHeight h b))
  /\ (forall n, is_ok (b_setNbSamples n b) <-> (0 < n)%nat)
  /\ (forall T, is_ok (b_setSamplingPeriod T b) <-> 0 < T).
Proof. intros b H. apply base_reachable_fresh in H. destruct H as (F & Ha). exact (b_setters_exact b Ha F). Qed.
Example C24_C25_base_case : exists b0 b, newBase 4 (1/10) true = Ok b0
  /\ bsteps [BSetMass (1/2); BSetComHeight 1; BSetGravity (V3 1 2 9)] b0 = Ok b /\ base_reachable b /\ bm b = 1/2.
Proof.
  assert (E : is_ok (newBase (K:=R) 4 (1/10) true)).
  { unfold newBase. apply guard_is_ok. split; [apply Rltb_true; rsimpl; lra|]. apply guard_is_ok. split; [reflexivity|].
    unfold b_auto. cbn [bauto b_init]. apply b_compute_is_ok. cbn [bT bN bg bm bM b_init]. unfold valid_params, GRAVITY. cbn [gz]. rsimpl.
    rewrite Rabs_right by lra. repeat split; try lra. lia. }
  destruct E as (b0 & E). assert (R0 : base_reachable b0) by (exists b0, []; split; [left; eauto|reflexivity]).
  exists b0. destruct (newBase_fresh _ _ _ E) as (F0 & O0 & A0).
  assert (M0 : bM b0 = 1) by exact (f_equal pM O0).
  destruct (proj2 (proj1 (proj2 (C25_base_setters_exact b0 R0)) (1/2))) as (b1 & E1); [rewrite M0; lra|].
  assert (R1 : base_reachable b1) by (exists b0, [BSetMass (1/2)]; split; [left; eauto|cbn [bsteps bstep]; rewrite E1; reflexivity]).
  destruct (proj1 (proj2 (proj2 (proj2 (C25_base_setters_exact b1 R1)))) 1) as (b2 & E2).
  assert (R2 : base_reachable b2) by (exists b0, [BSetMass (1/2); BSetComHeight 1]; split; [left; eauto|cbn [bsteps bstep]; rewrite E1; cbn [bind]; rewrite E2; reflexivity]).
  destruct (proj2 (proj1 (C25_base_setters_exact b2 R2) (V3 1 2 9))) as (b3 & E3); [cbn [gz]; rewrite Rabs_right; lra|].
  assert (H : bsteps [BSetMass (1/2); BSetComHeight 1; BSetGravity (V3 1 2 9)] b0 = Ok b3).
  { cbn [bsteps bstep]. rewrite E1. cbn [bind]. rewrite E2. cbn [bind]. rewrite E3. reflexivity. }
  exists b3. split; [exact E|]. split; [exact H|]. split; [exists b0; eexists; split; [left; eauto|exact H]|].
  destruct (bsteps_fresh _ _ _ F0 A0 H) as (_ & O & _). rewrite O0 in O. exact (f_equal pm O).
Qed.
(** Without automatic computation a zero vertical gravity is accepted, and after that no
    gravity is accepted any more, because the assertion looks at the stored value. *)
Theorem C25_base_manual_gravity_refuted : forall N T b, newBase N T false = Ok b ->
  exists b1, b_setGravity (V3 0 0 0) b = Ok b1 /\ gz (bg b1) = 0 /\ forall g, b_setGravity g b1 = Abort.
Proof.
  intros N T b H. unfold newBase in H. apply guard_ok in H. destruct H as (_ & H). apply guard_ok in H. destruct H as (_ & H).
  unfold b_auto in H. cbn [bauto b_init] in H. injection H as <-. unfold b_setGravity. rewrite guard_pass.
  - eexists. split; [reflexivity|]. split; [reflexivity|]. intros g. cbn [bg b_setPar gz]. rewrite sabs_Rabs.
    change (sltb (EPS (K:=R)) (Rabs 0)) with (Rltb EPS (Rabs 0)). rewrite Rabs_R0. destruct (Rltb_spec EPS 0) as [K|K]; [rsimpl; lra|reflexivity].
  - rewrite sabs_Rabs. apply Rltb_true. cbn [bg b_init GRAVITY gz]. rsimpl. rewrite Rabs_right; lra.
Qed.
(** The tilt contact point of a default constructed BaseModel is readable only after its setter. *)
Theorem C25_base_default_contact_point_refuted : exists b, newBaseDefault (K:=R) = Ok b
  /\ b_getTiltContactPointX b = UB /\ b_getTiltContactPointY b = UB.
Proof.
  assert (E : is_ok (newBaseDefault (K:=R))).
  { unfold newBaseDefault, b_auto. cbn [bauto b_init]. apply b_compute_is_ok. cbn [bT bN bg bm bM b_init]. unfold valid_params, GRAVITY. cbn [gz]. rsimpl.
    rewrite Rabs_right by lra. repeat split; try lra. lia. }
  destruct E as (b & E). exists b. split; [exact E|]. destruct (newBaseDefault_fresh _ E) as (_ & O & _).
  unfold b_getTiltContactPointX, b_getTiltContactPointY. rewrite (f_equal ptx O : btcx b = None), (f_equal pty O : btcy b = None). split; reflexivity.
Qed.

(** ** C50: contact flags *)
(** The flag vector keeps the size given to the constructor, whatever calls follow. *)
Lemma fsteps_contact cs : forall f f', fsteps (K:=R) cs f = Ok f' -> fcontact f' = fcontact f.
Proof.
  induction cs as [|c cs IH]; intros f f' H; cbn [fsteps] in H.
  - injection H as ->. reflexivity.
  - apply bind_ok in H. destruct H as (f1 & H1 & H). rewrite (IH _ _ H). clear - H1.
    destruct c; cbn [fstep] in H1; unfold f_setNbSamples, f_setSamplingPeriod, f_updateStateX, f_updateStateY, f_updateStateZ in H1;
      binds H1; injection H1 as <-; reflexivity.
Qed.
Fixpoint last_nb (cs : list (fcall R)) (n : nat) : nat :=
  match cs with [] => n | FSetNbSamples k :: r => last_nb r k | _ :: r => last_nb r n end.
Lemma fsteps_N cs : forall f f', fsteps (K:=R) cs f = Ok f' -> fN f' = last_nb cs (fN f).
Proof.
  induction cs as [|c cs IH]; intros f f' H; cbn [fsteps] in H.
  - injection H as ->. reflexivity.
  - apply bind_ok in H. destruct H as (f1 & H1 & H). rewrite (IH _ _ H). clear - H1.
    destruct c; cbn [fstep] in H1; unfold f_setNbSamples, f_setSamplingPeriod, f_updateStateX, f_updateStateY, f_updateStateZ in H1;
      binds H1; injection H1 as <-; reflexivity.
Qed.
(** The exact behaviour of the query: outside the horizon it aborts, inside it returns true for
    samples below the constructor's size and reads out of the vector beyond it. *)
Theorem C50_contact_query_exact : forall n T cs f0 f i,
  newFoot (K:=R) n T = Ok f0 -> fsteps cs f0 = Ok f ->
  f_isInContact i f =
    if Z.ltb i 0 then Abort
    else if Z.leb (Z.of_nat (last_nb cs n)) i then Abort
    else if Z.ltb i (Z.of_nat n) then Ok true else UB.
Proof.
  intros n T cs f0 f i H0 H. unfold newFoot in H0. binds H0. injection H0 as <-.
  pose proof (fsteps_contact _ _ _ H) as C. pose proof (fsteps_N _ _ _ H) as N. cbn [f_init fcontact fN] in C, N.
  unfold f_isInContact. rewrite C, N. destruct (Z.ltb_spec i 0) as [Hi|Hi]; destruct (Z.leb_spec 0 i); try lia; [reflexivity|]. cbn [andb].
  destruct (Z.ltb_spec i (Z.of_nat (last_nb cs n))); destruct (Z.leb_spec (Z.of_nat (last_nb cs n)) i); try lia; [|reflexivity].
  cbn [guard bind]. unfold rd. destruct (Z.ltb_spec i (Z.of_nat n)) as [L|L].
  - rewrite (nth_error_nth' _ false) by (rewrite repeat_length; lia). rewrite nth_repeat_lt || idtac.
    assert (E : nth (Z.to_nat i) (repeat true n) false = true).
    { assert (In (nth (Z.to_nat i) (repeat true n) false) (repeat true n)) as I by (apply nth_In; rewrite repeat_length; lia).
      apply repeat_spec in I. exact I. }
    rewrite E. reflexivity.
  - rewrite (proj2 (nth_error_None _ _)); [reflexivity|]. rewrite repeat_length. lia.
Qed.
(** All samples of the horizon can be queried iff the horizon was never made longer. *)
Theorem C50_contact_readable_iff : forall n T cs f0 f,
  newFoot (K:=R) n T = Ok f0 -> fsteps cs f0 = Ok f ->
  ((forall i, (0 <= i < Z.of_nat (fN f))%Z -> is_ok (f_isInContact i f)) <-> (fN f <= n)%nat).
Proof.
  intros n T cs f0 f H0 H. pose proof (fun i => C50_contact_query_exact n T cs f0 f i H0 H) as Q.
  assert (N : fN f = last_nb cs n). { rewrite (fsteps_N _ _ _ H). unfold newFoot in H0. binds H0. injection H0 as <-. reflexivity. }
  rewrite N. split.
  - intros A. destruct (Nat.le_gt_cases (last_nb cs n) n) as [L|L]; [exact L|exfalso].
    destruct (A (Z.of_nat n)) as (b & B); [lia|]. rewrite Q in B. destruct (Z.ltb_spec (Z.of_nat n) 0); [lia|].
    destruct (Z.leb_spec (Z.of_nat (last_nb cs n)) (Z.of_nat n)); [lia|]. rewrite Z.ltb_irrefl in B. discriminate.
  - intros L i Hi. exists true. rewrite Q. destruct (Z.ltb_spec i 0); [lia|]. destruct (Z.leb_spec (Z.of_nat (last_nb cs n)) i); [lia|].
    destruct (Z.ltb_spec i (Z.of_nat n)); [reflexivity|lia].
Qed.
Theorem C50_contact_refuted : exists f0 f, newFoot (K:=R) 1 1 = Ok f0 /\ fsteps [FSetNbSamples 2] f0 = Ok f /\ f_isInContact 1 f = UB.
Proof.
  eexists _, _. split; [unfold newFoot; rewrite guard_pass by (apply Rltb_true; rsimpl; lra); reflexivity|]. split; reflexivity.
Qed.

Print Assumptions C24_lip_previews_current.
Print Assumptions C24_lip_recompute_changes_nothing.
Print Assumptions C24_base_previews_current.
Print Assumptions C24_nodyn_previews_current.
Print Assumptions C25_nodyn_setters_exact.
Print Assumptions C25_nodyn_constructor.
Print Assumptions C25_nodyn_readback.
Print Assumptions C25_lip_available_implies_valid.
Print Assumptions C25_lip_setters_exact.
Print Assumptions C25_lip_valid_histories_run.
Print Assumptions C25_lip_manual_refuted.
Print Assumptions C25_lip_long_feedback_refuted.
Print Assumptions C25_lip_zero_feedback_refuted.
Print Assumptions C25_lip_negative_period_refuted.
Print Assumptions C25_base_always_valid.
Print Assumptions C25_base_setters_exact.
Print Assumptions C25_base_manual_gravity_refuted.
Print Assumptions C25_base_default_contact_point_refuted.
Print Assumptions C50_contact_query_exact.
Print Assumptions C50_contact_readable_iff.
Print Assumptions C50_contact_refuted.
