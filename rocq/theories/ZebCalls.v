(** Which calls of the Zebulon walk generator return. *)

From Coq Require Import Reals List ZArith Lra Lia Arith Bool.
From Verif Require Import Scalar LinAlg LinAlgFacts ToolsModel ToolsSpec ToolsFacts TriFacts NoDynModel PolygonModel
  QPModel QPFacts TrajModel TrajFacts LipModel BaseModel ModelsSpec ModelsFacts ZebModel HumAlg ZebAlg ZebSpec ZebFacts ZebObj ZebTilt ZebProb ZebLive.
Import ListNotations.
Local Open Scope R_scope.

(** ** Regularity of the tilt matrices *)
Lemma tri_inv_upper m j i : (i < j)%nat -> tri_inv_col (K:=R) m j (S i) i = 0.
Proof.
  revert j. induction i as [i IH] using (well_founded_induction lt_wf). intros j H.
  cbn [tri_inv_col]. rewrite Nat.eqb_refl. replace (Nat.eqb i j) with false by (symmetry; apply Nat.eqb_neq; lia).
  rewrite ssum_0.
  - rsimpl. unfold Rdiv. ring.
  - intros k Hk. rewrite (tri_inv_col_stable m j i k Hk), IH by lia. rsimpl. ring.
Qed.
Lemma tri_inv_diag m i : tri_inv_col (K:=R) m i (S i) i = 1 / m i i.
Proof.
  cbn [tri_inv_col]. rewrite !Nat.eqb_refl. rewrite ssum_0.
  - rsimpl. unfold Rdiv. ring.
  - intros k Hk. rewrite (tri_inv_col_stable m i i k Hk), tri_inv_upper by lia. rsimpl. ring.
Qed.
Definition cutoff (e x : R) : R := if Rlt_dec (Rabs x) e then 0 else x.
Lemma inverse_tri (a v : mat R) N e : mrows a = N -> inverseLU a e = Some v -> 
  lower_tri (mget v) N /\ forall i, (i < N)%nat -> mget v i i = cutoff e (1 / mget a i i).
Proof.
  intros HN. unfold inverseLU. destruct (diag_nonzero _ _); [|discriminate]. intros E.
  apply (f_equal (fun o => match o with Some x => x | None => a end)) in E. cbn beta iota zeta in E. subst v. cbn [mget tri_inv]. split.
  - intros i j Hi Hj. rewrite tri_inv_upper by assumption. destruct (_ <? _)%sc; reflexivity.
  - intros i Hi. rewrite tri_inv_diag. unfold cutoff. rewrite sabs_Rabs. rsimpl. destruct (Rltb_spec (Rabs (1 / mget a i i)) e), (Rlt_dec (Rabs (1 / mget a i i)) e); try lra; reflexivity.
Qed.
Lemma tri_mmul (a b : mat R) N : mcols a = N -> lower_tri (mget a) N -> lower_tri (mget b) N ->
  lower_tri (mget (mmul a b)) N /\ forall i, (i < N)%nat -> mget (mmul a b) i i = mget a i i * mget b i i.
Proof.
  intros HN La Lb. split.
  - intros i j Hi Hj. cbn [mmul mget]. rewrite HN. apply ssum_0.
    intros k Hk. rsimpl. destruct (le_lt_dec k i); [rewrite (Lb k j) by lia|rewrite (La i k) by lia]; ring.
  - intros i Hi. cbn [mmul mget]. rewrite HN. rsimpl. rewrite (ssum_single N i).
    + reflexivity.
    + assumption.
    + intros k Hk Hne. destruct (le_lt_dec k i); [rewrite (Lb k i) by lia|rewrite (La i k) by lia]; ring.
Qed.
Lemma ord2_diag T N d : computeOrder2PosDynamic T T N = Ok d ->
  lower_tri (mget (dU d)) N /\ (forall i, (i < N)%nat -> mget (dU d) i i = T ^ 2 / 2) /\ dUinv d = inverseLU (dU d) EPS.
Proof.
  unfold computeOrder2PosDynamic. rewrite !guard_ok. intros (H1 & _ & H2 & E). injection E as <-. cbn [dU dUinv].
  split; [apply lower_is_tri|]. split; [|reflexivity]. intros i Hi. rewrite lower_diag. rewrite Nat.sub_diag.
  destruct (Nat.eqb_spec i 0) as [->|]; rsimpl; cbn [Z.of_nat]; unfold shalf; rsimpl; field.
Qed.
Lemma ord2vel_diag T N d V : computeOrder2VelDynamic T T N = Ok d -> dUinv d = Some V ->
  lower_tri (mget V) N /\ (forall i, (i < N)%nat -> mget V i i = 1 / T).
Proof.
  intros E EV. apply computeOrder2VelDynamic_inv in E. destruct E as (H1 & H2 & H3 & EU & ES & EK & ET & EI).
  rewrite EI in EV. injection EV as <-. unfold acc_Uinv. cbn [mget]. split.
  - intros i j Hi Hj. destruct j as [|j]; [lia|]. replace (Nat.eqb i (S j)) with false by (symmetry; apply Nat.eqb_neq; lia).
    replace (Nat.eqb i (S j + 1)) with false by (symmetry; apply Nat.eqb_neq; lia). destruct i as [|[|i]]; reflexivity.
  - intros i Hi. destruct i as [|i]; [reflexivity|]. rewrite Nat.eqb_refl. destruct i; reflexivity.
Qed.
Lemma gain_cut T : 0 < T -> cutoff EPS (1 / (T ^ 2 / 2)) = accel_gain T.
Proof.
  intros HT. assert (0 < T ^ 2) by (apply pow_lt; assumption). unfold cutoff, accel_gain. change (@EPS R _) with (1/10000).
  replace (1 / (T ^ 2 / 2)) with (2 / T ^ 2) by (field; lra).
  rewrite Rabs_right; [reflexivity|]. apply Rle_ge, Rlt_le. apply Rdiv_lt_0_compat; lra.
Qed.
Lemma diag_const (u : nat -> nat -> R) N c : (0 < N)%nat -> (forall i, (i < N)%nat -> u i i = c) -> (diag_ne0 u N <-> c <> 0).
Proof.
  intros HN H. unfold diag_ne0. split.
  - intros K. rewrite <- (H 0%nat HN). apply K. assumption.
  - intros K i Hi. rewrite H; assumption.
Qed.
Section Regular.
  Variables (l : lip R) (b : base R) (gh : R).
  Hypothesis M : models_ok l b.
  Let N := lN l.
  Let T := lT l.
  Let A1 := (981/100) * (lm l * lh l + bm b * gh).
  Let A6 := lm l * lh l * lh l + bm b * gh * gh.
  Lemma ta_facts : 0 < T /\ (0 < N)%nat /\ lower_tri (mget (dU (btaD b))) N /\ (forall i, (i < N)%nat -> mget (dU (btaD b)) i i = T ^ 2 / 2)
    /\ mrows (dU (btaD b)) = N /\ mcols (dU (btaD b)) = N
    /\ exists P, dUinv (btaD b) = Some P /\ mrows P = N /\ mcols P = N /\ lower_tri (mget P) N /\ forall i, (i < N)%nat -> mget P i i = accel_gain T.
  Proof.
    pose proof (mo_b _ _ M) as F. pose proof (bf_ta _ F) as A. rewrite (mo_N _ _ M), (mo_T _ _ M) in A. fold N T in A.
    destruct (order2pos_inv _ _ _ A) as (HT & HN & D1 & D2 & _). destruct (ord2_diag _ _ _ A) as (L & D & E).
    do 6 (split; [assumption|]). destruct (inverseLU (dU (btaD b)) EPS) as [P|] eqn:EP.
    - exists P. split; [assumption|]. destruct (inverse_dims _ _ _ EP) as (R1 & R2). split; [congruence|]. split; [congruence|].
      destruct (inverse_tri _ _ N _ D1 EP) as (LP & DP). split; [assumption|]. intros i Hi. rewrite DP, D by assumption. apply gain_cut. assumption.
    - exfalso. apply (inverseLU_None _ _ _ D1) in EP. apply EP. rewrite (diag_const _ _ (T ^ 2 / 2)) by assumption.
      assert (0 < T ^ 2) by (apply pow_lt; assumption). lra.
  Qed.
  Lemma tilt_none : tilt_constant l (withH b gh) = Ok None <-> A1 = A6 * accel_gain T.
  Proof.
    destruct ta_facts as (HT & HN & L & D & R1 & R2 & P & EP & P1 & P2 & LP & DP).
    pose proof (models_dyns _ _ M) as Dy. pose proof (agree_ok _ _ M) as A.
    destruct (dy_p _ _ Dy) as (p & Ep & _), (dy_a _ _ Dy) as (a & Ea & _).
    unfold tilt_constant, b_getTiltContactPointX, b_getTiltContactPointY, agree in *. cbn [withH b_setPar bN bT btcx btcy btaD bm bh].
    pose proof (mo_cx _ _ M) as C1. pose proof (mo_cy _ _ M) as C2.
    destruct (btcx b) as [x|]; [|contradiction]. destruct (btcy b) as [y|]; [|contradiction].
    rewrite A, Ep, Ea, EP. cbn [bind].
    unfold tilt_A1, tilt_A6. cbn [withH b_setPar bm bh]. change (GRAVITY_NORM * (lm l * lh l + bm b * gh))%sc with A1. change (lm l * lh l * lh l + bm b * gh * gh)%sc with A6.
    set (U := msub _ _). assert (RU : mrows U = N) by exact (mo_N _ _ M).
    assert (DU : forall i, (i < N)%nat -> mget U i i = A1 - A6 * accel_gain T).
    { intros i Hi. unfold U. cbn [msub mscale mid mget]. rewrite Nat.eqb_refl, DP by assumption. rsimpl. ring. }
    pose proof (inverseLU_None U N TILT_EPS RU) as I. rewrite (diag_const _ _ _ HN DU) in I.
    destruct (inverseLU U TILT_EPS).
    - split; [discriminate|]. intros E. exfalso. assert (X : ~ (A1 - A6 * accel_gain T <> 0)) by lra. apply I in X. discriminate.
    - split; [|reflexivity]. intros _. destruct I as (I & _). specialize (I eq_refl). destruct (Req_dec (A1 - A6 * accel_gain T) 0); [lra|contradiction].
  Qed.
  Lemma tiltV_none : tiltvel_constant l (withH b gh) = Ok None <-> A1 = A6 * accel_gain T.
  Proof.
    destruct ta_facts as (HT & HN & L & D & R1 & R2 & P & EP & P1 & P2 & LP & DP).
    pose proof (mo_b _ _ M) as F. pose proof (bf_tv _ F) as TV. rewrite (mo_N _ _ M), (mo_T _ _ M) in TV. fold N T in TV.
    destruct (order2vel_inv _ _ _ TV) as (_ & _ & _ & _ & _ & _ & _ & V & EV & V1 & V2 & _). destruct (ord2vel_diag _ _ _ _ TV EV) as (LV & DV).
    pose proof (models_dyns _ _ M) as Dy. pose proof (agree_ok _ _ M) as A.
    destruct (dy_p _ _ Dy) as (p & Ep & _), (dy_a _ _ Dy) as (a & Ea & _).
    unfold tiltvel_constant, b_getTiltContactPointX, b_getTiltContactPointY, agree in *. cbn [withH b_setPar bN bT btcx btcy btaD btvD bm bh].
    pose proof (mo_cx _ _ M) as C1. pose proof (mo_cy _ _ M) as C2.
    destruct (btcx b) as [x|]; [|contradiction]. destruct (btcy b) as [y|]; [|contradiction].
    rewrite A, Ep, Ea, EP, EV. cbn [bind].
    unfold tilt_A1, tilt_A6. cbn [withH b_setPar bm bh]. change (GRAVITY_NORM * (lm l * lh l + bm b * gh))%sc with A1. change (lm l * lh l * lh l + bm b * gh * gh)%sc with A6.
    set (U := msub _ _). assert (RU : mrows U = N) by exact R1.
    assert (SL : forall c, lower_tri (mget (mscale c (dU (btaD b)))) N).
    { intros c i j Hi Hj. cbn [mscale mget]. rewrite L by assumption. rsimpl. ring. }
    assert (DU : forall i, (i < N)%nat -> mget U i i = T / 2 * (A1 - A6 * accel_gain T)).
    { intros i Hi. unfold U. unfold msub. cbn [mget].
      destruct (tri_mmul (mscale A1 (dU (btaD b))) V N) as (_ & E1); [exact R2|apply SL|assumption|].
      destruct (tri_mmul (mscale A6 (dU (btaD b))) V N) as (L2 & E2); [exact R2|apply SL|assumption|].
      destruct (tri_mmul (mmul (mscale A6 (dU (btaD b))) V) P N) as (_ & E3); [exact V2|assumption|assumption|].
      rewrite E1, E3, E2, DV, DP by assumption. cbn [mscale mget]. rewrite D by assumption. rsimpl. field. lra. }
    pose proof (inverseLU_None U N TILT_EPS RU) as I. rewrite (diag_const _ _ _ HN DU) in I.
    destruct (inverseLU U TILT_EPS).
    - split; [discriminate|]. intros E. exfalso. assert (X : ~ (T / 2 * (A1 - A6 * accel_gain T) <> 0)).
      { intros X. apply X. rewrite E. ring. } apply I in X. discriminate.
    - split; [|reflexivity]. intros _. destruct I as (I & _). specialize (I eq_refl). destruct (Req_dec (A1 - A6 * accel_gain T) 0) as [E|E]; [lra|].
      exfalso. apply I. apply Rmult_integral_contrapositive_currified; lra.
  Qed.
End Regular.
Lemma usable_regular z gh gs : oinv z gh gs ->
  (tilt_usable (zw z) (zo z) <-> tilt_regular (zw z) (lT (zl z)) (lm (zl z)) (lh (zl z)) (bm (zb z)) gh).
Proof.
  intros [OM OO _ _ _]. pose proof (tilt_none _ _ gh OM) as E1. pose proof (tiltV_none _ _ gh OM) as E2.
  rewrite (oo_tilt _ _ _ _ OO) in E1. rewrite (oo_tiltV _ _ _ _ OO) in E2.
  unfold tilt_usable, tilt_regular. split.
  - intros (U1 & U2) [H|H] E; [apply (U1 H)|apply (U2 H)]; [apply E1 in E|apply E2 in E]; congruence.
  - intros Hr. split; intros H X; rewrite X in *; apply Hr; tauto.
Qed.
Lemma compute_regular z gh gs : oinv z gh gs ->
  (is_ok (z_compute z) <-> tilt_regular (zw z) (lT (zl z)) (lm (zl z)) (lh (zl z)) (bm (zb z)) gh).
Proof. intros O. rewrite (compute_is_ok _ _ _ O). exact (usable_regular _ _ _ O). Qed.

(** ** The calls that refresh the objectives *)
Definition same (z y : zeb R) : Prop := zl y = zl z /\ zb y = zb z /\ zr y = zr z.
Lemma same_trans z y x : same z y -> same y x -> same z x.
Proof. intros (A1 & A2 & A3) (B1 & B2 & B3). repeat split; congruence. Qed.
Lemma steps_ok z : models_ok (zl z) (zb z) ->
  (exists y, z_jerk z = Ok y /\ same z y) /\ (exists y, z_vel z = Ok y /\ same z y) /\ (exists y, z_pos z = Ok y /\ same z y)
  /\ (exists y, z_tilt z = Ok y /\ same z y) /\ (exists y, z_tiltV z = Ok y /\ same z y) /\ (exists y, z_cop z = Ok y /\ same z y)
  /\ (exists y, z_com z = Ok y /\ same z y) /\ (exists y, z_copC z = Ok y /\ same z y) /\ (exists y, z_comC z = Ok y /\ same z y)
  /\ (exists y, z_motion z = Ok y /\ same z y) /\ (exists y, z_tmotion z = Ok y /\ same z y)
  /\ (vlen (rcom (zr z)) = (2 * lN (zl z))%nat -> exists y, z_gravity z = Ok y /\ zl y = zl z /\ zb y = zb z).
Proof.
  intros M. destruct (consts_ok _ _ M) as ((c1 & E1) & (c2 & E2) & (c3 & E3) & (c4 & E4) & (c5 & E5) & (c6 & E6) & (c7 & E7) & s & E8 & L8).
  unfold z_jerk, z_vel, z_pos, z_tilt, z_tiltV, z_cop, z_com, z_copC, z_comC, z_motion, z_tmotion, z_gravity, same.
  rewrite E1, E2, E3, E4, E5, E6, E7, E8, (agree_ok _ _ M). cbn [bind].
  do 11 (split; [eexists; repeat split|]). intros L. unfold vaddE. rewrite L, L8, Nat.eqb_refl. cbn [guard bind]. eexists. repeat split.
Qed.
Lemma fwd_cop z l b : models_ok l b -> vlen (rcom (zr z)) = (2 * lN l)%nat ->
  exists y, forall f : zeb R -> res (zeb R), (do y <- z_copC (z_setModels z l b); do y <- z_cop y; do y <- z_gravity y; f y) = f y.
Proof.
  intros M L. set (z0 := z_setModels z l b). assert (S0 : same (z_setModels z l b) z0) by (repeat split).
  assert (K : forall y, same z0 y -> models_ok (zl y) (zb y)) by (intros y (-> & -> & _); exact M).
  assert (L0 : forall y, same z0 y -> vlen (rcom (zr y)) = (2 * lN (zl y))%nat) by (intros y (-> & _ & ->); exact L).
  clearbody z0. pose proof (K z0 (conj eq_refl (conj eq_refl eq_refl))) as M0.
  destruct (steps_ok z0 M0) as (_ & _ & _ & _ & _ & _ & _ & (y1 & E1 & S1) & _).
  destruct (steps_ok y1 (K y1 S1)) as (_ & _ & _ & _ & _ & (y2 & E2 & S2) & _). pose proof (same_trans _ _ _ S1 S2) as T2.
  destruct (steps_ok y2 (K y2 T2)) as (_ & _ & _ & _ & _ & _ & _ & _ & _ & _ & _ & G). destruct (G (L0 y2 T2)) as (y3 & E3 & _).
  exists y3. intros f. rewrite E1. cbn [bind]. rewrite E2. cbn [bind]. rewrite E3. reflexivity.
Qed.
Lemma fwd_tilt z l b : models_ok l b -> vlen (rcom (zr z)) = (2 * lN l)%nat ->
  exists y, forall f : zeb R -> res (zeb R), (do y <- z_copC (z_setModels z l b); do y <- z_cop y; do y <- z_gravity y; do y <- z_tilt y; do y <- z_tiltV y; f y) = f y.
Proof.
  intros M L. set (z0 := z_setModels z l b). assert (Z1 : zl z0 = l) by reflexivity. assert (Z2 : zb z0 = b) by reflexivity.
  assert (K : forall y, zl y = l -> zb y = b -> models_ok (zl y) (zb y)) by (intros y -> ->; exact M).
  assert (L0 : vlen (rcom (zr z0)) = (2 * lN (zl z0))%nat) by exact L.
  clearbody z0.
  destruct (steps_ok z0 (K z0 Z1 Z2)) as (_ & _ & _ & _ & _ & _ & _ & (y1 & E1 & A1 & B1 & C1) & _). rewrite Z1 in A1. rewrite Z2 in B1.
  destruct (steps_ok y1 (K y1 A1 B1)) as (_ & _ & _ & _ & _ & (y2 & E2 & A2 & B2 & C2) & _). rewrite A1 in A2. rewrite B1 in B2.
  destruct (steps_ok y2 (K y2 A2 B2)) as (_ & _ & _ & _ & _ & _ & _ & _ & _ & _ & _ & G). destruct G as (y3 & E3 & A3 & B3); [rewrite C2, C1, L0, A2, Z1; reflexivity|]. rewrite A2 in A3. rewrite B2 in B3.
  destruct (steps_ok y3 (K y3 A3 B3)) as (_ & _ & _ & (y4 & E4 & A4 & B4 & C4) & _). rewrite A3 in A4. rewrite B3 in B4.
  destruct (steps_ok y4 (K y4 A4 B4)) as (_ & _ & _ & _ & (y5 & E5 & A5 & B5 & C5) & _).
  exists y5. intros f. rewrite E1. cbn [bind]. rewrite E2. cbn [bind]. rewrite E3. cbn [bind]. rewrite E4. cbn [bind]. rewrite E5. reflexivity.
Qed.
Lemma fwd_Nb z l b : models_ok l b ->
  exists y, forall f : zeb R -> res (zeb R), (do z <- z_jerk (Nb_start z (lN l) l b); do z <- z_tilt z; do z <- z_tiltV z; do z <- z_copC z; do z <- z_comC z;
   do z <- z_cop z; do z <- z_com z; do z <- z_vel z; do z <- z_pos z; do z <- z_motion z; do z <- z_tmotion z; f z) = f y.
Proof.
  intros M. set (z0 := Nb_start z (lN l) l b). assert (Z1 : zl z0 = l) by reflexivity. assert (Z2 : zb z0 = b) by reflexivity.
  assert (K : forall y, zl y = l -> zb y = b -> models_ok (zl y) (zb y)) by (intros y -> ->; exact M).
  clearbody z0.
  destruct (steps_ok z0 (K z0 Z1 Z2)) as ((y1 & E1 & A1 & B1 & C1) & _). rewrite Z1 in A1. rewrite Z2 in B1.
  destruct (steps_ok y1 (K y1 A1 B1)) as (_ & _ & _ & (y2 & E2 & A2 & B2 & C2) & _). rewrite A1 in A2. rewrite B1 in B2.
  destruct (steps_ok y2 (K y2 A2 B2)) as (_ & _ & _ & _ & (y3 & E3 & A3 & B3 & C3) & _). rewrite A2 in A3. rewrite B2 in B3.
  destruct (steps_ok y3 (K y3 A3 B3)) as (_ & _ & _ & _ & _ & _ & _ & (y4 & E4 & A4 & B4 & C4) & _). rewrite A3 in A4. rewrite B3 in B4.
  destruct (steps_ok y4 (K y4 A4 B4)) as (_ & _ & _ & _ & _ & _ & _ & _ & (y5 & E5 & A5 & B5 & C5) & _). rewrite A4 in A5. rewrite B4 in B5.
  destruct (steps_ok y5 (K y5 A5 B5)) as (_ & _ & _ & _ & _ & (y6 & E6 & A6 & B6 & C6) & _). rewrite A5 in A6. rewrite B5 in B6.
  destruct (steps_ok y6 (K y6 A6 B6)) as (_ & _ & _ & _ & _ & _ & (y7 & E7 & A7 & B7 & C7) & _). rewrite A6 in A7. rewrite B6 in B7.
  destruct (steps_ok y7 (K y7 A7 B7)) as (_ & (y8 & E8 & A8 & B8 & C8) & _). rewrite A7 in A8. rewrite B7 in B8.
  destruct (steps_ok y8 (K y8 A8 B8)) as (_ & _ & (y9 & E9 & A9 & B9 & C9) & _). rewrite A8 in A9. rewrite B8 in B9.
  destruct (steps_ok y9 (K y9 A9 B9)) as (_ & _ & _ & _ & _ & _ & _ & _ & _ & (y10 & E10 & A10 & B10 & C10) & _). rewrite A9 in A10. rewrite B9 in B10.
  destruct (steps_ok y10 (K y10 A10 B10)) as (_ & _ & _ & _ & _ & _ & _ & _ & _ & _ & (y11 & E11 & A11 & B11 & C11) & _).
  exists y11. intros f. rewrite E1. cbn [bind]. rewrite E2. cbn [bind]. rewrite E3. cbn [bind]. rewrite E4. cbn [bind]. rewrite E5. cbn [bind]. rewrite E6. cbn [bind].
  rewrite E7. cbn [bind]. rewrite E8. cbn [bind]. rewrite E9. cbn [bind]. rewrite E10. cbn [bind]. rewrite E11. reflexivity.
Qed.
Lemma fwd_T z l b : models_ok l b ->
  exists y, forall f : zeb R -> res (zeb R), (do z <- z_copC (z_setModels z l b); do z <- z_comC z; do z <- z_cop z; do z <- z_com z; do z <- z_vel z; do z <- z_pos z;
   do z <- z_motion z; do z <- z_tmotion z; do z <- z_tilt z; do z <- z_tiltV z; f z) = f y.
Proof.
  intros M. set (z0 := z_setModels z l b). assert (Z1 : zl z0 = l) by reflexivity. assert (Z2 : zb z0 = b) by reflexivity.
  assert (K : forall y, zl y = l -> zb y = b -> models_ok (zl y) (zb y)) by (intros y -> ->; exact M).
  clearbody z0.
  destruct (steps_ok z0 (K z0 Z1 Z2)) as (_ & _ & _ & _ & _ & _ & _ & (y1 & E1 & A1 & B1 & C1) & _). rewrite Z1 in A1. rewrite Z2 in B1.
  destruct (steps_ok y1 (K y1 A1 B1)) as (_ & _ & _ & _ & _ & _ & _ & _ & (y2 & E2 & A2 & B2 & C2) & _). rewrite A1 in A2. rewrite B1 in B2.
  destruct (steps_ok y2 (K y2 A2 B2)) as (_ & _ & _ & _ & _ & (y3 & E3 & A3 & B3 & C3) & _). rewrite A2 in A3. rewrite B2 in B3.
  destruct (steps_ok y3 (K y3 A3 B3)) as (_ & _ & _ & _ & _ & _ & (y4 & E4 & A4 & B4 & C4) & _). rewrite A3 in A4. rewrite B3 in B4.
  destruct (steps_ok y4 (K y4 A4 B4)) as (_ & (y5 & E5 & A5 & B5 & C5) & _). rewrite A4 in A5. rewrite B4 in B5.
  destruct (steps_ok y5 (K y5 A5 B5)) as (_ & _ & (y6 & E6 & A6 & B6 & C6) & _). rewrite A5 in A6. rewrite B5 in B6.
  destruct (steps_ok y6 (K y6 A6 B6)) as (_ & _ & _ & _ & _ & _ & _ & _ & _ & (y7 & E7 & A7 & B7 & C7) & _). rewrite A6 in A7. rewrite B6 in B7.
  destruct (steps_ok y7 (K y7 A7 B7)) as (_ & _ & _ & _ & _ & _ & _ & _ & _ & _ & (y8 & E8 & A8 & B8 & C8) & _). rewrite A7 in A8. rewrite B7 in B8.
  destruct (steps_ok y8 (K y8 A8 B8)) as (_ & _ & _ & (y9 & E9 & A9 & B9 & C9) & _). rewrite A8 in A9. rewrite B8 in B9.
  destruct (steps_ok y9 (K y9 A9 B9)) as (_ & _ & _ & _ & (y10 & E10 & A10 & B10 & C10) & _).
  exists y10. intros f. rewrite E1. cbn [bind]. rewrite E2. cbn [bind]. rewrite E3. cbn [bind]. rewrite E4. cbn [bind]. rewrite E5. cbn [bind]. rewrite E6. cbn [bind].
  rewrite E7. cbn [bind]. rewrite E8. cbn [bind]. rewrite E9. cbn [bind]. rewrite E10. reflexivity.
Qed.
Lemma fwd_one z b : models_ok (zl z) b ->
  (exists y, z_copC (z_setModels z (zl z) b) = Ok y) /\ (exists y, z_comC (z_setModels z (zl z) b) = Ok y) /\ (exists y, z_tmotion (z_setModels z (zl z) b) = Ok y).
Proof.
  intros M. destruct (steps_ok (z_setModels z (zl z) b) M) as (_ & _ & _ & _ & _ & _ & _ & (y1 & E1 & _) & (y2 & E2 & _) & _ & (y3 & E3 & _) & _).
  split; [|split]; eexists; eassumption.
Qed.

(** ** Each call *)
Section Calls.
  Context {TR : Trig R}.
  Variables (z : zeb R) (gh : R) (gs : bool).
  Hypothesis Z : zinv z gh gs.
  Let M : models_ok (zl z) (zb z) := oi_m _ _ _ (proj1 Z).
  Lemma now_regular : tilt_regular (zw z) (lT (zl z)) (lm (zl z)) (lh (zl z)) (bm (zb z)) gh.
  Proof.
    apply (usable_regular _ _ _ (proj1 Z)). destruct (qi_Q _ (proj2 Z)) as (QQ & EQ & _). unfold zQ in EQ. cbv zeta in EQ.
    apply bind_ok in EQ. destruct EQ as (Q1 & E1 & E2).
    split; eapply (fun H => proj1 (addWo_is_ok _ _ _) H); eexists; eassumption.
  Qed.
  Lemma lset : (forall g, is_ok (l_setGravity g (zl z)) <-> 1/10000 < Rabs (gz g))
  /\ (forall m, is_ok (l_setMass m (zl z)) <-> 0 <= m <= lM (zl z))
  /\ (forall M, is_ok (l_setTotalMass M (zl z)) <-> lm (zl z) <= M /\ 1/10000 < M)
  /\ (forall h, is_ok (l_setComHeight h (zl z)))
  /\ (forall n, is_ok (l_setNbSamples n (zl z)) <-> (0 < n)%nat)
  /\ (forall T, is_ok (l_setSamplingPeriod T (zl z)) <-> 0 < T)
  /\ (forall f, is_ok (l_setFeedbackPeriod f (zl z)) <-> 0 < f).
  Proof. destruct (models_valid _ _ M) as (_ & _ & _ & n & Hn & F). exact (l_setters_exact _ n (mo_la _ _ M) Hn F). Qed.
  Lemma bset : (forall g, is_ok (b_setGravity g (zb z)) <-> 1/10000 < Rabs (gz g))
  /\ (forall m, is_ok (b_setMass m (zb z)) <-> 0 < m <= bM (zb z))
  /\ (forall M, is_ok (b_setTotalMass M (zb z)) <-> bm (zb z) <= M /\ 1/10000 < M)
  /\ (forall h, is_ok (b_setComHeight h (zb z)))
  /\ (forall n, is_ok (b_setNbSamples n (zb z)) <-> (0 < n)%nat)
  /\ (forall T, is_ok (b_setSamplingPeriod T (zb z)) <-> 0 < T).
  Proof. exact (b_setters_exact _ (mo_ba _ _ M) (mo_b _ _ M)). Qed.
  Lemma rcom_len : vlen (rcom (zr z)) = (2 * lN (zl z))%nat.
  Proof. exact (proj1 (oi_r _ _ _ (proj1 Z))). Qed.

  Lemma setNb_is_ok n : is_ok (z_setNbSamples n z) <-> zaccepts (ZSetNbSamples n) z gh.
  Proof.
    unfold zaccepts, period. cbv zeta. unfold z_setNbSamples. rewrite guard_is_ok, Nat.ltb_lt.
    split; intros (Hn & H); (split; [assumption|]).
    - apply bind_is_ok in H. destruct H as (l & Hl & H). apply bind_is_ok in H. destruct H as (b & Hb & H).
      destruct (mods_Nb _ _ _ _ M Hl Hb) as (MM & E1 & E2 & E3 & E4 & E5 & E6 & _). cbv zeta in H. cbn [zr z_setModels] in H.
      destruct (fwd_Nb z l b MM) as (y & Hy). pose proof (Hy (fun z => Ok z)) as P. apply setNb_pre in P; [|assumption]. destruct P as (O & W & L & B).
      rewrite E1 in Hy. unfold Nb_start in Hy. rewrite Hy in H. apply (compute_regular _ _ _ O) in H. rewrite W, L, B in H. rewrite <- E2, <- E3, <- E4, <- E5, <- E6. exact H.
    - destruct (proj2 (proj1 (proj2 (proj2 (proj2 (proj2 lset)))) n) Hn) as (l & Hl). destruct (proj2 (proj1 (proj2 (proj2 (proj2 (proj2 bset)))) n) Hn) as (b & Hb).
      apply bind_is_ok. exists l. split; [assumption|]. apply bind_is_ok. exists b. split; [assumption|].
      destruct (mods_Nb _ _ _ _ M Hl Hb) as (MM & E1 & E2 & E3 & E4 & E5 & E6 & _). cbv zeta. cbn [zr z_setModels].
      destruct (fwd_Nb z l b MM) as (y & Hy). pose proof (Hy (fun z => Ok z)) as P. apply setNb_pre in P; [|assumption]. destruct P as (O & W & L & B).
      rewrite E1 in Hy. unfold Nb_start in Hy. rewrite Hy. apply (compute_regular _ _ _ O). rewrite W, L, B. rewrite E2, E3, E4, E5, E6. exact H.
  Qed.

  Lemma setT_is_ok T : is_ok (z_setSamplingPeriod T z) <-> zaccepts (ZSetSamplingPeriod T) z gh.
  Proof.
    unfold zaccepts. cbv zeta. unfold z_setSamplingPeriod. rewrite guard_is_ok. rsimpl. rewrite Rltb_true.
    assert (G : forall l b, l_setSamplingPeriod T (zl z) = Ok l -> b_setSamplingPeriod T (zb z) = Ok b ->
      (is_ok (let z := z_setModels z l b in
              do z <- z_copC z; do z <- z_comC z; do z <- z_cop z; do z <- z_com z; do z <- z_vel z; do z <- z_pos z;
              do z <- z_motion z; do z <- z_tmotion z; do z <- z_tilt z; do z <- z_tiltV z; z_compute z)
       <-> tilt_regular (zw z) T (lm (zl z)) (lh (zl z)) (bm (zb z)) (bh (zb z)))).
    { intros l b Hl Hb. pose proof (mods_T _ _ _ _ M Hl Hb) as MM. pose proof (T_grav _ _ _ _ M MM) as GS.
      destruct MM as (MM & E1 & E2 & E3 & E4 & E5 & E6 & _). cbv zeta.
      destruct (fwd_T z l b MM) as (y & Hy). pose proof (Hy (fun z => Ok z)) as P. apply (setT_pre _ _ _ gh gs) in P; try assumption; [|exact (proj1 Z)]. destruct P as (O & W & L & B).
      rewrite Hy, (compute_regular _ _ _ O), W, L, B, E2, E3, E4, E5, E6. reflexivity. }
    split; intros (Hn & H); (split; [assumption|]).
    - apply bind_is_ok in H. destruct H as (l & Hl & H). apply bind_is_ok in H. destruct H as (b & Hb & H). exact (proj1 (G l b Hl Hb) H).
    - destruct (proj2 (proj1 (proj2 (proj2 (proj2 (proj2 (proj2 lset))))) T) Hn) as (l & Hl).
      destruct (proj2 (proj2 (proj2 (proj2 (proj2 (proj2 bset)))) T) Hn) as (b & Hb).
      apply bind_is_ok. exists l. split; [assumption|]. apply bind_is_ok. exists b. split; [assumption|]. exact (proj2 (G l b Hl Hb) H).
  Qed.
  (** the setters that refresh the centre of pressure but not the tilt objectives *)
  Lemma cop_is_ok l b : models_ok l b -> lN l = lN (zl z) -> lT l = lT (zl z) ->
    bsyaw b = bsyaw (zb z) -> bcomPoly b = bcomPoly (zb z) ->
    lm l = lm (zl z) -> lh l = lh (zl z) -> bm b = bm (zb z) -> btcx b = btcx (zb z) -> btcy b = btcy (zb z) ->
    is_ok (do y <- z_copC (z_setModels z l b); do y <- z_cop y; do y <- z_gravity y; z_compute y).
  Proof.
    intros MM EN ET Y P F1 F2 F3 Cx Cy.
    destruct (fwd_cop z l b MM) as (y & Hy); [rewrite EN; exact rcom_len|]. pose proof (Hy (fun z => Ok z)) as Q.
    apply (refresh_cop_pre _ _ _ gh gs) in Q; try assumption; [|exact (proj1 Z)]. destruct Q as (O & W & L & B).
    rewrite Hy. apply (compute_regular _ _ _ O). rewrite W, L, B, ET, F1, F2, F3. exact now_regular.
  Qed.
  Lemma tilt_is_ok l b : models_ok l b -> lN l = lN (zl z) -> lT l = lT (zl z) -> bsyaw b = bsyaw (zb z) -> bcomPoly b = bcomPoly (zb z) ->
    (is_ok (do y <- z_copC (z_setModels z l b); do y <- z_cop y; do y <- z_gravity y; do y <- z_tilt y; do y <- z_tiltV y; z_compute y)
     <-> tilt_regular (zw z) (lT (zl z)) (lm l) (lh l) (bm b) (bh b)).
  Proof.
    intros MM EN ET Y P.
    destruct (fwd_tilt z l b MM) as (y & Hy); [rewrite EN; exact rcom_len|]. pose proof (Hy (fun z => Ok z)) as Q.
    apply (refresh_tilt_pre _ _ _ gh gs) in Q; try assumption; [|exact (proj1 Z)]. destruct Q as (O & W & L & B).
    rewrite Hy, (compute_regular _ _ _ O), W, L, B, ET. reflexivity.
  Qed.
  Lemma setG_is_ok g : is_ok (z_setGravity g z) <-> zaccepts (ZSetGravity g) z gh.
  Proof.
    unfold zaccepts. cbv zeta. unfold z_setGravity. rewrite guard_is_ok, sabs_Rabs. change EPS with (1/10000). rsimpl. rewrite Rltb_true.
    split; [intros (H & _); exact H|]. intros H. split; [exact H|].
    destruct (proj2 (proj1 lset g) H) as (l & Hl). destruct (proj2 (proj1 bset g) H) as (b & Hb).
    apply bind_is_ok. exists l. split; [assumption|]. apply bind_is_ok. exists b. split; [assumption|].
    destruct (mods_g _ _ _ _ M Hl Hb) as (MM & A1 & A2 & A3 & A4 & A5 & A6 & A7 & A8 & A9 & A10 & A11 & A12).
    apply cop_is_ok; assumption.
  Qed.
  Lemma setBaseHeight_is_ok h : is_ok (z_setComBaseHeight h z).
  Proof.
    unfold z_setComBaseHeight. destruct (proj1 (proj2 (proj2 (proj2 bset))) h) as (b & Hb).
    apply bind_is_ok. exists b. split; [assumption|].
    destruct (mods_hb _ _ _ M Hb) as (MM & A1 & A2 & A3 & A4 & A5 & A6 & A7 & A8 & A9 & A10 & A11 & A12).
    apply cop_is_ok; assumption.
  Qed.
  Lemma setBodyHeight_is_ok h : is_ok (z_setComBodyHeight h z) <-> zaccepts (ZSetBodyHeight h) z gh.
  Proof.
    unfold zaccepts. cbv zeta. unfold z_setComBodyHeight. destruct (proj1 (proj2 (proj2 (proj2 lset))) h) as (l & Hl). rewrite Hl. cbn [bind].
    destruct (mods_h _ _ _ M Hl) as (MM & A1 & A2 & A3 & A4 & A5 & A6 & A7 & A8 & A9 & A10 & A11 & A12).
    rewrite tilt_is_ok by assumption. rewrite A3, A5. reflexivity.
  Qed.
  Lemma fresh_pos (l : lip R) n : lip_fresh l n -> lfb l = lT l -> 0 < lT l -> (0 < n)%nat.
  Proof.
    intros F E H. destruct F as [F1 F2 F3 _ _ _ _ _ _ _]. rewrite E in F3. pose proof (first_count _ H).
    rewrite strunc_pos in F3 by (pose proof (first_ratio _ H); lra). lia.
  Qed.
  Lemma total_next m : is_ok (l_setTotalMass m (zl z)) -> forall l, l_setTotalMass m (zl z) = Ok l -> forall m', is_ok (l_setMass m' l) <-> 0 <= m' <= m.
  Proof.
    intros _ l Hl m'. destruct (mo_l _ _ M) as (k & F). pose proof (mo_la _ _ M) as A.
    destruct (lstep_fresh (LSetTotalMass m) _ _ k F A Hl) as ((k' & F') & Ol & A'). lobs_inj Ol.
    assert (HT : 0 < lT (zl z)) by (destruct (models_valid _ _ M) as ((V & _) & _); exact V).
    assert (EE : lT l = lT (zl z)) by assumption. assert (Hk : (0 < k')%nat) by (apply (fresh_pos l); [assumption| |rewrite EE; exact HT]; pose proof (mo_fb _ _ M); congruence).
    rewrite (proj1 (proj2 (l_setters_exact l k' A' Hk F')) m'). replace (lM l) with m by congruence. reflexivity.
  Qed.
  Lemma total_nextb m b : b_setTotalMass m (zb z) = Ok b -> forall m', is_ok (b_setMass m' b) <-> 0 < m' <= m.
  Proof.
    intros Hb m'. destruct (bstep_fresh (BSetTotalMass m) _ _ (mo_b _ _ M) (mo_ba _ _ M) Hb) as (F' & Ob & A'). bobs_inj Ob.
    rewrite (proj1 (proj2 (b_setters_exact b A' F')) m'). replace (bM b) with m by congruence. reflexivity.
  Qed.
  Lemma masses : 0 <= bm (zb z) /\ 0 <= lm (zl z).
  Proof. destruct (models_valid _ _ M) as ((_ & _ & _ & V1 & _) & (_ & _ & _ & V2 & _) & _). lra. Qed.
  Lemma setBodyMass_is_ok m : is_ok (z_setBodyMass m z) <-> zaccepts (ZSetBodyMass m) z gh.
  Proof.
    unfold zaccepts. cbv zeta. unfold z_setBodyMass. cbv zeta. rsimpl. pose proof masses as (Hb0 & Hl0).
    split.
    - intros H. apply bind_is_ok in H. destruct H as (l & Hl & H). apply bind_is_ok in H. destruct H as (b & Hb & H). apply bind_is_ok in H. destruct H as (l2 & Hl2 & H).
      assert (P1 := proj1 (proj1 (proj2 (proj2 lset)) _) (ex_intro _ _ Hl)). assert (P2 := proj1 (total_next _ (ex_intro _ _ Hl) _ Hl _) (ex_intro _ _ Hl2)).
      destruct (mods_m _ _ _ _ _ M Hl Hb Hl2) as (MM & A1 & A2 & A3 & A4 & A5 & A6 & A7 & A8 & A9 & A10 & A11 & A12).
      rewrite tilt_is_ok in H by assumption. rewrite A3, A4, A5, A6 in H. repeat split; try lra; try apply P1. exact H.
    - intros (H1 & H2 & H3 & H4).
      destruct (proj2 (proj1 (proj2 (proj2 lset)) (m + bm (zb z))) (conj H1 H3)) as (l & Hl).
      destruct (proj2 (proj1 (proj2 (proj2 bset)) (m + bm (zb z)))) as (b & Hb); [split; [lra|exact H3]|].
      destruct (proj2 (total_next _ (ex_intro _ _ Hl) _ Hl m)) as (l2 & Hl2); [lra|].
      apply bind_is_ok. exists l. split; [assumption|]. apply bind_is_ok. exists b. split; [assumption|]. apply bind_is_ok. exists l2. split; [assumption|].
      destruct (mods_m _ _ _ _ _ M Hl Hb Hl2) as (MM & A1 & A2 & A3 & A4 & A5 & A6 & A7 & A8 & A9 & A10 & A11 & A12).
      apply tilt_is_ok; try assumption. rewrite A3, A4, A5, A6. exact H4.
  Qed.
  Lemma setBaseMass_is_ok m : is_ok (z_setBaseMass m z) <-> zaccepts (ZSetBaseMass m) z gh.
  Proof.
    unfold zaccepts. cbv zeta. unfold z_setBaseMass. cbv zeta. rsimpl. pose proof masses as (Hb0 & Hl0).
    split.
    - intros H. apply bind_is_ok in H. destruct H as (l & Hl & H). apply bind_is_ok in H. destruct H as (b & Hb & H). apply bind_is_ok in H. destruct H as (b2 & Hb2 & H).
      assert (P1 := proj1 (proj1 (proj2 (proj2 bset)) _) (ex_intro _ _ Hb)). assert (P2 := proj1 (total_nextb _ _ Hb _) (ex_intro _ _ Hb2)).
      destruct (mods_mb _ _ _ _ _ M Hl Hb Hb2) as (MM & A1 & A2 & A3 & A4 & A5 & A6 & A7 & A8 & A9 & A10 & A11 & A12).
      rewrite tilt_is_ok in H by assumption. rewrite A3, A4, A5, A6 in H. repeat split; try lra; try apply P1. exact H.
    - intros (H1 & H2 & H3 & H4).
      destruct (proj2 (proj1 (proj2 (proj2 lset)) (lm (zl z) + m))) as (l & Hl); [split; [lra|exact H3]|].
      destruct (proj2 (proj1 (proj2 (proj2 bset)) (lm (zl z) + m)) (conj H1 H3)) as (b & Hb).
      destruct (proj2 (total_nextb _ _ Hb m)) as (b2 & Hb2); [lra|].
      apply bind_is_ok. exists l. split; [assumption|]. apply bind_is_ok. exists b. split; [assumption|]. apply bind_is_ok. exists b2. split; [assumption|].
      destruct (mods_mb _ _ _ _ _ M Hl Hb Hb2) as (MM & A1 & A2 & A3 & A4 & A5 & A6 & A7 & A8 & A9 & A10 & A11 & A12).
      apply tilt_is_ok; try assumption. rewrite A3, A4, A5, A6. exact H4.
  Qed.

  (** the setters of one constraint *)
  Lemma one_is_ok b (f : zeb R -> res (zeb R)) : models_ok (zl z) b -> same_par (zl z) (zl z) (zb z) b -> btcx b = btcx (zb z) -> btcy b = btcy (zb z) ->
    (bsyaw b = bsyaw (zb z) /\ bcomPoly b = bcomPoly (zb z) /\ f = z_copC
     \/ bsyaw b = bsyaw (zb z) /\ bcopPoly b = bcopPoly (zb z) /\ f = z_comC
     \/ bcomPoly b = bcomPoly (zb z) /\ bcopPoly b = bcopPoly (zb z) /\ f = z_tmotion) ->
    is_ok (do y <- f (z_setModels z (zl z) b); z_compute y).
  Proof.
    intros MM S Cx Cy A. destruct (fwd_one z b MM) as ((y1 & E1) & (y2 & E2) & (y3 & E3)).
    assert (G : forall y, f (z_setModels z (zl z) b) = Ok y -> is_ok (z_compute y)).
    { intros y E. destruct (refresh_one_pre z b gh gs y (proj1 Z) MM S Cx Cy) as (O & W & L & B).
      { destruct A as [(A1 & A2 & ->)|[(A1 & A2 & ->)|(A1 & A2 & ->)]]; [left|right; left|right; right]; auto. }
      apply (compute_regular _ _ _ O). rewrite W, L, B. destruct S as (EN & ET & F1 & F2 & F5 & F3 & F4). rewrite F3. exact now_regular. }
    destruct A as [(A1 & A2 & ->)|[(A1 & A2 & ->)|(A1 & A2 & ->)]]; apply bind_is_ok; eexists; (split; [eassumption|]); apply G; assumption.
  Qed.
  Lemma setCopPolygon_is_ok p : is_ok (z_setBaseCopConvexPolygon p z) <-> (3 <= length (pverts p))%nat.
  Proof.
    unfold z_setBaseCopConvexPolygon. rewrite guard_is_ok, Nat.leb_le. split; [intros (H & _); exact H|]. intros H. split; [exact H|].
    assert (Hb : b_setCopSupportConvexPolygon p (zb z) = Ok (b_setMisc (zb z) (bvelLim (zb z)) (baccLim (zb z)) (bjerkLim (zb z)) (btcx (zb z)) (btcy (zb z)) p (bcomPoly (zb z)))).
    { unfold b_setCopSupportConvexPolygon. rewrite (proj2 (Nat.leb_le _ _) H). reflexivity. }
    destruct (models_onBase _ _ _ (BSetCopPolygon p) _ (proj1 Z) Hb I) as (MM & S). rewrite Hb. cbn [bind].
    apply one_is_ok; try assumption; try reflexivity. left. repeat split.
  Qed.
  Lemma setComPolygon_is_ok p : is_ok (z_setBaseComConvexPolygon p z) <-> (3 <= length (pverts p))%nat.
  Proof.
    unfold z_setBaseComConvexPolygon. rewrite guard_is_ok, Nat.leb_le. split; [intros (H & _); exact H|]. intros H. split; [exact H|].
    assert (Hb : b_setComSupportConvexPolygon p (zb z) = Ok (b_setMisc (zb z) (bvelLim (zb z)) (baccLim (zb z)) (bjerkLim (zb z)) (btcx (zb z)) (btcy (zb z)) (bcopPoly (zb z)) p)).
    { unfold b_setComSupportConvexPolygon. rewrite (proj2 (Nat.leb_le _ _) H). reflexivity. }
    destruct (models_onBase _ _ _ (BSetComPolygon p) _ (proj1 Z) Hb I) as (MM & S). rewrite Hb. cbn [bind].
    apply one_is_ok; try assumption; try reflexivity. right. left. repeat split.
  Qed.
  Lemma st3_is_ok (v : vec R) : is_ok (st3_of_vec v) <-> vlen v = 3%nat.
  Proof. unfold st3_of_vec. rewrite guard_is_ok, Nat.eqb_eq. split; [tauto|]. intros H. split; [exact H|]. eexists; reflexivity. Qed.
  Lemma bind_const A B (x : res A) (f : A -> B) : is_ok (do y <- x; Ok (f y)) <-> is_ok x.
  Proof. rewrite bind_is_ok. split; [intros (y & E & _); eexists; exact E|intros (y & E); exists y; split; [exact E|eexists; reflexivity]]. Qed.
  Lemma setYaw_is_ok v : is_ok (z_setBaseStateYaw v z) <-> vlen v = 3%nat.
  Proof.
    unfold z_setBaseStateYaw. rewrite <- st3_is_ok. split.
    - intros H. apply bind_is_ok in H. destruct H as (b & Hb & _). unfold b_setStateYaw in Hb. apply bind_ok in Hb. destruct Hb as (s & E & _). eexists; exact E.
    - intros (s & E). assert (Hb : b_setStateYaw v (zb z) = Ok (b_setStates (zb z) (bsx (zb z)) (bsy (zb z)) (bsroll (zb z)) (bspitch (zb z)) s)) by (unfold b_setStateYaw; rewrite E; reflexivity).
      destruct (models_onBase _ _ _ (BSetStateYaw v) _ (proj1 Z) Hb I) as (MM & S). rewrite Hb. cbn [bind].
      apply one_is_ok; try assumption; try reflexivity. right. right. repeat split.
  Qed.
  Lemma onBase_is_ok c : is_ok (z_onBase c z) <-> is_ok (bstep c (zb z)).
  Proof. unfold z_onBase. apply bind_const. Qed.
  Lemma onLip_is_ok c : is_ok (z_onLip c z) <-> is_ok (lstep c (zl z)).
  Proof. unfold z_onLip. apply bind_const. Qed.
  Lemma limit_is_ok A x (y : A) : is_ok (do _ <- guard (s0 <=? x)%sc; Ok y) <-> 0 <= x.
  Proof. rewrite guard_is_ok. rsimpl. rewrite Rleb_true. split; [tauto|]. intros H. split; [exact H|]. eexists; reflexivity. Qed.
  Lemma contact_is_ok b : bN b = bN (zb z) -> bT b = bT (zb z) -> btcx b <> None -> btcy b <> None -> is_ok (z_contact (z_setModels z (zl z) b)).
  Proof.
    intros E1 E2 C1 C2. unfold z_contact, tilt_contact, b_getTiltContactPointX, b_getTiltContactPointY. cbn [zl zb zo z_setModels].
    pose proof (agree_ok _ _ M) as A. unfold agree in *. rewrite E1, E2, A. cbn [bind].
    destruct (btcx b); [|contradiction]. destruct (btcy b); [|contradiction]. cbn [bind]. eexists; reflexivity.
  Qed.
  Lemma baseRef_len (v : vec R) : vlen v = (bN (zb z) * 2)%nat <-> vlen v = (2 * horizon z)%nat.
  Proof. unfold horizon. rewrite (mo_N _ _ M). lia. Qed.
  Lemma setWeightings_is_ok w : is_ok (z_setWeightings w z) <-> zaccepts (ZSetWeightings w) z gh.
  Proof.
    unfold zaccepts, z_setWeightings. cbv zeta. rewrite !guard_is_ok. rsimpl. rewrite !Rleb_true.
    assert (O : oinv (z_setOpts z w (zc z)) gh gs) by (destruct (proj1 Z); constructor; assumption).
    rewrite (compute_regular _ _ _ O). cbn [z_setOpts zw zl zb]. unfold period. tauto.
  Qed.
  Lemma setConfig_is_ok c : is_ok (z_setConfig c z).
  Proof.
    assert (O : oinv (z_setOpts z (zw z) c) gh gs) by (destruct (proj1 Z); constructor; assumption).
    apply (compute_regular _ _ _ O). exact now_regular.
  Qed.
  Lemma setComRef_is_ok v : is_ok (z_setComRef v z) <-> vlen v = (2 * horizon z)%nat.
  Proof.
    unfold z_setComRef, horizon. rewrite guard_is_ok, Nat.eqb_eq, (agree_ok _ _ M). cbn [bind]. split; [intros (H & _); lia|]. intros H. split; [lia|].
    unfold vaddE. destruct (oi_r _ _ _ (proj1 Z)) as (_ & _ & R3 & _). rewrite R3, H, Nat.eqb_refl. eexists; reflexivity.
  Qed.
  Lemma setComAndCopRef_is_ok a b c d : is_ok (z_setComAndCopRef a b c d z) <-> zaccepts (ZSetComAndCopRef a b c d) z gh.
  Proof.
    unfold zaccepts, z_setComAndCopRef. cbv zeta. rewrite !guard_is_ok, !Nat.eqb_eq. unfold horizon.
    split.
    - intros (H1 & H3 & H2 & H4 & H). split; [repeat split; assumption|].
      apply bind_is_ok in H. destruct H as (z1 & Hz1 & H). unfold z_setComRef in Hz1. apply guard_ok in Hz1. destruct Hz1 as (_ & Hz1).
      apply bind_ok in Hz1. destruct Hz1 as (_ & _ & Hz1). apply bind_ok in Hz1. destruct Hz1 as (s & _ & Hz1). injection Hz1 as <-. cbn [z_setRefs zl zb] in H.
      apply bind_is_ok in H. destruct H as (r & Hr & _). unfold cop_ref_in_world in Hr. cbv zeta in Hr. do 4 (apply guard_ok in Hr; destruct Hr as (_ & Hr)).
      apply bind_ok in Hr. destruct Hr as (_ & _ & Hr). apply guard_ok in Hr. destruct Hr as (Hr & _). rewrite sabs_Rabs in Hr. rsimpl. apply Rltb_true in Hr. exact Hr.
    - intros ((H1 & H2 & H3 & H4) & H). repeat (split; [assumption|]).
      destruct (proj2 (setComRef_is_ok (vsub a c))) as (z1 & Hz1); [exact H1|]. rewrite Hz1. cbn [bind].
      unfold z_setComRef in Hz1. apply guard_ok in Hz1. destruct Hz1 as (_ & Hz1).
      apply bind_ok in Hz1. destruct Hz1 as (_ & _ & Hz1). apply bind_ok in Hz1. destruct Hz1 as (s & _ & Hz1). injection Hz1 as <-. cbn [z_setRefs zl zb].
      unfold cop_ref_in_world. cbv zeta. rewrite H1, H2, H3, H4, Nat.eqb_refl, (agree_ok _ _ M), sabs_Rabs. cbn [guard bind]. rsimpl.
      rewrite (proj2 (Rltb_true _ _) H). cbn [guard bind]. eexists; reflexivity.
  Qed.
End Calls.

(** ** Solve *)
Lemma zQ_size z Q : zQ (lN (zl z)) (zo z) (zw z) = Ok Q -> mrows Q = (4 * lN (zl z))%nat /\ mcols Q = (4 * lN (zl z))%nat.
Proof.
  unfold zQ. cbv zeta. set (A := addW (zwJerk (zw z)) _ _). assert (E : mrows A = (4 * lN (zl z))%nat /\ mcols A = (4 * lN (zl z))%nat).
  { unfold A, addW, addWblock. repeat match goal with |- context [if ?c then _ else _] => destruct c end; split; reflexivity. }
  clearbody A. intros H. apply bind_ok in H. destruct H as (B & H1 & H2).
  assert (G : forall w t (X Y : mat R), addWo w t X = Ok Y -> mrows Y = mrows X /\ mcols Y = mcols X).
  { intros w t X Y HH. unfold addWo in HH. destruct (sltb s0 w); [destruct t; [|discriminate]|]; injection HH as <-; split; reflexivity. }
  destruct (G _ _ _ _ H1) as (E1 & E2), (G _ _ _ _ H2) as (E3 & E4). destruct E as (E5 & E6). split; congruence.
Qed.
Lemma zA_size z : mrows (zA z) = z_M z /\ mcols (zA z) = (4 * lN (zl z))%nat.
Proof. unfold zA. cbv zeta. destruct (zcCop (zc z)), (zcBase (zc z)), (zcCom (zc z)), (zcTilt (zc z)); split; reflexivity. Qed.
Lemma z_dims_ok z gh gs q : zinv z gh gs -> z_problem z = Ok q -> dimensionsAreConsistent q (snbVar (zsol z)) (snbCtr (zsol z)) = true.
Proof.
  intros (O & Q) H. pose proof (z_problem_shape _ _ Q H) as (P1 & P2 & P3 & P4 & P5 & P6 & P7).
  destruct (qi_Q _ Q) as (QQ & E & EQ & _). destruct (zQ_size _ _ E) as (E1 & E2). destruct (zA_size z) as (E3 & E4).
  assert (X : mrows (qQ q) = (4 * lN (zl z))%nat /\ mcols (qQ q) = (4 * lN (zl z))%nat) by (rewrite P1, EQ; split; assumption).
  assert (Y : mrows (qA q) = z_M z /\ mcols (qA q) = (4 * lN (zl z))%nat) by (rewrite P2, (qi_A _ Q); split; assumption).
  destruct X as (X1 & X2), Y as (Y1 & Y2).
  unfold dimensionsAreConsistent. rewrite (qi_nv _ Q), (qi_nc _ Q), X1, X2, Y1, Y2, P3, P4, P5, P6, P7, !Nat.eqb_refl. reflexivity.
Qed.
Lemma problem_refs z gh gs q : zinv z gh gs -> z_problem z = Ok q -> refs_sized z.
Proof.
  intros (O & Q) H. pose proof (mo_N _ _ (oi_m _ _ _ O)) as HN. unfold z_problem in H. cbv zeta in H.
  apply guard_ok in H. destruct H as (_ & H).
  apply bind_ok in H. destruct H as (gv & H1 & H). apply guard_ok in H. destruct H as (_ & H).
  apply bind_ok in H. destruct H as (gp & H2 & H). apply guard_ok in H. destruct H as (_ & H).
  apply bind_ok in H. destruct H as (gc & H3 & H). clear H.
  unfold btrack_gradient in H1, H2. unfold cop_gradient in H3. cbv zeta in H1, H2.
  apply guard_ok in H1. destruct H1 as (_ & H1). apply guard_ok in H1. destruct H1 as (H1 & _).
  apply guard_ok in H2. destruct H2 as (_ & H2). apply guard_ok in H2. destruct H2 as (H2 & _).
  apply guard_ok in H3. destruct H3 as (_ & H3). apply guard_ok in H3. destruct H3 as (H3 & _).
  apply Nat.eqb_eq in H1, H2, H3. unfold refs_sized, horizon. rewrite HN in *. lia.
Qed.
Lemma solve_is_ok o f z gh gs : zinv z gh gs -> (is_ok (z_solve o f z) <-> 0 < f /\ refs_sized z).
Proof.
  intros Z. split.
  - intros ([b z'] & H). apply z_solve_inv in H. destruct H as (q & s & dX & Hq & Hf & _). split; [exact Hf|]. exact (problem_refs _ _ _ _ Z Hq).
  - intros (Hf & HR). destruct (problem_ok _ _ _ Z HR) as (q & Hq). pose proof (z_dims_ok _ _ _ _ Z Hq) as HD.
    unfold z_solve. rewrite Hq. cbn [bind]. rsimpl. rewrite (proj2 (Rltb_true 0 f) Hf). cbn [guard bind].
    unfold solver_solve. rewrite HD. cbn [guard bind].
    destruct Z as (O & Q). destruct (o _ _) as [x ok]. rewrite (qi_nv _ Q), (oi_dX _ _ _ O), Nat.leb_refl. cbn [ubguard bind]. rewrite andb_false_r. cbn [bind].
    unfold vaddE. cbn [vlen]. rewrite (oi_X _ _ _ O), Nat.eqb_refl. cbn [guard bind].
    unfold l_updateStateX, l_updateStateY, b_updateStateX, b_updateStateY.
    rewrite updateState_ok by assumption. cbn [bind]. rewrite updateState_ok by assumption. cbn [bind].
    rewrite updateState_ok by assumption. cbn [bind]. rewrite updateState_ok by assumption. cbn [bind]. eexists; reflexivity.
Qed.

(** Every call returns exactly when [zaccepts] holds. *)
Lemma step_is_ok {TR : Trig R} c z gh gs : zinv z gh gs -> (is_ok (zstep c z) <-> zaccepts c z gh).
Proof.
  intros Z. pose proof (oi_m _ _ _ (proj1 Z)) as M. pose proof (mo_N _ _ M) as HN. destruct c; cbn [zstep].
  - exact (setNb_is_ok z gh gs Z n).
  - exact (setT_is_ok z gh gs Z T).
  - exact (setG_is_ok z gh gs Z g).
  - exact (setCopPolygon_is_ok z gh gs Z p).
  - exact (setComPolygon_is_ok z gh gs Z p).
  - unfold zaccepts, z_setBaseCopHull. rewrite bind_is_ok. split; intros (q & E & H); exists q; (split; [exact E|]); apply (setCopPolygon_is_ok z gh gs Z q); exact H.
  - unfold zaccepts, z_setBaseComHull. rewrite bind_is_ok. split; intros (q & E & H); exists q; (split; [exact E|]); apply (setComPolygon_is_ok z gh gs Z q); exact H.
  - exact (setBodyHeight_is_ok z gh gs Z h).
  - unfold zaccepts. split; [trivial|intros _; exact (setBaseHeight_is_ok z gh gs Z h)].
  - exact (setBodyMass_is_ok z gh gs Z m).
  - exact (setBaseMass_is_ok z gh gs Z m).
  - unfold zaccepts, z_setVelRef. rewrite <- (baseRef_len z gh gs Z), guard_is_ok, Nat.eqb_eq. split; [tauto|]. intros H. split; [exact H|]. eexists; reflexivity.
  - unfold zaccepts, z_setPosRef. rewrite <- (baseRef_len z gh gs Z), guard_is_ok, Nat.eqb_eq. split; [tauto|]. intros H. split; [exact H|]. eexists; reflexivity.
  - unfold zaccepts, z_setCopRef. rewrite <- (baseRef_len z gh gs Z), HN, guard_is_ok, Nat.eqb_eq, (agree_ok _ _ M). split; [tauto|]. intros H. split; [exact H|]. eexists; reflexivity.
  - exact (setComRef_is_ok z gh gs Z v).
  - exact (setComAndCopRef_is_ok z gh gs Z _ _ _ _).
  - rewrite onBase_is_ok. cbn [bstep]. apply limit_is_ok.
  - rewrite onBase_is_ok. cbn [bstep]. apply limit_is_ok.
  - rewrite onBase_is_ok. cbn [bstep]. apply limit_is_ok.
  - rewrite onBase_is_ok. cbn [bstep]. unfold b_setStateX. rewrite bind_const. apply st3_is_ok.
  - rewrite onBase_is_ok. cbn [bstep]. unfold b_setStateY. rewrite bind_const. apply st3_is_ok.
  - rewrite onBase_is_ok. cbn [bstep]. unfold b_setStateRoll. rewrite bind_const. apply st3_is_ok.
  - rewrite onBase_is_ok. cbn [bstep]. unfold b_setStatePitch. rewrite bind_const. apply st3_is_ok.
  - exact (setYaw_is_ok z gh gs Z v).
  - rewrite onLip_is_ok. cbn [lstep]. unfold l_setStateX. rewrite bind_const. apply st3_is_ok.
  - rewrite onLip_is_ok. cbn [lstep]. unfold l_setStateY. rewrite bind_const. apply st3_is_ok.
  - unfold zaccepts. split; [trivial|intros _]. unfold z_setTiltContactPointX, b_setTiltContactPointX. cbn [bind].
    apply (contact_is_ok z gh gs Z); try reflexivity; [discriminate|exact (mo_cy _ _ M)].
  - unfold zaccepts. split; [trivial|intros _]. unfold z_setTiltContactPointY, b_setTiltContactPointY. cbn [bind].
    apply (contact_is_ok z gh gs Z); try reflexivity; [exact (mo_cx _ _ M)|discriminate].
  - exact (setWeightings_is_ok z gh gs Z w).
  - unfold zaccepts. split; [trivial|intros _; exact (setConfig_is_ok z gh gs Z c)].
  - rewrite bind_const. exact (solve_is_ok o feedBackPeriod z gh gs Z).
Qed.

(** The constructor always returns, whatever the uninitialised contact point holds. *)
Lemma objectives_ok z : models_ok (zl z) (zb z) -> is_ok (z_objectives z).
Proof.
  intros M. unfold is_ok, z_objectives.
  remember (zl z) as l eqn:Z1. symmetry in Z1. remember (zb z) as b eqn:Z2. symmetry in Z2.
  assert (K : forall y, zl y = l -> zb y = b -> models_ok (zl y) (zb y)) by (intros y -> ->; exact M).
  destruct (steps_ok z (K z Z1 Z2)) as (_ & (y1 & E1 & A1 & B1 & C1) & _). rewrite Z1 in A1. rewrite Z2 in B1.
  destruct (steps_ok y1 (K y1 A1 B1)) as (_ & _ & (y2 & E2 & A2 & B2 & C2) & _). rewrite A1 in A2. rewrite B1 in B2.
  destruct (steps_ok y2 (K y2 A2 B2)) as ((y3 & E3 & A3 & B3 & C3) & _). rewrite A2 in A3. rewrite B2 in B3.
  destruct (steps_ok y3 (K y3 A3 B3)) as (_ & _ & _ & (y4 & E4 & A4 & B4 & C4) & _). rewrite A3 in A4. rewrite B3 in B4.
  destruct (steps_ok y4 (K y4 A4 B4)) as (_ & _ & _ & _ & (y5 & E5 & A5 & B5 & C5) & _). rewrite A4 in A5. rewrite B4 in B5.
  destruct (steps_ok y5 (K y5 A5 B5)) as (_ & _ & _ & _ & _ & (y6 & E6 & A6 & B6 & C6) & _). rewrite A5 in A6. rewrite B5 in B6.
  destruct (steps_ok y6 (K y6 A6 B6)) as (_ & _ & _ & _ & _ & _ & (y7 & E7 & A7 & B7 & C7) & _). rewrite A6 in A7. rewrite B6 in B7.
  destruct (steps_ok y7 (K y7 A7 B7)) as (_ & _ & _ & _ & _ & _ & _ & (y8 & E8 & A8 & B8 & C8) & _). rewrite A7 in A8. rewrite B7 in B8.
  destruct (steps_ok y8 (K y8 A8 B8)) as (_ & _ & _ & _ & _ & _ & _ & _ & (y9 & E9 & A9 & B9 & C9) & _). rewrite A8 in A9. rewrite B8 in B9.
  destruct (steps_ok y9 (K y9 A9 B9)) as (_ & _ & _ & _ & _ & _ & _ & _ & _ & (y10 & E10 & A10 & B10 & C10) & _). rewrite A9 in A10. rewrite B9 in B10.
  destruct (steps_ok y10 (K y10 A10 B10)) as (_ & _ & _ & _ & _ & _ & _ & _ & _ & _ & (y11 & E11 & A11 & B11 & C11) & _).
  exists y11. rewrite E1. cbn [bind]. rewrite E2. cbn [bind]. rewrite E3. cbn [bind]. rewrite E4. cbn [bind]. rewrite E5. cbn [bind]. rewrite E6. cbn [bind].
  rewrite E7. cbn [bind]. rewrite E8. cbn [bind]. rewrite E9. cbn [bind]. rewrite E10. cbn [bind]. exact E11.
Qed.
Lemma newLipDefault_ok : is_ok (newLipDefault (K:=R)).
Proof.
  unfold newLipDefault, newLip, l_auto. cbn [lauto]. edestruct l_compute_returns as (l & E & _); [| |exists l; exact E].
  - cbn [lfb]. rsimpl. lra.
  - unfold valid_params. cbn [lT lN lg lm lM]. unfold GRAVITY. cbn [gz]. rsimpl. rewrite Rabs_right by lra. repeat split; try lra. lia.
Qed.
Lemma newBaseDefault_ok : is_ok (newBaseDefault (K:=R)).
Proof.
  unfold newBaseDefault, b_auto. cbn [bauto b_init]. apply b_compute_is_ok. cbn [bT bN bg bm bM b_init]. unfold valid_params, GRAVITY. cbn [gz]. rsimpl.
  rewrite Rabs_right by lra. repeat split; try lra. lia.
Qed.
Lemma new_is_ok ux uy : is_ok (newZeb ux uy).
Proof.
  destruct newLipDefault_ok as (l & Hl), newBaseDefault_ok as (b & Hb). rewrite new_start, Hl, Hb. cbn [bind].
  destruct (start_models ux uy l b Hl Hb) as (MM & Eh & _).
  destruct (objectives_ok (z_start ux uy l b) MM) as (z1 & E). rewrite E. cbn [bind].
  destruct (new_pre (z_start ux uy l b) _ _ MM eq_refl eq_refl eq_refl eq_refl E) as (O & W).
  apply (compute_regular _ _ _ O). rewrite W. unfold z_start, tilt_regular. cbv zeta. cbn [zw zwTilt zwTiltVel]. rsimpl. intros [H|H]; lra.
Qed.
