(** Properties of the Zebulon generator over histories of calls: C47, C48, C56 to C59, and the parts of
    C16, C17 and C19 about this generator. *)

From Coq Require Import Reals List ZArith Lra Lia Arith Bool.
From Verif Require Import Scalar LinAlg LinAlgFacts ToolsModel ToolsSpec ToolsFacts NoDynModel PolygonModel HullFacts
  QPModel QPFacts TrajModel TrajFacts LipModel BaseModel ModelsSpec ModelsFacts ZebModel HumAlg ZebAlg ZebSpec ZebFacts
  ZebObj ZebTilt ZebProb ZebCon ZebLive ZebCalls ZebInv ZebView ZebDemo PropZeb PropZebCases.
Import ListNotations.
Local Open Scope R_scope.

(** ** C47: what the setters refresh *)
(** Is the height of the base that the tilt objectives use the current one?  Not between a call of
    setComBaseHeight and the next call that refreshes them. *)
Definition tilt_current (cs : list (zcall R)) : bool :=
  fold_left (fun b c => match c with
    | ZSetBaseHeight _ => false
    | ZSetNbSamples _ | ZSetSamplingPeriod _ | ZSetBodyHeight _ | ZSetBodyMass _ | ZSetBaseMass _ => true
    | _ => b end) cs true.
(** Is the shift of the CoM reference that of the current gravity, masses and heights?  Not after
    setNbSamples, until one of them is set, and not initially. *)
Definition shift_current (cs : list (zcall R)) : bool :=
  fold_left (fun b c => match c with
    | ZSetNbSamples _ => false
    | ZSetGravity _ | ZSetBodyHeight _ | ZSetBaseHeight _ | ZSetBodyMass _ | ZSetBaseMass _ => true
    | _ => b end) cs false.
Lemma base_height_kept c z hb cl z' : zreach z hb cl -> zstep c z = Ok z' -> (forall h, c <> ZSetBaseHeight h) -> bh (zb z') = bh (zb z).
Proof.
  intros Z H N. pose proof (step_effect z hb cl (reach_zinv _ _ _ Z) c z' H) as E. unfold zeffect in E. unfold view_of at 1 in E. cbv iota beta zeta in E.
  assert (P : forall v, view_of z' = v -> ph (vb v) = bh (zb z) -> bh (zb z') = bh (zb z)) by (intros v E1 E2; rewrite <- E2, <- E1; reflexivity).
  destruct c; try (apply (P _ E); reflexivity); try (destruct E as (q & _ & E); apply (P _ E); reflexivity).
  - destruct (N _ eq_refl).
  - destruct E as (r & E & _). apply (P _ E). reflexivity.
Qed.
Lemma history_reach cs : forall z hb cl z', zreach z hb cl -> zsteps cs z = Ok z' ->
  exists hb' , zreach z' hb' (negb (fold_left (fun b c => match c with
    | ZSetNbSamples _ => false
    | ZSetGravity _ | ZSetBodyHeight _ | ZSetBaseHeight _ | ZSetBodyMass _ | ZSetBaseMass _ => true
    | _ => b end) cs (negb cl)))
  /\ forall b, (b = true -> hb = bh (zb z)) -> fold_left (fun b c => match c with
    | ZSetBaseHeight _ => false
    | ZSetNbSamples _ | ZSetSamplingPeriod _ | ZSetBodyHeight _ | ZSetBodyMass _ | ZSetBaseMass _ => true
    | _ => b end) cs b = true -> hb' = bh (zb z').
Proof.
  induction cs as [|c cs IH]; intros z hb cl z' Z H.
  - injection H as <-. exists hb. cbn [fold_left]. rewrite negb_involutive. split; [exact Z|]. intros b Hb E. exact (Hb E).
  - cbn [zsteps] in H. apply bind_ok in H. destruct H as (y & Hy & H). pose proof (zreach_step _ _ _ _ _ Z Hy) as Zy.
    pose proof (base_height_kept c z hb cl y Z Hy) as K. destruct (IH _ _ _ _ Zy H) as (hb' & Z' & E). exists hb'. cbn [fold_left]. split.
    + destruct c; exact Z'.
    + intros b Hb F. refine (E _ _ F). destruct c; cbn [tilt_refreshed]; intros Eb; try discriminate Eb;
        (rewrite K by (intros; discriminate)); first [reflexivity|exact (Hb Eb)].
Qed.
(** If the height of the base has not been changed since the tilt objectives were last refreshed and
    the shift of the CoM reference is current (or gravity is vertical), then the problem of the solver
    is that of the current parameters. *)
Theorem C47_current_parameters : forall ux uy z0 cs z q,
  newZeb ux uy = Ok z0 -> zsteps cs z0 = Ok z -> z_problem z = Ok q ->
  tilt_current cs = true ->
  shift_current cs = true \/ (gx (lg (zl z)) = 0 /\ gy (lg (zl z)) = 0) ->
  (0 < zwTilt (zw z) -> tilt_moderate (period z) (tilt_a1 z (bh (zb z))) (tilt_a6 z (bh (zb z)))) ->
  (0 < zwTiltVel (zw z) -> tiltvel_moderate (period z) (tilt_a1 z (bh (zb z))) (tilt_a6 z (bh (zb z)))) ->
  let cost := zeb_cost z (bh (zb z)) (gshift z (gx (lg (zl z)))) (gshift z (gy (lg (zl z)))) in
  (exists f, 1 <= f /\ forall d, qcost q d = f * (cost (fun k => vget (zX z) k + d k) - cost (vget (zX z))))
  /\ (forall d, qfeasible q d <-> zadmissible z (fun k => vget (zX z) k + d k) /\ zmoderate z d).
Proof.
  intros ux uy z0 cs z q H0 H Q HC HS HT HV cost.
  destruct (history_reach cs z0 0 true z (zreach_new _ _ _ H0) H) as (hb & Z & E).
  assert (V0 : bh (zb z0) = 0) by exact (f_equal (fun v => ph (vb v)) (new_view _ _ _ H0)).
  rewrite (E true (fun _ => eq_sym V0) HC) in Z. cbn [negb] in Z. split.
  - destruct (C41_objective z _ _ q Z Q HT HV) as (f & Hf & F). exists f. split; [exact Hf|]. intros d. rewrite F. unfold cost.
    destruct HS as [HS|(G1 & G2)].
    + unfold shift_current in HS. rewrite HS. reflexivity.
    + assert (S : gshift z 0 = 0) by (unfold gshift, Rdiv; ring). rewrite G1, G2, S. destruct (negb _); reflexivity.
  - exact (C42_feasible_set z _ _ q Z Q).
Qed.

(** setComBaseHeight leaves the tilt objectives as they were: the problem is then not that of the
    current height. *)
Lemma ssum1 (f : nat -> R) : ssum 1 f = f 0%nat.
Proof. cbn [ssum]. rsimpl. ring. Qed.
Definition low_base : list (zcall R) := [ZSetBaseMass (981/600); ZSetBaseHeight 1; ZSetWeightings (MkZW 0 0 0 0 0 1 0)].
Theorem C47_base_height_refuted : exists z hb cleared q,
  zreach z hb cleared /\ z_problem z = Ok q /\ 0 < zwTilt (zw z) /\ tilt_moderate (period z) (tilt_a1 z hb) (tilt_a6 z hb)
  /\ forall sx sy, let cost := zeb_cost z (bh (zb z)) sx sy in
     ~ exists f, forall d, qcost q d = f * (cost (fun k => vget (zX z) k + d k) - cost (vget (zX z))).
Proof.
  assert (A : vaccept low_base (view0 0 0) 0) by (unfold low_base; vred; vok).
  destruct (at_calls 0 0 _ A) as (z0 & z & _ & _ & Z & V). cbn [hsteps low_base tilt_refreshed vstep view0 bobs0 bobs_step lobs0 lobs_step vb vl ph om] in Z.
  change (csteps low_base true) with false in Z.
  assert (EN : lN (zl z) = 1%nat) by from V (fun v => oN (vl v)). assert (ET : lT (zl z) = 1) by from V (fun v => oT (vl v)).
  assert (Em : lm (zl z) = 1) by from V (fun v => om (vl v)). assert (Eh : lh (zl z) = 1) by from V (fun v => oh (vl v)).
  assert (Emb : bm (zb z) = 981/600) by from V (fun v => pm (vb v)). assert (Ehb : bh (zb z) = 1) by from V (fun v => ph (vb v)).
  assert (Sx : lsx (zl z) = St3 0 0 0) by from V (fun v => osx (vl v)). assert (Sy : lsy (zl z) = St3 0 0 0) by from V (fun v => osy (vl v)).
  assert (Bx : bsx (zb z) = St3 0 0 0) by from V (fun v => psx (vb v)). assert (By : bsy (zb z) = St3 0 0 0) by from V (fun v => psy (vb v)).
  assert (Br : bsroll (zb z) = St3 0 0 0) by from V (fun v => psroll (vb v)). assert (Bp : bspitch (zb z) = St3 0 0 0) by from V (fun v => pspitch (vb v)).
  assert (Cx : btcx (zb z) = Some 0) by from V (fun v => ptx (vb v)). assert (Cy : btcy (zb z) = Some 0) by from V (fun v => pty (vb v)).
  assert (EX : zX z = vzero 4) by from V vX. assert (EW : zw z = MkZW 0 0 0 0 0 1 0) by from V vw.
  assert (R1 : rvel (zr z) = vzero 2) by from V vvel. assert (R2 : rpos (zr z) = vzero 2) by from V vpos. assert (R3 : rcop (zr z) = vzero 2) by from V vcop.
  assert (Q : exists q, z_problem z = Ok q).
  { apply (problem_ok z _ _ (reach_zinv _ _ _ Z)). unfold refs_sized, horizon. rewrite EN, R1, R2, R3. repeat split. }
  destruct Q as (q & Q). assert (MD : tilt_moderate (period z) (tilt_a1 z 0) (tilt_a6 z 0)).
  { unfold tilt_moderate, period, tilt_a1, tilt_a6. rewrite ET, Em, Eh, Emb. cbv zeta. replace (1 ^ 2) with 1 by ring.
    set (k := 2 * _ / 1). assert (Ek : k = 2) by (unfold k; lra). clearbody k. subst k. assert (P : 10 ^ 15 = 1000000000000000) by ring. rewrite P.
    split; [lra|]. right. split; [lra|]. split; [lra|]. right. lra. }
  exists z, 0, false, q. split; [exact Z|]. split; [exact Q|]. split; [rewrite EW; cbn; lra|]. split; [exact MD|]. intros sx sy cost (f & F).
  destruct (C41_objective z 0 false q Z Q (fun _ => MD)) as (f0 & Hf & G); [rewrite EW; cbn; lra|].
  set (d := fun k : nat => if Nat.eqb k 0 then 1 else 0).
  assert (CF : com_first z = 1) by (rewrite C41_first_interval; unfold period; rewrite ET; lra).
  assert (CS : forall hb sx sy X, zeb_cost z hb sx sy X = / 2 * (ang (rollAt z hb X 0) ^ 2 + ang (pitchAt z hb X 0) ^ 2)).
  { intros hb tx ty X. unfold zeb_cost. cbv zeta. rewrite EW. cbn [zwVel zwPos zwCop zwCom zwJerk zwTilt zwTiltVel]. rewrite (Rmax_left 0 0), (Rmax_right 0 1) by lra.
    unfold horizon. rewrite EN. rewrite !ssum1. ring. }
  assert (EX0 : vget (zX z) = fun _ => 0) by (rewrite EX; reflexivity).
  assert (RO : forall hb j, 981/100 * (1 * 1 + 981/600 * hb) * (1/2) - (1 * 1 * 1 + 981/600 * hb * hb) <> 0 ->
     ang (rollAt z hb (fun k => 0 + (if Nat.eqb k 0 then j else 0)) 0) = j * ((981/600 - 981/600 * hb) / (981/100 * (1 * 1 + 981/600 * hb) * (1/2) - (1 * 1 * 1 + 981/600 * hb * hb))) / 2
     /\ ang (pitchAt z hb (fun k => 0 + (if Nat.eqb k 0 then j else 0)) 0) = 0).
  { intros hb j D. unfold rollAt, pitchAt, tilt_run, flow2, st2_of3, tilt_rhs, tilt_a1, tilt_a6, contactX, contactY, comX, comY, baseX, baseY.
    rewrite CF. unfold period, horizon. rewrite EN, ET, Em, Eh, Emb, Sx, Sy, Bx, By, Br, Bp, Cx, Cy. unfold sim, jComX, jComY, jBaseX, jBaseY. cbn [Nat.add Nat.mul Nat.eqb].
    unfold updateState_raw. cbn [pos vel acc ang angv]. rsimpl. replace (1 ^ 2 / 2) with (1/2) by field. split; field; intros K; apply D; lra. }
  assert (X0 : forall h, zeb_cost z h sx sy (fun _ => 0) = zeb_cost z h sx sy (fun k => 0 + (if Nat.eqb k 0 then 0 else 0))).
  { intros h. f_equal. apply FunctionalExtensionality.functional_extensionality. intros k. destruct (Nat.eqb k 0); ring. }
  specialize (F d). specialize (G d). cbv zeta in G. rewrite G in F. unfold cost in F. rewrite !CS, Ehb, EX0 in F.
  assert (Z0 : (fun _ : nat => 0) = (fun k => 0 + (if Nat.eqb k 0 then 0 else 0))).
  { apply FunctionalExtensionality.functional_extensionality. intros k. destruct (Nat.eqb k 0); ring. }
  rewrite Z0 in F. unfold d in F. cbv beta in F.
  replace (fun k : nat => 0 + (if Nat.eqb k 0 then 0 else 0) + (if Nat.eqb k 0 then 1 else 0)) with (fun k : nat => 0 + (if Nat.eqb k 0 then 1 else 0)) in F
    by (apply FunctionalExtensionality.functional_extensionality; intros k; destruct (Nat.eqb k 0); ring).
  rewrite !(proj1 (RO 0 _ ltac:(lra))), !(proj2 (RO 0 _ ltac:(lra))), !(proj1 (RO 1 _ ltac:(lra))), !(proj2 (RO 1 _ ltac:(lra))) in F.
  set (a := (981 / 600 - 981 / 600 * 0) / _) in F. assert (Ha : 0 < a) by (unfold a; apply Rdiv_lt_0_compat; lra).
  replace (981/600 - 981/600 * 1) with 0 in F by ring. set (b := 0 / _) in F. assert (Hb : b = 0) by (unfold b, Rdiv; ring). clearbody a b. subst b. nra.
Qed.

(** setNbSamples clears the shift of the CoM reference: the problem is then not that of the current
    gravity. *)
Definition leaning : list (zcall R) := [ZSetGravity (V3 1 0 (981/100)); ZSetNbSamples 1; ZSetWeightings (MkZW 0 0 0 1 0 0 0)].
Theorem C47_gravity_shift_refuted : exists z hb cleared q,
  zreach z hb cleared /\ z_problem z = Ok q /\ 0 < zwCom (zw z) /\ zwTilt (zw z) = 0 /\ zwTiltVel (zw z) = 0
  /\ let cost := zeb_cost z (bh (zb z)) (gshift z (gx (lg (zl z)))) (gshift z (gy (lg (zl z)))) in
     ~ exists f, forall d, qcost q d = f * (cost (fun k => vget (zX z) k + d k) - cost (vget (zX z))).
Proof.
  assert (A : vaccept leaning (view0 0 0) 0) by (unfold leaning; vred; rewrite Rabs_right by lra; vok).
  destruct (at_calls 0 0 _ A) as (z0 & z & _ & _ & Z & V). cbn [hsteps leaning tilt_refreshed vstep view0 bobs0 bobs_step lobs0 lobs_step vb vl ph om] in Z.
  change (csteps leaning true) with true in Z.
  assert (EN : lN (zl z) = 1%nat) by from V (fun v => oN (vl v)). assert (ET : lT (zl z) = 1) by from V (fun v => oT (vl v)).
  assert (Em : lm (zl z) = 1) by from V (fun v => om (vl v)). assert (Eh : lh (zl z) = 1) by from V (fun v => oh (vl v)).
  assert (Emb : bm (zb z) = 0) by from V (fun v => pm (vb v)). assert (Ehb : bh (zb z) = 0) by from V (fun v => ph (vb v)).
  assert (Eg : lg (zl z) = V3 1 0 (981/100)) by from V (fun v => og (vl v)).
  assert (Sx : lsx (zl z) = St3 0 0 0) by from V (fun v => osx (vl v)). assert (Sy : lsy (zl z) = St3 0 0 0) by from V (fun v => osy (vl v)).
  assert (Bx : bsx (zb z) = St3 0 0 0) by from V (fun v => psx (vb v)). assert (By : bsy (zb z) = St3 0 0 0) by from V (fun v => psy (vb v)).
  assert (EX : zX z = vzero 4) by from V vX. assert (EW : zw z = MkZW 0 0 0 1 0 0 0) by from V vw.
  assert (R1 : rvel (zr z) = vzero 2) by from V vvel. assert (R2 : rpos (zr z) = vzero 2) by from V vpos. assert (R3 : rcop (zr z) = vzero 2) by from V vcop.
  assert (R4 : rcom (zr z) = vzero 2) by from V vcom.
  assert (Q : exists q, z_problem z = Ok q).
  { apply (problem_ok z _ _ (reach_zinv _ _ _ Z)). unfold refs_sized, horizon. rewrite EN, R1, R2, R3. repeat split. }
  destruct Q as (q & Q).
  exists z, 0, true, q. split; [exact Z|]. split; [exact Q|]. rewrite EW. cbn [zwCom zwTilt zwTiltVel]. split; [lra|]. split; [reflexivity|]. split; [reflexivity|]. cbv zeta. intros (f & F).
  destruct (C41_objective z 0 true q Z Q) as (f0 & Hf & G); [rewrite EW; cbn; lra|rewrite EW; cbn; lra|]. cbv zeta in G.
  assert (CF : com_first z = 1) by (rewrite C41_first_interval; unfold period; rewrite ET; lra).
  assert (CS : forall hb sx sy X, zeb_cost z hb sx sy X = / 2 * ((relX z X 0 - sx) ^ 2 + (relY z X 0 - sy) ^ 2)).
  { intros hb tx ty X. unfold zeb_cost. cbv zeta. rewrite EW, R4. cbn [zwVel zwPos zwCop zwCom zwJerk zwTilt zwTiltVel vget vzero]. rewrite (Rmax_left 0 0), (Rmax_right 0 1) by lra.
    unfold horizon. rewrite EN. rewrite !ssum1. change (s0 (K:=R)) with 0. ring. }
  assert (RX : forall j, relX z (fun k => vget (zX z) k + (if Nat.eqb k 0 then j else 0)) 0 = j / 6 /\ relY z (fun k => vget (zX z) k + (if Nat.eqb k 0 then j else 0)) 0 = 0).
  { intros j. unfold relX, relY, comX, comY, baseX, baseY. rewrite CF. unfold period, horizon. rewrite EN, ET, Sx, Sy, Bx, By, EX.
    unfold sim, jComX, jComY, jBaseX, jBaseY. cbn [Nat.add Nat.mul Nat.eqb vget vzero]. unfold updateState_raw. cbn [pos vel acc]. rsimpl. split; field. }
  assert (R0 : relX z (vget (zX z)) 0 = 0 /\ relY z (vget (zX z)) 0 = 0).
  { unfold relX, relY, comX, comY, baseX, baseY. rewrite CF. unfold period, horizon. rewrite EN, ET, Sx, Sy, Bx, By, EX.
    unfold sim, jComX, jComY, jBaseX, jBaseY. cbn [Nat.add Nat.mul Nat.eqb vget vzero]. unfold updateState_raw. cbn [pos vel acc]. rsimpl. split; field. }
  assert (GS : gshift z 1 = 100/981 /\ gshift z 0 = 0) by (unfold gshift; rewrite Em, Eh, Emb, Ehb, Eg; cbn [gz]; split; field).
  pose proof (F (fun k => if Nat.eqb k 0 then 1 else 0)) as F1. pose proof (F (fun k => if Nat.eqb k 0 then -1 else 0)) as F2.
  rewrite G in F1, F2. rewrite Eg in F1, F2. cbn [gx gy] in F1, F2. rewrite !(proj1 GS), !(proj2 GS), !CS in F1, F2. rewrite !(proj1 (RX 1)), !(proj2 (RX 1)), (proj1 R0), (proj2 R0) in F1. rewrite !(proj1 (RX (-1))), !(proj2 (RX (-1))), (proj1 R0), (proj2 R0) in F2.
  nra.
Qed.
(** The three references of the previous size are not resized: after a change of the number of samples
    solve does not return until they have been set again. *)
Theorem C47_resize_refuted : forall z hb cleared n z' o f,
  zreach z hb cleared -> refs_sized z -> n <> horizon z -> zstep (ZSetNbSamples n) z = Ok z' ->
  ~ is_ok (zstep (ZSolve o f) z').
Proof.
  intros z hb cl n z' o f Z RS Hn H S. pose proof (step_effect z hb cl (reach_zinv _ _ _ Z) _ _ H) as E.
  pose proof (zreach_step _ _ _ _ _ Z H) as Z'. apply (step_is_ok (ZSolve o f) z' _ _ (reach_zinv _ _ _ Z')) in S. destruct S as (_ & (S & _)). destruct RS as (RS & _).
  assert (E1 : rvel (zr z') = rvel (zr z)) by exact (f_equal vvel E). assert (E2 : lN (zl z') = n) by exact (f_equal (fun v => oN (vl v)) E).
  rewrite E1 in S. unfold horizon in *. rewrite E2 in S. lia.
Qed.

(** ** C48: the masses *)
(** The total mass used by both models is always the sum of the two masses. *)
Theorem C48_total_mass : forall z hb cleared, zreach z hb cleared ->
  lM (zl z) = lm (zl z) + bm (zb z) /\ bM (zb z) = lm (zl z) + bm (zb z) /\ 1/10000 < lm (zl z) + bm (zb z).
Proof.
  intros z hb cl Z. apply reach_zinv in Z. pose proof (oi_m _ _ _ (proj1 Z)) as M. pose proof (mo_m _ _ M) as E. pose proof (mo_M _ _ M) as E'.
  split; [exact E|]. split; [rewrite E'; exact E|]. destruct (models_valid _ _ M) as ((_ & _ & _ & _ & V) & _). exact V.
Qed.
(** When a mass is accepted, and what it does *)
Theorem C48_body_mass : forall z hb cleared m, zreach z hb cleared ->
  let m0 := lm (zl z) in let mb := bm (zb z) in
  (is_ok (zstep (ZSetBodyMass m) z) <->
     m0 <= m + mb /\ 0 <= m /\ 1/10000 < m + mb /\ tilt_regular (zw z) (period z) m (lh (zl z)) mb (bh (zb z)))
  /\ forall z', zstep (ZSetBodyMass m) z = Ok z' -> lm (zl z') = m /\ bm (zb z') = mb /\ lM (zl z') = m + mb /\ bM (zb z') = m + mb.
Proof.
  intros z hb cl m Z m0 mb. split; [exact (step_is_ok (ZSetBodyMass m) z hb cl (reach_zinv _ _ _ Z))|].
  intros z' H. pose proof (step_effect z hb cl (reach_zinv _ _ _ Z) _ _ H) as E.
  split; [exact (f_equal (fun v => om (vl v)) E)|]. split; [exact (f_equal (fun v => pm (vb v)) E)|]. split; [exact (f_equal (fun v => oM (vl v)) E)|exact (f_equal (fun v => pM (vb v)) E)].
Qed.
Theorem C48_base_mass : forall z hb cleared mb, zreach z hb cleared ->
  let m := lm (zl z) in let mb0 := bm (zb z) in
  (is_ok (zstep (ZSetBaseMass mb) z) <->
     mb0 <= m + mb /\ 0 < mb /\ 1/10000 < m + mb /\ tilt_regular (zw z) (period z) m (lh (zl z)) mb (bh (zb z)))
  /\ forall z', zstep (ZSetBaseMass mb) z = Ok z' -> lm (zl z') = m /\ bm (zb z') = mb /\ lM (zl z') = m + mb /\ bM (zb z') = m + mb.
Proof.
  intros z hb cl mb Z m mb0. split; [exact (step_is_ok (ZSetBaseMass mb) z hb cl (reach_zinv _ _ _ Z))|].
  intros z' H. pose proof (step_effect z hb cl (reach_zinv _ _ _ Z) _ _ H) as E.
  split; [exact (f_equal (fun v => om (vl v)) E)|]. split; [exact (f_equal (fun v => pm (vb v)) E)|]. split; [exact (f_equal (fun v => oM (vl v)) E)|exact (f_equal (fun v => pM (vb v)) E)].
Qed.
(** A new generator has no base mass and a unit body mass, and does not accept a smaller body mass. *)
Theorem C48_lower_mass_refuted : forall ux uy z, newZeb ux uy = Ok z ->
  lm (zl z) = 1 /\ bm (zb z) = 0 /\ (forall m, m < 1 -> ~ is_ok (zstep (ZSetBodyMass m) z)) /\ (forall m, 1 <= m -> is_ok (zstep (ZSetBodyMass m) z)).
Proof.
  intros ux uy z H. pose proof (new_view _ _ _ H) as V. assert (Em : lm (zl z) = 1) by from V (fun v => om (vl v)). assert (Eb : bm (zb z) = 0) by from V (fun v => pm (vb v)).
  assert (EW : zw z = MkZW 0 0 0 0 0 0 0) by from V vw.
  split; [exact Em|]. split; [exact Eb|]. split; intros m Hm.
  - intros K. apply (C48_body_mass z 0 true m (zreach_new _ _ _ H)) in K. rewrite Em, Eb in K. lra.
  - apply (C48_body_mass z 0 true m (zreach_new _ _ _ H)). rewrite Em, Eb, EW. split; [lra|]. split; [lra|]. split; [lra|]. intros [K|K]; cbn in K; lra.
Qed.

(** ** C57: exactly when each call returns *)
Theorem C57_constructor_returns : forall ux uy, is_ok (newZeb (K:=R) ux uy).
Proof. exact new_is_ok. Qed.
Theorem C57_call_returns_iff : forall z hb cleared c, zreach z hb cleared -> (is_ok (zstep c z) <-> zaccepts c z hb).
Proof. intros z hb cl c Z. exact (step_is_ok c z hb cl (reach_zinv _ _ _ Z)). Qed.
Theorem C57_solve_returns_iff : forall z hb cleared o f, zreach z hb cleared ->
  (is_ok (z_solve o f z) <-> 0 < f
     /\ vlen (rvel (zr z)) = (2 * horizon z)%nat /\ vlen (rpos (zr z)) = (2 * horizon z)%nat /\ vlen (rcop (zr z)) = (2 * horizon z)%nat).
Proof. intros z hb cl o f Z. exact (solve_is_ok o f z hb cl (reach_zinv _ _ _ Z)). Qed.

(** ** C59: what each call changes, and that nothing else matters *)
Theorem C59_call_effect : forall z hb cleared c z', zreach z hb cleared -> zstep c z = Ok z' -> zeffect c (view_of z) (view_of z').
Proof. intros z hb cl c z' Z. exact (step_effect z hb cl (reach_zinv _ _ _ Z) c z'). Qed.
Theorem C59_initial_state : forall ux uy z, newZeb ux uy = Ok z -> view_of z = view0 ux uy.
Proof. exact new_view. Qed.
Lemma view_cost z z' hb sx sy X : view_of z = view_of z' -> zeb_cost z hb sx sy X = zeb_cost z' hb sx sy X.
Proof.
  intros V. unfold view_of, lobs_of, bobs_of in V. injection V as E1 E2 E3 E4 E5 E6 E7 E8 E9 E10 E11 E12 E13 E14 E15 E16 E17 E18 E19 E20 E21 E22 E23 E24 E25 E26 E27 E28 E29 E30 E31 E32 E33 E34 E35 E36.
  unfold zeb_cost, rollAt, pitchAt, copX, copY, relX, relY, rel_cop, comX, comY, baseX, baseY, tilt_rhs, tilt_a1, tilt_a6, contactX, contactY, com_first, horizon, period.
  rewrite E1, E2, E4, E5, E6, E8, E9, E14, E16, E18, E19, E20, E21, E26, E27, E30, E31, E32, E33, E34. reflexivity.
Qed.
Lemma view_gshift z z' g0 : view_of z = view_of z' -> gshift z g0 = gshift z' g0.
Proof.
  intros V. unfold view_of, lobs_of, bobs_of in V. injection V as E1 E2 E3 E4 E5 E6 E7 E8 E9 E10 E11 E12 E13 E14 E15 E16 E17 E18 E19 E20 E21 E22 E23 E24 E25 E26 E27 E28 E29 E30 E31 E32 E33 E34 E35 E36.
  unfold gshift. rewrite E4, E5, E6, E14, E16. reflexivity.
Qed.
Lemma view_adm z z' X d : view_of z = view_of z' -> (zadmissible z X /\ zmoderate z d <-> zadmissible z' X /\ zmoderate z' d).
Proof.
  intros V. unfold view_of, lobs_of, bobs_of in V. injection V as E1 E2 E3 E4 E5 E6 E7 E8 E9 E10 E11 E12 E13 E14 E15 E16 E17 E18 E19 E20 E21 E22 E23 E24 E25 E26 E27 E28 E29 E30 E31 E32 E33 E34 E35 E36.
  unfold zadmissible, zmoderate, base_limits, cop_reflected, com_reflected, along_heading, copX, copY, relX, relY, rel_cop, comX, comY, baseX, baseY, com_first, horizon, period.
  rewrite E1, E2, E4, E5, E6, E8, E9, E14, E16, E18, E19, E22, E23, E24, E25, E28, E29, E35, E36. reflexivity.
Qed.
Lemma view_tilt z z' hb : view_of z = view_of z' -> period z = period z' /\ tilt_a1 z hb = tilt_a1 z' hb /\ tilt_a6 z hb = tilt_a6 z' hb /\ zw z = zw z' /\ lg (zl z) = lg (zl z').
Proof.
  intros V. unfold view_of, lobs_of, bobs_of in V. injection V as E1 E2 E3 E4 E5 E6 E7 E8 E9 E10 E11 E12 E13 E14 E15 E16 E17 E18 E19 E20 E21 E22 E23 E24 E25 E26 E27 E28 E29 E30 E31 E32 E33 E34 E35 E36.
  unfold period, tilt_a1, tilt_a6. rewrite E2, E4, E5, E6, E16, E34. auto.
Qed.
(** Two generators with the same visible state, whatever calls led there, give the solver the same
    feasible set and the same objective up to a positive factor. *)
Theorem C59_no_hidden_state : forall z z' hb cleared q q',
  zreach z hb cleared -> zreach z' hb cleared -> view_of z = view_of z' -> z_problem z = Ok q -> z_problem z' = Ok q' ->
  (0 < zwTilt (zw z) -> tilt_moderate (period z) (tilt_a1 z hb) (tilt_a6 z hb)) ->
  (0 < zwTiltVel (zw z) -> tiltvel_moderate (period z) (tilt_a1 z hb) (tilt_a6 z hb)) ->
  (forall d, qfeasible q d <-> qfeasible q' d)
  /\ (exists f, 0 < f /\ forall d, qcost q' d = f * qcost q d)
  /\ (forall d, qminimiser q d <-> qminimiser q' d).
Proof.
  intros z z' hb cl q q' Z Z' V Q Q' HT HV. destruct (view_tilt z z' hb V) as (V1 & V2 & V3 & V4 & V5).
  assert (VX : zX z = zX z') by exact (f_equal vX V).
  assert (A : forall d, qfeasible q d <-> qfeasible q' d).
  { intros d. rewrite (C42_feasible_set z hb cl q Z Q d), (C42_feasible_set z' hb cl q' Z' Q' d), <- VX. apply view_adm. exact V. }
  assert (B : exists f, 0 < f /\ forall d, qcost q' d = f * qcost q d).
  { destruct (C41_objective z hb cl q Z Q HT HV) as (f & Hf & F).
    destruct (C41_objective z' hb cl q' Z' Q') as (f' & Hf' & F'); [rewrite <- V1, <- V2, <- V3, <- V4; exact HT|rewrite <- V1, <- V2, <- V3, <- V4; exact HV|].
    exists (f' / f). split; [apply Rdiv_lt_0_compat; lra|]. intros d. rewrite F, F'. rewrite <- VX, <- V5, <- !(view_gshift z z' _ V), <- !(view_cost z z' _ _ _ _ V). field. lra. }
  split; [exact A|]. split; [exact B|]. destruct B as (f & Hf & B). intros d. unfold qminimiser. split; intros (H1 & H2); (split; [apply A; exact H1|]); intros y Hy.
  - rewrite !B. apply Rmult_le_compat_l; [lra|]. apply H2, A, Hy.
  - apply Rmult_le_reg_l with f; [exact Hf|]. rewrite <- !B. apply H2, A, Hy.
Qed.

(** ** C56: the contact point *)
(** The constructor does not initialise the contact point of the tilt: [ux] and [uy] are whatever is in
    memory.  Two new generators put through the same calls can pose different problems. *)
Definition tilting : list (zcall R) := [ZSetBaseMass 1; ZSetBodyMass 1; ZSetWeightings (MkZW 0 0 0 0 0 1 0)].
Lemma tilting_state ux uy : exists z0 z q f, newZeb ux uy = Ok z0 /\ zsteps tilting z0 = Ok z /\ z_problem z = Ok q /\ 0 < f
  /\ qcost q (fun k => if Nat.eqb k 0 then 6 else 0) = f * (1/2 - ux) /\ qcost q (fun k => if Nat.eqb k 0 then -6 else 0) = f * (1/2 + ux).
Proof.
  assert (A : vaccept tilting (view0 ux uy) 0) by (unfold tilting; vred; vok).
  destruct (at_calls ux uy _ A) as (z0 & z & H0 & HS & Z & V). cbn [hsteps tilting tilt_refreshed vstep view0 bobs0 bobs_step lobs0 lobs_step vb vl ph om] in Z.
  change (csteps tilting true) with false in Z.
  assert (EN : lN (zl z) = 1%nat) by from V (fun v => oN (vl v)). assert (ET : lT (zl z) = 1) by from V (fun v => oT (vl v)).
  assert (Em : lm (zl z) = 1) by from V (fun v => om (vl v)). assert (Eh : lh (zl z) = 1) by from V (fun v => oh (vl v)).
  assert (Emb : bm (zb z) = 1) by from V (fun v => pm (vb v)).
  assert (Sx : lsx (zl z) = St3 0 0 0) by from V (fun v => osx (vl v)). assert (Sy : lsy (zl z) = St3 0 0 0) by from V (fun v => osy (vl v)).
  assert (Bx : bsx (zb z) = St3 0 0 0) by from V (fun v => psx (vb v)). assert (By : bsy (zb z) = St3 0 0 0) by from V (fun v => psy (vb v)).
  assert (Br : bsroll (zb z) = St3 0 0 0) by from V (fun v => psroll (vb v)). assert (Bp : bspitch (zb z) = St3 0 0 0) by from V (fun v => pspitch (vb v)).
  assert (Cx : btcx (zb z) = Some ux) by from V (fun v => ptx (vb v)). assert (Cy : btcy (zb z) = Some uy) by from V (fun v => pty (vb v)).
  assert (EX : zX z = vzero 4) by from V vX. assert (EW : zw z = MkZW 0 0 0 0 0 1 0) by from V vw.
  assert (R1 : rvel (zr z) = vzero 2) by from V vvel. assert (R2 : rpos (zr z) = vzero 2) by from V vpos. assert (R3 : rcop (zr z) = vzero 2) by from V vcop.
  assert (Q : exists q, z_problem z = Ok q).
  { apply (problem_ok z _ _ (reach_zinv _ _ _ Z)). unfold refs_sized, horizon. rewrite EN, R1, R2, R3. repeat split. }
  destruct Q as (q & Q). assert (MD : tilt_moderate (period z) (tilt_a1 z 0) (tilt_a6 z 0)).
  { unfold tilt_moderate, period, tilt_a1, tilt_a6. rewrite ET, Em, Eh, Emb. cbv zeta. replace (1 ^ 2) with 1 by ring.
    set (k := 2 * _ / 1). assert (Ek : k = 2) by (unfold k; lra). clearbody k. subst k. assert (P : 10 ^ 15 = 1000000000000000) by ring. rewrite P.
    split; [lra|]. right. split; [lra|]. split; [lra|]. right. lra. }
  destruct (C41_objective z 0 false q Z Q (fun _ => MD)) as (f0 & Hf & G); [rewrite EW; cbn; lra|]. cbv zeta in G.
  exists z0, z, q, (f0 * ((981/781) * (981/781))). split; [exact H0|]. split; [exact HS|]. split; [exact Q|]. split; [apply Rmult_lt_0_compat; lra|].
  assert (CF : com_first z = 1) by (rewrite C41_first_interval; unfold period; rewrite ET; lra).
  assert (CS : forall hb sx sy X, zeb_cost z hb sx sy X = / 2 * (ang (rollAt z hb X 0) ^ 2 + ang (pitchAt z hb X 0) ^ 2)).
  { intros hb tx ty X. unfold zeb_cost. cbv zeta. rewrite EW. cbn [zwVel zwPos zwCop zwCom zwJerk zwTilt zwTiltVel]. rewrite (Rmax_left 0 0), (Rmax_right 0 1) by lra.
    unfold horizon. rewrite EN. rewrite !ssum1. ring. }
  assert (RO : forall X j, (forall k, X k = if Nat.eqb k 0 then j else 0) ->
     ang (rollAt z 0 X 0) = 981/781 * (j / 6 - ux) /\ ang (pitchAt z 0 X 0) = - (981/781) * uy).
  { intros X j HX. unfold rollAt, pitchAt, tilt_run, flow2, st2_of3, tilt_rhs, tilt_a1, tilt_a6, contactX, contactY, comX, comY, baseX, baseY.
    rewrite CF. unfold period, horizon. rewrite EN, ET, Em, Eh, Emb, Sx, Sy, Bx, By, Br, Bp, Cx, Cy. unfold sim, jComX, jComY, jBaseX, jBaseY. rewrite !HX. cbn [Nat.add Nat.mul Nat.eqb].
    unfold updateState_raw. cbn [pos vel acc ang angv]. rsimpl. replace (1 ^ 2 / 2) with (1/2) by field. split; field. }
  assert (EX0 : forall k, vget (zX z) k = if Nat.eqb k 0 then 0 else 0) by (intros k; rewrite EX; destruct (Nat.eqb k 0); reflexivity).
  assert (EX1 : forall j k, vget (zX z) k + (if Nat.eqb k 0 then j else 0) = if Nat.eqb k 0 then j else 0) by (intros j k; rewrite EX0; destruct (Nat.eqb k 0); ring).
  rewrite !G, !CS, !(proj1 (RO _ _ EX0)), !(proj2 (RO _ _ EX0)), !(proj1 (RO _ _ (EX1 6))), !(proj2 (RO _ _ (EX1 6))), !(proj1 (RO _ _ (EX1 (-6)))), !(proj2 (RO _ _ (EX1 (-6)))).
  split; field.
Qed.
Theorem C56_contact_point_refuted : forall ux ux' uy, ux <> ux' ->
  exists z0 z q z0' z' q', newZeb ux uy = Ok z0 /\ zsteps tilting z0 = Ok z /\ z_problem z = Ok q
    /\ newZeb ux' uy = Ok z0' /\ zsteps tilting z0' = Ok z' /\ z_problem z' = Ok q'
    /\ ~ exists f, forall d, qcost q' d = f * qcost q d.
Proof.
  intros ux ux' uy N. destruct (tilting_state ux uy) as (z0 & z & q & f & H0 & H & Q & Hf & A1 & A2).
  destruct (tilting_state ux' uy) as (z0' & z' & q' & f' & H0' & H' & Q' & Hf' & B1 & B2).
  exists z0, z, q, z0', z', q'. repeat (split; [assumption|]). intros (k & K).
  rewrite K, A1 in B1. rewrite K, A2 in B2. assert (E : k * f = f') by lra. apply N.
  assert (f' * ux = f' * ux') by (rewrite <- E at 1; lra). apply Rmult_eq_reg_l with f'; [assumption|lra].
Qed.
(** Once both coordinates have been set, what was in memory does not matter: the visible states, hence
    the problems (C59), are the same. *)
Definition plain (c : zcall R) : bool := match c with ZSetComAndCopRef _ _ _ _ | ZSolve _ _ => false | _ => true end.
Definition setsX (cs : list (zcall R)) : bool := existsb (fun c => match c with ZSetContactX _ => true | _ => false end) cs.
Definition setsY (cs : list (zcall R)) : bool := existsb (fun c => match c with ZSetContactY _ => true | _ => false end) cs.
Definition but_contact (v : zview) : zview :=
  let '(ZView l b rv rp rc rm w k X) := v in ZView l (bobs_step (bobs_step b (BSetTiltContactPointX 0)) (BSetTiltContactPointY 0)) rv rp rc rm w k X.
Lemma plain_effect c v v' y y' : plain c = true -> but_contact v = but_contact v' -> zeffect c v y -> zeffect c v' y' -> but_contact y = but_contact y'
  /\ (ptx (vb v) = ptx (vb v') \/ setsX [c] = true -> ptx (vb y) = ptx (vb y'))
  /\ (pty (vb v) = pty (vb v') \/ setsY [c] = true -> pty (vb y) = pty (vb y')).
Proof.
  destruct v as [l b rv rp rc rm w k X], v' as [l' b' rv' rp' rc' rm' w' k' X']. destruct l as [a0 a1 a2 a3 a4 a5 a6 a7 a8 a9 a10], l' as [b0 b1 b2 b3 b4 b5 b6 b7 b8 b9 b10], b as [c0 c1 c2 c3 c4 c5 c6 c7 c8 c9 c10 c11 c12 c13 c14 c15 c16 c17], b' as [d0 d1 d2 d3 d4 d5 d6 d7 d8 d9 d10 d11 d12 d13 d14 d15 d16 d17]. cbn [but_contact bobs_step]. intros P E H H'. injection E; intros; subst; clear E.
  destruct c; try discriminate P; cbn [zeffect] in H, H';
    try (rewrite H, H'; cbn [but_contact bobs_step lobs_step vb ptx pty setsX setsY existsb orb pm om]; (split; [reflexivity|split; intros [?|K]; solve [assumption|discriminate K|reflexivity]])).
  - destruct H as (q & Hq & H), H' as (q' & Hq' & H'). rewrite Hq in Hq'. apply (f_equal (fun r => match r with Ok x => x | _ => q end)) in Hq'. cbv beta iota in Hq'. subst q'.
    rewrite H, H'; cbn [but_contact bobs_step lobs_step vb ptx pty setsX setsY existsb orb pm om]; (split; [reflexivity|split; intros [?|K]; solve [assumption|discriminate K|reflexivity]]).
  - destruct H as (q & Hq & H), H' as (q' & Hq' & H'). rewrite Hq in Hq'. apply (f_equal (fun r => match r with Ok x => x | _ => q end)) in Hq'. cbv beta iota in Hq'. subst q'.
    rewrite H, H'; cbn [but_contact bobs_step lobs_step vb ptx pty setsX setsY existsb orb pm om]; (split; [reflexivity|split; intros [?|K]; solve [assumption|discriminate K|reflexivity]]).
Qed.
Lemma plain_history cs : forall z hb cl y z' hb' cl' y', forallb plain cs = true -> zreach z hb cl -> zreach z' hb' cl' ->
  but_contact (view_of z) = but_contact (view_of z') -> zsteps cs z = Ok y -> zsteps cs z' = Ok y' ->
  but_contact (view_of y) = but_contact (view_of y')
  /\ (ptx (vb (view_of z)) = ptx (vb (view_of z')) \/ setsX cs = true -> ptx (vb (view_of y)) = ptx (vb (view_of y')))
  /\ (pty (vb (view_of z)) = pty (vb (view_of z')) \/ setsY cs = true -> pty (vb (view_of y)) = pty (vb (view_of y'))).
Proof.
  induction cs as [|c cs IH]; intros z hb cl y z' hb' cl' y' P Z Z' E H H'.
  - injection H as <-. injection H' as <-. split; [exact E|]. split; intros [K|K]; solve [exact K|discriminate K].
  - cbn [zsteps] in H, H'. apply bind_ok in H, H'. destruct H as (x & Hx & H), H' as (x' & Hx' & H'). cbn [forallb] in P. apply andb_true_iff in P. destruct P as (P1 & P2).
    destruct (plain_effect c _ _ _ _ P1 E (C59_call_effect _ _ _ _ _ Z Hx) (C59_call_effect _ _ _ _ _ Z' Hx')) as (E1 & E2 & E3).
    destruct (IH _ _ _ _ _ _ _ _ P2 (zreach_step _ _ _ _ _ Z Hx) (zreach_step _ _ _ _ _ Z' Hx') E1 H H') as (F1 & F2 & F3).
    split; [exact F1|]. unfold setsX, setsY in *. cbn [existsb orb] in *. rewrite orb_false_r in *. split; intros [K|K].
    + apply F2. left. apply E2. left. exact K.
    + apply orb_true_iff in K. destruct K as [K|K]; [apply F2; left; apply E2; right; exact K|apply F2; right; exact K].
    + apply F3. left. apply E3. left. exact K.
    + apply orb_true_iff in K. destruct K as [K|K]; [apply F3; left; apply E3; right; exact K|apply F3; right; exact K].
Qed.
Theorem C56_contact_point_set : forall ux uy ux' uy' z0 z0' cs z z',
  newZeb ux uy = Ok z0 -> newZeb ux' uy' = Ok z0' -> forallb plain cs = true -> setsX cs = true -> setsY cs = true ->
  zsteps cs z0 = Ok z -> zsteps cs z0' = Ok z' -> view_of z = view_of z'.
Proof.
  intros ux uy ux' uy' z0 z0' cs z z' H0 H0' P SX SY H H'.
  assert (E : but_contact (view_of z0) = but_contact (view_of z0')) by (rewrite (new_view _ _ _ H0), (new_view _ _ _ H0'); reflexivity).
  destruct (plain_history cs _ _ _ _ _ _ _ _ P (zreach_new _ _ _ H0) (zreach_new _ _ _ H0') E H H') as (E1 & E2 & E3).
  specialize (E2 (or_intror SX)). specialize (E3 (or_intror SY)). destruct (view_of z) as [l b rv rp rc rm w k X], (view_of z') as [l' b' rv' rp' rc' rm' w' k' X']. destruct b as [c0 c1 c2 c3 c4 c5 c6 c7 c8 c9 c10 c11 c12 c13 c14 c15 c16 c17], b' as [d0 d1 d2 d3 d4 d5 d6 d7 d8 d9 d10 d11 d12 d13 d14 d15 d16 d17].
  cbn [but_contact bobs_step vb ptx pty] in *. injection E1; intros; subst; reflexivity.
Qed.

(** ** Concrete cases *)
(** The demo refreshes everything after its last change of height, mass and gravity. *)
Example C47_case : forall k, exists z0 z q, newZeb 0 0 = Ok z0 /\ zsteps (demo k) z0 = Ok z /\ z_problem z = Ok q
  /\ tilt_current (demo k) = true /\ shift_current (demo k) = true /\ bh (zb z) = 1/2 /\ zw z = MkZW 1 1 1 1 1 1 1
  /\ tilt_moderate (period z) (tilt_a1 z (bh (zb z))) (tilt_a6 z (bh (zb z))) /\ tiltvel_moderate (period z) (tilt_a1 z (bh (zb z))) (tilt_a6 z (bh (zb z))).
Proof.
  intros k. destruct (at_calls 0 0 (demo k) (demo_accepted k)) as (z0 & z & H0 & H & Z & V).
  assert (EN : lN (zl z) = 2%nat) by from V (fun v => oN (vl v)). assert (ET : lT (zl z) = 1) by from V (fun v => oT (vl v)).
  assert (Em : lm (zl z) = 1) by from V (fun v => om (vl v)). assert (Eh : lh (zl z) = 1) by from V (fun v => oh (vl v)).
  assert (Emb : bm (zb z) = 1) by from V (fun v => pm (vb v)). assert (Ebh : bh (zb z) = 1/2) by from V (fun v => ph (vb v)).
  assert (Q : exists q, z_problem z = Ok q).
  { apply (problem_ok z _ _ (reach_zinv _ _ _ Z)). unfold refs_sized, horizon. rewrite EN.
    assert (R1 : rvel (zr z) = vfill 4 (1/5)) by from V vvel. assert (R2 : rpos (zr z) = vfill 4 (1/10)) by from V vpos.
    assert (R3 : rcop (zr z) = vfill 4 0) by from V vcop. rewrite R1, R2, R3. repeat split. }
  destruct Q as (q & Q). exists z0, z, q. split; [exact H0|]. split; [exact H|]. split; [exact Q|]. split; [reflexivity|]. split; [reflexivity|].
  split; [exact Ebh|]. split; [from V vw|]. unfold period, tilt_a1, tilt_a6. rewrite ET, Em, Eh, Emb, Ebh. split; apply moderate_demo.
Qed.
(** A change from two samples to three in the demo: the references are sized for two. *)
Example C47_resize_case : exists z hb cleared z', zreach z hb cleared /\ refs_sized z /\ 3%nat <> horizon z /\ zstep (ZSetNbSamples 3) z = Ok z'.
Proof.
  destruct (demo_state (MkZC true true true true)) as (z & Z & V). assert (EN : lN (zl z) = 2%nat) by from V (fun v => oN (vl v)).
  assert (R1 : rvel (zr z) = vfill 4 (1/5)) by from V vvel. assert (R2 : rpos (zr z) = vfill 4 (1/10)) by from V vpos.
  assert (R3 : rcop (zr z) = vfill 4 0) by from V vcop.
  assert (ET : lT (zl z) = 1) by from V (fun v => oT (vl v)). assert (Em : lm (zl z) = 1) by from V (fun v => om (vl v)).
  assert (Eh : lh (zl z) = 1) by from V (fun v => oh (vl v)). assert (Emb : bm (zb z) = 1) by from V (fun v => pm (vb v)). assert (Ebh : bh (zb z) = 1/2) by from V (fun v => ph (vb v)).
  assert (K : is_ok (zstep (ZSetNbSamples 3) z)).
  { apply (C57_call_returns_iff z _ _ _ Z). cbn [zaccepts]. split; [lia|]. unfold tilt_regular, period. rewrite ET, Em, Eh, Emb, Ebh. intros _. rewrite gain1. lra. }
  destruct (zstep (ZSetNbSamples 3) z) as [z'| | | |] eqn:E; try (destruct K as (? & K); discriminate K). exists z, (1/2), false, z'. split; [exact Z|].
  split; [unfold refs_sized, horizon; rewrite EN, R1, R2, R3; repeat split|]. split; [unfold horizon; rewrite EN; lia|exact E].
Qed.
(** In the demo, where both masses are 1, the body mass 1/2 is accepted; in a new generator it is not. *)
Example C48_case : exists z hb cleared, zreach z hb cleared /\ lm (zl z) = 1 /\ bm (zb z) = 1 /\ is_ok (zstep (ZSetBodyMass (1/2)) z).
Proof.
  destruct (demo_state (MkZC true true true true)) as (z & Z & V). exists z, (1/2), false. split; [exact Z|].
  assert (ET : lT (zl z) = 1) by from V (fun v => oT (vl v)). assert (Em : lm (zl z) = 1) by from V (fun v => om (vl v)).
  assert (Eh : lh (zl z) = 1) by from V (fun v => oh (vl v)). assert (Emb : bm (zb z) = 1) by from V (fun v => pm (vb v)). assert (Ebh : bh (zb z) = 1/2) by from V (fun v => ph (vb v)).
  split; [exact Em|]. split; [exact Emb|]. apply (C48_body_mass z _ _ _ Z). rewrite Em, Emb. split; [lra|]. split; [lra|]. split; [lra|].
  unfold tilt_regular, period. rewrite ET, Eh, Ebh. intros _. rewrite gain1. lra.
Qed.
(** Two different histories with the same visible state: the demo, and the demo with the configuration set twice. *)
Example C59_case : exists z z' hb cleared q q', zreach z hb cleared /\ zreach z' hb cleared /\ view_of z = view_of z'
  /\ z_problem z = Ok q /\ z_problem z' = Ok q' /\ zw z = MkZW 1 1 1 1 1 1 1
  /\ tilt_moderate (period z) (tilt_a1 z hb) (tilt_a6 z hb) /\ tiltvel_moderate (period z) (tilt_a1 z hb) (tilt_a6 z hb).
Proof.
  destruct (C41_to_C44_case (MkZC true true true true)) as (z & q & Z & Q & _ & EN & W & T1 & T2 & _).
  assert (A : zaccepts (ZSetConfig (zc z)) z (1/2)) by (cbn; auto).
  apply (C57_call_returns_iff z _ _ _ Z) in A. destruct (zstep (ZSetConfig (zc z)) z) as [z'| | | |] eqn:E; try (destruct A as (? & A); discriminate A).
  pose proof (zreach_step _ _ _ _ _ Z E) as Z'. cbn [tilt_refreshed] in Z'.
  pose proof (C59_call_effect z _ _ _ _ Z E) as F. cbn [zeffect] in F.
  assert (V : view_of z = view_of z') by (rewrite F; unfold view_of; cbn; reflexivity).
  assert (Q' : exists q', z_problem z' = Ok q').
  { apply (problem_ok z' _ _ (reach_zinv _ _ _ Z')). pose proof (ZebCalls.problem_refs z _ _ q (reach_zinv _ _ _ Z) Q) as RS.
    unfold refs_sized, horizon in *.
    assert (E1 : rvel (zr z) = rvel (zr z')) by from V vvel. assert (E2 : rpos (zr z) = rpos (zr z')) by from V vpos.
    assert (E3 : rcop (zr z) = rcop (zr z')) by from V vcop. assert (E4 : lN (zl z) = lN (zl z')) by from V (fun v => oN (vl v)).
    rewrite <- E1, <- E2, <- E3, <- E4. exact RS. }
  destruct Q' as (q' & Q'). exists z, z', (1/2), false, q, q'. auto 10.
Qed.
Print Assumptions C47_current_parameters.
Print Assumptions C47_base_height_refuted.
Print Assumptions C47_gravity_shift_refuted.
Print Assumptions C47_resize_refuted.
Print Assumptions C48_total_mass.
Print Assumptions C48_body_mass.
Print Assumptions C48_base_mass.
Print Assumptions C48_lower_mass_refuted.
Print Assumptions C56_contact_point_refuted.
Print Assumptions C56_contact_point_set.
Print Assumptions C57_constructor_returns.
Print Assumptions C57_call_returns_iff.
Print Assumptions C57_solve_returns_iff.
Print Assumptions C59_call_effect.
Print Assumptions C59_initial_state.
Print Assumptions C59_no_hidden_state.
