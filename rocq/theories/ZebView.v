(** What a user can observe of a Zebulon generator, and what each call changes: [zeffect] is the
    specification, [step_effect] shows that the code agrees. *)

From Coq Require Import Reals List ZArith Lra Lia Arith Bool.
From Verif Require Import Scalar LinAlg LinAlgFacts ToolsModel ToolsSpec ToolsFacts TriFacts NoDynModel PolygonModel
  QPModel QPFacts TrajModel TrajFacts LipModel BaseModel ModelsSpec ModelsFacts ZebModel HumAlg ZebAlg ZebSpec ZebFacts ZebObj ZebTilt ZebProb ZebLive ZebCalls.
Import ListNotations.
Local Open Scope R_scope.

(** The settings and the states: those of the two models, the four references as set by the user, the
    weights, the configuration and the planned jerks *)
Record zview : Type := ZView {
  vl : lobs; vb : bobs; vvel : vec R; vpos : vec R; vcop : vec R; vcom : vec R;
  vw : zweights R; vc : zconfig; vX : vec R }.
Definition view_of (z : zeb R) : zview :=
  ZView (lobs_of (zl z)) (bobs_of (zb z)) (rvel (zr z)) (rpos (zr z)) (rcop (zr z)) (rcom (zr z)) (zw z) (zc z) (zX z).

(** The CoP reference computed from trajectories of the two masses, entry i; [g0] is the horizontal
    gravity of the axis *)
Definition cop_reference (mc mb hc hb g0 g pc ac pb ab : R) : R :=
  (mb * g * pb - mb * hb * ab + mc * g * pc - mc * hc * ac + (mb * hb + mc * hc) * g0) / ((mb + mc) * g) - pb.
Definition zeffect {TR : Trig R} (c : zcall R) (v v' : zview) : Prop :=
  let '(ZView l b rv rp rc rm w k X) := v in
  let onLip e := v' = ZView (lobs_step l e) b rv rp rc rm w k X in
  let onBase e := v' = ZView l (bobs_step b e) rv rp rc rm w k X in
  match c with
  | ZSetNbSamples n => v' = ZView (lobs_step l (LSetNbSamples n)) (bobs_step b (BSetNbSamples n)) rv rp rc (vzero (2 * n)) w k (vzero (4 * n))
  | ZSetSamplingPeriod T => v' = ZView (lobs_step l (LSetSamplingPeriod T)) (bobs_step b (BSetSamplingPeriod T)) rv rp rc rm w k X
  | ZSetGravity g => v' = ZView (lobs_step l (LSetGravity g)) (bobs_step b (BSetGravity g)) rv rp rc rm w k X
  | ZSetCopPolygon p => onBase (BSetCopPolygon p)
  | ZSetComPolygon p => onBase (BSetComPolygon p)
  | ZSetCopHull p => exists q, makePolygon (map (fun x => (gx x, gy x)) p) = Ok q /\ onBase (BSetCopPolygon q)
  | ZSetComHull p => exists q, makePolygon (map (fun x => (gx x, gy x)) p) = Ok q /\ onBase (BSetComPolygon q)
  | ZSetBodyHeight h => onLip (LSetComHeight h)
  | ZSetBaseHeight h => onBase (BSetComHeight h)
  | ZSetBodyMass m => v' = ZView (lobs_step (lobs_step l (LSetTotalMass (m + pm b))) (LSetMass m)) (bobs_step b (BSetTotalMass (m + pm b))) rv rp rc rm w k X
  | ZSetBaseMass m => v' = ZView (lobs_step l (LSetTotalMass (om l + m))) (bobs_step (bobs_step b (BSetTotalMass (om l + m))) (BSetMass m)) rv rp rc rm w k X
  | ZSetVelRef r => v' = ZView l b r rp rc rm w k X
  | ZSetPosRef r => v' = ZView l b rv r rc rm w k X
  | ZSetCopRef r => v' = ZView l b rv rp r rm w k X
  | ZSetComRef r => v' = ZView l b rv rp rc r w k X
  | ZSetComAndCopRef pc ac pb ab =>
      exists r, v' = ZView l b rv rp r (vsub pc pb) w k X /\ vlen r = (2 * oN l)%nat
        /\ forall i, (i < 2 * oN l)%nat ->
             vget r i = cop_reference (om l) (pm b) (oh l) (ph b) (if Nat.ltb i (oN l) then gx (og l) else gy (og l)) (gz (og l))
                          (vget pc i) (vget ac i) (vget pb i) (vget ab i)
  | ZSetVelLimit x => onBase (BSetVelocityLimit x)
  | ZSetAccLimit x => onBase (BSetAccelerationLimit x)
  | ZSetJerkLimit x => onBase (BSetJerkLimit x)
  | ZSetBaseStateX s => onBase (BSetStateX s)
  | ZSetBaseStateY s => onBase (BSetStateY s)
  | ZSetRoll s => onBase (BSetStateRoll s)
  | ZSetPitch s => onBase (BSetStatePitch s)
  | ZSetYaw s => onBase (BSetStateYaw s)
  | ZSetComStateX s => onLip (LSetStateX s)
  | ZSetComStateY s => onLip (LSetStateY s)
  | ZSetContactX x => onBase (BSetTiltContactPointX x)
  | ZSetContactY y => onBase (BSetTiltContactPointY y)
  | ZSetWeightings w' => v' = ZView l b rv rp rc rm w' k X
  | ZSetConfig k' => v' = ZView l b rv rp rc rm w k' X
  | ZSolve _ f => exists X', vlen X' = (4 * oN l)%nat /\ let N := oN l in
      v' = ZView (lobs_step (lobs_step l (LUpdateStateX (vget X' 0) f)) (LUpdateStateY (vget X' N) f))
                 (bobs_step (bobs_step b (BUpdateStateX (vget X' (2 * N)%nat) f)) (BUpdateStateY (vget X' (3 * N)%nat) f))
                 rv rp rc rm w k X'
  end.

(** ** The code agrees *)
(** everything but the stored constants *)
Definition core (z : zeb R) := (zl z, zb z, (rvel (zr z), rpos (zr z), rcop (zr z), rcom (zr z)), zw z, zc z, zX z).
Lemma core_view z z' : core z' = core z -> view_of z' = view_of z.
Proof. unfold core, view_of. intros H. injection H as -> -> -> -> -> -> -> -> ->. reflexivity. Qed.
Lemma core_vel z z' : z_vel z = Ok z' -> core z' = core z.
Proof. unfold z_vel. intros H. apply (f_equal (fun r => match r with Ok x => core x | _ => core z end)) in H. symmetry. exact H. Qed.
Ltac one_bind := let H := fresh "H" in intros H; apply bind_ok in H; destruct H as (? & _ & H).
Ltac fin := match goal with H : Ok _ = Ok ?z' |- core ?z' = core ?z => apply (f_equal (fun r => match r with Ok x => core x | _ => core z end)) in H; symmetry; exact H end.
Lemma core_pos z z' : z_pos z = Ok z' -> core z' = core z. Proof. unfold z_pos. intros H. fin. Qed.
Lemma core_motion z z' : z_motion z = Ok z' -> core z' = core z. Proof. unfold z_motion. intros H. fin. Qed.
Lemma core_jerk z z' : z_jerk z = Ok z' -> core z' = core z. Proof. unfold z_jerk. one_bind. fin. Qed.
Lemma core_tilt z z' : z_tilt z = Ok z' -> core z' = core z. Proof. unfold z_tilt. one_bind. fin. Qed.
Lemma core_tiltV z z' : z_tiltV z = Ok z' -> core z' = core z. Proof. unfold z_tiltV. one_bind. fin. Qed.
Lemma core_cop z z' : z_cop z = Ok z' -> core z' = core z. Proof. unfold z_cop. one_bind. fin. Qed.
Lemma core_com z z' : z_com z = Ok z' -> core z' = core z. Proof. unfold z_com. one_bind. fin. Qed.
Lemma core_copC z z' : z_copC z = Ok z' -> core z' = core z. Proof. unfold z_copC. one_bind. fin. Qed.
Lemma core_comC z z' : z_comC z = Ok z' -> core z' = core z. Proof. unfold z_comC. one_bind. fin. Qed.
Lemma core_tmotion z z' : z_tmotion z = Ok z' -> core z' = core z. Proof. unfold z_tmotion. one_bind. fin. Qed.
Lemma core_gravity z z' : z_gravity z = Ok z' -> core z' = core z.
Proof. unfold z_gravity. intros H. do 2 (apply bind_ok in H; destruct H as (? & _ & H)). fin. Qed.
Lemma core_contact z z' : z_contact z = Ok z' -> core z' = core z.
Proof. unfold z_contact. intros H. do 2 (apply bind_ok in H; destruct H as (? & _ & H)). fin. Qed.
Lemma core_compute z z' : z_compute z = Ok z' -> core z' = core z.
Proof.
  unfold z_compute. intros H. do 12 (apply guard_ok in H; destruct H as (_ & H)). do 2 (apply bind_ok in H; destruct H as (? & _ & H)). fin.
Qed.
(** follow a chain of refreshes *)
Ltac core1 E := first [apply core_vel in E|apply core_pos in E|apply core_motion in E|apply core_jerk in E|apply core_tilt in E|apply core_tiltV in E
  |apply core_cop in E|apply core_com in E|apply core_copC in E|apply core_comC in E|apply core_tmotion in E|apply core_gravity in E|apply core_contact in E|apply core_compute in E].
Ltac cstep H := let y := fresh "y" in let E := fresh "E" in apply bind_ok in H; destruct H as (y & E & H); core1 E.
Ltac cfinish H := core1 H; repeat match goal with E : core ?y = core _, K : core _ = core ?y |- _ => rewrite E in K; clear E end; apply core_view in H; rewrite H.
Lemma view_models z l b : view_of (z_setModels z l b) = ZView (lobs_of l) (bobs_of b) (rvel (zr z)) (rpos (zr z)) (rcop (zr z)) (rcom (zr z)) (zw z) (zc z) (zX z).
Proof. reflexivity. Qed.

Section Effects.
  Context {TR : Trig R}.
  Variables (z : zeb R) (gh : R) (gs : bool).
  Hypothesis I : zinv z gh gs.
  Let M : models_ok (zl z) (zb z) := oi_m _ _ _ (proj1 I).
  Lemma lmove c l : lstep c (zl z) = Ok l -> lobs_of l = lobs_step (lobs_of (zl z)) c.
  Proof. intros H. destruct (mo_l _ _ M) as (n & F). exact (proj1 (proj2 (lstep_fresh _ _ _ _ F (mo_la _ _ M) H))). Qed.
  Lemma bmove c b : bstep c (zb z) = Ok b -> bobs_of b = bobs_step (bobs_of (zb z)) c.
  Proof. intros H. exact (proj1 (proj2 (bstep_fresh _ _ _ (mo_b _ _ M) (mo_ba _ _ M) H))). Qed.
  Lemma poly_cop_effect p z' : z_setBaseCopConvexPolygon p z = Ok z' -> view_of z' = ZView (lobs_of (zl z)) (bobs_step (bobs_of (zb z)) (BSetCopPolygon p)) (rvel (zr z)) (rpos (zr z)) (rcop (zr z)) (rcom (zr z)) (zw z) (zc z) (zX z).
  Proof.
    intros H. unfold z_setBaseCopConvexPolygon in H. apply guard_ok in H. destruct H as (_ & H). apply bind_ok in H. destruct H as (b & Hb & H).
    cstep H. cfinish H. rewrite view_models, (bmove (BSetCopPolygon p) _ Hb). reflexivity.
  Qed.
  Lemma poly_com_effect p z' : z_setBaseComConvexPolygon p z = Ok z' -> view_of z' = ZView (lobs_of (zl z)) (bobs_step (bobs_of (zb z)) (BSetComPolygon p)) (rvel (zr z)) (rpos (zr z)) (rcop (zr z)) (rcom (zr z)) (zw z) (zc z) (zX z).
  Proof.
    intros H. unfold z_setBaseComConvexPolygon in H. apply guard_ok in H. destruct H as (_ & H). apply bind_ok in H. destruct H as (b & Hb & H).
    cstep H. cfinish H. rewrite view_models, (bmove (BSetComPolygon p) _ Hb). reflexivity.
  Qed.
  Lemma onBase_effect c z' : z_onBase c z = Ok z' -> view_of z' = ZView (lobs_of (zl z)) (bobs_step (bobs_of (zb z)) c) (rvel (zr z)) (rpos (zr z)) (rcop (zr z)) (rcom (zr z)) (zw z) (zc z) (zX z).
  Proof.
    intros H. unfold z_onBase in H. apply bind_ok in H. destruct H as (b & Hb & H).
    apply (f_equal (fun r => match r with Ok x => view_of x | _ => view_of z end)) in H. cbv beta iota in H. rewrite <- H, view_models, (bmove c _ Hb). reflexivity.
  Qed.
  Lemma onLip_effect c z' : z_onLip c z = Ok z' -> view_of z' = ZView (lobs_step (lobs_of (zl z)) c) (bobs_of (zb z)) (rvel (zr z)) (rpos (zr z)) (rcop (zr z)) (rcom (zr z)) (zw z) (zc z) (zX z).
  Proof.
    intros H. unfold z_onLip in H. apply bind_ok in H. destruct H as (l & Hl & H).
    apply (f_equal (fun r => match r with Ok x => view_of x | _ => view_of z end)) in H. cbv beta iota in H. rewrite <- H, view_models, (lmove c _ Hl). reflexivity.
  Qed.
  Lemma step_effect c z' : zstep c z = Ok z' -> zeffect c (view_of z) (view_of z').
  Proof.
    intros H. unfold zeffect. remember (view_of z) as v eqn:Ev. unfold view_of in Ev. subst v. cbv iota beta zeta. destruct c; cbn [zstep] in H.
    - unfold z_setNbSamples in H. apply guard_ok in H. destruct H as (_ & H). apply bind_ok in H. destruct H as (l & Hl & H). apply bind_ok in H. destruct H as (b & Hb & H).
      cbv zeta in H. do 11 cstep H. cfinish H. unfold view_of. cbn [z_setX z_setRefs z_setModels zl zb zr zw zc zX rvel rpos rcop rcom].
      rewrite (lmove (LSetNbSamples n) _ Hl), (bmove (BSetNbSamples n) _ Hb). reflexivity.
    - unfold z_setSamplingPeriod in H. apply guard_ok in H. destruct H as (_ & H). apply bind_ok in H. destruct H as (l & Hl & H). apply bind_ok in H. destruct H as (b & Hb & H).
      cbv zeta in H. do 10 cstep H. cfinish H. rewrite view_models, (lmove (LSetSamplingPeriod T) _ Hl), (bmove (BSetSamplingPeriod T) _ Hb). reflexivity.
    - unfold z_setGravity in H. apply guard_ok in H. destruct H as (_ & H). apply bind_ok in H. destruct H as (l & Hl & H). apply bind_ok in H. destruct H as (b & Hb & H).
      cbv zeta in H. do 3 cstep H. cfinish H. rewrite view_models, (lmove (LSetGravity g) _ Hl), (bmove (BSetGravity g) _ Hb). reflexivity.
    - apply poly_cop_effect. assumption.
    - apply poly_com_effect. assumption.
    - unfold z_setBaseCopHull in H. apply bind_ok in H. destruct H as (q & Hq & H). exists q. split; [assumption|]. apply poly_cop_effect. assumption.
    - unfold z_setBaseComHull in H. apply bind_ok in H. destruct H as (q & Hq & H). exists q. split; [assumption|]. apply poly_com_effect. assumption.
    - unfold z_setComBodyHeight in H. apply bind_ok in H. destruct H as (l & Hl & H). cbv zeta in H. do 5 cstep H. cfinish H. rewrite view_models, (lmove (LSetComHeight h) _ Hl). reflexivity.
    - unfold z_setComBaseHeight in H. apply bind_ok in H. destruct H as (b & Hb & H). cbv zeta in H. do 3 cstep H. cfinish H. rewrite view_models, (bmove (BSetComHeight h) _ Hb). reflexivity.
    - unfold z_setBodyMass in H. cbv zeta in H. apply bind_ok in H. destruct H as (l & Hl & H). apply bind_ok in H. destruct H as (b & Hb & H). apply bind_ok in H. destruct H as (l2 & Hl2 & H).
      do 5 cstep H. cfinish H. rewrite view_models, (bmove (BSetTotalMass _) _ Hb).
      destruct (mo_l _ _ M) as (n & F). destruct (lstep_fresh (LSetTotalMass _) _ _ _ F (mo_la _ _ M) Hl) as ((n1 & F1) & O1 & A1).
      destruct (lstep_fresh (LSetMass m) _ _ _ F1 A1 Hl2) as (_ & O2 & _). rewrite O2, O1. reflexivity.
    - unfold z_setBaseMass in H. cbv zeta in H. apply bind_ok in H. destruct H as (l & Hl & H). apply bind_ok in H. destruct H as (b & Hb & H). apply bind_ok in H. destruct H as (b2 & Hb2 & H).
      do 5 cstep H. cfinish H. rewrite view_models, (lmove (LSetTotalMass _) _ Hl).
      destruct (bstep_fresh (BSetTotalMass _) _ _ (mo_b _ _ M) (mo_ba _ _ M) Hb) as (F1 & O1 & A1).
      destruct (bstep_fresh (BSetMass m) _ _ F1 A1 Hb2) as (_ & O2 & _). rewrite O2, O1. reflexivity.
    - unfold z_setVelRef in H. apply guard_ok in H. destruct H as (_ & H). injection H as <-. reflexivity.
    - unfold z_setPosRef in H. apply guard_ok in H. destruct H as (_ & H). injection H as <-. reflexivity.
    - unfold z_setCopRef in H. apply guard_ok in H. destruct H as (_ & H). apply bind_ok in H. destruct H as (_ & _ & H). injection H as <-. reflexivity.
    - unfold z_setComRef in H. apply guard_ok in H. destruct H as (_ & H). apply bind_ok in H. destruct H as (_ & _ & H). apply bind_ok in H. destruct H as (s & _ & H). injection H as <-. reflexivity.
    - unfold z_setComAndCopRef in H. cbv zeta in H. do 4 (apply guard_ok in H; let K := fresh "G" in destruct H as (K & H); apply Nat.eqb_eq in K).
      apply bind_ok in H. destruct H as (y & Hy & H). apply bind_ok in H. destruct H as (c & Hc & H).
      unfold z_setComRef in Hy. apply guard_ok in Hy. destruct Hy as (_ & Hy). apply bind_ok in Hy. destruct Hy as (_ & _ & Hy). apply bind_ok in Hy. destruct Hy as (s & _ & Hy). injection Hy as <-.
      injection H as <-. cbn [z_setRefs zl zb] in Hc. unfold cop_ref_in_world in Hc. cbv zeta in Hc. do 4 (apply guard_ok in Hc; destruct Hc as (_ & Hc)).
      apply bind_ok in Hc. destruct Hc as (_ & _ & Hc). apply guard_ok in Hc. destruct Hc as (_ & Hc). injection Hc as <-.
      eexists. split; [reflexivity|]. cbn [vlen vget lobs_of oN]. split; [assumption|]. intros i Hi. reflexivity.
    - apply onBase_effect. assumption.
    - apply onBase_effect. assumption.
    - apply onBase_effect. assumption.
    - apply onBase_effect. assumption.
    - apply onBase_effect. assumption.
    - apply onBase_effect. assumption.
    - apply onBase_effect. assumption.
    - unfold z_setBaseStateYaw in H. apply bind_ok in H. destruct H as (b & Hb & H). cstep H. cfinish H. rewrite view_models, (bmove (BSetStateYaw v) _ Hb). reflexivity.
    - apply onLip_effect. assumption.
    - apply onLip_effect. assumption.
    - unfold z_setTiltContactPointX in H. apply bind_ok in H. destruct H as (b & Hb & H). cfinish H. rewrite view_models, (bmove (BSetTiltContactPointX x) _ Hb). reflexivity.
    - unfold z_setTiltContactPointY in H. apply bind_ok in H. destruct H as (b & Hb & H). cfinish H. rewrite view_models, (bmove (BSetTiltContactPointY y) _ Hb). reflexivity.
    - unfold z_setWeightings in H. do 6 (apply guard_ok in H; destruct H as (_ & H)). cfinish H. reflexivity.
    - unfold z_setConfig in H. cfinish H. reflexivity.
    - apply bind_ok in H. destruct H as ([found y] & Hy & H). apply (f_equal (fun r => match r with Ok x => x | _ => y end)) in H. cbv beta iota in H. cbn [snd] in H. subst z'.
      apply z_solve_inv in Hy. destruct Hy as (q & s & dX & Hq & Hf & Hs & HL & ->). eexists. split; [|reflexivity]. cbn [vadd vlen lobs_of oN]. exact (oi_X _ _ _ (proj1 I)).
  Qed.
End Effects.
(** The state that the constructor leaves *)
Definition view0 (ux uy : R) : zview :=
  let b := bobs0 1 1 None in
  ZView (lobs0 1 1) (bobs_step (bobs_step b (BSetTiltContactPointX ux)) (BSetTiltContactPointY uy))
    (vzero 2) (vzero 2) (vzero 2) (vzero 2) (MkZW 0 0 0 0 0 0 0) (MkZC false false false false) (vzero 4).
Lemma new_view ux uy z : newZeb ux uy = Ok z -> view_of z = view0 ux uy.
Proof.
  intros H. rewrite new_start in H. apply bind_ok in H. destruct H as (l & Hl & H). apply bind_ok in H. destruct H as (b & Hb & H).
  apply bind_ok in H. destruct H as (z1 & H1 & H). unfold z_objectives in H1. do 10 cstep H1. core1 H1. cfinish H.
  destruct (newLip_fresh _ _ _ Hl) as (F & Ol & A). destruct (newBaseDefault_fresh _ Hb) as (F' & Ob & A').
  unfold view_of, z_start. cbv zeta. cbn [zl zb zr zw zc zX rvel rpos rcop rcom]. unfold view0. rewrite Ol.
  rewrite <- Ob. assert (EN : lN l = 1%nat) by (apply (f_equal oN) in Ol; exact Ol). rewrite EN. reflexivity.
Qed.
