(** The invariant of the Zebulon walk generator. *)

From Coq Require Import Reals List ZArith Lra Lia Arith Bool FunctionalExtensionality.
From Verif Require Import Scalar LinAlg LinAlgFacts ToolsModel ToolsSpec ToolsFacts NoDynModel PolygonModel QPModel QPFacts
  TrajModel TrajFacts LipModel BaseModel ModelsSpec ModelsFacts ZebModel ZebSpec HullFacts HumAlg ZebAlg.
Import ListNotations.
Local Open Scope R_scope.

(** ** The dynamics are determined by the parameters *)
Lemma tab_det A (f g : nat -> res A) n l l' : (forall i, f i = g i) -> tab f n l -> tab g n l' -> l = l'.
Proof.
  intros E H H'. apply (tab_ext _ f g) in H; [|assumption]. apply tab_tabulateM in H, H'. congruence.
Qed.
Lemma lip_det (l l' : lip R) n n' : lip_fresh l n -> lip_fresh l' n' -> lN l' = lN l -> lT l' = lT l -> lfb l' = lfb l ->
  lnb l' = lnb l /\ lposD l' = lposD l /\ lvelD l' = lvelD l /\ laccD l' = laccD l.
Proof.
  intros [F1 F2 F3 F4 F5 F6 F7 F8 F9 F10] [G1 G2 G3 G4 G5 G6 G7 G8 G9 G10] EN ET EF.
  assert (En : n' = n) by (apply Nat2Z.inj; rewrite G3, F3, ET, EF; reflexivity). subst n'.
  assert (EL : forall i, lfst l' i = lfst l i) by (intros; unfold lfst; rewrite EF; reflexivity).
  split; [congruence|]. split; [|split].
  - refine (tab_det _ _ _ n _ _ _ G5 F5). intros. rewrite EL, ET, EN. reflexivity.
  - refine (tab_det _ _ _ n _ _ _ G6 F6). intros. rewrite EL, ET, EN. reflexivity.
  - refine (tab_det _ _ _ n _ _ _ G7 F7). intros. rewrite EL, ET, EN. reflexivity.
Qed.
Lemma lip_det_cop (l l' : lip R) n n' : lip_fresh l n -> lip_fresh l' n' -> lN l' = lN l -> lT l' = lT l -> lfb l' = lfb l ->
  lh l' = lh l -> lg l' = lg l -> lm l' = lm l -> lM l' = lM l -> lcxD l' = lcxD l /\ lcyD l' = lcyD l.
Proof.
  intros [F1 F2 F3 F4 F5 F6 F7 F8 F9 F10] [G1 G2 G3 G4 G5 G6 G7 G8 G9 G10] EN ET EF Eh Eg Em EM.
  assert (En : n' = n) by (apply Nat2Z.inj; rewrite G3, F3, ET, EF; reflexivity). subst n'.
  assert (EL : forall i, lfst l' i = lfst l i) by (intros; unfold lfst; rewrite EF; reflexivity).
  split.
  - refine (tab_det _ _ _ n _ _ _ G8 F8). intros. rewrite EL, ET, EN, Eh, Eg, Em, EM. reflexivity.
  - refine (tab_det _ _ _ n _ _ _ G9 F9). intros. rewrite EL, ET, EN, Eh, Eg, Em, EM. reflexivity.
Qed.
Lemma base_det (b b' : base R) : base_fresh b -> base_fresh b' -> bN b' = bN b -> bT b' = bT b ->
  bposD b' = bposD b /\ bvelD b' = bvelD b /\ baccD b' = baccD b /\ btaD b' = btaD b /\ btvD b' = btvD b.
Proof.
  intros [F1 F2 F3 F4 F5 F6 F7 F8] [G1 G2 G3 G4 G5 G6 G7 G8] EN ET. rewrite EN, ET in *. repeat split; congruence.
Qed.
Lemma base_det_cop (b b' : base R) : base_fresh b -> base_fresh b' -> bN b' = bN b -> bT b' = bT b ->
  bh b' = bh b -> bg b' = bg b -> bm b' = bm b -> bM b' = bM b -> bcxD b' = bcxD b /\ bcyD b' = bcyD b.
Proof.
  intros [F1 F2 F3 F4 F5 F6 F7 F8] [G1 G2 G3 G4 G5 G6 G7 G8] EN ET Eh Eg Em EM. rewrite EN, ET, Eh, Eg, Em, EM in *. split; congruence.
Qed.

(** ** Both models agree *)
Record models_ok (l : lip R) (b : base R) : Prop := {
  mo_l : exists n, lip_fresh l n; mo_la : lauto l = true; mo_fb : lfb l = lT l;
  mo_b : base_fresh b; mo_ba : bauto b = true;
  mo_N : bN b = lN l; mo_T : bT b = lT l; mo_g : bg b = lg l; mo_M : bM b = lM l; mo_m : lM l = lm l + bm b;
  mo_cx : btcx b <> None; mo_cy : btcy b <> None
}.
Definition withH (b : base R) (h : R) : base R := b_setPar b (bN b) (bT b) h (bg b) (bm b) (bM b).
Record objs_ok (l : lip R) (b : base R) (gh : R) (o : zobjs R) : Prop := {
  oo_vel : ovelH o = btrack_hessian (bN b) (bvelD b);
  oo_pos : oposH o = btrack_hessian (bN b) (bposD b);
  oo_jerk : ojerkH o = zjerk_hessian (bN b);
  oo_cop : cop_hessian l b = Ok (ocopH o);
  oo_com : com_hessian l b = Ok (ocomH o);
  oo_copC : copc_constant l b = Ok (ocopC o);
  oo_comC : comc_constant l b = Ok (ocomC o);
  oo_mot : omotG o = bmotion_gradient b;
  oo_tm : tmotion_gradient l b = Ok (otmG o);
  oo_tilt : tilt_constant l (withH b gh) = Ok (otilt o);
  oo_tiltV : tiltvel_constant l (withH b gh) = Ok (otiltV o)
}.
Definition refs_ok (l : lip R) (b : base R) (gs : bool) (r : zrefs R) : Prop :=
  vlen (rcom r) = (2 * lN l)%nat /\ vlen (rshift r) = (2 * lN l)%nat /\ vlen (rgrav r) = (2 * lN l)%nat
  /\ (forall i, vget (rshift r) i = vget (rcom r) i + vget (rgrav r) i)
  /\ (if gs then forall i, vget (rgrav r) i = 0 else gravity_shift l b = Ok (rgrav r)).
Record oinv (z : zeb R) (gh : R) (gs : bool) : Prop := {
  oi_m : models_ok (zl z) (zb z);
  oi_o : objs_ok (zl z) (zb z) gh (zo z);
  oi_r : refs_ok (zl z) (zb z) gs (zr z);
  oi_X : vlen (zX z) = (4 * lN (zl z))%nat;
  oi_dX : vlen (zdX z) = (4 * lN (zl z))%nat
}.
(** ** The matrices given to the solver *)
Definition zQ (N : nat) (o : zobjs R) (w : zweights R) : res (mat R) :=
  let Q := addWblock N (zwPos w) (oposH o) (addWblock N (zwVel w) (ovelH o) (mzero (4 * N) (4 * N))) in
  let Q := addW (zwJerk w) (ojerkH o) (addW (zwCom w) (ocomH o) (addW (zwCop w) (ocopH o) Q)) in
  do Q <- addWo (zwTilt w) (otilt o) Q;
  addWo (zwTiltVel w) (otiltV o) Q.
Definition zA (z : zeb R) : mat R :=
  let N := lN (zl z) in
  let o := zo z in
  let M1 := z_M1 z in let M2 := z_M2 z in let M3 := z_M3 z in let M4 := z_M4 z in
  let A := mzero (z_M z) (4 * N) in
  let A := if zcCop (zc z) then msetblock A 0 0 (pcG (ocopC o)) else A in
  let A := if zcBase (zc z) then msetblock A M1 (2 * N) (omotG o) else A in
  let A := if zcCom (zc z) then msetblock A (M1 + M2) 0 (pcG (ocomC o)) else A in
  if zcTilt (zc z) then msetblock A (M1 + M2 + M3) 0 (otmG o) else A.
Record qinv (z : zeb R) : Prop := {
  qi_Q : exists Q, zQ (lN (zl z)) (zo z) (zw z) = Ok Q /\ qQ (zqp z) = mscale (zfo z) Q /\ zfo z = getNormalizationFactor Q EPS;
  qi_A : qA (zqp z) = mscale (zfc z) (zA z);
  qi_fc : zfc z = getNormalizationFactor (zA z) EPS;
  qi_p : vlen (qp (zqp z)) = (4 * lN (zl z))%nat;
  qi_xl : vlen (qxl (zqp z)) = (4 * lN (zl z))%nat; qi_xu : vlen (qxu (zqp z)) = (4 * lN (zl z))%nat;
  qi_bl : vlen (qbl (zqp z)) = z_M z; qi_bu : vlen (qbu (zqp z)) = z_M z;
  qi_nv : snbVar (zsol z) = (4 * lN (zl z))%nat; qi_nc : snbCtr (zsol z) = z_M z;
  qi_mem : smem (zsol z) = None \/ smem (zsol z) = Some (qQ (zqp z), qA (zqp z))
}.
Definition zinv (z : zeb R) (gh : R) (gs : bool) : Prop := oinv z gh gs /\ qinv z.

Lemma agree_ok l b : models_ok l b -> agree l b = Ok tt.
Proof.
  intros M. unfold agree. rewrite (mo_N _ _ M), (mo_T _ _ M), Nat.eqb_refl. cbn [guard bind]. rsimpl.
  rewrite (proj2 (Reqb_true _ _) eq_refl). reflexivity.
Qed.

Lemma compute_zinv z z' gh gs : oinv z gh gs -> z_compute z = Ok z' -> zinv z' gh gs.
Proof.
  intros [O1 O2 O3 O4 O5] H. unfold z_compute in H. do 12 (apply guard_ok in H; destruct H as (_ & H)).
  apply bind_ok in H. destruct H as (Q1 & E1 & H). apply bind_ok in H. destruct H as (Q2 & E2 & H).
  assert (EQ : zQ (lN (zl z)) (zo z) (zw z) = Ok Q2) by (unfold zQ; rewrite E1; exact E2).
  injection H as <-. split.
  - constructor; assumption.
  - constructor; try reflexivity.
    + exists Q2. split; [exact EQ|split; reflexivity].
    + left. reflexivity.
Qed.

(** ** What does not change *)
Section Keep.
  Variables (l l' : lip R) (b b' : base R).
  Hypothesis M : models_ok l b.
  Hypothesis M' : models_ok l' b'.
  Hypothesis EN : lN l' = lN l.
  Hypothesis ET : lT l' = lT l.
  Lemma keep_l : lnb l' = lnb l /\ lposD l' = lposD l /\ lvelD l' = lvelD l /\ laccD l' = laccD l.
  Proof.
    destruct (mo_l _ _ M) as (n & F), (mo_l _ _ M') as (n' & F'). apply (lip_det l l' n n'); try assumption.
    rewrite (mo_fb _ _ M), (mo_fb _ _ M'). assumption.
  Qed.
  Lemma keep_N : bN b' = bN b.
  Proof. rewrite (mo_N _ _ M), (mo_N _ _ M'). assumption. Qed.
  Lemma keep_T : bT b' = bT b.
  Proof. rewrite (mo_T _ _ M), (mo_T _ _ M'). assumption. Qed.
  Lemma keep_b : bposD b' = bposD b /\ bvelD b' = bvelD b /\ baccD b' = baccD b /\ btaD b' = btaD b /\ btvD b' = btvD b.
  Proof. exact (base_det b b' (mo_b _ _ M) (mo_b _ _ M') keep_N keep_T). Qed.
  Lemma keep_vel : btrack_hessian (bN b') (bvelD b') = btrack_hessian (bN b) (bvelD b).
  Proof. destruct keep_b as (_ & E & _). rewrite E, keep_N. reflexivity. Qed.
  Lemma keep_pos : btrack_hessian (bN b') (bposD b') = btrack_hessian (bN b) (bposD b).
  Proof. destruct keep_b as (E & _). rewrite E, keep_N. reflexivity. Qed.
  Lemma keep_jerk : zjerk_hessian (K:=R) (bN b') = zjerk_hessian (bN b).
  Proof. rewrite keep_N. reflexivity. Qed.
  Lemma keep_com : com_hessian l' b' = com_hessian l b.
  Proof.
    destruct keep_b as (E1 & _), keep_l as (E2 & E3 & _). unfold com_hessian, agree, l_last.
    rewrite E1, E2, E3, EN, ET, keep_N, keep_T. reflexivity.
  Qed.
  Lemma keep_mot : bmotion_gradient b' = bmotion_gradient b.
  Proof. destruct keep_b as (_ & E1 & E2 & _). unfold bmotion_gradient. rewrite E1, E2, keep_N. reflexivity. Qed.
  Lemma keep_tm : bsyaw b' = bsyaw b -> tmotion_gradient l' b' = tmotion_gradient l b.
  Proof.
    intros E. destruct keep_b as (_ & E1 & _), keep_l as (E2 & _ & E3 & _). unfold tmotion_gradient, agree, l_last.
    rewrite E, E1, E2, E3, EN, ET, keep_N, keep_T. reflexivity.
  Qed.
  Lemma keep_comC : bcomPoly b' = bcomPoly b -> comc_constant l' b' = comc_constant l b.
  Proof.
    intros E. destruct keep_b as (E1 & _), keep_l as (E2 & E3 & _). unfold comc_constant, agree, l_last.
    rewrite E, E1, E2, E3, EN, ET, keep_N, keep_T. reflexivity.
  Qed.
  Lemma keep_tilts h : lm l' = lm l -> lh l' = lh l -> bm b' = bm b -> btcx b' = btcx b -> btcy b' = btcy b ->
    tilt_constant l' (withH b' h) = tilt_constant l (withH b h)
    /\ tiltvel_constant l' (withH b' h) = tiltvel_constant l (withH b h).
  Proof.
    intros F1 F2 F3 F4 F5. destruct keep_b as (E1 & _ & E5 & E6 & E7), keep_l as (E2 & E3 & _ & E4).
    unfold tilt_constant, tiltvel_constant, tilt_build, tilt_K, tilt_A1, tilt_A6, agree, l_last, b_getTiltContactPointX, b_getTiltContactPointY, withH, b_setPar.
    cbn [bN bT bh bm bposD baccD btaD btvD btcx btcy].
    rewrite F1, F2, F3, F4, F5, E1, E2, E3, E4, E5, E6, E7, EN, ET, keep_N, keep_T. split; reflexivity.
  Qed.
  Section Cop.
    Hypotheses (F1 : lm l' = lm l) (F2 : lh l' = lh l) (F3 : bm b' = bm b) (F4 : bh b' = bh b) (F5 : lg l' = lg l).
    Lemma keep_D : lcxD l' = lcxD l /\ lcyD l' = lcyD l /\ bcxD b' = bcxD b /\ bcyD b' = bcyD b.
    Proof.
      destruct (mo_l _ _ M) as (n & F), (mo_l _ _ M') as (n' & F').
      assert (EM : lM l' = lM l) by (rewrite (mo_m _ _ M), (mo_m _ _ M'), F1, F3; reflexivity).
      destruct (lip_det_cop l l' n n') as (A1 & A2); try assumption; [rewrite (mo_fb _ _ M), (mo_fb _ _ M'); assumption|].
      destruct (base_det_cop b b' (mo_b _ _ M) (mo_b _ _ M') keep_N keep_T F4) as (A3 & A4); auto.
      - rewrite (mo_g _ _ M), (mo_g _ _ M'). assumption.
      - rewrite (mo_M _ _ M), (mo_M _ _ M'). assumption.
    Qed.
    Lemma keep_cop : cop_hessian l' b' = cop_hessian l b.
    Proof.
      destruct keep_b as (E1 & _), keep_l as (E2 & _), keep_D as (D1 & D2 & D3 & D4). unfold cop_hessian, agree, l_last.
      rewrite D1, D2, D3, D4, E1, E2, EN, ET, F3, keep_N, keep_T. reflexivity.
    Qed.
    Lemma keep_copC : bcopPoly b' = bcopPoly b -> copc_constant l' b' = copc_constant l b.
    Proof.
      intros E. destruct keep_b as (E1 & _), keep_l as (E2 & _), keep_D as (D1 & D2 & D3 & D4). unfold copc_constant, agree, l_last.
      rewrite E, D1, D2, D3, D4, E1, E2, EN, ET, F3, keep_N, keep_T. reflexivity.
    Qed.
    Lemma keep_grav : gravity_shift l' b' = gravity_shift l b.
    Proof. unfold gravity_shift, agree. rewrite EN, ET, F1, F2, F3, F4, F5, keep_N, keep_T. reflexivity. Qed.
  End Cop.
End Keep.
Lemma grav_eq (l l' : lip R) (b b' : base R) : models_ok l b -> models_ok l' b' -> lN l' = lN l ->
  lm l' = lm l -> lh l' = lh l -> bm b' = bm b -> bh b' = bh b -> lg l' = lg l -> gravity_shift l' b' = gravity_shift l b.
Proof.
  intros M M' EN F1 F2 F3 F4 F5. unfold gravity_shift. rewrite (agree_ok _ _ M), (agree_ok _ _ M'), F1, F2, F3, F4, F5.
  rewrite (mo_N _ _ M), (mo_N _ _ M'), EN. reflexivity.
Qed.
Lemma withH_self (b : base R) : withH b (bh b) = b.
Proof. destruct b; reflexivity. Qed.

(** ** Steps on the models *)
Definition same_par (l l' : lip R) (b b' : base R) : Prop :=
  lN l' = lN l /\ lT l' = lT l /\ lm l' = lm l /\ lh l' = lh l /\ lg l' = lg l
  /\ bm b' = bm b /\ bh b' = bh b.
(** everything but the states and limits *)
Lemma keep_objs l l' b b' gh gs o r : models_ok l b -> models_ok l' b' -> same_par l l' b b' ->
  bsyaw b' = bsyaw b -> btcx b' = btcx b -> btcy b' = btcy b -> bcopPoly b' = bcopPoly b -> bcomPoly b' = bcomPoly b ->
  objs_ok l b gh o -> refs_ok l b gs r -> objs_ok l' b' gh o /\ refs_ok l' b' gs r.
Proof.
  intros M M' (EN & ET & F1 & F2 & F5 & F3 & F4) Y Cx Cy P1 P2 [O1 O2 O3 O4 O5 O6 O7 O8 O9 O10 O11] (R1 & R2 & R3 & R4 & R5).
  destruct (keep_tilts l l' b b' M M' EN ET gh F1 F2 F3 Cx Cy) as (K1 & K2). split.
  - constructor.
    + rewrite (keep_vel l l' b b') by assumption. assumption.
    + rewrite (keep_pos l l' b b') by assumption. assumption.
    + rewrite (keep_jerk l l' b b') by assumption. assumption.
    + rewrite (keep_cop l l' b b') by assumption. assumption.
    + rewrite (keep_com l l' b b') by assumption. assumption.
    + rewrite (keep_copC l l' b b') by assumption. assumption.
    + rewrite (keep_comC l l' b b') by assumption. assumption.
    + rewrite (keep_mot l l' b b') by assumption. assumption.
    + rewrite (keep_tm l l' b b') by assumption. assumption.
    + rewrite K1. assumption.
    + rewrite K2. assumption.
  - unfold refs_ok. rewrite EN. repeat split; try assumption. destruct gs; [assumption|].
    rewrite (keep_grav l l' b b') by assumption. assumption.
Qed.
Lemma qinv_models z l b : lN l = lN (zl z) -> bN b = bN (zb z) ->
  length (pverts (bcopPoly b)) = length (pverts (bcopPoly (zb z))) -> length (pverts (bcomPoly b)) = length (pverts (bcomPoly (zb z))) ->
  qinv z -> qinv (z_setModels z l b).
Proof.
  intros EN EN' E1 E2 [Q1 Q2 Q3 Q4 Q5 Q6 Q7 Q8 Q9 Q10 Q11].
  assert (EM : z_M1 (z_setModels z l b) = z_M1 z /\ z_M2 (z_setModels z l b) = z_M2 z /\ z_M3 (z_setModels z l b) = z_M3 z /\ z_M4 (z_setModels z l b) = z_M4 z).
  { unfold z_M1, z_M2, z_M3, z_M4. cbn [z_setModels zb zc]. rewrite EN', E1, E2. auto. }
  destruct EM as (M1 & M2 & M3 & M4).
  assert (EM : z_M (z_setModels z l b) = z_M z) by (unfold z_M; rewrite M1, M2, M3, M4; reflexivity).
  assert (EA : zA (z_setModels z l b) = zA z).
  { unfold zA. rewrite EM, M1, M2, M3. cbn [z_setModels zl zc zo]. rewrite EN. reflexivity. }
  constructor; rewrite ?EA, ?EM; cbn [z_setModels zl zo zw zqp zfo zfc zsol]; rewrite ?EN; assumption.
Qed.

Ltac lobs_inj H := unfold lobs_of in H; cbn [lobs_step] in H; injection H; clear H; intros.
Ltac bobs_inj H := unfold bobs_of in H; cbn [bobs_step] in H; injection H; clear H; intros.

Lemma models_onLip z gh gs c l' : oinv z gh gs -> lstep c (zl z) = Ok l' ->
  (match c with LSetStateX _ | LSetStateY _ | LUpdateStateX _ _ | LUpdateStateY _ _ => True | _ => False end) ->
  models_ok l' (zb z) /\ same_par (zl z) l' (zb z) (zb z).
Proof.
  intros [[M1 M2 M3 M4 M5 M6 M7 M8 M9 M10 M11 M12] _ _ _ _] H Hc. destruct M1 as (n & F).
  destruct (lstep_fresh c _ _ n F M2 H) as (F' & O & A). unfold same_par.
  destruct c; try contradiction; lobs_inj O; (split; [constructor; try assumption; congruence|repeat split; congruence]).
Qed.
Lemma models_onBase z gh gs c b' : oinv z gh gs -> bstep c (zb z) = Ok b' ->
  (match c with BSetStateX _ | BSetStateY _ | BSetStateRoll _ | BSetStatePitch _ | BSetStateYaw _ | BUpdateStateX _ _ | BUpdateStateY _ _
   | BSetVelocityLimit _ | BSetAccelerationLimit _ | BSetJerkLimit _ | BSetCopPolygon _ | BSetComPolygon _
   | BSetTiltContactPointX _ | BSetTiltContactPointY _ => True | _ => False end) ->
  models_ok (zl z) b' /\ same_par (zl z) (zl z) (zb z) b'.
Proof.
  intros [[M1 M2 M3 M4 M5 M6 M7 M8 M9 M10 M11 M12] _ _ _ _] H Hc.
  destruct (bstep_fresh c _ _ M4 M5 H) as (F' & O & A). unfold same_par.
  destruct c; try contradiction; bobs_inj O; (split; [constructor; try assumption; congruence|repeat split; congruence]).
Qed.

Lemma oinv_models z gh gs l b : oinv z gh gs -> models_ok l b -> same_par (zl z) l (zb z) b ->
  bsyaw b = bsyaw (zb z) -> btcx b = btcx (zb z) -> btcy b = btcy (zb z) -> bcopPoly b = bcopPoly (zb z) -> bcomPoly b = bcomPoly (zb z) ->
  oinv (z_setModels z l b) gh gs.
Proof.
  intros [O1 O2 O3 O4 O5] M S Y Cx Cy P1 P2. destruct (keep_objs _ _ _ _ gh gs _ _ O1 M S Y Cx Cy P1 P2 O2 O3) as (A & B).
  destruct S as (EN & _). constructor; cbn [z_setModels zl zb zo zr zX zdX]; rewrite ?EN; assumption.
Qed.
Lemma zinv_models z gh gs l b : zinv z gh gs -> models_ok l b -> same_par (zl z) l (zb z) b ->
  bsyaw b = bsyaw (zb z) -> btcx b = btcx (zb z) -> btcy b = btcy (zb z) -> bcopPoly b = bcopPoly (zb z) -> bcomPoly b = bcomPoly (zb z) ->
  zinv (z_setModels z l b) gh gs.
Proof.
  intros (O & Q) M S Y Cx Cy P1 P2. split; [apply oinv_models; assumption|].
  apply qinv_models; try assumption; try congruence; [apply S|]. rewrite (mo_N _ _ M), (mo_N _ _ (oi_m _ _ _ O)). apply S.
Qed.

(** ** Solving *)
Lemma vputE_inv (v : vec R) off n w v' : vputE v off n w = Ok v' -> v' = vsetseg v off w /\ (off + n <= vlen v)%nat /\ n = vlen w.
Proof.
  unfold vputE. intros H. apply guard_ok in H. destruct H as (H1 & H). apply guard_ok in H. destruct H as (H2 & H).
  injection H as <-. apply Nat.leb_le in H1. apply Nat.eqb_eq in H2. auto.
Qed.
Lemma addG_len w g p p' : addG (K:=R) w g p = Ok p' -> vlen p' = vlen p.
Proof.
  intros E. unfold addG in E. destruct (sltb s0 w); [|injection E as <-; reflexivity].
  unfold vaddE in E. apply guard_ok in E. destruct E as (_ & E). injection E as <-. reflexivity.
Qed.
Lemma addGseg_len N w g p p' : addGseg (K:=R) N w g p = Ok p' -> vlen p' = vlen p.
Proof.
  intros E. unfold addGseg in E. destruct (sltb s0 w); [|injection E as <-; reflexivity].
  apply guard_ok in E. destruct E as (_ & E). apply guard_ok in E. destruct E as (_ & E). injection E as <-. reflexivity.
Qed.
Lemma addGo_len w g p p' : addGo (K:=R) w g p = Ok p' -> vlen p' = vlen p.
Proof.
  intros E. unfold addGo in E. destruct (sltb s0 w); [|injection E as <-; reflexivity]. destruct g; [|discriminate].
  unfold vaddE in E. apply guard_ok in E. destruct E as (_ & E). injection E as <-. reflexivity.
Qed.
Lemma cond_len (c : bool) (f : res (vec R)) (v v' : vec R) off n :
  (if c then do x <- f; vputE v off n x else Ok v) = Ok v' -> vlen v' = vlen v.
Proof.
  destruct c; intros H; [|injection H as <-; reflexivity]. apply bind_ok in H. destruct H as (x & _ & H). apply vputE_inv in H.
  destruct H as (-> & _). reflexivity.
Qed.
Lemma cond_len' (c : bool) (v v' x : vec R) off n : (if c then vputE v off n x else Ok v) = Ok v' -> vlen v' = vlen v.
Proof. destruct c; intros H; [|injection H as <-; reflexivity]. apply vputE_inv in H. destruct H as (-> & _). reflexivity. Qed.

Lemma z_problem_shape z q : qinv z -> z_problem z = Ok q ->
  qQ q = qQ (zqp z) /\ qA q = qA (zqp z) /\ vlen (qp q) = (4 * lN (zl z))%nat
  /\ vlen (qxl q) = (4 * lN (zl z))%nat /\ vlen (qxu q) = (4 * lN (zl z))%nat /\ vlen (qbl q) = z_M z /\ vlen (qbu q) = z_M z.
Proof.
  intros Q H. destruct Q as [Q1 Q2 Q3 Q4 Q5 Q6 Q7 Q8 Q9 Q10 Q11]. unfold z_problem in H.
  apply guard_ok in H. destruct H as (_ & H).
  do 7 (apply bind_ok in H; destruct H as (? & _ & H); apply guard_ok in H; destruct H as (_ & H)).
  apply bind_ok in H. destruct H as (p1 & E1 & H). apply bind_ok in H. destruct H as (p2 & E2 & H).
  apply bind_ok in H. destruct H as (p3 & E3 & H). apply bind_ok in H. destruct H as (p4 & E4 & H).
  apply bind_ok in H. destruct H as (p5 & E5 & H). apply bind_ok in H. destruct H as (p6 & E6 & H).
  apply bind_ok in H. destruct H as (p7 & E7 & H).
  apply addGseg_len in E1, E2. apply addG_len in E3, E4, E5. apply addGo_len in E6, E7. cbn [vlen vfill] in E1.
  apply bind_ok in H. destruct H as (bl1 & B1 & H). apply bind_ok in H. destruct H as (bl2 & B2 & H).
  apply bind_ok in H. destruct H as (bu1 & B3 & H). apply bind_ok in H. destruct H as (xu1 & B4 & H).
  apply bind_ok in H. destruct H as (xl1 & B5 & H). apply bind_ok in H. destruct H as (bl3 & B6 & H).
  apply bind_ok in H. destruct H as (bl4 & B7 & H). apply bind_ok in H. destruct H as (bu2 & B8 & H).
  apply cond_len in B1, B2, B3, B6, B7, B8. apply cond_len' in B4, B5. cbn [vlen vfill] in B1, B3, B4, B5.
  injection H as <-. cbn [qQ qA qp qxl qxu qbl qbu vlen vscale].
  split; [reflexivity|]. split; [reflexivity|]. split; [congruence|]. split; [congruence|]. split; [congruence|]. split; congruence.
Qed.

Lemma z_solve_inv o f z b z' : z_solve o f z = Ok (b, z') ->
  exists q s dX, z_problem z = Ok q /\ 0 < f
    /\ solver_solve o (zsol z) q 10000%Z (zdX z) true false = Ok (s, dX, b)
    /\ vlen (zX z) = vlen dX
    /\ let X := vadd (zX z) dX in
       let N := lN (zl z) in
       let l := zl z in
       let b := zb z in
       z' = MkZeb (l_setStates l (updateState_raw (vget X 0) f (lsx l)) (updateState_raw (vget X N) f (lsy l)) (lsyaw l))
              (b_setStates b (updateState_raw (vget X (2 * N)) f (bsx b)) (updateState_raw (vget X (3 * N)) f (bsy b)) (bsroll b) (bspitch b) (bsyaw b))
              (zo z) (zr z) (zw z) (zc z) dX X q s (zfo z) (zfc z).
Proof.
  unfold z_solve. intros H. apply bind_ok in H. destruct H as (q & Hq & H). apply guard_ok in H. destruct H as (Hf & H).
  rsimpl. apply Rltb_true in Hf.
  apply bind_ok in H. destruct H as ([[s dX] b'] & Hs & H). apply bind_ok in H. destruct H as (X & HX & H).
  unfold vaddE in HX. apply guard_ok in HX. destruct HX as (HL & HX). injection HX as <-. apply Nat.eqb_eq in HL.
  unfold l_updateStateX, l_updateStateY, b_updateStateX, b_updateStateY in H. rewrite updateState_ok in H by assumption. cbn [bind] in H.
  cbn [l_setStates lsx lsy lsyaw] in H. rewrite updateState_ok in H by assumption. cbn [bind] in H.
  rewrite updateState_ok in H by assumption. cbn [bind] in H. cbn [b_setStates bsx bsy bsroll bspitch bsyaw] in H.
  rewrite updateState_ok in H by assumption. cbn [bind] in H. injection H as <- <-.
  exists q, s, dX. split; [assumption|]. split; [assumption|]. split; [assumption|]. split; [assumption|]. reflexivity.
Qed.

Lemma solve_zinv o f z found z' gh gs : zinv z gh gs -> z_solve o f z = Ok (found, z') -> zinv z' gh gs.
Proof.
  intros I H. apply z_solve_inv in H. destruct H as (q & s & dX & Hq & Hf & Hs & HL & ->).
  pose proof I as (O & Q). pose proof (z_problem_shape _ _ Q Hq) as (P1 & P2 & P3 & P4 & P5 & P6 & P7).
  set (l' := l_setStates _ _ _ _). set (b' := b_setStates _ _ _ _ _ _).
  assert (M' : models_ok l' b').
  { destruct (oi_m _ _ _ O) as [(n & M1) M2 M3 M4 M5 M6 M7 M8 M9 M10 M11 M12]. constructor; try assumption.
    - exists n. apply lfresh_states. assumption.
    - apply bfresh_states. assumption. }
  assert (I' : zinv (z_setModels z l' b') gh gs).
  { apply zinv_models; try assumption; try reflexivity. unfold same_par. repeat split. }
  destruct I' as ([O1 O2 O3 O4 O5] & [Q1 Q2 Q3 Q4 Q5 Q6 Q7 Q8 Q9 Q10 Q11]).
  apply solver_solve_inv in Hs; [|rewrite P1, P2; exact Q11]. destruct Hs as (-> & Hx & _).
  split.
  - constructor; cbn [zl zb zo zr zX zdX vlen vadd]; try assumption. rewrite Hx. assumption.
  - constructor; cbn [zl zb zo zw zqp zsol zfo zfc snbVar snbCtr smem]; rewrite ?P1, ?P2, ?P3, ?P4, ?P5, ?P6, ?P7; try assumption; try reflexivity.
    right. reflexivity.
Qed.

(** ** Every call *)
Definition upd (z z' : zeb R) : Prop :=
  zl z' = zl z /\ zb z' = zb z /\ zX z' = zX z /\ zdX z' = zdX z /\ zw z' = zw z.
Definition updR (z z' : zeb R) : Prop := upd z z' /\ zr z' = zr z.
Lemma z_vel_inv z z' : z_vel z = Ok z' -> exists c, c = btrack_hessian (bN (zb z)) (bvelD (zb z)) /\ updR z z' /\ zo z' = MkZO c (oposH (zo z)) (ojerkH (zo z)) (otilt (zo z)) (otiltV (zo z)) (ocopH (zo z)) (ocomH (zo z)) (ocopC (zo z)) (ocomC (zo z)) (omotG (zo z)) (otmG (zo z)).
Proof. unfold z_vel. intros H. injection H as <-. eexists. split; [reflexivity|]. split; [unfold updR, upd; repeat split|reflexivity]. Qed.
Lemma z_pos_inv z z' : z_pos z = Ok z' -> exists c, c = btrack_hessian (bN (zb z)) (bposD (zb z)) /\ updR z z' /\ zo z' = MkZO (ovelH (zo z)) c (ojerkH (zo z)) (otilt (zo z)) (otiltV (zo z)) (ocopH (zo z)) (ocomH (zo z)) (ocopC (zo z)) (ocomC (zo z)) (omotG (zo z)) (otmG (zo z)).
Proof. unfold z_pos. intros H. injection H as <-. eexists. split; [reflexivity|]. split; [unfold updR, upd; repeat split|reflexivity]. Qed.
Lemma z_jerk_inv z z' : z_jerk z = Ok z' -> exists c, c = zjerk_hessian (bN (zb z)) /\ updR z z' /\ zo z' = MkZO (ovelH (zo z)) (oposH (zo z)) c (otilt (zo z)) (otiltV (zo z)) (ocopH (zo z)) (ocomH (zo z)) (ocopC (zo z)) (ocomC (zo z)) (omotG (zo z)) (otmG (zo z)).
Proof. unfold z_jerk. intros H. apply bind_ok in H. destruct H as (c & E & H). injection H as <-. eexists. split; [reflexivity|]. split; [unfold updR, upd; repeat split|reflexivity]. Qed.
Lemma z_tilt_inv z z' : z_tilt z = Ok z' -> exists c, tilt_constant (zl z) (zb z) = Ok c /\ updR z z' /\ zo z' = MkZO (ovelH (zo z)) (oposH (zo z)) (ojerkH (zo z)) c (otiltV (zo z)) (ocopH (zo z)) (ocomH (zo z)) (ocopC (zo z)) (ocomC (zo z)) (omotG (zo z)) (otmG (zo z)).
Proof. unfold z_tilt. intros H. apply bind_ok in H. destruct H as (c & E & H). injection H as <-. eexists. split; [exact E|]. split; [unfold updR, upd; repeat split|reflexivity]. Qed.
Lemma z_tiltV_inv z z' : z_tiltV z = Ok z' -> exists c, tiltvel_constant (zl z) (zb z) = Ok c /\ updR z z' /\ zo z' = MkZO (ovelH (zo z)) (oposH (zo z)) (ojerkH (zo z)) (otilt (zo z)) c (ocopH (zo z)) (ocomH (zo z)) (ocopC (zo z)) (ocomC (zo z)) (omotG (zo z)) (otmG (zo z)).
Proof. unfold z_tiltV. intros H. apply bind_ok in H. destruct H as (c & E & H). injection H as <-. eexists. split; [exact E|]. split; [unfold updR, upd; repeat split|reflexivity]. Qed.
Lemma z_cop_inv z z' : z_cop z = Ok z' -> exists c, cop_hessian (zl z) (zb z) = Ok c /\ updR z z' /\ zo z' = MkZO (ovelH (zo z)) (oposH (zo z)) (ojerkH (zo z)) (otilt (zo z)) (otiltV (zo z)) c (ocomH (zo z)) (ocopC (zo z)) (ocomC (zo z)) (omotG (zo z)) (otmG (zo z)).
Proof. unfold z_cop. intros H. apply bind_ok in H. destruct H as (c & E & H). injection H as <-. eexists. split; [exact E|]. split; [unfold updR, upd; repeat split|reflexivity]. Qed.
Lemma z_com_inv z z' : z_com z = Ok z' -> exists c, com_hessian (zl z) (zb z) = Ok c /\ updR z z' /\ zo z' = MkZO (ovelH (zo z)) (oposH (zo z)) (ojerkH (zo z)) (otilt (zo z)) (otiltV (zo z)) (ocopH (zo z)) c (ocopC (zo z)) (ocomC (zo z)) (omotG (zo z)) (otmG (zo z)).
Proof. unfold z_com. intros H. apply bind_ok in H. destruct H as (c & E & H). injection H as <-. eexists. split; [exact E|]. split; [unfold updR, upd; repeat split|reflexivity]. Qed.
Lemma z_copC_inv z z' : z_copC z = Ok z' -> exists c, copc_constant (zl z) (zb z) = Ok c /\ updR z z' /\ zo z' = MkZO (ovelH (zo z)) (oposH (zo z)) (ojerkH (zo z)) (otilt (zo z)) (otiltV (zo z)) (ocopH (zo z)) (ocomH (zo z)) c (ocomC (zo z)) (omotG (zo z)) (otmG (zo z)).
Proof. unfold z_copC. intros H. apply bind_ok in H. destruct H as (c & E & H). injection H as <-. eexists. split; [exact E|]. split; [unfold updR, upd; repeat split|reflexivity]. Qed.
Lemma z_comC_inv z z' : z_comC z = Ok z' -> exists c, comc_constant (zl z) (zb z) = Ok c /\ updR z z' /\ zo z' = MkZO (ovelH (zo z)) (oposH (zo z)) (ojerkH (zo z)) (otilt (zo z)) (otiltV (zo z)) (ocopH (zo z)) (ocomH (zo z)) (ocopC (zo z)) c (omotG (zo z)) (otmG (zo z)).
Proof. unfold z_comC. intros H. apply bind_ok in H. destruct H as (c & E & H). injection H as <-. eexists. split; [exact E|]. split; [unfold updR, upd; repeat split|reflexivity]. Qed.
Lemma z_motion_inv z z' : z_motion z = Ok z' -> exists c, c = bmotion_gradient (zb z) /\ updR z z' /\ zo z' = MkZO (ovelH (zo z)) (oposH (zo z)) (ojerkH (zo z)) (otilt (zo z)) (otiltV (zo z)) (ocopH (zo z)) (ocomH (zo z)) (ocopC (zo z)) (ocomC (zo z)) c (otmG (zo z)).
Proof. unfold z_motion. intros H. injection H as <-. eexists. split; [reflexivity|]. split; [unfold updR, upd; repeat split|reflexivity]. Qed.
Lemma z_tmotion_inv z z' : z_tmotion z = Ok z' -> exists c, tmotion_gradient (zl z) (zb z) = Ok c /\ updR z z' /\ zo z' = MkZO (ovelH (zo z)) (oposH (zo z)) (ojerkH (zo z)) (otilt (zo z)) (otiltV (zo z)) (ocopH (zo z)) (ocomH (zo z)) (ocopC (zo z)) (ocomC (zo z)) (omotG (zo z)) c.
Proof. unfold z_tmotion. intros H. apply bind_ok in H. destruct H as (c & E & H). injection H as <-. eexists. split; [exact E|]. split; [unfold updR, upd; repeat split|reflexivity]. Qed.
Ltac refresh H :=
  let y := fresh "y" in let E := fresh "E" in let c := fresh "c" in let U := fresh "U" in let Eo := fresh "Eo" in let U' := fresh "U" in let Er := fresh "Er" in
  apply bind_ok in H; destruct H as (y & E & H);
  first [apply z_vel_inv in E|apply z_pos_inv in E|apply z_jerk_inv in E|apply z_tilt_inv in E|apply z_tiltV_inv in E
        |apply z_cop_inv in E|apply z_com_inv in E|apply z_copC_inv in E|apply z_comC_inv in E|apply z_motion_inv in E|apply z_tmotion_inv in E];
  destruct E as (c & E & ((? & ? & ? & ? & ?) & ?) & Eo).
(** follow the chain of states back to the first one *)
Ltac back := repeat match goal with
  | E : zl ?y = _ |- context [zl ?y] => rewrite E
  | E : zb ?y = _ |- context [zb ?y] => rewrite E
  | E : zr ?y = _ |- context [zr ?y] => rewrite E
  | E : zX ?y = _ |- context [zX ?y] => rewrite E
  | E : zw ?y = _ |- context [zw ?y] => rewrite E
  | E : zdX ?y = _ |- context [zdX ?y] => rewrite E
  | E : zo ?y = _ |- context [zo ?y] => rewrite E; cbn [ovelH oposH ojerkH otilt otiltV ocopH ocomH ocopC ocomC omotG otmG]
  end.
Ltac backs := repeat match goal with
  | E : zl ?y = _, H : context [zl ?y] |- _ => lazymatch H with E => fail | _ => rewrite E in H end
  | E : zb ?y = _, H : context [zb ?y] |- _ => lazymatch H with E => fail | _ => rewrite E in H end
  | E : zr ?y = _, H : context [zr ?y] |- _ => lazymatch H with E => fail | _ => rewrite E in H end
  end.

Lemma gravity_inv z z' : z_gravity z = Ok z' -> exists s, gravity_shift (zl z) (zb z) = Ok s /\ vlen (rcom (zr z)) = vlen s
  /\ upd z z' /\ zo z' = zo z /\ zr z' = MkZR (rvel (zr z)) (rpos (zr z)) (rcop (zr z)) (rcom (zr z)) (vadd (rcom (zr z)) s) s.
Proof.
  unfold z_gravity. intros H. apply bind_ok in H. destruct H as (s & Hs & H). apply bind_ok in H. destruct H as (c & Hc & H).
  unfold vaddE in Hc. apply guard_ok in Hc. destruct Hc as (HL & Hc). injection Hc as <-. injection H as <-. apply Nat.eqb_eq in HL. exists s. unfold upd. repeat split; assumption.
Qed.
Lemma gravity_refs l b r s : models_ok l b -> vlen (rcom r) = (2 * lN l)%nat -> gravity_shift l b = Ok s ->
  refs_ok l b false (MkZR (rvel r) (rpos r) (rcop r) (rcom r) (vadd (rcom r) s) s).
Proof.
  intros M HL Hs. assert (Ls : vlen s = (2 * lN l)%nat).
  { unfold gravity_shift in Hs. apply bind_ok in Hs. destruct Hs as (_ & _ & Hs). unfold nanguard in Hs.
    destruct (negb _); [|discriminate]. cbn [bind] in Hs. destruct (negb _); [|discriminate]. cbn [bind] in Hs.
    injection Hs as <-. cbn [vlen]. rewrite (mo_N _ _ M). reflexivity. }
  unfold refs_ok. cbn [rcom rshift rgrav vadd vlen vget]. repeat split; assumption.
Qed.

Lemma jerk_agree l b (u : unit) : agree l b = Ok u -> agree (K:=R) l b = Ok tt.
Proof. intros ->. destruct u. reflexivity. Qed.

(** [mods l b z T h hb m mb N]: consistent models with these parameters that differ from those of [z] in nothing else. *)
Definition mods (l : lip R) (b : base R) (z : zeb R) (N : nat) (T h hb m mb : R) (g : vec3 R) : Prop :=
  models_ok l b /\ lN l = N /\ lT l = T /\ lh l = h /\ bh b = hb /\ lm l = m /\ bm b = mb /\ lg l = g
  /\ bsyaw b = bsyaw (zb z) /\ bcopPoly b = bcopPoly (zb z) /\ bcomPoly b = bcomPoly (zb z) /\ btcx b = btcx (zb z) /\ btcy b = btcy (zb z).
Lemma mods_Nb n z l b : models_ok (zl z) (zb z) -> l_setNbSamples n (zl z) = Ok l -> b_setNbSamples n (zb z) = Ok b ->
  mods l b z n (lT (zl z)) (lh (zl z)) (bh (zb z)) (lm (zl z)) (bm (zb z)) (lg (zl z)).
Proof.
  intros [(k & M1) M2 M3 M4 M5 M6 M7 M8 M9 M10 M11 M12] Hl Hb.
  destruct (lstep_fresh (LSetNbSamples n) _ _ k M1 M2 Hl) as (F & Ol & A). lobs_inj Ol.
  destruct (bstep_fresh (BSetNbSamples n) _ _ M4 M5 Hb) as (F' & Ob & A'). bobs_inj Ob.
  unfold mods. repeat match goal with |- _ /\ _ => split end; try assumption. constructor; try assumption; congruence.
Qed.
Lemma mods_T T z l b : models_ok (zl z) (zb z) -> l_setSamplingPeriod T (zl z) = Ok l -> b_setSamplingPeriod T (zb z) = Ok b ->
  mods l b z (lN (zl z)) T (lh (zl z)) (bh (zb z)) (lm (zl z)) (bm (zb z)) (lg (zl z)).
Proof.
  intros [(k & M1) M2 M3 M4 M5 M6 M7 M8 M9 M10 M11 M12] Hl Hb.
  destruct (lstep_fresh (LSetSamplingPeriod T) _ _ k M1 M2 Hl) as (F & Ol & A). lobs_inj Ol.
  destruct (bstep_fresh (BSetSamplingPeriod T) _ _ M4 M5 Hb) as (F' & Ob & A'). bobs_inj Ob.
  unfold mods. repeat match goal with |- _ /\ _ => split end; try assumption. constructor; try assumption; congruence.
Qed.
Lemma mods_g g z l b : models_ok (zl z) (zb z) -> l_setGravity g (zl z) = Ok l -> b_setGravity g (zb z) = Ok b ->
  mods l b z (lN (zl z)) (lT (zl z)) (lh (zl z)) (bh (zb z)) (lm (zl z)) (bm (zb z)) g.
Proof.
  intros [(k & M1) M2 M3 M4 M5 M6 M7 M8 M9 M10 M11 M12] Hl Hb.
  destruct (lstep_fresh (LSetGravity g) _ _ k M1 M2 Hl) as (F & Ol & A). lobs_inj Ol.
  destruct (bstep_fresh (BSetGravity g) _ _ M4 M5 Hb) as (F' & Ob & A'). bobs_inj Ob.
  unfold mods. repeat match goal with |- _ /\ _ => split end; try assumption. constructor; try assumption; congruence.
Qed.
Lemma mods_hb h z b : models_ok (zl z) (zb z) -> b_setComHeight h (zb z) = Ok b ->
  mods (zl z) b z (lN (zl z)) (lT (zl z)) (lh (zl z)) h (lm (zl z)) (bm (zb z)) (lg (zl z)).
Proof.
  intros [(k & M1) M2 M3 M4 M5 M6 M7 M8 M9 M10 M11 M12] Hb.
  destruct (bstep_fresh (BSetComHeight h) _ _ M4 M5 Hb) as (F' & Ob & A'). bobs_inj Ob.
  unfold mods. repeat match goal with |- _ /\ _ => split end; try assumption; try reflexivity. constructor; try assumption; try congruence. eauto.
Qed.
Lemma mods_h h z l : models_ok (zl z) (zb z) -> l_setComHeight h (zl z) = Ok l ->
  mods l (zb z) z (lN (zl z)) (lT (zl z)) h (bh (zb z)) (lm (zl z)) (bm (zb z)) (lg (zl z)).
Proof.
  intros [(k & M1) M2 M3 M4 M5 M6 M7 M8 M9 M10 M11 M12] Hl.
  destruct (lstep_fresh (LSetComHeight h) _ _ k M1 M2 Hl) as (F & Ol & A). lobs_inj Ol.
  unfold mods. repeat match goal with |- _ /\ _ => split end; try assumption; try reflexivity. constructor; try assumption; try congruence.
Qed.
Lemma mods_m m z l b l2 : models_ok (zl z) (zb z) -> l_setTotalMass (m + bm (zb z)) (zl z) = Ok l -> b_setTotalMass (m + bm (zb z)) (zb z) = Ok b ->
  l_setMass m l = Ok l2 ->
  mods l2 b z (lN (zl z)) (lT (zl z)) (lh (zl z)) (bh (zb z)) m (bm (zb z)) (lg (zl z)).
Proof.
  intros [(k & M1) M2 M3 M4 M5 M6 M7 M8 M9 M10 M11 M12] Hl Hb Hl2.
  destruct (lstep_fresh (LSetTotalMass (m + (bm (zb z)))) _ _ k M1 M2 Hl) as ((k' & F) & Ol & A). lobs_inj Ol.
  destruct (bstep_fresh (BSetTotalMass (m + (bm (zb z)))) _ _ M4 M5 Hb) as (F' & Ob & A'). bobs_inj Ob.
  destruct (lstep_fresh (LSetMass m) _ _ k' F A Hl2) as ((k2 & F2) & Ol2 & A2). lobs_inj Ol2.
  unfold mods. repeat match goal with |- _ /\ _ => split end; try assumption; try congruence. constructor; try assumption; try congruence. eauto.
Qed.
Lemma mods_mb m z l b b2 : models_ok (zl z) (zb z) -> l_setTotalMass (lm (zl z) + m) (zl z) = Ok l -> b_setTotalMass (lm (zl z) + m) (zb z) = Ok b ->
  b_setMass m b = Ok b2 ->
  mods l b2 z (lN (zl z)) (lT (zl z)) (lh (zl z)) (bh (zb z)) (lm (zl z)) m (lg (zl z)).
Proof.
  intros [(k & M1) M2 M3 M4 M5 M6 M7 M8 M9 M10 M11 M12] Hl Hb Hb2.
  destruct (lstep_fresh (LSetTotalMass (lm (zl z) + m)) _ _ k M1 M2 Hl) as ((k' & F) & Ol & A). lobs_inj Ol.
  destruct (bstep_fresh (BSetTotalMass (lm (zl z) + m)) _ _ M4 M5 Hb) as (F' & Ob & A'). bobs_inj Ob.
  destruct (bstep_fresh (BSetMass m) _ _ F' A' Hb2) as (F2 & Ob2 & A2). bobs_inj Ob2.
  unfold mods. repeat match goal with |- _ /\ _ => split end; try assumption; try congruence. constructor; try assumption; try congruence. eauto.
Qed.

Ltac chain := repeat match goal with E : _ = Ok _ |- _ => rewrite E; clear E; cbn [bind] end; reflexivity.
Definition Nb_start (z : zeb R) (n : nat) (l : lip R) (b : base R) : zeb R :=
  z_setX (z_setRefs (z_setModels z l b)
    (MkZR (rvel (zr z)) (rpos (zr z)) (rcop (zr z)) (vzero (2 * n)) (vzero (2 * n)) (vzero (2 * n)))) (vzero (4 * n)) (vzero (4 * n)).
Lemma setNb_pre z l b z' : models_ok l b ->
  (do z <- z_jerk (Nb_start z (lN l) l b); do z <- z_tilt z; do z <- z_tiltV z; do z <- z_copC z; do z <- z_comC z;
   do z <- z_cop z; do z <- z_com z; do z <- z_vel z; do z <- z_pos z; do z <- z_motion z; do z <- z_tmotion z; Ok z) = Ok z' ->
  oinv z' (bh b) true /\ zw z' = zw z /\ zl z' = l /\ zb z' = b.
Proof.
  intros MM H. set (n := lN l) in *. assert (EN : lN l = n) by reflexivity. clearbody n.
  set (z0 := Nb_start _ _ _ _) in H.
  assert (D1 : zl z0 = l) by reflexivity. assert (D2 : zb z0 = b) by reflexivity.
  assert (D3 : zX z0 = vzero (4 * n)) by reflexivity. assert (D4 : zdX z0 = vzero (4 * n)) by reflexivity.
  assert (D5 : zr z0 = MkZR (rvel (zr z)) (rpos (zr z)) (rcop (zr z)) (vzero (2 * n)) (vzero (2 * n)) (vzero (2 * n))) by reflexivity.
  assert (D7 : zw z0 = zw z) by reflexivity.
  clearbody z0. do 11 refresh H. injection H as <-. backs. split; [|back; repeat split]. subst. constructor; back.
  - assumption.
  - constructor; rewrite ?withH_self; back; try assumption; reflexivity.
  - unfold refs_ok. cbn [rcom rshift rgrav vlen vget vzero]. repeat split; try reflexivity. intros. rsimpl. ring.
  - reflexivity.
  - reflexivity.
Qed.
Lemma setNb_zinv n z z' gh gs : zinv z gh gs -> z_setNbSamples n z = Ok z' -> zinv z' (bh (zb z)) true.
Proof.
  intros (O & Q) H. unfold z_setNbSamples in H. apply guard_ok in H. destruct H as (_ & H).
  apply bind_ok in H. destruct H as (l & Hl & H). apply bind_ok in H. destruct H as (b & Hb & H).
  destruct (mods_Nb _ _ _ _ (oi_m _ _ _ O) Hl Hb) as (MM & EN & _ & _ & Eh & _). clear Hl Hb. rewrite <- Eh. cbv zeta in H. cbn [zr z_setModels] in H.
  do 11 (let E := fresh "E" in apply bind_ok in H; destruct H as (? & E & H)).
  refine (compute_zinv _ _ _ _ (proj1 (setNb_pre z l b _ MM _)) H). rewrite EN. unfold Nb_start. clear H O. chain.
Qed.
Lemma z_gravity_bind z x (f : zeb R -> res (zeb R)) : (do y <- z_gravity z; f y) = Ok x -> exists y, z_gravity z = Ok y /\ f y = Ok x.
Proof. intros H. apply bind_ok in H. exact H. Qed.
Ltac grav H :=
  let y := fresh "y" in let E := fresh "E" in let s := fresh "s" in
  apply z_gravity_bind in H; destruct H as (y & E & H); apply gravity_inv in E;
  destruct E as (s & E & ? & (? & ? & ? & ? & ?) & ? & ?).

Lemma setT_pre z l b gh gs z' : oinv z gh gs -> models_ok l b -> lN l = lN (zl z) -> gravity_shift l b = gravity_shift (zl z) (zb z) ->
  (do z <- z_copC (z_setModels z l b); do z <- z_comC z; do z <- z_cop z; do z <- z_com z; do z <- z_vel z; do z <- z_pos z;
   do z <- z_motion z; do z <- z_tmotion z; do z <- z_tilt z; do z <- z_tiltV z; Ok z) = Ok z' ->
  oinv z' (bh b) gs /\ zw z' = zw z /\ zl z' = l /\ zb z' = b.
Proof.
  intros [O1 O2 O3 O4 O5] MM EN GS H. assert (Eb : bN b = bN (zb z)) by (rewrite (mo_N _ _ MM), (mo_N _ _ O1); exact EN).
  set (z0 := z_setModels _ _ _) in H.
  assert (D1 : zl z0 = l) by reflexivity. assert (D2 : zb z0 = b) by reflexivity.
  assert (D3 : zX z0 = zX z) by reflexivity. assert (D4 : zdX z0 = zdX z) by reflexivity.
  assert (D5 : zr z0 = zr z) by reflexivity. assert (D6 : zo z0 = zo z) by reflexivity. assert (D7 : zw z0 = zw z) by reflexivity.
  clearbody z0. do 10 refresh H. injection H as <-. backs. split; [|back; repeat split]. subst. constructor; back.
  - assumption.
  - constructor; rewrite ?withH_self; back; try assumption; try reflexivity. rewrite Eb. apply (oo_jerk _ _ _ _ O2).
  - unfold refs_ok. rewrite EN, GS. exact O3.
  - rewrite EN. assumption.
  - rewrite EN. assumption.
Qed.
Lemma T_grav l b z T : models_ok (zl z) (zb z) -> mods l b z (lN (zl z)) T (lh (zl z)) (bh (zb z)) (lm (zl z)) (bm (zb z)) (lg (zl z)) ->
  gravity_shift l b = gravity_shift (zl z) (zb z).
Proof. intros M0 (MM & A1 & A2 & A3 & A4 & A5 & A6 & A7 & _). apply grav_eq; assumption. Qed.
Lemma setT_zinv T z z' gh gs : zinv z gh gs -> z_setSamplingPeriod T z = Ok z' -> zinv z' (bh (zb z)) gs.
Proof.
  intros (O & Q) H. unfold z_setSamplingPeriod in H. apply guard_ok in H. destruct H as (_ & H).
  apply bind_ok in H. destruct H as (l & Hl & H). apply bind_ok in H. destruct H as (b & Hb & H).
  pose proof (mods_T _ _ _ _ (oi_m _ _ _ O) Hl Hb) as MM. pose proof (T_grav _ _ _ _ (oi_m _ _ _ O) MM) as GS.
  destruct MM as (MM & EN & _ & _ & Eh & _). clear Hl Hb. rewrite <- Eh. cbv zeta in H.
  do 10 (let E := fresh "E" in apply bind_ok in H; destruct H as (? & E & H)).
  refine (compute_zinv _ _ _ _ (proj1 (setT_pre z l b gh gs _ O MM EN GS _)) H). clear H EN GS Eh. chain.
Qed.

(** The setters that change the centre of pressure *)
Lemma refresh_cop_pre z l b gh gs z' : oinv z gh gs -> models_ok l b -> lN l = lN (zl z) -> lT l = lT (zl z) ->
  bsyaw b = bsyaw (zb z) -> bcomPoly b = bcomPoly (zb z) ->
  lm l = lm (zl z) -> lh l = lh (zl z) -> bm b = bm (zb z) -> btcx b = btcx (zb z) -> btcy b = btcy (zb z) ->
  (do y <- z_copC (z_setModels z l b); do y <- z_cop y; do y <- z_gravity y; Ok y) = Ok z' -> oinv z' gh false /\ zw z' = zw z /\ zl z' = l /\ zb z' = b.
Proof.
  intros [O1 O2 O3 O4 O5] MM EN ET Y P F1 F2 F3 Cx Cy H.
  destruct (keep_tilts (zl z) l (zb z) b O1 MM EN ET gh F1 F2 F3 Cx Cy) as (K1 & K2).
  set (z0 := z_setModels _ _ _) in H.
  assert (D1 : zl z0 = l) by reflexivity. assert (D2 : zb z0 = b) by reflexivity.
  assert (D3 : zX z0 = zX z) by reflexivity. assert (D4 : zdX z0 = zdX z) by reflexivity.
  assert (D5 : zr z0 = zr z) by reflexivity. assert (D6 : zo z0 = zo z) by reflexivity. assert (D7 : zw z0 = zw z) by reflexivity.
  clearbody z0. do 2 refresh H. grav H. injection H as <-. backs. split; [|back; repeat split]. constructor; back.
  - assumption.
  - destruct O2 as [P1 P2 P3 P4 P5 P6 P7 P8 P9 P10 P11]. constructor; back; try assumption.
    + rewrite (keep_vel (zl z) l (zb z) b) by assumption. assumption.
    + rewrite (keep_pos (zl z) l (zb z) b) by assumption. assumption.
    + rewrite (keep_jerk (zl z) l (zb z) b) by assumption. assumption.
    + rewrite (keep_com (zl z) l (zb z) b) by assumption. assumption.
    + rewrite (keep_comC (zl z) l (zb z) b) by assumption. assumption.
    + rewrite (keep_mot (zl z) l (zb z) b) by assumption. assumption.
    + rewrite (keep_tm (zl z) l (zb z) b) by assumption. assumption.
    + rewrite K1. assumption.
    + rewrite K2. assumption.
  - apply gravity_refs; [assumption| |assumption]. rewrite EN. apply O3.
  - rewrite EN. assumption.
  - rewrite EN. assumption.
Qed.
Lemma refresh_cop z l b gh gs z' : oinv z gh gs -> models_ok l b -> lN l = lN (zl z) -> lT l = lT (zl z) ->
  bsyaw b = bsyaw (zb z) -> bcomPoly b = bcomPoly (zb z) ->
  lm l = lm (zl z) -> lh l = lh (zl z) -> bm b = bm (zb z) -> btcx b = btcx (zb z) -> btcy b = btcy (zb z) ->
  (do y <- z_copC (z_setModels z l b); do y <- z_cop y; do y <- z_gravity y; z_compute y) = Ok z' -> zinv z' gh false.
Proof.
  intros O MM EN ET Y P F1 F2 F3 Cx Cy H. do 3 (let E := fresh "E" in apply bind_ok in H; destruct H as (? & E & H)).
  refine (compute_zinv _ _ _ _ (proj1 (refresh_cop_pre _ _ _ _ gs _ O MM EN ET Y P F1 F2 F3 Cx Cy _)) H).
  repeat match goal with E : _ = Ok _ |- _ => rewrite E; clear E; cbn [bind] end. reflexivity.
Qed.
Lemma refresh_tilt_pre z l b gh gs z' : oinv z gh gs -> models_ok l b -> lN l = lN (zl z) -> lT l = lT (zl z) ->
  bsyaw b = bsyaw (zb z) -> bcomPoly b = bcomPoly (zb z) ->
  (do y <- z_copC (z_setModels z l b); do y <- z_cop y; do y <- z_gravity y; do y <- z_tilt y; do y <- z_tiltV y; Ok y) = Ok z' ->
  oinv z' (bh b) false /\ zw z' = zw z /\ zl z' = l /\ zb z' = b.
Proof.
  intros [O1 O2 O3 O4 O5] MM EN ET Y P H.
  set (z0 := z_setModels _ _ _) in H.
  assert (D1 : zl z0 = l) by reflexivity. assert (D2 : zb z0 = b) by reflexivity.
  assert (D3 : zX z0 = zX z) by reflexivity. assert (D4 : zdX z0 = zdX z) by reflexivity.
  assert (D5 : zr z0 = zr z) by reflexivity. assert (D6 : zo z0 = zo z) by reflexivity. assert (D7 : zw z0 = zw z) by reflexivity.
  clearbody z0. do 2 refresh H. grav H. do 2 refresh H. injection H as <-. backs. split; [|back; repeat split]. constructor; back.
  - assumption.
  - destruct O2 as [P1 P2 P3 P4 P5 P6 P7 P8 P9 P10 P11]. constructor; rewrite ?withH_self; back; try assumption.
    + rewrite (keep_vel (zl z) l (zb z) b) by assumption. assumption.
    + rewrite (keep_pos (zl z) l (zb z) b) by assumption. assumption.
    + rewrite (keep_jerk (zl z) l (zb z) b) by assumption. assumption.
    + rewrite (keep_com (zl z) l (zb z) b) by assumption. assumption.
    + rewrite (keep_comC (zl z) l (zb z) b) by assumption. assumption.
    + rewrite (keep_mot (zl z) l (zb z) b) by assumption. assumption.
    + rewrite (keep_tm (zl z) l (zb z) b) by assumption. assumption.
  - apply gravity_refs; [assumption| |assumption]. rewrite EN. apply O3.
  - rewrite EN. assumption.
  - rewrite EN. assumption.
Qed.
Lemma refresh_tilt z l b gh gs z' : oinv z gh gs -> models_ok l b -> lN l = lN (zl z) -> lT l = lT (zl z) ->
  bsyaw b = bsyaw (zb z) -> bcomPoly b = bcomPoly (zb z) ->
  (do y <- z_copC (z_setModels z l b); do y <- z_cop y; do y <- z_gravity y; do y <- z_tilt y; do y <- z_tiltV y; z_compute y) = Ok z' ->
  zinv z' (bh b) false.
Proof.
  intros O MM EN ET Y P H. do 5 (let E := fresh "E" in apply bind_ok in H; destruct H as (? & E & H)).
  refine (compute_zinv _ _ _ _ (proj1 (refresh_tilt_pre _ _ _ _ gs _ O MM EN ET Y P _)) H).
  repeat match goal with E : _ = Ok _ |- _ => rewrite E; clear E; cbn [bind] end. reflexivity.
Qed.
Lemma setG_zinv g z z' gh gs : zinv z gh gs -> z_setGravity g z = Ok z' -> zinv z' gh false.
Proof.
  intros (O & Q) H. unfold z_setGravity in H. apply guard_ok in H. destruct H as (_ & H).
  apply bind_ok in H. destruct H as (l & Hl & H). apply bind_ok in H. destruct H as (b & Hb & H).
  destruct (mods_g _ _ _ _ (oi_m _ _ _ O) Hl Hb) as (MM & A1 & A2 & A3 & A4 & A5 & A6 & A7 & A8 & A9 & A10 & A11 & A12).
  refine (refresh_cop _ _ _ _ _ _ O _ _ _ _ _ _ _ _ _ _ H); assumption.
Qed.
Lemma setBaseHeight_zinv h z z' gh gs : zinv z gh gs -> z_setComBaseHeight h z = Ok z' -> zinv z' gh false.
Proof.
  intros (O & Q) H. unfold z_setComBaseHeight in H.
  apply bind_ok in H. destruct H as (b & Hb & H).
  destruct (mods_hb _ _ _ (oi_m _ _ _ O) Hb) as (MM & A1 & A2 & A3 & A4 & A5 & A6 & A7 & A8 & A9 & A10 & A11 & A12).
  refine (refresh_cop _ _ _ _ _ _ O _ _ _ _ _ _ _ _ _ _ H); assumption.
Qed.
Lemma setBodyHeight_zinv h z z' gh gs : zinv z gh gs -> z_setComBodyHeight h z = Ok z' -> zinv z' (bh (zb z)) false.
Proof.
  intros (O & Q) H. unfold z_setComBodyHeight in H.
  apply bind_ok in H. destruct H as (l & Hl & H).
  destruct (mods_h _ _ _ (oi_m _ _ _ O) Hl) as (MM & A1 & A2 & A3 & A4 & A5 & A6 & A7 & A8 & A9 & A10 & A11 & A12).
  refine (refresh_tilt _ _ _ _ _ _ O _ _ _ _ _ H); assumption.
Qed.
Lemma setBodyMass_zinv m z z' gh gs : zinv z gh gs -> z_setBodyMass m z = Ok z' -> zinv z' (bh (zb z)) false.
Proof.
  intros (O & Q) H. unfold z_setBodyMass in H. cbv zeta in H.
  apply bind_ok in H. destruct H as (l & Hl & H). apply bind_ok in H. destruct H as (b & Hb & H).
  apply bind_ok in H. destruct H as (l2 & Hl2 & H).
  destruct (mods_m _ _ _ _ _ (oi_m _ _ _ O) Hl Hb Hl2) as (MM & A1 & A2 & A3 & A4 & A5 & A6 & A7 & A8 & A9 & A10 & A11 & A12).
  rewrite <- A4. refine (refresh_tilt _ _ _ _ _ _ O _ _ _ _ _ H); assumption.
Qed.
Lemma setBaseMass_zinv m z z' gh gs : zinv z gh gs -> z_setBaseMass m z = Ok z' -> zinv z' (bh (zb z)) false.
Proof.
  intros (O & Q) H. unfold z_setBaseMass in H. cbv zeta in H.
  apply bind_ok in H. destruct H as (l & Hl & H). apply bind_ok in H. destruct H as (b & Hb & H).
  apply bind_ok in H. destruct H as (b2 & Hb2 & H).
  destruct (mods_mb _ _ _ _ _ (oi_m _ _ _ O) Hl Hb Hb2) as (MM & A1 & A2 & A3 & A4 & A5 & A6 & A7 & A8 & A9 & A10 & A11 & A12).
  rewrite <- A4. refine (refresh_tilt _ _ _ _ _ _ O _ _ _ _ _ H); assumption.
Qed.

(** The setters of one constraint *)
Ltac kept z MM := first [assumption
  | rewrite (keep_vel (zl z) (zl z) (zb z)) by (assumption || reflexivity); assumption
  | rewrite (keep_pos (zl z) (zl z) (zb z)) by (assumption || reflexivity); assumption
  | rewrite (keep_jerk (zl z) (zl z) (zb z)) by (assumption || reflexivity); assumption
  | rewrite (keep_com (zl z) (zl z) (zb z)) by (assumption || reflexivity); assumption
  | rewrite (keep_comC (zl z) (zl z) (zb z)) by (assumption || reflexivity); assumption
  | rewrite (keep_mot (zl z) (zl z) (zb z)) by (assumption || reflexivity); assumption
  | rewrite (keep_tm (zl z) (zl z) (zb z)) by (assumption || reflexivity); assumption
  | rewrite (keep_cop (zl z) (zl z) (zb z)) by (assumption || reflexivity); assumption
  | rewrite (keep_copC (zl z) (zl z) (zb z)) by (assumption || reflexivity); assumption].
Lemma refresh_one_pre z b gh gs z1 : oinv z gh gs -> models_ok (zl z) b -> same_par (zl z) (zl z) (zb z) b ->
  btcx b = btcx (zb z) -> btcy b = btcy (zb z) ->
  (bsyaw b = bsyaw (zb z) /\ bcomPoly b = bcomPoly (zb z) /\ z_copC (z_setModels z (zl z) b) = Ok z1
   \/ bsyaw b = bsyaw (zb z) /\ bcopPoly b = bcopPoly (zb z) /\ z_comC (z_setModels z (zl z) b) = Ok z1
   \/ bcomPoly b = bcomPoly (zb z) /\ bcopPoly b = bcopPoly (zb z) /\ z_tmotion (z_setModels z (zl z) b) = Ok z1) ->
  oinv z1 gh gs /\ zw z1 = zw z /\ zl z1 = zl z /\ zb z1 = b.
Proof.
  intros [O1 O2 O3 O4 O5] MM (EN & ET & F1 & F2 & F5 & F3 & F4) Cx Cy A.
  destruct (keep_tilts (zl z) (zl z) (zb z) b O1 MM EN ET gh F1 F2 F3 Cx Cy) as (K1 & K2).
  set (z0 := z_setModels _ _ _) in A.
  assert (D1 : zl z0 = zl z) by reflexivity. assert (D2 : zb z0 = b) by reflexivity.
  assert (D3 : zX z0 = zX z) by reflexivity. assert (D4 : zdX z0 = zdX z) by reflexivity.
  assert (D5 : zr z0 = zr z) by reflexivity. assert (D6 : zo z0 = zo z) by reflexivity. assert (D7 : zw z0 = zw z) by reflexivity.
  clearbody z0.
  assert (RR : refs_ok (zl z) b gs (zr z)).
  { destruct O3 as (R1 & R2 & R3 & R4 & R5). unfold refs_ok. repeat split; try assumption. destruct gs; [assumption|].
    rewrite (keep_grav (zl z) (zl z) (zb z) b) by assumption. assumption. }
  destruct A as [(Y & P & E)|[(Y & P & E)|(Y & P & E)]];
    [apply z_copC_inv in E|apply z_comC_inv in E|apply z_tmotion_inv in E];
    destruct E as (c & E & ((? & ? & ? & ? & ?) & ?) & Eo); rewrite D1, D2 in E;
    (split; [|back; repeat split]; constructor; back; try assumption; destruct O2 as [P1 P2 P3 P4 P5 P6 P7 P8 P9 P10 P11]; constructor; back; rewrite ?K1, ?K2; kept z MM).
Qed.
Lemma refresh_one z b gh gs z1 z' : oinv z gh gs -> models_ok (zl z) b -> same_par (zl z) (zl z) (zb z) b ->
  btcx b = btcx (zb z) -> btcy b = btcy (zb z) ->
  z_compute z1 = Ok z' ->
  (bsyaw b = bsyaw (zb z) /\ bcomPoly b = bcomPoly (zb z) /\ z_copC (z_setModels z (zl z) b) = Ok z1
   \/ bsyaw b = bsyaw (zb z) /\ bcopPoly b = bcopPoly (zb z) /\ z_comC (z_setModels z (zl z) b) = Ok z1
   \/ bcomPoly b = bcomPoly (zb z) /\ bcopPoly b = bcopPoly (zb z) /\ z_tmotion (z_setModels z (zl z) b) = Ok z1) ->
  zinv z' gh gs.
Proof. intros O MM S Cx Cy H A. exact (compute_zinv _ _ _ _ (proj1 (refresh_one_pre _ _ _ _ _ O MM S Cx Cy A)) H). Qed.
Lemma setCopPolygon_zinv p z z' gh gs : zinv z gh gs -> z_setBaseCopConvexPolygon p z = Ok z' -> zinv z' gh gs.
Proof.
  intros (O & _) H. unfold z_setBaseCopConvexPolygon in H. apply guard_ok in H. destruct H as (_ & H).
  apply bind_ok in H. destruct H as (b & Hb & H). apply bind_ok in H. destruct H as (z1 & H1 & H).
  destruct (models_onBase _ _ _ (BSetCopPolygon p) b O Hb I) as (M & S).
  unfold b_setCopSupportConvexPolygon in Hb. apply guard_ok in Hb. destruct Hb as (_ & Hb). injection Hb as <-.
  refine (refresh_one _ _ _ _ _ _ O M S _ _ H (or_introl (conj _ (conj _ H1)))); reflexivity.
Qed.
Lemma setComPolygon_zinv p z z' gh gs : zinv z gh gs -> z_setBaseComConvexPolygon p z = Ok z' -> zinv z' gh gs.
Proof.
  intros (O & _) H. unfold z_setBaseComConvexPolygon in H. apply guard_ok in H. destruct H as (_ & H).
  apply bind_ok in H. destruct H as (b & Hb & H). apply bind_ok in H. destruct H as (z1 & H1 & H).
  destruct (models_onBase _ _ _ (BSetComPolygon p) b O Hb I) as (M & S).
  unfold b_setComSupportConvexPolygon in Hb. apply guard_ok in Hb. destruct Hb as (_ & Hb). injection Hb as <-.
  refine (refresh_one _ _ _ _ _ _ O M S _ _ H (or_intror (or_introl (conj _ (conj _ H1))))); reflexivity.
Qed.
Lemma setYaw_zinv v z z' gh gs : zinv z gh gs -> z_setBaseStateYaw v z = Ok z' -> zinv z' gh gs.
Proof.
  intros (O & _) H. unfold z_setBaseStateYaw in H.
  apply bind_ok in H. destruct H as (b & Hb & H). apply bind_ok in H. destruct H as (z1 & H1 & H).
  destruct (models_onBase _ _ _ (BSetStateYaw v) b O Hb I) as (M & S).
  unfold b_setStateYaw in Hb. apply bind_ok in Hb. destruct Hb as (s & _ & Hb). injection Hb as <-.
  refine (refresh_one _ _ _ _ _ _ O M S _ _ H (or_intror (or_intror (conj _ (conj _ H1))))); reflexivity.
Qed.

(** The references *)
Lemma zinv_refs z gh gs r : zinv z gh gs -> vlen (rcom r) = (2 * lN (zl z))%nat -> rgrav r = rgrav (zr z) ->
  vlen (rshift r) = (2 * lN (zl z))%nat -> (forall i, vget (rshift r) i = vget (rcom r) i + vget (rgrav r) i) -> zinv (z_setRefs z r) gh gs.
Proof.
  intros ([O1 O2 (R1 & R2 & R3 & R4 & R5) O4 O5] & Q) L1 EG L2 S. split.
  - constructor; try assumption. unfold refs_ok. cbn [z_setRefs zl zb zr]. rewrite EG in *. repeat split; assumption.
  - destruct Q. constructor; assumption.
Qed.
Lemma setComRef_zinv v z z' gh gs : zinv z gh gs -> z_setComRef v z = Ok z' -> zinv z' gh gs.
Proof.
  intros Z H. unfold z_setComRef in H. apply guard_ok in H. destruct H as (L & H). apply Nat.eqb_eq in L.
  apply bind_ok in H. destruct H as (_ & _ & H). apply bind_ok in H. destruct H as (s & E & H).
  unfold vaddE in E. apply guard_ok in E. destruct E as (_ & E). injection E as <-. injection H as <-.
  apply zinv_refs; try assumption; try reflexivity; cbn [rcom rshift vadd vlen]; lia.
Qed.

(** The contact point of the tilt *)
Lemma contact_const l b b' gh t t' : (bN b' = bN b /\ bT b' = bT b /\ bm b' = bm b /\ bposD b' = bposD b /\ baccD b' = baccD b /\ btaD b' = btaD b /\ btvD b' = btvD b) ->
  (tilt_constant (K:=R) l (withH b gh) = Ok t -> tilt_contact l b' t = Ok t' -> tilt_constant l (withH b' gh) = Ok t')
  /\ (tiltvel_constant (K:=R) l (withH b gh) = Ok t -> tilt_contact l b' t = Ok t' -> tiltvel_constant l (withH b' gh) = Ok t').
Proof.
  intros (E1 & E2 & E3 & E4 & E5 & E6 & E7).
  unfold tilt_constant, tiltvel_constant, tilt_contact, b_getTiltContactPointX, b_getTiltContactPointY, withH, b_setPar, agree, tilt_A1, tilt_A6.
  cbn [bN bT bm bh btcx btcy bposD baccD btaD btvD]. rewrite E1, E2, E3, E6, E7.
  split; intros H H'.
  - apply bind_ok in H. destruct H as ([] & Ha & H). rewrite Ha in H' |- *. cbn [bind] in *.
    destruct (btcx b) as [dx|]; [|discriminate]. destruct (btcy b) as [dy|]; [|discriminate]. cbn [bind] in *.
    destruct (btcx b') as [dx'|]; [|discriminate]. destruct (btcy b') as [dy'|]; [|discriminate]. cbn [bind] in *.
    destruct (l_last l (lposD l)) as [cp| | | |]; try discriminate. cbn [bind] in *.
    destruct (l_last l (laccD l)) as [ca| | | |]; try discriminate. cbn [bind] in *.
    destruct (dUinv (btaD b)) as [Pinv|]; [|injection H as <-; exact H'].
    destruct (inverseLU _ _) as [U|]; injection H as <-; [|exact H'].
    injection H' as <-. unfold tilt_build, tilt_K. cbn [option_map tuInv tCU tCS tBU tBS tPsiS tH bN bh bm bposD baccD].
    rewrite E1, E3, E4, E5. reflexivity.
  - apply bind_ok in H. destruct H as ([] & Ha & H). rewrite Ha in H' |- *. cbn [bind] in *.
    destruct (btcx b) as [dx|]; [|discriminate]. destruct (btcy b) as [dy|]; [|discriminate]. cbn [bind] in *.
    destruct (btcx b') as [dx'|]; [|discriminate]. destruct (btcy b') as [dy'|]; [|discriminate]. cbn [bind] in *.
    destruct (l_last l (lposD l)) as [cp| | | |]; try discriminate. cbn [bind] in *.
    destruct (l_last l (laccD l)) as [ca| | | |]; try discriminate. cbn [bind] in *.
    destruct (dUinv (btaD b)) as [Pinv|]; [|injection H as <-; exact H'].
    destruct (dUinv (btvD b)) as [Vinv|]; [|injection H as <-; exact H'].
    destruct (inverseLU _ _) as [U|]; injection H as <-; [|exact H'].
    injection H' as <-. unfold tilt_build, tilt_K. cbn [option_map tuInv tCU tCS tBU tBS tPsiS tH bN bh bm bposD baccD].
    rewrite E1, E3, E4, E5. reflexivity.
Qed.
Lemma contact_Q l b w t t' (Q : mat R) : tilt_contact l b t = Ok t' -> addWo w t' Q = addWo w t Q.
Proof.
  intros H. unfold tilt_contact in H. apply bind_ok in H. destruct H as (_ & _ & H). apply bind_ok in H. destruct H as (? & _ & H).
  apply bind_ok in H. destruct H as (? & _ & H). injection H as <-. unfold addWo. destruct (sltb s0 w), t; reflexivity.
Qed.
Lemma setContact_zinv c b z z' gh gs : zinv z gh gs -> bstep c (zb z) = Ok b ->
  (match c with BSetTiltContactPointX _ | BSetTiltContactPointY _ => True | _ => False end) ->
  z_contact (z_setModels z (zl z) b) = Ok z' -> zinv z' gh gs.
Proof.
  intros (O & Q) Hb Hc H. unfold z_contact in H. cbn [zo zl zb z_setModels] in H.
  apply bind_ok in H. destruct H as (t & Ht & H). apply bind_ok in H. destruct H as (tv & Htv & H). injection H as <-.
  destruct (models_onBase _ _ _ c b O Hb) as (M & S); [destruct c; auto; contradiction|].
  assert (B : exists x y, b = b_setMisc (zb z) (bvelLim (zb z)) (baccLim (zb z)) (bjerkLim (zb z)) x y (bcopPoly (zb z)) (bcomPoly (zb z))).
  { destruct c; try contradiction; injection Hb as <-; eauto. }
  destruct B as (x & y & EB).
  assert (QB : forall l, qinv z -> qinv (z_setModels z (zl z) l) -> True) by auto. clear QB.
  pose proof (qinv_models z (zl z) b eq_refl ltac:(rewrite EB; reflexivity) ltac:(rewrite EB; reflexivity) ltac:(rewrite EB; reflexivity) Q) as Q'.
  destruct O as [O1 O2 O3 O4 O5]. split.
  - constructor; cbn [z_setObjs z_setModels zl zb zo zr zX zdX]; try assumption.
    + destruct S as (EN & ET & F1 & F2 & F5 & F3 & F4). destruct O2 as [P1 P2 P3 P4 P5 P6 P7 P8 P9 P10 P11].
      destruct (contact_const (zl z) (zb z) b gh (otilt (zo z)) t) as (C1 & _); [rewrite EB; repeat split|].
      destruct (contact_const (zl z) (zb z) b gh (otiltV (zo z)) tv) as (_ & C2); [rewrite EB; repeat split|].
      constructor; cbn [ovelH oposH ojerkH otilt otiltV ocopH ocomH ocopC ocomC omotG otmG]; auto; rewrite EB; assumption.
    + destruct O3 as (R1 & R2 & R3 & R4 & R5). unfold refs_ok. repeat split; try assumption. destruct gs; [assumption|]. rewrite EB. exact R5.
  - destruct Q' as [(Q0 & A1 & A2 & A3) Q2 Q3 Q4 Q5 Q6 Q7 Q8 Q9 Q10 Q11]. constructor; try assumption.
    exists Q0. split; [|split; assumption].
    cbn [z_setObjs z_setModels zl zo zw] in A1 |- *. unfold zQ in A1 |- *. cbn [ovelH oposH ojerkH otilt otiltV ocopH ocomH].
    rewrite (contact_Q _ _ _ _ _ _ Ht). apply bind_ok in A1. destruct A1 as (Q1 & -> & A1). cbn [bind]. rewrite (contact_Q _ _ _ _ _ _ Htv). exact A1.
Qed.

Lemma onBase_zinv c z z' gh gs : zinv z gh gs -> z_onBase c z = Ok z' ->
  (match c with BSetStateX _ | BSetStateY _ | BSetStateRoll _ | BSetStatePitch _
   | BSetVelocityLimit _ | BSetAccelerationLimit _ | BSetJerkLimit _ => True | _ => False end) -> zinv z' gh gs.
Proof.
  intros Z H Hc. unfold z_onBase in H. apply bind_ok in H. destruct H as (b & Hb & H). injection H as <-.
  destruct (models_onBase _ _ _ c b (proj1 Z) Hb) as (M & S); [destruct c; auto; contradiction|].
  destruct (bstep_fresh c _ _ (mo_b _ _ (oi_m _ _ _ (proj1 Z))) (mo_ba _ _ (oi_m _ _ _ (proj1 Z))) Hb) as (_ & Ob & _).
  apply zinv_models; try assumption; destruct c; try contradiction; bobs_inj Ob; assumption.
Qed.
Lemma onLip_zinv c z z' gh gs : zinv z gh gs -> z_onLip c z = Ok z' ->
  (match c with LSetStateX _ | LSetStateY _ => True | _ => False end) -> zinv z' gh gs.
Proof.
  intros Z H Hc. unfold z_onLip in H. apply bind_ok in H. destruct H as (l & Hl & H). injection H as <-.
  destruct (models_onLip _ _ _ c l (proj1 Z) Hl) as (M & S); [destruct c; auto; contradiction|].
  apply zinv_models; try assumption; reflexivity.
Qed.

Lemma step_zinv c z z' gh gs : zinv z gh gs -> zstep c z = Ok z' ->
  zinv z' (if tilt_refreshed c then bh (zb z) else gh) (match shift_effect c with Some x => x | None => gs end).
Proof.
  intros Z H. destruct c; cbn [zstep tilt_refreshed shift_effect] in *.
  - eapply setNb_zinv; eassumption.
  - eapply setT_zinv; eassumption.
  - eapply setG_zinv; eassumption.
  - eapply setCopPolygon_zinv; eassumption.
  - eapply setComPolygon_zinv; eassumption.
  - unfold z_setBaseCopHull in H. apply bind_ok in H. destruct H as (q & _ & H). eapply setCopPolygon_zinv; eassumption.
  - unfold z_setBaseComHull in H. apply bind_ok in H. destruct H as (q & _ & H). eapply setComPolygon_zinv; eassumption.
  - eapply setBodyHeight_zinv; eassumption.
  - eapply setBaseHeight_zinv; eassumption.
  - eapply setBodyMass_zinv; eassumption.
  - eapply setBaseMass_zinv; eassumption.
  - unfold z_setVelRef in H. apply guard_ok in H. destruct H as (_ & H). injection H as <-.
    destruct (oi_r _ _ _ (proj1 Z)) as (R1 & R2 & R3 & R4 & R5). apply zinv_refs; assumption || reflexivity.
  - unfold z_setPosRef in H. apply guard_ok in H. destruct H as (_ & H). injection H as <-.
    destruct (oi_r _ _ _ (proj1 Z)) as (R1 & R2 & R3 & R4 & R5). apply zinv_refs; assumption || reflexivity.
  - unfold z_setCopRef in H. apply guard_ok in H. destruct H as (_ & H). apply bind_ok in H. destruct H as (_ & _ & H). injection H as <-.
    destruct (oi_r _ _ _ (proj1 Z)) as (R1 & R2 & R3 & R4 & R5). apply zinv_refs; assumption || reflexivity.
  - eapply setComRef_zinv; eassumption.
  - unfold z_setComAndCopRef in H. cbv zeta in H. do 4 (apply guard_ok in H; destruct H as (_ & H)).
    apply bind_ok in H. destruct H as (z1 & H1 & H). apply bind_ok in H. destruct H as (c & _ & H). injection H as <-.
    apply (setComRef_zinv _ _ _ _ _ Z) in H1.
    destruct (oi_r _ _ _ (proj1 H1)) as (R1 & R2 & R3 & R4 & R5). apply zinv_refs; assumption || reflexivity.
  - eapply onBase_zinv; [eassumption..|exact I].
  - eapply onBase_zinv; [eassumption..|exact I].
  - eapply onBase_zinv; [eassumption..|exact I].
  - eapply onBase_zinv; [eassumption..|exact I].
  - eapply onBase_zinv; [eassumption..|exact I].
  - eapply onBase_zinv; [eassumption..|exact I].
  - eapply onBase_zinv; [eassumption..|exact I].
  - eapply setYaw_zinv; eassumption.
  - eapply onLip_zinv; [eassumption..|exact I].
  - eapply onLip_zinv; [eassumption..|exact I].
  - unfold z_setTiltContactPointX in H. apply bind_ok in H. destruct H as (b & Hb & H).
    exact (setContact_zinv (BSetTiltContactPointX x) b _ _ _ _ Z Hb I H).
  - unfold z_setTiltContactPointY in H. apply bind_ok in H. destruct H as (b & Hb & H).
    exact (setContact_zinv (BSetTiltContactPointY y) b _ _ _ _ Z Hb I H).
  - unfold z_setWeightings in H. do 6 (apply guard_ok in H; destruct H as (_ & H)). refine (compute_zinv _ _ _ _ _ H).
    destruct (proj1 Z). constructor; assumption.
  - unfold z_setConfig in H. refine (compute_zinv _ _ _ _ _ H). destruct (proj1 Z). constructor; assumption.
  - apply bind_ok in H. destruct H as ((f & z1) & H & E). injection E as <-. eapply solve_zinv; eassumption.
Qed.
Definition z_start (ux uy : R) (l : lip R) (b : base R) : zeb R :=
  let b := b_setMisc b (bvelLim b) (baccLim b) (bjerkLim b) (Some ux) (Some uy) (bcopPoly b) (bcomPoly b) in
  let N := lN l in
  let n2 := vzero (2 * N) in
  MkZeb l b z_blank (MkZR n2 n2 n2 n2 n2 n2) (MkZW s0 s0 s0 s0 s0 s0 s0) (MkZC false false false false)
    (vzero (4 * N)) (vzero (4 * N))
    (MkQP (mzero 0 0) (vzero 0) (vzero 0) (vzero 0) (mzero 0 0) (vzero 0) (vzero 0)) (newSolver 1 1) s1 s1.
Lemma start_models ux uy l b : newLipDefault = Ok l -> newBaseDefault = Ok b ->
  models_ok l (zb (z_start ux uy l b)) /\ bh (zb (z_start ux uy l b)) = 0 /\ lN l = 1%nat.
Proof.
  intros Hl Hb. unfold z_start. cbv zeta. cbn [zb].
  destruct (newLip_fresh _ _ _ Hl) as (F & Ol & A). destruct (newBaseDefault_fresh _ Hb) as (F' & Ob & A').
  unfold lobs_of, lobs0 in Ol. injection Ol as E1 E2 E3 E4 E5 E6 E7 E8 E9 E10 E11.
  unfold bobs_of, bobs0 in Ob. injection Ob as G1 G2 G3 G4 G5 G6 G7 G8 G9 G10 G11 G12 G13 G14 G15 G16 G17 G18.
  split; [|split; [exact G3|assumption]].
  constructor; unfold b_setMisc; cbn [bauto bN bT bg bM bm btcx btcy]; try assumption; try congruence.
  - destruct F'. constructor; assumption.
  - rewrite E7, E6, G5. ring.
Qed.
Lemma new_pre z0 b z1 : models_ok (zl z0) b -> zb z0 = b -> zX z0 = vzero (4 * lN (zl z0)) -> zdX z0 = vzero (4 * lN (zl z0)) ->
  (zr z0 = let n2 := vzero (2 * lN (zl z0)) in MkZR n2 n2 n2 n2 n2 n2) -> z_objectives z0 = Ok z1 ->
  oinv z1 (bh b) true /\ zw z1 = zw z0.
Proof.
  intros MM D2 D3 D4 D5 H1. unfold z_objectives in H1.
  remember (zl z0) as l eqn:D1. symmetry in D1.
  remember (zw z0) as w eqn:D6. symmetry in D6.
  do 10 refresh H1.
  apply z_tmotion_inv in H1. destruct H1 as (ctm & Etm & ((? & ? & ? & ? & ?) & ?) & Eotm).
  backs. split; [|back; reflexivity]. subst. constructor; back.
  - assumption.
  - constructor; rewrite ?withH_self; back; try assumption; reflexivity.
  - unfold refs_ok. cbn [rcom rshift rgrav vlen vget vzero]. repeat split; try reflexivity. intros. rsimpl. ring.
  - reflexivity.
  - reflexivity.
Qed.
Lemma new_start ux uy : newZeb ux uy = (do l <- newLipDefault; do b <- newBaseDefault; do z <- z_objectives (z_start ux uy l b); z_compute z).
Proof. reflexivity. Qed.
Lemma new_zinv ux uy z : newZeb ux uy = Ok z -> zinv z 0 true.
Proof.
  intros H. rewrite new_start in H. apply bind_ok in H. destruct H as (l & Hl & H). apply bind_ok in H. destruct H as (b & Hb & H).
  apply bind_ok in H. destruct H as (z1 & H1 & H). refine (compute_zinv _ _ _ _ _ H). clear H.
  destruct (start_models ux uy l b Hl Hb) as (MM & Eh & _). rewrite <- Eh. exact (proj1 (new_pre (z_start ux uy l b) _ _ MM eq_refl eq_refl eq_refl eq_refl H1)).
Qed.
Lemma reach_zinv z gh gs : zreach z gh gs -> zinv z gh gs.
Proof.
  intros H. induction H.
  - eapply new_zinv; eassumption.
  - eapply step_zinv; eassumption.
Qed.
