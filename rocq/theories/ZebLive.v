(** When the calls of the Zebulon walk generator return. *)

From Coq Require Import Reals List ZArith Lra Lia Arith Bool.
From Verif Require Import Scalar LinAlg LinAlgFacts ToolsModel ToolsSpec ToolsFacts TriFacts NoDynModel PolygonModel
  QPModel QPFacts TrajModel TrajFacts LipModel BaseModel ModelsSpec ModelsFacts ZebModel HumAlg ZebAlg ZebSpec ZebFacts ZebObj ZebTilt ZebProb.
Import ListNotations.
Local Open Scope R_scope.

Lemma models_valid l b : models_ok l b ->
  valid_params (lT l) (lN l) (lg l) (bm b) (lm l + bm b) /\ valid_params (lT l) (lN l) (lg l) (lm l) (lm l + bm b) /\ 0 < lfb l
  /\ exists n, (0 < n)%nat /\ lip_fresh l n.
Proof.
  intros M. pose proof (models_dyns _ _ M) as D. destruct (mo_l _ _ M) as (n & F). pose proof (bfresh_valid _ (mo_b _ _ M)) as V.
  rewrite (mo_N _ _ M), (mo_T _ _ M), (mo_g _ _ M), (mo_M _ _ M), (mo_m _ _ M) in V. split; [exact V|].
  assert (Hn : (0 < n)%nat).
  { destruct F as [F1 F2 F3 F4 F5 F6 F7 F8 F9 F10]. rewrite (mo_fb _ _ M) in F3. pose proof (first_count _ (dy_T _ _ D)).
    rewrite strunc_pos in F3 by (pose proof (first_ratio _ (dy_T _ _ D)); lra). lia. }
  destruct (lfresh_valid _ _ F Hn) as (A & B). rewrite (mo_m _ _ M) in B. split; [exact B|]. split; [exact A|]. exists n. split; assumption.
Qed.
Lemma consts_ok l b : models_ok l b ->
  is_ok (cop_hessian l b) /\ is_ok (com_hessian l b) /\ is_ok (copc_constant l b) /\ is_ok (comc_constant l b)
  /\ is_ok (tmotion_gradient l b) /\ is_ok (tilt_constant l b) /\ is_ok (tiltvel_constant l b)
  /\ exists s, gravity_shift l b = Ok s /\ vlen s = (2 * lN l)%nat.
Proof.
  intros M. pose proof (models_dyns _ _ M) as D. pose proof (agree_ok _ _ M) as A.
  destruct (dy_p _ _ D) as (p & Ep & _), (dy_v _ _ D) as (v & Ev & _), (dy_a _ _ D) as (a & Ea & _), (dy_cx _ _ D) as (cx & Ecx & _), (dy_cy _ _ D) as (cy & Ecy & _).
  unfold is_ok, cop_hessian, com_hessian, copc_constant, comc_constant, tmotion_gradient, tilt_constant, tiltvel_constant, gravity_shift, b_getTiltContactPointX, b_getTiltContactPointY.
  rewrite A, Ep, Ev, Ea, Ecx, Ecy. cbn [bind].
  pose proof (mo_cx _ _ M) as C1. pose proof (mo_cy _ _ M) as C2.
  destruct (btcx b) as [x|]; [|contradiction]. destruct (btcy b) as [y|]; [|contradiction]. cbn [bind].
  destruct (models_valid _ _ M) as (_ & (_ & _ & V3 & _ & V5) & _).
  repeat split; try (eexists; reflexivity).
  - destruct (EPS <? bm b)%sc; eexists; reflexivity.
  - destruct (dUinv (btaD b)); [|eexists; reflexivity]. destruct (inverseLU _ _); eexists; reflexivity.
  - destruct (dUinv (btaD b)); [|eexists; reflexivity]. destruct (dUinv (btvD b)); [|eexists; reflexivity]. destruct (inverseLU _ _); eexists; reflexivity.
  - rsimpl. destruct (Reqb_spec (bm b + lm l) 0); [lra|]. destruct (Reqb_spec (gz (lg l)) 0) as [E|]; [rewrite E, Rabs_R0 in V3; lra|].
    cbn [negb nanguard bind]. eexists. split; [reflexivity|]. cbn [vlen]. rewrite (mo_N _ _ M). reflexivity.
Qed.

(** The tilt objectives can be used when their weights are positive *)
Definition tilt_usable (w : zweights R) (o : zobjs R) : Prop :=
  (0 < zwTilt w -> otilt o <> None) /\ (0 < zwTiltVel w -> otiltV o <> None).
Lemma hasSize_intro (m : mat R) r c : mrows m = r -> mcols m = c -> hasSize m r c = true.
Proof. intros <- <-. unfold hasSize. rewrite !Nat.eqb_refl. reflexivity. Qed.
Lemma addWo_is_ok w (t : option (tilt R)) Q : is_ok (addWo w t Q) <-> (0 < w -> t <> None).
Proof.
  unfold addWo, is_ok. rsimpl. destruct (Rltb_spec 0 w) as [H|H].
  - destruct t; split; intros X; [discriminate|eexists; reflexivity|destruct X as (q & X); discriminate|exfalso; exact (X H eq_refl)].
  - split; [intros; lra|intros; eexists; reflexivity].
Qed.
Section Dims.
  Variables (l : lip R) (b : base R) (gh : R) (o : zobjs R).
  Hypothesis M : models_ok l b.
  Hypothesis O : objs_ok l b gh o.
  Let N := lN l.
  Lemma cop_dims : hasSize (ocopH o) (4 * N) (4 * N) = true.
  Proof.
    pose proof (oo_cop _ _ _ _ O) as E. unfold cop_hessian in E. do 3 (apply bind_ok in E; destruct E as (? & _ & E)).
    destruct (EPS <? bm b)%sc; apply (f_equal (fun r => match r with Ok m => m | _ => mzero 0 0 end)) in E; cbn beta iota in E; rewrite <- E; apply hasSize_intro; reflexivity.
  Qed.
  Lemma com_dims : hasSize (ocomH o) (4 * N) (4 * N) = true.
  Proof.
    pose proof (oo_com _ _ _ _ O) as E. unfold com_hessian in E. do 2 (apply bind_ok in E; destruct E as (? & _ & E)).
    apply (f_equal (fun r => match r with Ok m => m | _ => mzero 0 0 end)) in E; cbn beta iota in E; rewrite <- E; apply hasSize_intro; reflexivity.
  Qed.
  Lemma copC_dims : mrows (pcG (ocopC o)) = (N * length (pverts (bcopPoly b)))%nat /\ mcols (pcG (ocopC o)) = (4 * N)%nat
    /\ vlen (pcb (ocopC o)) = (N * length (pverts (bcopPoly b)))%nat.
  Proof.
    pose proof (oo_copC _ _ _ _ O) as E. unfold copc_constant in E. do 3 (apply bind_ok in E; destruct E as (? & _ & E)).
    apply (f_equal (fun r => match r with Ok m => m | _ => ocopC o end)) in E; cbn beta iota in E; rewrite <- E. cbn [pcG pcb mmul mrows mcols poly_A poly_b vlen].
    split; [apply Nat.mul_comm|]. split; [|apply Nat.mul_comm]. destruct (EPS <? bm b)%sc; reflexivity.
  Qed.
  Lemma comC_dims : mrows (pcG (ocomC o)) = (N * length (pverts (bcomPoly b)))%nat /\ mcols (pcG (ocomC o)) = (4 * N)%nat
    /\ vlen (pcb (ocomC o)) = (N * length (pverts (bcomPoly b)))%nat.
  Proof.
    pose proof (oo_comC _ _ _ _ O) as E. unfold comc_constant in E. do 2 (apply bind_ok in E; destruct E as (? & _ & E)).
    apply (f_equal (fun r => match r with Ok m => m | _ => ocomC o end)) in E; cbn beta iota in E; rewrite <- E. cbn [pcG pcb mmul mrows mcols poly_A poly_b vlen].
    split; [apply Nat.mul_comm|]. split; [reflexivity|apply Nat.mul_comm].
  Qed.
  Lemma tm_dims : mrows (otmG o) = (N * 2)%nat /\ mcols (otmG o) = (4 * N)%nat.
  Proof.
    pose proof (oo_tm _ _ _ _ O) as E. unfold tmotion_gradient in E. do 2 (apply bind_ok in E; destruct E as (? & _ & E)).
    apply (f_equal (fun r => match r with Ok m => m | _ => mzero 0 0 end)) in E; cbn beta iota in E; rewrite <- E.
    cbn [mrows mcols msetblock mzero]. rewrite (mo_N _ _ M). split; reflexivity.
  Qed.
  Lemma tilt_dims : tiltSize (otilt o) (4 * N) = true /\ tiltSize (otiltV o) (4 * N) = true
    /\ (forall t, otilt o = Some t -> mrows (tH t) = (4 * N)%nat) /\ (forall t, otiltV o = Some t -> mrows (tH t) = (4 * N)%nat).
  Proof.
    pose proof (oo_tilt _ _ _ _ O) as E. pose proof (oo_tiltV _ _ _ _ O) as E'. unfold tilt_constant in E. unfold tiltvel_constant in E'.
    do 5 (apply bind_ok in E; destruct E as (? & _ & E)). do 5 (apply bind_ok in E'; destruct E' as (? & _ & E')).
    assert (HN : bN b = N) by exact (mo_N _ _ M).
    assert (T1 : forall u s p a dx dy, mrows (tH (tilt_build l (withH b gh) u s p a dx dy)) = (4 * N)%nat /\ mcols (tH (tilt_build l (withH b gh) u s p a dx dy)) = (4 * N)%nat).
    { intros. unfold tilt_build. cbn [tH]. rewrite <- HN. split; reflexivity. }
    split; [|split; [|split]].
    - destruct (dUinv _) in E; [|injection E as <-; reflexivity]. destruct (inverseLU _ _) in E; [|injection E as <-; reflexivity].
      apply (f_equal (fun r => match r with Ok m => m | _ => None end)) in E; cbn beta iota in E; rewrite <- E. cbn [tiltSize]. apply hasSize_intro; apply T1.
    - destruct (dUinv (btaD _)) in E'; [|injection E' as <-; reflexivity]. destruct (dUinv _) in E'; [|injection E' as <-; reflexivity]. destruct (inverseLU _ _) in E'; [|injection E' as <-; reflexivity].
      apply (f_equal (fun r => match r with Ok m => m | _ => None end)) in E'; cbn beta iota in E'; rewrite <- E'. cbn [tiltSize]. apply hasSize_intro; apply T1.
    - intros t Ht. rewrite Ht in E. destruct (dUinv _) in E; [|discriminate]. destruct (inverseLU _ _) in E; [|discriminate].
      apply (f_equal (fun r => match r with Ok (Some m) => m | _ => t end)) in E; cbn beta iota in E; rewrite <- E. apply T1.
    - intros t Ht. rewrite Ht in E'. destruct (dUinv (btaD _)) in E'; [|discriminate]. destruct (dUinv _) in E'; [|discriminate]. destruct (inverseLU _ _) in E'; [|discriminate].
      apply (f_equal (fun r => match r with Ok (Some m) => m | _ => t end)) in E'; cbn beta iota in E'; rewrite <- E'. apply T1.
  Qed.
End Dims.
Lemma compute_is_ok z gh gs : oinv z gh gs -> (is_ok (z_compute z) <-> tilt_usable (zw z) (zo z)).
Proof.
  intros [OM OO OR OX OD].
  assert (HN : bN (zb z) = lN (zl z)) by exact (mo_N _ _ OM).
  unfold z_compute. cbv zeta. rewrite HN, Nat.eqb_refl. cbn [guard bind].
  rewrite (oo_vel _ _ _ _ OO), (oo_pos _ _ _ _ OO), (oo_jerk _ _ _ _ OO), HN.
  rewrite !hasSize_intro with (m := btrack_hessian _ _) by reflexivity.
  rewrite (cop_dims _ _ _ _ OO), (com_dims _ _ _ _ OO). rewrite hasSize_intro with (m := zjerk_hessian _) by reflexivity.
  destruct (tilt_dims _ _ _ _ OM OO) as (T1 & T2 & _). rewrite T1, T2. cbn [guard bind].
  destruct (copC_dims _ _ _ _ OO) as (C1 & C2 & _). destruct (comC_dims _ _ _ _ OO) as (C3 & C4 & _). destruct (tm_dims _ _ _ _ OM OO) as (C5 & C6).
  assert (G1 : (negb (zcCop (zc z)) || hasSize (pcG (ocopC (zo z))) (z_M1 z) (4 * lN (zl z)))%bool = true).
  { unfold z_M1. destruct (zcCop (zc z)); [|reflexivity]. cbn [negb orb]. apply hasSize_intro; congruence. }
  assert (G2 : (negb (zcCom (zc z)) || hasSize (pcG (ocomC (zo z))) (z_M3 z) (4 * lN (zl z)))%bool = true).
  { unfold z_M3. destruct (zcCom (zc z)); [|reflexivity]. cbn [negb orb]. apply hasSize_intro; congruence. }
  assert (G3 : (negb (zcBase (zc z)) || hasSize (omotG (zo z)) (z_M2 z) (2 * lN (zl z)))%bool = true).
  { unfold z_M2. destruct (zcBase (zc z)); [|reflexivity]. cbn [negb orb]. rewrite (oo_mot _ _ _ _ OO). apply hasSize_intro; [reflexivity|]. unfold bmotion_gradient. cbn [mcols msetblock mzero]. rewrite HN. reflexivity. }
  assert (G4 : (negb (zcTilt (zc z)) || hasSize (otmG (zo z)) (z_M4 z) (4 * lN (zl z)))%bool = true).
  { unfold z_M4. destruct (zcTilt (zc z)); [|reflexivity]. cbn [negb orb]. apply hasSize_intro; congruence. }
  rewrite G1, G2, G3, G4. cbn [guard bind]. rewrite bind_is_ok. unfold tilt_usable. split.
  - intros (Q & E & H). apply bind_is_ok in H. destruct H as (Q' & E' & _). split.
    + exact (proj1 (addWo_is_ok _ _ _) (ex_intro _ _ E)).
    + exact (proj1 (addWo_is_ok _ _ _) (ex_intro _ _ E')).
  - intros (H1 & H2). pose proof (fun Q => proj2 (addWo_is_ok _ _ Q) H1) as K1. set (Q0 := addW (zwJerk (zw z)) _ _). destruct (K1 Q0) as (Q & EQ). exists Q. split; [exact EQ|]. apply bind_is_ok.
    destruct (proj2 (addWo_is_ok _ _ Q) H2) as (Q' & EQ'). exists Q'. split; [exact EQ'|]. eexists; reflexivity.
Qed.

(** ** The problem *)
Lemma addGseg_ok N w (g p : vec R) : vlen g = (2 * N)%nat -> vlen p = (4 * N)%nat -> exists p', addGseg N w g p = Ok p' /\ vlen p' = (4 * N)%nat.
Proof.
  intros E1 E2. unfold addGseg. destruct (s0 <? w)%sc; [|eexists; split; [reflexivity|assumption]].
  rewrite E1, Nat.eqb_refl, E2, Nat.leb_refl. cbn [guard bind]. eexists; split; [reflexivity|assumption].
Qed.
Lemma addG_ok N w (g p : vec R) : vlen g = N -> vlen p = N -> exists p', addG w g p = Ok p' /\ vlen p' = N.
Proof.
  intros E1 E2. unfold addG. destruct (s0 <? w)%sc; [|eexists; split; [reflexivity|assumption]].
  unfold vaddE. cbn [vlen vscale]. rewrite E1, E2, Nat.eqb_refl. cbn [guard bind]. eexists; split; [reflexivity|assumption].
Qed.
Lemma addGo_ok N w (g : option (vec R)) p : (forall v, g = Some v -> vlen v = N) -> (0 < w -> g <> None) -> vlen p = N -> exists p', addGo w g p = Ok p' /\ vlen p' = N.
Proof.
  intros E1 E3 E2. unfold addGo. rsimpl. destruct (Rltb_spec 0 w) as [H|H]; [|eexists; split; [reflexivity|assumption]].
  destruct g as [v|]; [|exfalso; exact (E3 H eq_refl)]. specialize (E1 v eq_refl).
  unfold vaddE. cbn [vlen vscale]. rewrite E1, E2, Nat.eqb_refl. cbn [guard bind]. eexists; split; [reflexivity|assumption].
Qed.
Lemma cond_ok (c : bool) (f : res (vec R)) v off n M : (c = true -> exists x, f = Ok x /\ vlen x = n) -> (c = true -> (off + n <= M)%nat) -> vlen v = M ->
  exists v', (if c then do x <- f; vputE v off n x else Ok v) = Ok v' /\ vlen v' = M.
Proof.
  intros H1 H2 H3. destruct c; [|eexists; split; [reflexivity|assumption]]. destruct (H1 eq_refl) as (x & -> & E). cbn [bind]. unfold vputE.
  rewrite H3, (proj2 (Nat.leb_le _ _) (H2 eq_refl)), E, Nat.eqb_refl. cbn [guard bind]. eexists; split; [reflexivity|assumption].
Qed.
Lemma cond_ok' (c : bool) (x v : vec R) off n M : (c = true -> vlen x = n) -> (c = true -> (off + n <= M)%nat) -> vlen v = M ->
  exists v', (if c then vputE v off n x else Ok v) = Ok v' /\ vlen v' = M.
Proof.
  intros H1 H2 H3. apply (cond_ok c (Ok x)); try assumption. intros H. exists x. auto.
Qed.
Lemma problem_ok z gh gs : zinv z gh gs -> refs_sized z -> exists q, z_problem z = Ok q.
Proof.
  intros (O & Q) (R1 & R2 & R3). unfold horizon in *. destruct O as [OM OO OR OX OD]. destruct OR as (S1 & S2 & S3 & _).
  pose proof (models_dyns _ _ OM) as D. pose proof (agree_ok _ _ OM) as A.
  destruct (dy_p _ _ D) as (p & Ep & _), (dy_v _ _ D) as (v & Ev & _), (dy_cx _ _ D) as (cx & Ecx & _), (dy_cy _ _ D) as (cy & Ecy & _).
  assert (HN : bN (zb z) = lN (zl z)) by exact (mo_N _ _ OM).
  assert (U : tilt_usable (zw z) (zo z)).
  { destruct (qi_Q _ Q) as (QQ & EQ & _). unfold zQ in EQ. cbv zeta in EQ. apply bind_ok in EQ. destruct EQ as (Q1 & E1 & E2).
    split; eapply (fun H => proj1 (addWo_is_ok _ _ _) H); eexists; eassumption. }
  unfold z_problem. cbv zeta. rewrite OX. rewrite (proj2 (Nat.leb_le (2 * lN (zl z) + 2 * lN (zl z)) (4 * lN (zl z)))) by lia. cbn [guard bind].
  set (N := lN (zl z)) in *.
  assert (EB : vlen (vseg (zX z) (2 * N) (2 * N)) = (2 * N)%nat) by reflexivity. set (B := vseg (zX z) (2 * N) (2 * N)) in *.
  assert (G1 : forall d H ref, vlen ref = (2 * N)%nat -> mrows H = (2 * N)%nat -> exists g, btrack_gradient (zb z) d H ref B = Ok g /\ vlen g = (2 * N)%nat).
  { intros d H ref E1 E2. unfold btrack_gradient. cbv zeta. rewrite E1, EB, HN, (Nat.mul_comm N 2), !Nat.eqb_refl. cbn [guard bind]. eexists. split; [reflexivity|]. exact E2. }
  destruct (G1 (bvelD (zb z)) (ovelH (zo z)) (rvel (zr z))) as (gv & -> & Lv); [assumption|rewrite (oo_vel _ _ _ _ OO), HN; reflexivity|]. cbn [bind]. rewrite Lv, Nat.eqb_refl. cbn [guard bind].
  destruct (G1 (bposD (zb z)) (oposH (zo z)) (rpos (zr z))) as (gp & -> & Lp); [assumption|rewrite (oo_pos _ _ _ _ OO), HN; reflexivity|]. cbn [bind]. rewrite Lp, Nat.eqb_refl. cbn [guard bind].
  assert (G2 : exists g, cop_gradient (zl z) (zb z) (ocopH (zo z)) (rcop (zr z)) (zX z) = Ok g /\ vlen g = (4 * N)%nat).
  { pose proof (cop_dims _ _ _ _ OO) as Hs. unfold hasSize in Hs. apply andb_prop in Hs. destruct Hs as (Hs & _). apply Nat.eqb_eq in Hs. fold N in Hs.
    unfold cop_gradient. cbv zeta. rewrite R3, OX. replace (2 * N * 2)%nat with (4 * N)%nat by lia. rewrite HN, (Nat.mul_comm N 2), !Nat.eqb_refl, A, Ecx, Ecy. cbn [guard bind].
    destruct (EPS <? bm (zb z))%sc; eexists; (split; [reflexivity|]); exact Hs. }
  destruct G2 as (gc & -> & Lc). cbn [bind]. rewrite Lc, Nat.eqb_refl. cbn [guard bind].
  assert (G3 : exists g, com_gradient (zl z) (zb z) (ocomH (zo z)) (rcom (zr z)) (rshift (zr z)) (rgrav (zr z)) (zX z) = Ok g /\ vlen g = (4 * N)%nat).
  { pose proof (com_dims _ _ _ _ OO) as Hs. unfold hasSize in Hs. apply andb_prop in Hs. destruct Hs as (Hs & _). apply Nat.eqb_eq in Hs. fold N in Hs.
    unfold com_gradient. cbv zeta. rewrite S1, S2, S3, OX. fold N. replace (2 * N * 2)%nat with (4 * N)%nat by lia. rewrite HN, (Nat.mul_comm N 2), !Nat.eqb_refl, A, Ep. cbn [guard bind].
    eexists; (split; [reflexivity|]); exact Hs. }
  destruct G3 as (gm & -> & Lm). cbn [bind]. rewrite Lm, Nat.eqb_refl. cbn [guard bind].
  unfold zjerk_gradient. rewrite HN, OX, (Nat.mul_comm N 4), !Nat.eqb_refl. cbn [guard bind]. rewrite OX, Nat.eqb_refl. cbn [guard bind].
  assert (G4 : forall t, (forall t', t = Some t' -> mrows (tH t') = (4 * N)%nat) -> exists g, tilt_gradient (zl z) (zb z) t (zX z) = Ok g /\ gradSize g (4 * N) = true
      /\ (forall v, g = Some v -> vlen v = (4 * N)%nat) /\ (t <> None -> g <> None)).
  { intros t Ht. unfold tilt_gradient. rewrite HN, OX, (Nat.mul_comm N 4), Nat.eqb_refl, A. cbn [guard bind]. eexists. split; [reflexivity|].
    destruct t as [t|]; cbn [option_map gradSize]; [|split; [reflexivity|split; [discriminate|intros Hf; exfalso; apply Hf; reflexivity]]].
    specialize (Ht t eq_refl). split; [apply Nat.eqb_eq; exact Ht|]. split; [|discriminate]. intros w E. apply (f_equal (fun o => match o with Some x => vlen x | None => 0%nat end)) in E. cbn beta iota in E. rewrite <- E. exact Ht. }
  destruct (tilt_dims _ _ _ _ OM OO) as (_ & _ & T1 & T2).
  destruct (G4 (otilt (zo z)) T1) as (gt & -> & Lt & Lt' & Nt). cbn [bind]. rewrite Lt. cbn [guard bind].
  destruct (G4 (otiltV (zo z)) T2) as (gw & -> & Lw & Lw' & Nw). cbn [bind]. rewrite Lw. cbn [guard bind].
  destruct U as (U1 & U2).
  destruct (addGseg_ok N (zwVel (zw z)) gv (vfill (vlen (qp (zqp z))) s0)) as (p1 & -> & L1); [assumption|cbn [vlen vfill]; exact (qi_p _ Q)|]. cbn [bind].
  destruct (addGseg_ok N (zwPos (zw z)) gp p1) as (p2 & -> & L2); [assumption..|]. cbn [bind].
  destruct (addG_ok (4 * N) (zwCop (zw z)) gc p2) as (p3 & -> & L3); [assumption..|]. cbn [bind].
  destruct (addG_ok (4 * N) (zwCom (zw z)) gm p3) as (p4 & -> & L4); [assumption..|]. cbn [bind].
  destruct (addG_ok (4 * N) (zwJerk (zw z)) (zX z) p4) as (p5 & -> & L5); [assumption..|]. cbn [bind].
  destruct (addGo_ok (4 * N) (zwTilt (zw z)) gt p5) as (p6 & -> & L6); [assumption|auto|assumption|]. cbn [bind].
  destruct (addGo_ok (4 * N) (zwTiltVel (zw z)) gw p6) as (p7 & -> & L7); [assumption|auto|assumption|]. cbn [bind].
  assert (HM : z_M z = (z_M1 z + z_M2 z + z_M3 z + z_M4 z)%nat) by reflexivity.
  assert (F1 : zcCop (zc z) = true -> exists x, copc_function (zl z) (zb z) (ocopC (zo z)) (zX z) = Ok x /\ vlen x = z_M1 z).
  { intros E. unfold z_M1. rewrite E, HN. destruct (copC_dims _ _ _ _ OO) as (_ & _ & C). fold N in C.
    unfold copc_function. cbv zeta. rewrite HN, OX, (Nat.mul_comm N 4), Nat.eqb_refl, A, Ecx, Ecy. cbn [guard bind]. eexists. split; [reflexivity|]. exact C. }
  assert (F3 : zcCom (zc z) = true -> exists x, comc_function (zl z) (zb z) (ocomC (zo z)) (zX z) = Ok x /\ vlen x = z_M3 z).
  { intros E. unfold z_M3. rewrite E, HN. destruct (comC_dims _ _ _ _ OO) as (_ & _ & C). fold N in C.
    unfold comc_function. cbv zeta. rewrite HN, OX, (Nat.mul_comm N 4), Nat.eqb_refl, A, Ep. cbn [guard bind]. eexists. split; [reflexivity|]. exact C. }
  assert (F2 : forall a c, zcBase (zc z) = true -> exists x, bmotion_function (zb z) (omotG (zo z)) B a c = Ok x /\ vlen x = z_M2 z).
  { intros a c E. unfold z_M2. rewrite E. unfold bmotion_function. cbv zeta. rewrite EB, HN, (Nat.mul_comm N 2), Nat.eqb_refl. cbn [guard bind]. eexists. split; [reflexivity|].
    cbn [vaddseg vopp mv vlen]. rewrite (oo_mot _ _ _ _ OO). cbn [bmotion_gradient mrows msetblock mzero]. rewrite HN. reflexivity. }
  assert (F4 : zcTilt (zc z) = true -> exists x, tmotion_function (zl z) (zb z) (otmG (zo z)) (zX z) = Ok x /\ vlen x = z_M4 z).
  { intros E. unfold z_M4. rewrite E. unfold tmotion_function. cbv zeta. rewrite HN, OX, (Nat.mul_comm N 4), Nat.eqb_refl, A, Ev. cbn [guard bind]. eexists. split; [reflexivity|].
    cbn [vaddseg vopp mv vlen mopp mrows]. exact (proj1 (tm_dims _ _ _ _ OM OO)). }
  destruct (cond_ok (zcCop (zc z)) (copc_function (zl z) (zb z) (ocopC (zo z)) (zX z)) (vfill (vlen (qbl (zqp z))) (- MAXB)%sc) 0 (z_M1 z) (z_M z)) as (b1 & -> & K1); [exact F1|lia|cbn [vlen vfill]; exact (qi_bl _ Q)|]. cbn [bind].
  destruct (cond_ok (zcBase (zc z)) (bmotion_inf (zb z) (omotG (zo z)) B) b1 (z_M1 z) (z_M2 z) (z_M z)) as (b2 & -> & K2); [unfold bmotion_inf; apply F2|lia|assumption|]. cbn [bind].
  destruct (cond_ok (zcBase (zc z)) (bmotion_sup (zb z) (omotG (zo z)) B) (vfill (vlen (qbu (zqp z))) MAXB) (z_M1 z) (z_M2 z) (z_M z)) as (c1 & -> & K3); [unfold bmotion_sup; apply F2|lia|cbn [vlen vfill]; exact (qi_bu _ Q)|]. cbn [bind].
  destruct (cond_ok' (zcBase (zc z)) (vsub (vfill (2 * N) (bjerkLim (zb z))) B) (vfill (vlen (qxu (zqp z))) MAXB) (2 * N) (2 * N) (4 * N)) as (x1 & -> & K4); [reflexivity|lia|cbn [vlen vfill]; exact (qi_xu _ Q)|]. cbn [bind].
  destruct (cond_ok' (zcBase (zc z)) (vsub (vfill (2 * N) (- bjerkLim (zb z))%sc) B) (vfill (vlen (qxl (zqp z))) (- MAXB)%sc) (2 * N) (2 * N) (4 * N)) as (x2 & -> & K5); [reflexivity|lia|cbn [vlen vfill]; exact (qi_xl _ Q)|]. cbn [bind].
  destruct (cond_ok (zcCom (zc z)) (comc_function (zl z) (zb z) (ocomC (zo z)) (zX z)) b2 (z_M1 z + z_M2 z) (z_M3 z) (z_M z)) as (b3 & -> & K6); [exact F3|lia|assumption|]. cbn [bind].
  destruct (cond_ok (zcTilt (zc z)) (tmotion_function (zl z) (zb z) (otmG (zo z)) (zX z)) b3 (z_M1 z + z_M2 z + z_M3 z) (z_M4 z) (z_M z)) as (b4 & -> & K7); [exact F4|lia|assumption|]. cbn [bind].
  destruct (cond_ok (zcTilt (zc z)) (tmotion_function (zl z) (zb z) (otmG (zo z)) (zX z)) c1 (z_M1 z + z_M2 z + z_M3 z) (z_M4 z) (z_M z)) as (c2 & -> & K8); [exact F4|lia|assumption|]. cbn [bind].
  eexists. reflexivity.
Qed.
