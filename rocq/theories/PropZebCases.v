(** Concrete cases and refutations for C41 to C46. *)

From Coq Require Import Reals List ZArith Lra Lia Arith Bool.
From Verif Require Import Scalar LinAlg LinAlgFacts ToolsModel ToolsSpec ToolsFacts NoDynModel PolygonModel HullFacts
  QPModel QPFacts TrajModel TrajFacts LipModel BaseModel ModelsSpec ModelsFacts ZebModel HumAlg ZebAlg ZebSpec ZebFacts
  ZebObj ZebTilt ZebProb ZebCon ZebLive ZebCalls ZebInv ZebView ZebDemo PropZeb.
Import ListNotations.
Local Open Scope R_scope.

(** *** A state with everything switched on *)
Lemma pverts_of v : pverts (polygon_of_vertices (K:=R) v) = v.
Proof.
  unfold polygon_of_vertices, computeBounds. cbn [pverts].
  assert (G : forall es g, pverts (K:=R) (fold_left (fun g e => edge_step g (fst e) (snd e)) es g) = pverts g).
  { induction es as [|e es IH]; intros g; [reflexivity|]. cbn [fold_left]. rewrite IH. unfold edge_step.
    destruct (_ <? _)%sc; [destruct (_ <? _)%sc; reflexivity|]. destruct (_ <? _)%sc; [destruct (_ <? _)%sc; reflexivity|reflexivity]. }
  rewrite G. reflexivity.
Qed.
(** the rectangle x0 <= x <= x1, y0 <= y <= y1 *)
Definition box (x0 x1 y0 y1 : R) : polygon R := polygon_of_vertices [(x0, y0); (x1, y0); (x1, y1); (x0, y1)].
Lemma inside_box x0 x1 y0 y1 x y : x0 < x1 -> y0 < y1 -> (inside (box x0 x1 y0 y1) x y <-> x0 <= x <= x1 /\ y0 <= y <= y1).
Proof.
  intros Hx Hy. unfold inside, box. rewrite pverts_of. split.
  - intros H. pose proof (H 0%nat ltac:(cbn; lia)) as H0. pose proof (H 1%nat ltac:(cbn; lia)) as H1.
    pose proof (H 2%nat ltac:(cbn; lia)) as H2. pose proof (H 3%nat ltac:(cbn; lia)) as H3.
    cbn [length Nat.add Nat.modulo Nat.divmod Nat.sub snd nth] in H0, H1, H2, H3. unfold left_of in *. cbn [fst snd] in *. repeat split; nra.
  - intros ((A1 & A2) & (B1 & B2)) i Hi. cbn [length] in Hi. do 4 (destruct i as [|i]; [cbn [length Nat.add Nat.modulo Nat.divmod Nat.sub snd nth]; unfold left_of; cbn [fst snd]; nra|]). lia.
Qed.
Lemma box_symmetric a b : 0 < a -> 0 < b -> symmetric (box (- a) a (- b) b).
Proof. intros Ha Hb x y. rewrite !inside_box by lra. lra. Qed.
Definition demo (k : zconfig) : list (zcall R) :=
  [ZSetNbSamples 2; ZSetBaseHeight (1/2); ZSetBaseMass 1; ZSetVelRef (vfill 4 (1/5)); ZSetPosRef (vfill 4 (1/10)); ZSetCopRef (vfill 4 0);
   ZSetComStateX (vec_of_st3 (St3 (1/10) 0 0)); ZSetCopPolygon (box (- (1)) 1 (- (1)) 1); ZSetComPolygon (box (- (1)) 1 (- (1)) 1);
   ZSetWeightings (MkZW 1 1 1 1 1 1 1); ZSetConfig k].
Ltac vred := cbn [vaccept vaccepts det vstep vsteps hsteps csteps fold_left tilt_refreshed shift_effect view0 vl vb vvel vpos vcop vcom vw vc vX
  lobs_step bobs_step lobs0 bobs0 oN oT ofb oh og om oM osx osy osz osyaw pN pT ph pg pm pM psx psy psroll pspitch psyaw plv pla plj ptx pty pcop pcom
  zwVel zwPos zwCop zwCom zwJerk zwTilt zwTiltVel vfill vlen length vec_of_st3 gx gy gz].
Lemma gain1 : accel_gain 1 = 2.
Proof. unfold accel_gain. destruct Rlt_dec; lra. Qed.
Lemma box_len x0 x1 y0 y1 : length (pverts (box x0 x1 y0 y1)) = 4%nat.
Proof. unfold box. rewrite pverts_of. reflexivity. Qed.
Ltac vok := rewrite ?box_len;  repeat apply conj; try reflexivity; try exact I; try lia; try lra;
  try (intros [?|?]; lra); try (intros _; rewrite gain1; lra).
Lemma demo_accepted k : vaccept (demo k) (view0 0 0) 0.
Proof. unfold demo. vred. vok. Qed.
(** what the state is after the calls *)
Lemma demo_state k : exists z, zreach z (1/2) false /\ view_of z = vsteps (demo k) (view0 0 0).
Proof. destruct (at_calls 0 0 (demo k) (demo_accepted k)) as (z0 & z & _ & _ & R & V). exists z. split; [exact R|exact V]. Qed.
(** reading a field of the state *)
Ltac from V f := exact (f_equal f V).
Lemma moderate_demo : tilt_moderate 1 ((981/100) * (1 * 1 + 1 * (1/2))) (1 * 1 * 1 + 1 * (1/2) * (1/2))
  /\ tiltvel_moderate 1 ((981/100) * (1 * 1 + 1 * (1/2))) (1 * 1 * 1 + 1 * (1/2) * (1/2)).
Proof.
  unfold tilt_moderate, tiltvel_moderate. cbv zeta. replace (1 ^ 2) with 1 by ring.
  set (k := 2 * (1 * 1 * 1 + 1 * (1/2) * (1/2)) / 1). assert (Ek : k = 5/2) by (unfold k; lra). clearbody k. subst k.
  assert (P : 10 ^ 15 = 1000000000000000) by ring. rewrite P. split; (split; [lra|]); right; (split; [lra|]); [split; [lra|right; lra]|lra].
Qed.
(** Every theorem of C41, C42, C43 and C44 applies to the demo with the fitting configuration. *)
Example C41_to_C44_case : forall k, exists z q,
  zreach z (1/2) false /\ z_problem z = Ok q /\ zc z = k /\ horizon z = 2%nat /\ zw z = MkZW 1 1 1 1 1 1 1
  /\ tilt_moderate (period z) (tilt_a1 z (1/2)) (tilt_a6 z (1/2)) /\ tiltvel_moderate (period z) (tilt_a1 z (1/2)) (tilt_a6 z (1/2))
  /\ symmetric (bcopPoly (zb z)) /\ symmetric (bcomPoly (zb z)).
Proof.
  intros k. destruct (demo_state k) as (z & Z & V).
  assert (EN : lN (zl z) = 2%nat) by from V (fun v => oN (vl v)). assert (ET : lT (zl z) = 1) by from V (fun v => oT (vl v)).
  assert (Em : lm (zl z) = 1) by from V (fun v => om (vl v)). assert (Eh : lh (zl z) = 1) by from V (fun v => oh (vl v)).
  assert (Emb : bm (zb z) = 1) by from V (fun v => pm (vb v)).
  assert (Q : exists q, z_problem z = Ok q).
  { apply (problem_ok z _ _ (reach_zinv _ _ _ Z)). unfold refs_sized, horizon. rewrite EN.
    assert (R1 : rvel (zr z) = vfill 4 (1/5)) by from V vvel. assert (R2 : rpos (zr z) = vfill 4 (1/10)) by from V vpos.
    assert (R3 : rcop (zr z) = vfill 4 0) by from V vcop. rewrite R1, R2, R3. repeat split. }
  destruct Q as (q & Q). exists z, q. split; [exact Z|]. split; [exact Q|]. split; [from V vc|]. split; [exact EN|]. split; [from V vw|].
  unfold period, tilt_a1, tilt_a6. rewrite ET, Em, Eh, Emb. split; [apply moderate_demo|]. split; [apply moderate_demo|].
  assert (B1 : bcopPoly (zb z) = box (- (1)) 1 (- (1)) 1) by from V (fun v => pcop (vb v)).
  assert (B2 : bcomPoly (zb z) = box (- (1)) 1 (- (1)) 1) by from V (fun v => pcom (vb v)).
  rewrite B1, B2. split; apply box_symmetric; lra.
Qed.

(** *** C43 refuted for a polygon that is not symmetric *)
(** One sample of one second, the upper bodies at rest at x, the rectangle 1 <= x <= 2, -1 <= y <= 1 for
    the CoP and the CoM, and no change of the jerks. *)
Definition off_centre (x : R) : list (zcall R) :=
  [ZSetCopPolygon (box 1 2 (-1) 1); ZSetComPolygon (box 1 2 (-1) 1); ZSetComStateX (vec_of_st3 (St3 x 0 0)); ZSetConfig (MkZC true true false false)].
Lemma off_centre_state x : exists z q, zreach z 0 true /\ z_problem z = Ok q /\ zc z = MkZC true true false false /\ horizon z = 1%nat
  /\ bcopPoly (zb z) = box 1 2 (-1) 1 /\ bcomPoly (zb z) = box 1 2 (-1) 1
  /\ (let X := fun k => vget (zX z) k + 0 in copX z X 0 = x /\ copY z X 0 = 0 /\ relX z X 0 = x /\ relY z X 0 = 0)
  /\ zmoderate z (fun _ => 0).
Proof.
  assert (A : vaccept (off_centre x) (view0 0 0) 0) by (unfold off_centre; vred; vok).
  destruct (at_calls 0 0 _ A) as (z0 & z & _ & _ & Z & V).
  assert (EN : lN (zl z) = 1%nat) by from V (fun v => oN (vl v)). assert (ET : lT (zl z) = 1) by from V (fun v => oT (vl v)).
  assert (Em : lm (zl z) = 1) by from V (fun v => om (vl v)). assert (Eh : lh (zl z) = 1) by from V (fun v => oh (vl v)).
  assert (Emb : bm (zb z) = 0) by from V (fun v => pm (vb v)). assert (Eg : lg (zl z) = V3 0 0 (981/100)) by from V (fun v => og (vl v)).
  assert (Sx : lsx (zl z) = St3 x 0 0) by from V (fun v => osx (vl v)). assert (Sy : lsy (zl z) = St3 0 0 0) by from V (fun v => osy (vl v)).
  assert (Bx : bsx (zb z) = St3 0 0 0) by from V (fun v => psx (vb v)). assert (By : bsy (zb z) = St3 0 0 0) by from V (fun v => psy (vb v)).
  assert (EX : zX z = vzero 4) by from V vX.
  assert (R1 : rvel (zr z) = vzero 2) by from V vvel. assert (R2 : rpos (zr z) = vzero 2) by from V vpos. assert (R3 : rcop (zr z) = vzero 2) by from V vcop.
  assert (Q : exists q, z_problem z = Ok q).
  { apply (problem_ok z _ _ (reach_zinv _ _ _ Z)). unfold refs_sized, horizon. rewrite EN, R1, R2, R3. repeat split. }
  assert (P1 : bcopPoly (zb z) = box 1 2 (-1) 1) by from V (fun v => pcop (vb v)).
  assert (P2 : bcomPoly (zb z) = box 1 2 (-1) 1) by from V (fun v => pcom (vb v)).
  destruct Q as (q & Q). exists z, q. split; [exact Z|]. split; [exact Q|]. split; [from V vc|]. split; [exact EN|].
  split; [exact P1|]. split; [exact P2|]. assert (CF : com_first z = 1) by (rewrite C41_first_interval; unfold period; rewrite ET; lra). split.
  - cbv zeta. unfold copX, copY, relX, relY, rel_cop, comX, comY, baseX, baseY, horizon, period. rewrite CF, ET, Em, Eh, Emb, Eg, Sx, Sy, Bx, By, EN, EX.
    cbn [sim updateState_raw vget vzero pos vel acc gx gy gz]. unfold jComX, jComY, jBaseX, jBaseY. cbn [vget vzero]. unfold cop_of. rsimpl_goal. cbn [pos acc].
    destruct Rlt_dec as [K|K]; [lra|]. cbn [updateState_raw pos vel acc]. rsimpl_goal. repeat split; field.
  - assert (CX : forall i, copX z (fun k => vget (zX z) k + 0) i = copX z (vget (zX z)) i /\ copY z (fun k => vget (zX z) k + 0) i = copY z (vget (zX z)) i
       /\ relX z (fun k => vget (zX z) k + 0) i = relX z (vget (zX z)) i /\ relY z (fun k => vget (zX z) k + 0) i = relY z (vget (zX z)) i).
    { assert (E : (fun k => vget (zX z) k + 0) = vget (zX z)) by (apply FunctionalExtensionality.functional_extensionality; intros k; ring). intros i. rewrite E. auto. }
    unfold zmoderate. cbv zeta. split; [intros k _; rewrite Rabs_R0; unfold MAXB; rsimpl; lra|].
    split; intros _ i j Hi Hj; destruct (CX i) as (C1 & C2 & C3 & C4); unfold left_slope.
    + rewrite C1, C2. replace (_ - _) with 0 by ring. unfold MAXB; rsimpl; lra.
    + rewrite C3, C4. replace (_ - _) with 0 by ring. unfold MAXB; rsimpl; lra.
Qed.
Theorem C43_refuted :
  (exists z hb cleared q, zreach z hb cleared /\ z_problem z = Ok q /\ zcCop (zc z) = true /\ zcCom (zc z) = true
     /\ qfeasible q (fun _ => 0) /\ exists i, (i < horizon z)%nat
     /\ ~ inside (bcopPoly (zb z)) (copX z (fun k => vget (zX z) k + 0) i) (copY z (fun k => vget (zX z) k + 0) i)
     /\ ~ inside (bcomPoly (zb z)) (relX z (fun k => vget (zX z) k + 0) i) (relY z (fun k => vget (zX z) k + 0) i))
  /\ (exists z hb cleared q, zreach z hb cleared /\ z_problem z = Ok q /\ zc z = MkZC true true false false
     /\ ~ qfeasible q (fun _ => 0) /\ forall i, (i < horizon z)%nat ->
        inside (bcopPoly (zb z)) (copX z (fun k => vget (zX z) k + 0) i) (copY z (fun k => vget (zX z) k + 0) i)
        /\ inside (bcomPoly (zb z)) (relX z (fun k => vget (zX z) k + 0) i) (relY z (fun k => vget (zX z) k + 0) i)).
Proof.
  split.
  - destruct (off_centre_state (-3/2)) as (z & q & Z & Q & C & N & P1 & P2 & (X1 & X2 & X3 & X4) & M). exists z, 0, true, q.
    split; [exact Z|]. split; [exact Q|]. rewrite C. split; [reflexivity|]. split; [reflexivity|]. split.
    + apply (C42_feasible_set z 0 true q Z Q). split; [|exact M]. unfold zadmissible. rewrite C. cbn [zcCop zcCom zcBase zcTilt].
      split; [intros D; discriminate D|]. split; [|split; [|intros D; discriminate D]]; intros _ i Hi; rewrite N in Hi; replace i with 0%nat by lia.
      * rewrite P1, X1, X2. apply inside_box; lra.
      * rewrite P2, X3, X4. apply inside_box; lra.
    + exists 0%nat. rewrite N. split; [lia|]. rewrite P1, P2, X1, X2, X3, X4. split; intros H; apply inside_box in H; lra.
  - destruct (off_centre_state (3/2)) as (z & q & Z & Q & C & N & P1 & P2 & (X1 & X2 & X3 & X4) & M). exists z, 0, true, q.
    split; [exact Z|]. split; [exact Q|]. split; [exact C|]. split.
    + intros F. pose proof (C43_cop_region z 0 true q _ Z Q ltac:(rewrite C; reflexivity) F 0%nat ltac:(rewrite N; lia)) as H. cbv zeta in H.
      rewrite P1, X1, X2 in H. apply inside_box in H; lra.
    + intros i Hi. rewrite N in Hi. replace i with 0%nat by lia. rewrite P1, P2, X1, X2, X3, X4. split; apply inside_box; lra.
Qed.

(** *** C45 refuted *)
(** In the demo, with a unit jerk of the upper bodies along x: the angle previewed for the first sample
    satisfies the documented equation in neither orientation. *)
Theorem C45_refuted : exists z hb cleared X u,
  zreach z hb cleared /\ tilt_moderate (period z) (tilt_a1 z hb) (tilt_a6 z hb) /\ hb = bh (zb z) /\ contactX z = 0
  /\ (forall i, (i < horizon z)%nat -> rollAt z hb X i = sim2 (period z) (period z) (st2_of3 (bsroll (zb z))) u i)
  /\ solves_tilt z hb (contactX z) (comX z X) (baseX z X) (st2_of3 (bsroll (zb z))) u (horizon z)
  /\ let c := comX z X 0 in let b := baseX z X 0 in
     let psi := ang (rollAt z hb X 0) in
     ~ documented_tilt (lm (zl z)) (lh (zl z)) (bm (zb z)) (bh (zb z)) (pos c) (acc c) (pos b) (acc b) psi (u 0%nat)
     /\ ~ documented_tilt (lm (zl z)) (lh (zl z)) (bm (zb z)) (bh (zb z)) (pos c) (acc c) (pos b) (acc b) (- psi) (- u 0%nat).
Proof.
  destruct (demo_state (MkZC false false false false)) as (z & Z & V). set (X := fun k : nat => if Nat.eqb k 0 then 1 else 0).
  assert (EN : lN (zl z) = 2%nat) by from V (fun v => oN (vl v)). assert (ET : lT (zl z) = 1) by from V (fun v => oT (vl v)).
  assert (Em : lm (zl z) = 1) by from V (fun v => om (vl v)). assert (Eh : lh (zl z) = 1) by from V (fun v => oh (vl v)).
  assert (Emb : bm (zb z) = 1) by from V (fun v => pm (vb v)). assert (Ehb : bh (zb z) = 1/2) by from V (fun v => ph (vb v)).
  assert (Sx : lsx (zl z) = St3 (1/10) 0 0) by from V (fun v => osx (vl v)). assert (Bx : bsx (zb z) = St3 0 0 0) by from V (fun v => psx (vb v)).
  assert (Ec : contactX z = 0) by (unfold contactX; assert (E : btcx (zb z) = Some 0) by from V (fun v => ptx (vb v)); rewrite E; reflexivity).
  assert (MD : tilt_moderate (period z) (tilt_a1 z (1/2)) (tilt_a6 z (1/2))).
  { unfold period, tilt_a1, tilt_a6. rewrite ET, Em, Eh, Emb. apply moderate_demo. }
  destruct (C45_tilt_equation z (1/2) X ltac:(unfold period; lra) (or_introl MD)) as ((u & U & RU) & _).
  exists z, (1/2), false, X, u. split; [exact Z|]. split; [exact MD|]. split; [symmetry; exact Ehb|]. split; [exact Ec|].
  split; [intros i _; apply RU|]. split; [exact U|]. cbv zeta.
  assert (CF : com_first z = 1) by (rewrite C41_first_interval; unfold period; rewrite ET; lra).
  pose proof (U 0%nat ltac:(unfold horizon; rewrite EN; lia)) as E. cbv zeta in E. rewrite <- RU, Ec in E.
  assert (S1 : comX z X 0 = St3 (1/10 + 1/6) (1/2) 1).
  { unfold comX. rewrite CF. unfold period. rewrite ET, Sx. cbn [sim updateState_raw pos vel acc]. unfold jComX, X. cbn [Nat.eqb]. unfold updateState_raw. cbn [pos vel acc]. rsimpl. f_equal; field. }
  assert (S2 : baseX z X 0 = St3 0 0 0).
  { unfold baseX, period, horizon. rewrite ET, Bx, EN. cbn [sim updateState_raw pos vel acc]. unfold jBaseX, X. cbn [Nat.eqb Nat.mul Nat.add]. unfold updateState_raw. cbn [pos vel acc]. rsimpl. f_equal; field. }
  rewrite S1, S2, Em, Eh, Emb, Ehb in *. cbn [pos vel acc] in *.
  split; unfold documented_tilt; lra.
Qed.

(** *** C46 refuted when gravity is not vertical *)
Theorem C46_refuted : exists z hb cleared pc ac pb ab z',
  zreach z hb cleared /\ zstep (ZSetComAndCopRef pc ac pb ab) z = Ok z' /\ (0 < horizon z)%nat
  /\ bm (zb z) = 0 /\ forall u v,
     vget (rcop (zr z')) 0 <> rel_cop z (gx (lg (zl z))) (St3 (vget pc 0) u (vget ac 0)) (St3 (vget pb 0) v (vget ab 0)).
Proof.
  assert (A : vaccept [ZSetGravity (V3 1 0 (981/100))] (view0 0 0) 0) by (vred; rewrite Rabs_right by lra; vok).
  destruct (at_calls 0 0 _ A) as (z0 & z & _ & _ & Z & V).
  assert (EN : lN (zl z) = 1%nat) by from V (fun v => oN (vl v)).
  assert (Em : lm (zl z) = 1) by from V (fun v => om (vl v)). assert (Eh : lh (zl z) = 1) by from V (fun v => oh (vl v)).
  assert (Emb : bm (zb z) = 0) by from V (fun v => pm (vb v)). assert (Eg : lg (zl z) = V3 1 0 (981/100)) by from V (fun v => og (vl v)).
  destruct (reach_next _ _ _ (ZSetComAndCopRef (vfill 2 1) (vfill 2 0) (vfill 2 0) (vfill 2 0)) Z) as (z' & S & _ & _).
  { unfold zaccepts, horizon. rewrite EN, Em, Emb, Eg. cbn [vfill vlen gz]. split; [repeat split|]. rewrite Rabs_right; lra. }
  exists z, (hsteps [ZSetGravity (V3 1 0 (981/100))] (view0 0 0) 0), (csteps [ZSetGravity (V3 1 0 (981/100))] true), (vfill 2 1), (vfill 2 0), (vfill 2 0), (vfill 2 0), z'.
  split; [exact Z|]. split; [exact S|]. split; [unfold horizon; lia|]. split; [exact Emb|]. intros u v.
  destruct (C46_cop_reference z _ _ _ _ _ _ _ Z S (or_introl Emb) 0%nat u v ltac:(unfold horizon; lia)) as (E & _). rewrite E. rewrite Em, Eh, Emb, Eg. cbn [gx gy gz].
  assert (P : 0 < 2 * (0 * bh (zb z) + 1 * 1) / ((0 + 1) * (981 / 100)) * 1) by (apply Rmult_lt_0_compat; [apply Rdiv_lt_0_compat|]; lra). lra.
Qed.
(** The hypotheses of C46 with a heavy base. *)
Example C46_case : exists z hb cleared z', zreach z hb cleared
  /\ zstep (ZSetComAndCopRef (vfill 4 1) (vfill 4 (1/10)) (vfill 4 (1/2)) (vfill 4 (1/5))) z = Ok z' /\ 1/10000 < bm (zb z)
  /\ gx (lg (zl z)) = 0 /\ gy (lg (zl z)) = 0 /\ horizon z = 2%nat.
Proof.
  destruct (demo_state (MkZC false false false false)) as (z & Z & V).
  assert (EN : lN (zl z) = 2%nat) by from V (fun v => oN (vl v)).
  assert (Em : lm (zl z) = 1) by from V (fun v => om (vl v)). assert (Emb : bm (zb z) = 1) by from V (fun v => pm (vb v)).
  assert (Eg : lg (zl z) = V3 0 0 (981/100)) by from V (fun v => og (vl v)).
  destruct (reach_next _ _ _ (ZSetComAndCopRef (vfill 4 1) (vfill 4 (1/10)) (vfill 4 (1/2)) (vfill 4 (1/5))) Z) as (z' & S & _ & _).
  { unfold zaccepts, horizon. rewrite EN, Em, Emb, Eg. cbn [vfill vlen gz]. split; [repeat split|]. rewrite Rabs_right; lra. }
  exists z, (1/2), false, z'. rewrite Emb, Eg. split; [exact Z|]. split; [exact S|]. split; [lra|]. split; [reflexivity|]. split; [reflexivity|exact EN].
Qed.
Print Assumptions C41_objective.
Print Assumptions C41_first_interval.
Print Assumptions C42_feasible_set.
Print Assumptions C42_base_limits.
Print Assumptions C42_no_constraints.
Print Assumptions C43_cop_region.
Print Assumptions C43_com_region.
Print Assumptions C43_symmetric_polygons.
Print Assumptions C43_refuted.
Print Assumptions C44_along_heading.
Print Assumptions C44_parallel.
Print Assumptions C45_tilt_equation.
Print Assumptions C45_documented_iff.
Print Assumptions C45_refuted.
Print Assumptions C46_cop_reference.
Print Assumptions C46_vertical_gravity.
Print Assumptions C46_refuted.
