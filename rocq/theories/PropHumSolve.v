(** Properties of the solve call of the humanoid walk generator: C39 (second part) and C40. *)

From Coq Require Import Reals List ZArith Arith Bool Lra Lia FunctionalExtensionality.
From Verif Require Import Scalar LinAlg LinAlgFacts ToolsModel ToolsSpec ToolsFacts NoDynModel PolygonModel PolygonFacts QPModel QPFacts TrajModel LipModel FootModel
  ModelsSpec ModelsFacts SupModel SupSpec SupFacts SupTime PropTools PropSup HumModel HumAlg HumSpec HumFacts HumObj HumProb HumWorld HumTable PropHum.
Import ListNotations.
Local Open Scope R_scope.

Section Solve.
Context {TK : Trig R}.

(** ** C39, continued *)
(** When the time to the next sample is c feedback periods, the first interval of the preview is c
    times the feedback period of the model of the centre of mass, which differs from the one given to
    solve by at most the tolerance. *)
Theorem C39_first_interval : forall h0 fb h tn S0 n c, reached h0 -> h_prepare fb h0 = Ok h -> ready (hsup h0) (hX h0) tn S0 ->
  EPS < fb -> sT (hsup h0) = INR n * fb -> S0 = INR c * fb ->
  first_interval h (INR c * lfb (hlip h)) /\ Rabs (lfb (hlip h) - fb) <= EPS /\ (EPS < Rabs (fb - lfb (hlip h0)) -> lfb (hlip h) = fb).
Proof.
  intros h0 fb h tn S0 n c H0 Hp Rd Hfb HT HS. assert (HE : 0 < EPS) by (rsimpl; lra).
  destruct (h_prepare_cases _ _ _ Hp) as (s & X & l & Hu & Hl & _ & _ & E1 & E2 & _).
  pose proof (ry_T _ _ _ _ Rd) as HTE. destruct (ry_sample _ _ _ _ Rd) as ((S1 & S2) & (r & Hr)).
  assert (Hn : (0 < n)%nat). { destruct n; [|lia]. rewrite HT in HTE. cbn in HTE. lra. }
  assert (Hc : (0 < c)%nat). { destruct c; [|lia]. rewrite HS in S1. cbn in S1. lra. }
  assert (Hcn : (c <= n)%nat).
  { assert (c < S n)%nat; [|lia]. apply INR_lt. rewrite S_INR. apply (Rmult_lt_reg_r fb); [lra|]. rewrite HS, HT in S2. lra. }
  assert (Htn : sttnp s = INR (c + r * n) * fb).
  { destruct (C29_one_support_per_sample _ _ _ _ fb Rd) as (s' & v' & Hu' & Et & _). rewrite Hu in Hu'. injection Hu' as <- <-. rewrite Et, Hr, plus_INR, mult_INR, HS, HT. ring. }
  split.
  - exists (Z.of_nat (S ((c + r * n - 1) mod n))). split.
    + rewrite E1. destruct (update_shapes _ _ _ _ _ Hu) as (_ & _ & Ef). apply (calls_before_sample s n fb); auto; [lia|]. rewrite (update_T _ _ _ _ _ Hu). exact HT.
    + replace (c + r * n - 1)%nat with ((c - 1) + r * n)%nat by lia. rewrite Nat.mod_add by lia. rewrite Nat.mod_small by lia. replace (S (c - 1)) with c by lia. rewrite INR_IZR_INZ. reflexivity.
  - rewrite E2. destruct (Rltb_spec EPS (Rabs (fb - lfb (hlip h0)))) as [Hd|Hd].
    + pose proof (reached_inv _ H0) as I. destruct (lstep_inv (LSetFeedbackPeriod fb) _ _ (hi_fresh _ I) (hi_auto _ I) Hl) as (_ & _ & O).
      assert (Ef : lfb l = fb) by (injection O; intros; assumption). rewrite Ef. split; [|auto]. replace (fb - fb) with 0 by ring. rewrite Rabs_R0. lra.
    + injection Hl as <-. split; [|intros; lra]. rewrite Rabs_minus_sym. lra.
Qed.
(** solve adds the solution of the problem to the decision vector, and applies the first jerk of
    each direction, and the first step, during the feedback period; nothing else changes. *)
Theorem C39_solve_applies_first_jerks : forall o fb h0 found h', reached h0 -> h_solve o fb h0 = Ok (found, h') ->
  exists h q idx d t, h_prepare fb h0 = Ok h /\ h_problem h = Ok (q, idx)
  /\ hX h' = vadd (hX h) d /\ h_convert (hlip h) (hsup h) (hX h') = Ok t
  /\ lsx (hlip h') = updateState_raw (vget t 0) fb (lsx (hlip h))
  /\ lsy (hlip h') = updateState_raw (vget t (lN (hlip h))) fb (lsy (hlip h))
  /\ lN (hlip h') = lN (hlip h0) /\ lT (hlip h') = lT (hlip h0) /\ lh (hlip h') = lh (hlip h) /\ lg (hlip h') = lg (hlip h) /\ lm (hlip h') = lm (hlip h) /\ lM (hlip h') = lM (hlip h)
  /\ s_updateFeetStates (vseg (hX h') (2 * lN (hlip h)) (2 * snb (hsup h))) fb (hsup h) = Ok (hsup h').
Proof.
  intros o fb h0 found h' H0 H. unfold h_solve in H. apply bind_ok in H. destruct H as (h & Hp & H). apply bind_ok in H. destruct H as ((q & idx) & Hq & H).
  cbn [fst snd] in H. pose proof H as H'. apply finish_cases in H. destruct H as (dX & X & t & l1 & l2 & s & L1 & L2 & LX & Ht & E1 & E2 & E3 & _ & ER). cbn [snd] in ER. subst h'.
  assert (EX : X = vadd (hX h) dX).
  { unfold h_finish in H'. apply bind_ok in H'. destruct H' as (e & He & H'). apply bind_ok in H'. destruct H' as (((sv & dX') & fd) & Hs & H').
    apply bind_ok in H'. destruct H' as (X' & HX & H'). unfold vaddE in HX. apply guard_ok in HX. destruct HX as (_ & HX). injection HX as <-.
    apply bind_ok in H'. destruct H' as (t' & _ & H'). apply bind_ok in H'. destruct H' as (l1' & _ & H'). apply bind_ok in H'. destruct H' as (l2' & _ & H'). apply bind_ok in H'. destruct H' as (s' & _ & H').
    injection H'. intros. subst. reflexivity. }
  exists h, q, idx, dX, t. cbn [hX hlip hsup]. split; [exact Hp|]. split; [exact Hq|]. split; [exact EX|]. split; [exact Ht|].
  unfold l_updateStateX in E1. unfold l_updateStateY in E2. apply bind_ok in E1. destruct E1 as (x1 & F1 & E1). injection E1 as <-. apply bind_ok in E2. destruct E2 as (y1 & F2 & E2). injection E2 as <-.
  unfold updateState in F1, F2. apply guard_ok in F1, F2. destruct F1 as (_ & F1), F2 as (_ & F2). injection F1 as <-. injection F2 as <-.
  cbn [lsx lsy l_setStates lN lT lh lg lm lM]. destruct (prepared_T _ _ _ H0 Hp) as (ET & _ & EN).
  destruct (prepared _ _ _ H0 Hp) as (I & Sh & _). rewrite (hi_N _ I), (hi_N _ (reached_inv _ H0)) in EN.
  split; [reflexivity|]. split; [reflexivity|]. split; [exact EN|]. split; [exact ET|]. repeat (split; [reflexivity|]).
  destruct (convert_inv _ _ _ I Sh Ht) as (z & cx & cy & Vx & Vy & gx & gy & [A1 A2 A3 A4 A5 A6 A7 A8 A9 A10]).
  replace (vseg X (2 * lN (hlip h)) (2 * snb (hsup h))) with (vseg t (2 * lN (hlip h)) (2 * snb (hsup h))); [exact E3|].
  unfold vseg. f_equal. apply functional_extensionality. intros k. apply A10. lia.
Qed.
(** So, when the next sample is one feedback period away, the state after solve has exactly the CoP
    that the decision vector plans for that sample. *)
Theorem C39_planned_cop_is_reached : forall o fb h0 found h' tn, reached h0 -> h_solve o fb h0 = Ok (found, h') ->
  ready (hsup h0) (hX h0) tn fb -> lfb (hlip h0) = fb -> EPS < fb -> (exists n, sT (hsup h0) = INR n * fb) ->
  exists h, h_prepare fb h0 = Ok h /\ (exact_inverses h -> forall fx fy, support_is (hsup h) fx fy ->
  let N := lN (hlip h0) in let M := snb (hsup h) in let Y := vget (hX h') in let l := hlip h' in
  exists px py,
     on_ground (cbl (stl (hsup h))) tn fb fx (dStepX N Y) px
     /\ on_ground (cbl (stl (hsup h))) tn fb fy (dStepY N M Y) py
     /\ cop_of (lh l) (gx (lg l)) (gz (lg l)) (lm l) (lM l) (lsx l) = dCopX Y 0 + px
     /\ cop_of (lh l) (gy (lg l)) (gz (lg l)) (lm l) (lM l) (lsy l) = dCopY N Y 0 + py).
Proof.
  intros o fb h0 found h' tn H0 H Rd Hf Hfb (n & HT).
  destruct (C39_solve_applies_first_jerks _ _ _ _ _ H0 H) as (h & q & idx & d & t & Hp & Hq & EX & Ht & Ex & Ey & EN & ET & Eh & Eg & Em & EM & _).
  exists h. split; [exact Hp|]. intros Hx fx fy Hs N M Y l.
  destruct (C39_first_interval h0 fb h tn fb n 1 H0 Hp Rd Hfb HT ltac:(cbn; ring)) as (HS & _ & _).
  assert (Elf : lfb (hlip h) = fb).
  { destruct (h_prepare_cases _ _ _ Hp) as (s & X & l0 & Hu & Hl & _ & _ & E1 & E2 & _). rewrite E2. rewrite Hf in Hl. replace (fb - fb) with 0 in Hl by ring. rewrite Rabs_R0 in Hl.
    destruct (Rltb_spec EPS 0) as [He|_]; [assert (0 < EPS) by (rsimpl; lra); lra|]. injection Hl as <-. exact Hf. }
  rewrite Elf in HS. replace (INR 1 * fb) with fb in HS by (cbn; ring).
  destruct (C39_jerks_give_the_cop _ _ _ _ _ _ _ _ _ _ H0 Hp Rd Hs HS Hx Ht) as (_ & _ & Q).
  assert (HN : (0 < lN (hlip h0))%nat) by (rewrite <- (hi_N _ (reached_inv _ H0)); exact (ry_N _ _ _ _ Rd)).
  destruct (Q 0%nat HN) as (px & py & P1 & P2 & P3 & P4). exists px, py. replace (fb + INR 0 * sT (hsup h0)) with fb in P1, P2 by (cbn; ring).
  split; [exact P1|]. split; [exact P2|]. unfold l. rewrite Ex, Ey, Eh, Eg, Em, EM. unfold cop_x, cop_y in P3, P4. cbn [sim] in P3, P4. rewrite Nat.add_0_r in P4.
  destruct (prepared_T _ _ _ H0 Hp) as (_ & _ & EN'). destruct (prepared _ _ _ H0 Hp) as (I & _ & _). rewrite (hi_N _ I), (hi_N _ (reached_inv _ H0)) in EN'. rewrite EN'. auto.
Qed.

(** ** C40: the prebuilt problems *)
(** The index that solve computes selects matrices with exactly the sizes of the problem... *)
Theorem C40_matrices_have_the_problem_sizes : forall h0 fb h q idx, reached h0 -> h_prepare fb h0 = Ok h -> h_problem h = Ok (q, idx) ->
  let n := (2 * lN (hlip h) + 2 * snb (hsup h))%nat in
  nth_error (hmats h) idx = Some (n, mrows (qA q))
  /\ mrows (qQ q) = n /\ mcols (qQ q) = n /\ vlen (qp q) = n /\ mcols (qA q) = n
  /\ exists nc nf, h_nbCtr h = Ok (nc, nf) /\ mrows (qA q) = (nc + nf)%nat.
Proof.
  intros h0 fb h q idx H0 Hp Hq n. destruct (prepared _ _ _ H0 Hp) as (I & _ & _).
  destruct (problem_inv _ _ _ I Hq) as (rc & rf & bc & bf & C1 & C0 & F1 & F0 & Hi & HM & HC & D1 & D2 & D3 & D4 & D5 & _).
  split; [rewrite (hi_mats _ I), Hi, D4; apply qpTable_at; assumption|]. repeat (split; [assumption|]).
  exists (length rc), (length rf). split; [|exact D4]. unfold h_nbCtr.
  destruct (hcopC h) eqn:Ec; [destruct (C1 eq_refl) as (_ & -> & _)|rewrite (C0 eq_refl)]; cbn [bind];
  (destruct (hfeetC h) eqn:Ef; [destruct (F1 eq_refl) as (_ & -> & _)|rewrite (F0 eq_refl)]; cbn [bind]; reflexivity).
Qed.
(** ... and no two sizes share an entry. *)
Theorem C40_entries_distinct : forall h i j n c, reached h -> nth_error (hmats h) i = Some (n, c) -> nth_error (hmats h) j = Some (n, c) -> i = j.
Proof.
  intros h i j n c H Hi Hj. rewrite (hi_mats _ (reached_inv _ H)) in Hi, Hj. rewrite qpTable_nth in Hi, Hj.
  set (C := hmaxC h) in *. assert (HC : (C + 1 <> 0)%nat) by lia.
  destruct (Nat.ltb_spec (i / (C + 1)) (hmaxS h + 1)) as [Ai|]; [|discriminate]. destruct (Nat.ltb_spec (j / (C + 1)) (hmaxS h + 1)) as [Aj|]; [|discriminate].
  injection Hi as Hi1 Hi2. injection Hj as Hj1 Hj2.
  rewrite (Nat.div_mod i (C + 1) HC), (Nat.div_mod j (C + 1) HC). assert (i / (C + 1) = j / (C + 1))%nat by lia. congruence.
Qed.
(** The table is big enough: after setNbSamples or setConfig, and as long as no polygon is set, no
    call of solve asks for an entry outside the table or for one of the wrong sizes. *)
Theorem C40_lookup_in_range : forall h1 c h2 cs h0 fb h nc nf tn S0, reached h1 -> hstep c h1 = Ok h2 -> rebuilds c ->
  hsteps cs h2 = Ok h0 -> Forall (fun c => ~ sets_polygon c) cs ->
  ready (hsup h0) (hX h0) tn S0 -> h_prepare fb h0 = Ok h -> counted (hsup h) -> h_nbCtr h = Ok (nc, nf) ->
  nth_error (hmats h) (snb (hsup h) * (hmaxC h + 1) + (nc + nf)) = Some (2 * lN (hlip h) + 2 * snb (hsup h), nc + nf)%nat.
Proof.
  intros h1 c h2 cs h0 fb h nc nf tn S0 H1 Hc Rc Hcs Fcs Rd Hp HC Hn.
  assert (R2 : room h2) by (eapply step_room; eauto). assert (H2 : reached h2) by (eapply reached_call; eassumption).
  assert (R0 : room h0 /\ reached h0).
  { clear - Hcs Fcs R2 H2. revert h2 Hcs R2 H2. induction Fcs as [|c cs Hc _ IH]; intros h2 Hcs R2 H2; cbn [hsteps] in Hcs; [injection Hcs as <-; auto|].
    apply bind_ok in Hcs. destruct Hcs as (h3 & H3 & Hcs). apply (IH h3 Hcs); [eapply step_room; eauto|eapply reached_call; eassumption]. }
  destruct R0 as (R0 & H0). destruct (prepared _ _ _ H0 Hp) as (I & _ & _). destruct (prepare_same _ _ _ Hp) as (SP & Q1 & Q2 & Q3 & _).
  assert (R : room h) by (eapply room_same; eassumption).
  destruct (h_prepare_cases _ _ _ Hp) as (s & X & l & Hu & Hl & _ & EN & E1 & E2 & _).
  destruct (ry_v _ _ _ _ Rd) as (k & Hk & _). destruct (C32_size_after_update _ _ _ _ fb k Rd Hk) as (s' & v' & ph & Hu' & _ & HM & _). rewrite Hu in Hu'. injection Hu' as <- <-. rewrite <- E1 in HM.
  pose proof (proj2 (proj2 (prepared_T _ _ _ H0 Hp))) as EsN. rewrite <- EsN in HM.
  rewrite (hi_mats _ I). apply qpTable_at; [rewrite (hi_maxS _ I), <- (hi_N _ I); exact HM|].
  unfold h_nbCtr in Hn. apply bind_ok in Hn. destruct Hn as (c1 & Hc1 & Hn). apply bind_ok in Hn. destruct Hn as (f1 & Hf1 & Hn). injection Hn as -> ->.
  unfold room in R. rewrite (hi_N _ I) in R.
  assert (B1 : (nc <= if hcopC h then s_getMaximumNbOfCopConstraints (hsup h) * lN (hlip h) else 0)%nat).
  { destruct (hcopC h); [|injection Hc1 as <-; lia]. apply bind_ok in Hc1. destruct Hc1 as (r & Hr & Hc1). injection Hc1 as <-. pose proof (copRows_le _ _ _ HC Hr). lia. }
  assert (B2 : (nf <= if hfeetC h then s_getMaximumNbOfKinematicConstraints (hsup h) * lN (hlip h) else 0)%nat).
  { destruct (hfeetC h); [|injection Hf1 as <-; lia]. apply bind_ok in Hf1. destruct Hf1 as (r & Hr & Hf1). injection Hf1 as <-. pose proof (footRows_le _ _ _ HC Hr) as Hle.
    rewrite (hi_N _ I) in HM. pose proof (Nat.mul_le_mono_r _ _ (s_getMaximumNbOfKinematicConstraints (hsup h)) HM). lia. }
  lia.
Qed.
(** [counted] holds for polygons built by their constructors; for the double support polygon when the
    corners of the two feet are separated. *)
Theorem C40_polygons_counted : forall v : list (pt R),
  (length (pgen (polygon_of_vertices v)) <= length (pverts (polygon_of_vertices v)))%nat /\ pverts (polygon_of_vertices v) = v.
Proof. exact polygon_counted. Qed.
(** If polygons with more sides are set afterwards, the problem cannot be built: solve never succeeds. *)
Theorem C40_late_polygon_fails : forall h0 fb h nc nf o, reached h0 -> h_prepare fb h0 = Ok h -> h_nbCtr h = Ok (nc, nf) -> (hmaxC h < nc + nf)%nat ->
  forall r, h_solve o fb h0 <> Ok r.
Proof.
  intros h0 fb h nc nf o H0 Hp Hn Hlt r Hr. destruct (solve_solver _ _ _ _ H0 Hr) as (h' & q & idx & Hp' & Hq & _). rewrite Hp in Hp'. injection Hp' as <-.
  destruct (C40_matrices_have_the_problem_sizes _ _ _ _ _ H0 Hp Hq) as (_ & _ & _ & _ & _ & nc' & nf' & Hn' & HA). rewrite Hn in Hn'. injection Hn' as <- <-.
  destruct (prepared _ _ _ H0 Hp) as (I & _ & _). destruct (problem_inv _ _ _ I Hq) as (rc & rf & bc & bf & _ & _ & _ & _ & _ & _ & HC & _ & _ & _ & D4 & _). lia.
Qed.
(** The solvers.  solve succeeds only if the solver at the index has the sizes of the problem... *)
Theorem C40_solver_must_match : forall o fb h0 r, reached h0 -> h_solve o fb h0 = Ok r ->
  exists h q idx, h_prepare fb h0 = Ok h /\ h_problem h = Ok (q, idx)
    /\ nth_error (hsolvers h0) idx = Some (vlen (qp q), mrows (qA q)).
Proof. exact solve_solver. Qed.
(** ... which it has when the table of solvers is the one built last... *)
Theorem C40_fresh_solvers_match : forall h0 fb h q idx, reached h0 -> hsolvers h0 = hmats h0 -> h_prepare fb h0 = Ok h -> h_problem h = Ok (q, idx) ->
  nth_error (hsolvers h0) idx = Some (vlen (qp q), mrows (qA q)).
Proof.
  intros h0 fb h q idx H0 Hs Hp Hq. destruct (C40_matrices_have_the_problem_sizes _ _ _ _ _ H0 Hp Hq) as (E & _ & _ & D & _).
  destruct (h_prepare_cases _ _ _ Hp) as (s & X & l & _ & _ & _ & _ & _ & _ & _ & _ & _ & Em & _). rewrite Hs, <- Em, D. exact E.
Qed.
(** ... but the two solvers made by the constructor stay in front of all others: once the number of
    samples is set, solve never succeeds, whatever the other calls are... *)
Theorem C40_stale_solvers_refuted : forall n h1 h2 cs h, (2 <= n)%nat -> newHum = Ok h1 -> h_setNbSamples n h1 = Ok h2 ->
  hsteps cs h2 = Ok h -> Forall (fun c => ~ rebuilds c) cs ->
  forall o fb r, h_solve o fb h <> Ok r.
Proof.
  intros n h1 h2 cs h Hn H1 H2 Hcs Fcs o fb r Hr.
  assert (P2 : hsolvers h2 = ([(2, 0); (4, 0)] ++ qpTable n n 0)%nat /\ hmaxC h2 = 0%nat /\ hcopC h2 = false /\ hfeetC h2 = false /\ lN (hlip h2) = n /\ reached h2).
  { destruct (new_solvers _ H1) as (S1 & S2 & S3 & S4). assert (R2 : reached h2) by (eapply (reached_call (HSetNbSamples n)); [apply reached_new; exact H1|exact H2]).
    assert (EN : lN (hlip h2) = n /\ sN (hsup h2) = n).
    { rewrite (hi_N _ (reached_inv _ R2)). unfold h_setNbSamples in H2. apply guard_ok in H2. destruct H2 as (_ & H2). apply bind_ok in H2. destruct H2 as (l & Hl & H2). apply bind_ok in H2. destruct H2 as (s & Hs & H2). injection H2 as <-. cbn [h_computeConstantPart hlip].
      unfold l_setNbSamples in Hl. binds Hl. apply l_auto_N in Hl. rewrite Hl. auto. }
    destruct EN as (EN & EsN). unfold h_setNbSamples in H2. apply guard_ok in H2. destruct H2 as (_ & H2). apply bind_ok in H2. destruct H2 as (l & Hl & H2). apply bind_ok in H2. destruct H2 as (s & Hs & H2). injection H2 as <-.
    cbn [h_computeConstantPart hlip hsup] in EN, EsN. split; [|split; [|split; [|split; [|split]]]]; [| | | | |exact R2]; cbn [h_computeConstantPart hlip hsup hsolvers hcopC hfeetC hmaxC]; rewrite ?S3, ?S4, ?S1, ?S2, ?EN, ?EsN; reflexivity. }
  assert (P : hsolvers h = ([(2, 0); (4, 0)] ++ qpTable n n 0)%nat /\ hmaxC h = 0%nat /\ hcopC h = false /\ hfeetC h = false /\ lN (hlip h) = n /\ reached h).
  { clear - P2 Hcs Fcs. revert h2 Hcs P2. induction Fcs as [|c cs Hc _ IH]; intros h2 Hcs P2; cbn [hsteps] in Hcs; [injection Hcs as <-; exact P2|].
    apply bind_ok in Hcs. destruct Hcs as (h3 & H3 & Hcs). apply (IH h3 Hcs). destruct P2 as (A1 & A2 & A3 & A4 & A5 & A6).
    assert (R3 : reached h3) by (eapply reached_call; eassumption). assert (D : sets_polygon c \/ ~ sets_polygon c) by (destruct c; cbn; auto). destruct D as [D|D].
    - destruct (sets_polygon_kept _ _ _ H3 D) as (B1 & B2 & B3 & B4 & _ & B5). rewrite B1, B2, B3, B4, B5. auto 10.
    - destruct (step_kept _ _ _ H3 Hc D) as (_ & B3 & B4 & B2 & B1 & B5). rewrite B1, B2, B3, B4, B5. auto 10. }
  destruct P as (A1 & A2 & A3 & A4 & A5 & A6). destruct (solve_solver _ _ _ _ A6 Hr) as (h' & q & idx & Hp & Hq & Hs).
  destruct (prepared _ _ _ A6 Hp) as (I & _ & _). destruct (prepare_same _ _ _ Hp) as (_ & Q1 & Q2 & Q3 & _).
  destruct (problem_inv _ _ _ I Hq) as (rc & rf & bc & bf & _ & C0 & _ & F0 & Hi & HM & _ & _ & _ & D3 & _). rewrite (hi_maxS _ I) in HM.
  assert (EN : lN (hlip h') = n). { rewrite <- (hi_N _ I), (proj2 (proj2 (prepared_T _ _ _ A6 Hp))), (hi_N _ (reached_inv _ A6)). exact A5. }
  rewrite EN in *. rewrite C0, F0, Q3, A2 in Hi by congruence. cbn [length] in Hi. set (M := snb (hsup h')) in *. assert (Ei : idx = M) by lia. rewrite A1, D3, Ei in Hs. clear Hi Ei.
  destruct M as [|[|m]] eqn:EM; cbn [nth_error app] in Hs; [injection Hs; lia|injection Hs; lia|].
  pose proof (qpTable_at n n 0 m 0 ltac:(lia) ltac:(lia)) as Q. replace (m * (0 + 1) + 0)%nat with m in Q by lia. rewrite Q in Hs. injection Hs. lia.
Qed.
(** ... and with setConfig called too, standing still without constraints is never solved. *)
Theorem C40_standing_never_solved_refuted : forall h0 fb h q, api_reached h0 -> h_prepare fb h0 = Ok h -> h_problem h = Ok (q, 0%nat) ->
  (2 <= lN (hlip h))%nat -> forall o r, h_solve o fb h0 <> Ok r.
Proof.
  intros h0 fb h q H0 Hp Hq HN o r Hr. pose proof (api_is_reached _ H0) as H0'. destruct (solve_solver _ _ _ _ H0' Hr) as (h' & q' & idx & Hp' & Hq' & Hs).
  rewrite Hp in Hp'. injection Hp' as <-. rewrite Hq in Hq'. injection Hq' as <- <-. destruct (api_solvers _ H0) as (t & Et). rewrite Et in Hs. cbn [app nth_error] in Hs.
  destruct (C40_matrices_have_the_problem_sizes _ _ _ _ _ H0' Hp Hq) as (_ & _ & _ & D & _). rewrite D in Hs. injection Hs. lia.
Qed.
End Solve.

Print Assumptions C39_first_interval.
Print Assumptions C39_solve_applies_first_jerks.
Print Assumptions C39_planned_cop_is_reached.
Print Assumptions C40_matrices_have_the_problem_sizes.
Print Assumptions C40_entries_distinct.
Print Assumptions C40_lookup_in_range.
Print Assumptions C40_polygons_counted.
Print Assumptions C40_late_polygon_fails.
Print Assumptions C40_solver_must_match.
Print Assumptions C40_fresh_solvers_match.
Print Assumptions C40_stale_solvers_refuted.
Print Assumptions C40_standing_never_solved_refuted.
