(** A humanoid walk generator in single precision: it is set up and starts to walk (a case for C66). *)

From Coq Require Import Reals List ZArith Arith Bool Lra Lia.
From Flocq Require Import Core.
From Verif Require Import Scalar LinAlg LinAlgFacts ToolsModel PolygonModel QPModel TrajModel LipModel FootModel ModelsFacts SupModel SupSpec HumModel RoundModel RoundSpec RoundSup PropRound RoundHumSpec PropRoundHum ModelsSpec HumTable HumRunSpec PropHumRun.
Import ListNotations.
Local Open Scope R_scope.

Notation F := (fl float32).
Lemma f32 : rounding float32 (bpow radix2 (-24)) (bpow radix2 (-150)).
Proof. apply C66_case_settings. Qed.
Lemma f32_int z : (Z.abs z <= 16384)%Z -> float32 (IZR z) = IZR z.
Proof. apply f32. Qed.
Lemma f32_near x : 0 <= x <= 100 -> x - 1/100000 <= float32 x <= x + 1/100000.
Proof.
  intros H. destruct f32 as (R1 & _). specialize (R1 x). destruct bpow_small as (B1 & _ & B3 & _). pose proof (bpow_ge_0 radix2 (-150)).
  assert (U : bpow radix2 (-24) = / 16777216) by (rewrite B3; f_equal; ring). rewrite U in R1. rewrite (Rabs_pos_eq x) in R1 by lra.
  assert (bpow radix2 (-150) <= / 1000000000000).
  { apply Rle_trans with (/ 2 ^ 60); [exact B1|]. apply Rinv_le_contravar; [lra|]. replace (2 ^ 60) with ((2 ^ 10) ^ 6) by (rewrite <- pow_mult; reflexivity). replace (2 ^ 10) with 1024 by ring. apply Rle_trans with (1000 ^ 6); [lra|]. apply pow_incr. lra. }
  apply Rabs_le_inv in R1. lra.
Qed.
Lemma eps32 : 9/100000 <= val (EPS (K:=F)) <= 11/100000.
Proof. unfold EPS. cbn [sdiv s1 sofZ FlScalar val]. rewrite f32_int by lia. pose proof (f32_near (1/10000)). lra. Qed.
Lemma grav32 : 98/10 <= val (GRAVITY_NORM (K:=F)) <= 982/100.
Proof. unfold GRAVITY_NORM. cbn [sdiv s1 sofZ FlScalar val]. rewrite !f32_int by lia. pose proof (f32_near (981/100)). lra. Qed.

(** The model of the centre of mass with one sample of one second *)
Record fine (l : lip F) : Prop := {
  fi_auto : lauto l = true; fi_N : lN l = 1%nat; fi_T : val (lT l) = 1; fi_fb : val (lfb l) = 1; fi_h : val (lh l) = 1;
  fi_g : lg l = GRAVITY; fi_m : val (lm l) = 1; fi_M : val (lM l) = 1 }.
Definition solvable (l : lip F) : Prop := lnb l = Some 1%Z /\ exists dx dy ix iy, lcxD l = [dx] /\ lcyD l = [dy] /\ dUinv dx = Some ix /\ dUinv dy = Some iy.
Lemma first32 l : fine l -> val (l_first l 0) = 1.
Proof. intros H. unfold l_first, sofnat. cbn [smul sofZ FlScalar val]. rewrite (fi_fb _ H). change (Z.of_nat (0 + 1)) with 1%Z. rewrite (f32_int 1) by lia. rewrite Rmult_1_r. apply (f32_int 1); lia. Qed.
Lemma gz32 l : fine l -> 98/10 <= val (gz (lg l)) <= 982/100.
Proof. intros H. rewrite (fi_g _ H). exact grav32. Qed.
Lemma cop32 l g0 : fine l -> exists d i, computeCopDynamic (l_first l 0) (lT l) (lN l) (lh l) g0 (gz (lg l)) (lm l) (lM l) = Ok d /\ dUinv d = Some i.
Proof.
  intros H. pose proof (first32 _ H) as E1. pose proof (gz32 _ H) as E2. pose proof eps32 as E3. destruct H as [_ EN ET EF Eh _ Em EM].
  unfold computeCopDynamic. rewrite EN.
  set (S := l_first l 0) in *. set (T := lT l) in *. set (g := gz (lg l)) in *. set (h := lh l) in *. set (m := lm l) in *. set (M := lM l) in *.
  assert (sltb s0 S = true) as -> by (apply Rltb_true; cbn [s0 FlScalar val]; lra). assert (sltb s0 T = true) as -> by (apply Rltb_true; cbn [s0 FlScalar val]; lra).
  assert (sltb EPS (sabs g) = true) as ->.
  { unfold sabs. assert (sltb g s0 = false) as -> by (apply Rltb_false; cbn [s0 FlScalar val]; lra). apply Rltb_true. lra. }
  assert (sleb m M = true) as -> by (apply Rleb_true; lra). assert (sltb EPS M = true) as -> by (apply Rltb_true; lra). assert (sleb s0 m = true) as -> by (apply Rleb_true; cbn [s0 FlScalar val]; lra).
  cbn [guard bind Nat.ltb Nat.leb]. do 2 eexists. split; [reflexivity|]. cbn [dUinv]. unfold inverseLU.
  assert (diag_nonzero (mget (cop_U S T 1 h g (sdiv m M))) (mrows (cop_U S T 1 h g (sdiv m M))) = true) as ->.
  { cbn [cop_U lower mrows mget]. cbn [diag_nonzero Nat.eqb].
    assert (W : 5/100 <= val (smul (sdiv m M) (ssub (sadd (sadd (sdiv (spow3 S) (sofZ 6)) (smul (smul (smul shalf (sofnat 0)) T) (spow2 S))) (smul (smul (smul shalf (spow2 (sofnat 0))) S) (spow2 T))) (sdiv (smul S h) g)))).
    { unfold spow3, spow2, shalf, sofnat. cbn [smul sdiv sadd ssub sofZ s1 FlScalar val Z.of_nat]. rewrite E1, ET, Eh, Em, EM.
      rewrite !(f32_int 6), !(f32_int 0), !(f32_int 2) by lia. replace (1 / 1) with 1 by field. rewrite ?Rmult_1_r, ?Rmult_1_l, ?Rmult_0_r, ?Rmult_0_l. rewrite ?(f32_int 1), ?(f32_int 0) by lia. rewrite ?Rmult_1_r, ?Rmult_1_l, ?Rmult_0_r, ?Rmult_0_l. rewrite ?(f32_int 1), ?(f32_int 0) by lia.
      rewrite ?Rmult_1_r, ?Rmult_1_l, ?Rmult_0_r, ?Rmult_0_l, ?Rplus_0_r. rewrite ?(f32_int 1), ?(f32_int 0) by lia. rewrite ?Rplus_0_r.
      assert (G : 1/10 <= 1 / val g <= 11/100).
      { assert (Q : 1 / val g * val g = 1) by (field; lra). assert (0 < 1 / val g) by (apply Rdiv_lt_0_compat; lra). split; nra. }
      pose proof (f32_near (1/6) ltac:(lra)) as A1. set (a1 := float32 (1/6)) in *. pose proof (f32_near a1 ltac:(lra)) as A2. set (a2 := float32 a1) in *. pose proof (f32_near a2 ltac:(lra)) as A3. set (a3 := float32 a2) in *.
      pose proof (f32_near (1 / val g) ltac:(lra)) as A4. set (a4 := float32 (1 / val g)) in *. pose proof (f32_near (a3 - a4) ltac:(lra)) as A5. set (a5 := float32 (a3 - a4)) in *. pose proof (f32_near a5 ltac:(lra)). lra. }
    cbn [andb]. match goal with |- negb (seqb ?x s0) = true => change (5/100 <= val x) in W; assert (seqb x s0 = false) as ->; [|reflexivity] end.
    apply Bool.not_true_is_false. intros Q. apply Reqb_true in Q. cbn [s0 FlScalar val] in Q. rewrite Q in W. lra. }
  reflexivity.
Qed.
Lemma comp32 l : fine l -> exists l', l_computeDynamics l = Ok l' /\ fine l' /\ solvable l' /\ lsx l' = lsx l /\ lsy l' = lsy l.
Proof.
  intros H. pose proof (first32 _ H) as E1. pose proof eps32 as E3. pose proof H as [EA EN ET EF Eh Eg Em EM]. unfold l_computeDynamics, nbFeedback.
  assert (seqb (lfb l) s0 = false) as -> by (apply Bool.not_true_is_false; intros Q; apply Reqb_true in Q; cbn [s0 FlScalar val] in Q; lra). cbn [negb ubguard bind].
  assert (strunc (sdiv (sadd (lT l) EPS) (lfb l)) = 1%Z) as ->.
  { assert (W : 1 <= val (sdiv (sadd (lT l) (EPS (K:=F))) (lfb l)) < 2).
    { cbn [sdiv sadd FlScalar val]. rewrite ET, EF. set (e := val (EPS (K:=F))) in *. clearbody e. pose proof (f32_near (1 + e) ltac:(lra)) as A1. set (b := float32 (1 + e)) in *. clearbody b. replace (b / 1) with b by field. pose proof (f32_near b ltac:(lra)). lra. }
    unfold strunc. set (x := sdiv _ _) in *. assert (sltb x s0 = false) as -> by (apply Rltb_false; cbn [s0 FlScalar val]; lra). cbn [sfloor FlScalar]. destruct (base_Int_part (val x)) as (B1 & B2). assert (0 < Int_part (val x) < 2)%Z; [|lia]. split; apply lt_IZR; lra. }
  unfold l_count. cbn [l_setNb lnb Z.leb Z.compare guard bind]. change (Z.to_nat 1) with 1%nat. unfold l_cop. cbn [tabulateM bind].
  set (l1 := l_setNb l (Some 1%Z)). assert (H1 : fine l1) by (constructor; assumption).
  destruct (cop32 l1 (gx (lg l1)) H1) as (dx & ix & -> & Ix). cbn [bind]. destruct (cop32 l1 (gy (lg l1)) H1) as (dy & iy & -> & Iy). cbn [bind app].
  assert (P1 : sltb s0 (l_first l1 0) = true) by (apply Rltb_true; change (l_first l1 0) with (l_first l 0); cbn [s0 FlScalar val]; lra).
  assert (P2 : sltb s0 (lT l1) = true) by (apply Rltb_true; change (lT l1) with (lT l); cbn [s0 FlScalar val]; lra).
  unfold computePosDynamic, computeVelDynamic, computeAccDynamic. assert (P3 : sltb s0 (sabs (l_first l1 0)) = true).
  { unfold sabs. assert (sltb (l_first l1 0) s0 = false) as ->; [|exact P1]. apply Rltb_false. change (l_first l1 0) with (l_first l 0). cbn [s0 FlScalar val]. lra. }
  rewrite P1, P2, P3. change (lN l1) with (lN l). rewrite EN. cbn [guard bind Nat.ltb Nat.leb].
  eexists. split; [reflexivity|]. split; [constructor; assumption|]. split; [|split; reflexivity]. split; [reflexivity|]. exists dx, dy, ix, iy. auto.
Qed.

(** Nothing is weighted or constrained; one sample. *)
Definition plain {K} {SK : Scalar K} (h : hum K) : Prop :=
  hcopC h = false /\ hfeetC h = false /\ hw h = MkHW s0 s0 s0 /\ hmats h = [(2, 0); (4, 0)]%nat /\ hmaxC h = 0%nat /\ exists t, hsolvers h = [(2, 0); (4, 0)]%nat ++ t.
Lemma plain_constant {K} {SK : Scalar K} (h : hum K) : lN (hlip h) = 1%nat -> sN (hsup h) = 1%nat -> hcopC h = false -> hfeetC h = false -> hw h = MkHW s0 s0 s0 -> hmaxC h = 0%nat ->
  (hsolvers h = [] \/ exists t, hsolvers h = [(2, 0); (4, 0)]%nat ++ t) -> plain (h_computeConstantPart h).
Proof.
  intros N1 N2 C1 C2 C3 C4 C5. unfold plain, h_computeConstantPart. cbn [hcopC hfeetC hw hmats hmaxC hsolvers]. rewrite C1, C2, C3, C4, N1, N2. do 5 (split; [reflexivity|]).
  destruct C5 as [->|(t & ->)]; [exists []; reflexivity|]. exists (t ++ qpTable 1 1 0). reflexivity.
Qed.
Lemma blank_problem {K} {SK : Scalar K} {TK : Trig K} (h : hum K) i : sltb (s0 : K) s0 = false -> plain h -> snb (hsup h) = i -> (i < 2)%nat ->
  h_problem h = Ok (blankQP (2 + 2 * i) 0, i).
Proof.
  intros L (C1 & C2 & C3 & C4 & C5 & _) Hi Hi2. unfold h_problem, h_nbCtr. rewrite C1, C2, C3, C4, C5. cbn [bind wVelT wJerkM wCopC]. unfold addObj. rewrite L, Hi. cbn [bind].
  destruct i as [|[|i]]; [reflexivity|reflexivity|lia].
Qed.
Lemma problem_small {K} {SK : Scalar K} {TK : Trig K} (h : hum K) q : plain h -> h_problem h = Ok q -> (snb (hsup h) < 2)%nat.
Proof.
  intros (C1 & C2 & _ & C4 & C5 & _) H. unfold h_problem, h_nbCtr in H. rewrite C1, C2 in H. cbn [bind] in H. rewrite C4, C5 in H. apply bind_ok in H. destruct H as (e & He & _).
  unfold tableAt, rd in He. destruct (nth_error _ _) eqn:E; [|discriminate]. assert (Q : (snb (hsup h) * (0 + 1) + (0 + 0) < 2)%nat) by (apply (nth_error_Some [(2, 0); (4, 0)]%nat); congruence). lia.
Qed.
Lemma blank_solver {K} {SK : Scalar K} (o : oracle K) i (d : nat -> K) : (i < 2)%nat -> exists sv dX fd,
  solver_solve o (newSolver (2 + 2 * i) 0) (normalizeMatrices EPS (blankQP (2 + 2 * i) 0)) 10000%Z (MkVec (2 * 1 + 2 * i) d) false false = Ok (sv, dX, fd) /\ vlen dX = (2 + 2 * i)%nat.
Proof.
  intros Hi. unfold solver_solve. assert (dimensionsAreConsistent (normalizeMatrices EPS (blankQP (2 + 2 * i) 0)) (2 + 2 * i) 0 = true) as D by (destruct i as [|[|i]]; [reflexivity|reflexivity|lia]).
  cbn [newSolver snbVar snbCtr]. rewrite D. cbn [guard bind smem]. destruct (o _ _) as (x & ok). cbn [vlen]. rewrite (proj2 (Nat.leb_le (2 + 2 * i) (2 * 1 + 2 * i)) ltac:(lia)). cbn [ubguard bind].
  rewrite Bool.andb_false_r. do 3 eexists. split; [reflexivity|]. cbn [vlen]. lia.
Qed.
Lemma sup_setup {K} {SK : Scalar K} (T D : K) x : sltb s0 s1 = true -> sltb s0 T = true -> sleb s0 T = true -> sltb s0 D = true -> sltb D (ssub (smul (sofZ 2) s1) EPS) = false ->
  newSup 1 s1 = Ok x -> exists s, ssteps [SSetNbSamples 1; SSetSamplingPeriod T; SSetStepPeriod D; SSetDSLength D] x = Ok s.
Proof.
  intros L0 L1 L2 L3 L5 P0. unfold newSup, newFoot in P0. rewrite L0 in P0. cbn [guard bind Nat.ltb Nat.leb] in P0. injection P0 as <-. cbn [ssteps sstep_call].
  unfold s_setNbSamples at 1. unfold f_setNbSamples. cbn [guard bind Nat.ltb Nat.leb sleft sright]. unfold s_setSamplingPeriod at 1. unfold f_setSamplingPeriod. rewrite L2, L1. cbn [guard bind].
  unfold s_setStepPeriod at 1. rewrite L3. cbn [guard bind s_isInDS s_front cb_at s_setN stl cbl rd nth_error phType is_DS]. unfold s_setInitialDoubleSupportLength at 1.
  cbn [guard bind s_isInDS s_front cb_at s_setN stl cbl rd nth_error phType is_DS sDS sttnp]. rewrite L5. eexists. reflexivity.
Qed.
Lemma setStep_N {K} {SK : Scalar K} (x : K) s s' : s_setStepPeriod x s = Ok s' -> sN s' = sN s.
Proof. unfold s_setStepPeriod. intros H. apply guard_ok in H. destruct H as (_ & H). apply bind_ok in H. destruct H as ([|] & _ & H); binds H; injection H as <-; reflexivity. Qed.
Lemma setDS_N {K} {SK : Scalar K} (x : K) s s' : s_setInitialDoubleSupportLength x s = Ok s' -> sN s' = sN s.
Proof. unfold s_setInitialDoubleSupportLength. intros H. apply bind_ok in H. destruct H as ([|] & _ & H); binds H; injection H as <-; reflexivity. Qed.
Definition before (K : Type) (p : polygon K) : list (hcall K) := [HSetKin SLeft p; HSetKin SRight p; HSetCop SLeft p; HSetCop SRight p; HSetConfig false false; HSetMove true].
Lemma before_plain {K} {SK : Scalar K} {TK : Trig K} (h : hum K) p : plain h -> lN (hlip h) = 1%nat -> sN (hsup h) = 1%nat -> s_isInDS (hsup h) = Ok true ->
  exists h', hsteps (before K p) h = Ok h' /\ plain h' /\ hlip h' = hlip h.
Proof.
  intros (B1 & B2 & B3 & B4 & B5 & B6) EN EM ED. unfold before. cbn [hsteps hstep bind]. unfold h_setMove at 1.
  match goal with |- context [h_setConfig false false ?x] => set (h3 := x) end.
  assert (PH3 : plain (h_setConfig false false h3)).
  { unfold h_setConfig. apply plain_constant; [exact EN|exact EM|reflexivity|reflexivity|exact B3|exact B5|right; exact B6]. }
  assert (D3 : s_isInDS (s_setMove true (hsup (h_setConfig false false h3))) = Ok true) by exact ED.
  rewrite D3. cbn [bind]. eexists. split; [reflexivity|]. split; [exact PH3|reflexivity].
Qed.
Section Setup.
Context {K : Type} {SK : Scalar K} {TK : Trig K}.
Lemma hsteps_next c (cs : list (hcall K)) h h' : hstep c h = Ok h' -> hsteps (c :: cs) h = hsteps cs h'.
Proof. intros H. cbn [hsteps]. rewrite H. reflexivity. Qed.
Lemma new_plain l0 : sltb (s0 : K) s1 = true -> newLipDefault = Ok l0 -> lN l0 = 1%nat ->
  exists h : hum K, newHum = Ok h /\ newSup 1 (s1 : K) = Ok (hsup h) /\ hlip h = l0 /\ plain h.
Proof.
  intros L0 C0 F0. unfold newHum, newSupDefault. destruct (newSup 1 s1) as [s| | | |] eqn:E; [|unfold newSup, newFoot in E; rewrite L0 in E; discriminate E..].
  assert (EN : sN s = 1%nat) by (unfold newSup, newFoot in E; rewrite L0 in E; cbn [guard bind Nat.ltb Nat.leb] in E; injection E as <-; reflexivity).
  cbn [bind]. rewrite C0. cbn [bind]. eexists. split; [reflexivity|]. split; [reflexivity|]. split; [reflexivity|].
  apply plain_constant; [exact F0|exact EN|reflexivity|reflexivity|reflexivity|reflexivity|left; reflexivity].
Qed.
Lemma samples_plain l s (h : hum K) : plain h -> l_setNbSamples 1 (hlip h) = Ok l -> lN l = 1%nat -> s_setNbSamples 1 (hsup h) = Ok s -> sN s = 1%nat ->
  exists h', h_setNbSamples 1 h = Ok h' /\ plain h' /\ hsup h' = s /\ hlip h' = l.
Proof.
  intros (K1 & K2 & K3 & K4 & K5 & t & K6) C F X EN. unfold h_setNbSamples. rewrite C, X. cbn [guard bind Nat.ltb Nat.leb]. eexists. split; [reflexivity|]. split; [|split; reflexivity].
  apply plain_constant; [exact F|exact EN|exact K1|exact K2|exact K3|exact K5|right; exists t; exact K6].
Qed.
Lemma period_plain T l s (h : hum K) : plain h -> sleb s0 T = true -> l_setSamplingPeriod T (hlip h) = Ok l -> s_setSamplingPeriod T (hsup h) = Ok s ->
  exists h', h_setSamplingPeriod T h = Ok h' /\ plain h' /\ hsup h' = s /\ hlip h' = l.
Proof. intros P L C X. unfold h_setSamplingPeriod. rewrite L, C, X. cbn [guard bind]. eexists. split; [reflexivity|]. split; [exact P|]. split; reflexivity. Qed.
Lemma step_plain D s (h : hum K) : plain h -> sltb s0 D = true -> sltb s0 (sadd (ssub D (sT (hsup h))) EPS) = true -> s_setStepPeriod D (hsup h) = Ok s ->
  exists h', h_setStepPeriod D h = Ok h' /\ plain h' /\ hsup h' = s /\ hlip h' = hlip h.
Proof. intros P L L' X. unfold h_setStepPeriod. rewrite L, L', X. cbn [guard bind]. eexists. split; [reflexivity|]. split; [exact P|]. split; reflexivity. Qed.
Lemma length_plain D s (h : hum K) : plain h -> s_setInitialDoubleSupportLength D (hsup h) = Ok s ->
  exists h', h_setInitialDoubleSupportLength D h = Ok h' /\ plain h' /\ hsup h' = s /\ hlip h' = hlip h.
Proof. intros P X. unfold h_setInitialDoubleSupportLength. rewrite X. cbn [bind]. eexists. split; [reflexivity|]. split; [exact P|]. split; reflexivity. Qed.
Lemma setup_plain (T D : K) p l0 l1 l2 : sltb (s0 : K) s1 = true -> sltb s0 T = true -> sleb s0 T = true -> sltb s0 D = true ->
  sltb s0 (sadd (ssub D T) EPS) = true -> sltb D (ssub (smul (sofZ 2) s1) EPS) = false ->
  newLipDefault = Ok l0 -> lN l0 = 1%nat -> l_setNbSamples 1 l0 = Ok l1 -> lN l1 = 1%nat -> l_setSamplingPeriod T l1 = Ok l2 -> lN l2 = 1%nat ->
  exists h, generator 1 T D D (before K p) = Ok h /\ plain h /\ hlip h = l2.
Proof.
  intros L0 L1 L2 L3 L4 L5 C0 F0 C1 F1 C2 F2. destruct (new_plain l0 L0 C0 F0) as (h0 & G0 & P0 & Q0 & PH0).
  destruct (sup_setup T D _ L0 L1 L2 L3 L5 P0) as (s & X0). pose proof X0 as X0'.
  cbn [ssteps sstep_call] in X0. apply bind_ok in X0. destruct X0 as (s1' & X1 & X0). apply bind_ok in X0. destruct X0 as (s2 & X2 & X0). apply bind_ok in X0. destruct X0 as (s3 & X3 & X0). apply bind_ok in X0. destruct X0 as (s4 & X4 & X0). injection X0 as ->.
  destruct (setup_state 1 T D D (hsup h0) s P0 X0') as (f & _ & _ & _ & _ & E). cbv zeta in E. assert (ED : s_isInDS s = Ok true) by (rewrite E; reflexivity). assert (EN : sN s = 1%nat) by (rewrite E; reflexivity). clear E X0'.
  assert (ET : sT s2 = T) by (unfold s_setSamplingPeriod in X2; binds X2; injection X2 as <-; reflexivity).
  assert (EM : sN s1' = 1%nat) by (unfold s_setNbSamples in X1; binds X1; injection X1 as <-; reflexivity).
  rewrite <- Q0 in C1. destruct (samples_plain l1 s1' h0 PH0 C1 F1 X1 EM) as (h1 & G1 & PH1 & A1 & B1). rewrite <- A1 in X2. rewrite <- B1 in C2.
  destruct (period_plain T l2 s2 h1 PH1 L2 C2 X2) as (h2 & G2 & PH2 & A2 & B2). rewrite <- A2 in X3, ET.
  destruct (step_plain D s3 h2 PH2 L3 ltac:(rewrite ET; exact L4) X3) as (h3 & G3 & PH3 & A3 & B3). rewrite <- A3 in X4.
  destruct (length_plain D s h3 PH3 X4) as (h4 & G4 & PH4 & A4 & B4). rewrite <- A4 in ED, EN.
  destruct (before_plain h4 p PH4 ltac:(rewrite B4, B3, B2; exact F2) EN ED) as (h' & Q1 & Q2 & Q3).
  exists h'. split; [|split; [exact Q2|congruence]]. unfold generator. rewrite G0. cbn [bind].
  rewrite (hsteps_next (HSetNbSamples 1) _ h0 h1 G1), (hsteps_next (HSetSamplingPeriod T) _ h1 h2 G2), (hsteps_next (HSetStepPeriod D) _ h2 h3 G3), (hsteps_next (HSetDSLength D) _ h3 h4 G4). exact Q1.
Qed.
End Setup.
Section Case.
Context {TF : Trig F} {TR : Trig R}.
Definition poly32 : polygon F := MkPoly [(s0, s0); (s1, s0); (s1, s1)] s0 s0 s0 s0 [].
Lemma num_int z : (Z.abs z <= 16384)%Z -> val (num float32 (IZR z * 1)) = IZR z.
Proof. intros H. unfold num. cbn [val]. rewrite Rmult_1_r. apply f32_int. exact H. Qed.
Lemma setup32 : exists h : hum F, generator 1 (num float32 (IZR 1 * 1)) (num float32 (IZR 2 * 1)) (num float32 (IZR 2 * 1)) (before F poly32) = Ok h
  /\ plain h /\ fine (hlip h) /\ solvable (hlip h).
Proof.
  pose proof (num_int 1 ltac:(lia)) as N1. pose proof (num_int 2 ltac:(lia)) as N2. set (T := num float32 (IZR 1 * 1)) in *. set (D := num float32 (IZR 2 * 1)) in *. clearbody T D.
  pose proof eps32 as E3. set (e := EPS (K:=F)) in *.
  assert (L0 : sltb (s0 : F) s1 = true) by (apply Rltb_true; cbn [s0 s1 FlScalar val]; lra). assert (L1 : sltb s0 T = true) by (apply Rltb_true; cbn [s0 FlScalar val]; lra). assert (L2 : sleb s0 T = true) by (apply Rleb_true; cbn [s0 FlScalar val]; lra).
  assert (L3 : sltb s0 D = true) by (apply Rltb_true; cbn [s0 FlScalar val]; lra).
  assert (L4 : sltb s0 (sadd (ssub D T) e) = true).
  { apply Rltb_true. cbn [s0 sadd ssub FlScalar val]. rewrite N1, N2. replace (2 - 1) with 1 by ring. rewrite (f32_int 1) by lia. clearbody e. pose proof (f32_near (1 + val e) ltac:(lra)). lra. }
  assert (two : val (smul (sofZ 2) (s1 : F)) = 2) by (cbn [smul sofZ s1 FlScalar val]; rewrite (f32_int 2) by lia; rewrite Rmult_1_r; apply (f32_int 2); lia).
  assert (L5 : sltb D (ssub (smul (sofZ 2) (s1 : F)) e) = false).
  { apply Rltb_false. cbn [ssub FlScalar val] in *. cbn [smul sofZ s1 FlScalar val] in two |- *. rewrite two, N2. clearbody e. pose proof (f32_near (2 - val e) ltac:(lra)). lra. }
  assert (A0 : exists l, newLipDefault = Ok l /\ fine l).
  { unfold newLipDefault, newLip, l_auto. cbn [lauto]. match goal with |- context [l_computeDynamics ?x] => destruct (comp32 x) as (l0 & C0 & F0 & _); [constructor; reflexivity|] end. eauto. }
  destruct A0 as (l0 & C0 & F0).
  assert (A1 : exists l, l_setNbSamples 1 l0 = Ok l /\ fine l).
  { unfold l_setNbSamples, l_auto. cbn [guard bind Nat.ltb Nat.leb]. match goal with |- context [l_computeDynamics ?x] => destruct (comp32 x) as (l1 & C1 & F1 & _); [destruct F0; constructor; assumption||reflexivity|] end.
    cbn [l_setPar lauto] in *. rewrite (fi_auto _ F0) in *. eauto. }
  destruct A1 as (l1 & C1 & F1).
  assert (A2 : exists l, l_setSamplingPeriod T l1 = Ok l /\ fine l /\ solvable l).
  { unfold l_setSamplingPeriod, l_auto. rewrite L1. cbn [guard bind]. match goal with |- context [l_computeDynamics ?x] => destruct (comp32 x) as (l2 & C2 & F2 & S2 & _); [destruct F1; constructor; assumption||reflexivity|] end.
    cbn [l_setPar lauto] in *. rewrite (fi_auto _ F1) in *. eauto. }
  destruct A2 as (l2 & C2 & F2 & S2).
  destruct (setup_plain T D poly32 l0 l1 l2 L0 L1 L2 L3 L4 L5 C0 (fi_N _ F0) C1 (fi_N _ F1) C2 (fi_N _ F2)) as (h & Q1 & Q2 & Q3).
  exists h. rewrite Q3. auto.
Qed.
Definition plainR (l : lip R) : Prop := lauto l = true /\ lN l = 1%nat /\ lT l = 1 /\ lfb l = 1 /\ lh l = 1 /\ lg l = GRAVITY /\ lm l = 1 /\ lM l = 1.
Lemma compR l : plainR l -> exists l', l_computeDynamics l = Ok l' /\ plainR l'.
Proof.
  intros (A & B & C & D & H & E & F' & G). destruct (l_compute_returns l) as (l' & Q & _); [lra| |].
  - unfold valid_params. rewrite C, B, E, F', G. unfold GRAVITY. cbn [gz]. rsimpl. rewrite Rabs_right by lra. repeat split; try lra. lia.
  - exists l'. split; [exact Q|]. unfold l_computeDynamics in Q. binds Q. injection Q as <-. unfold plainR. cbn [l_setDyn l_setNb lauto lN lT lfb lh lg lm lM]. auto 10.
Qed.
Lemma setupR : exists r : hum R, generator 1 (IZR 1 * 1) (IZR 2 * 1) (IZR 2 * 1) (before R (square 1)) = Ok r /\ plain r /\ plainR (hlip r).
Proof.
  rewrite !Rmult_1_r. assert (A0 : exists l, newLipDefault = Ok l /\ plainR l).
  { unfold newLipDefault, newLip, l_auto. cbn [lauto]. apply compR. repeat split. }
  destruct A0 as (l0 & C0 & F0).
  assert (A1 : exists l, l_setNbSamples 1 l0 = Ok l /\ plainR l).
  { unfold l_setNbSamples, l_auto. cbn [guard bind Nat.ltb Nat.leb l_setPar lauto]. pose proof F0 as (-> & _). apply compR. destruct F0 as (? & ? & ? & ? & ? & ? & ? & ?). unfold plainR, l_setPar. cbn [lauto lN lT lfb lh lg lm lM]. auto 10. }
  destruct A1 as (l1 & C1 & F1).
  assert (A2 : exists l, l_setSamplingPeriod 1 l1 = Ok l /\ plainR l).
  { unfold l_setSamplingPeriod, l_auto. rewrite (proj2 (Rltb_true s0 1)) by (rsimpl_goal; lra). cbn [guard bind l_setPar lauto]. pose proof F1 as (-> & _). apply compR. destruct F1 as (? & ? & ? & ? & ? & ? & ? & ?). unfold plainR, l_setPar. cbn [lauto lN lT lfb lh lg lm lM]. auto 10. }
  destruct A2 as (l2 & C2 & F2).
  destruct (setup_plain 1 2 (square 1) l0 l1 l2) as (h & Q1 & Q2 & Q3); try assumption; try (apply F0 || apply F1 || apply F2).
  1,2,4,5: apply Rltb_true; unfold EPS; rsimpl_goal; lra. 1: apply Rleb_true; rsimpl_goal; lra. 1: apply Rltb_false; unfold EPS; rsimpl_goal; lra.
  exists h. rewrite Q3. auto.
Qed.
Lemma settings32 : settings 1 1 2 2 2 1 /\ fine_enough (bpow radix2 (-24)) (bpow radix2 (-150)) 1 1 2 1 /\ 2 <= longest 1 1 2 1.
Proof.
  split; [unfold settings; repeat split; try lia; lra|]. unfold fine_enough, one_error, longest. cbn [Z.of_nat Z.add Z.mul Z.max Z.compare Pos.add Pos.mul Pos.succ Pos.compare Pos.compare_cont Pos.of_succ_nat].
  destruct bpow_small as (B1 & _ & B3 & _). assert (U : bpow radix2 (-24) = / 16777216) by (rewrite B3; f_equal; ring). rewrite U.
  assert (bpow radix2 (-150) <= / 1000000000000).
  { apply Rle_trans with (/ 2 ^ 60); [exact B1|]. apply Rinv_le_contravar; [lra|]. replace (2 ^ 60) with ((2 ^ 10) ^ 6) by (rewrite <- pow_mult; reflexivity). replace (2 ^ 10) with 1024 by ring. apply Rle_trans with (1000 ^ 6); [lra|]. apply pow_incr. lra. }
  split; [nra|lra].
Qed.
Lemma before32 : Forall2 (same_call 1) (before F poly32) (before R (square 1)).
Proof.
  assert (P : pverts poly32 = [] <-> pverts (square 1) = []) by (split; [discriminate|unfold square; rewrite (proj2 (polygon_counted _)); discriminate]).
  unfold before. repeat (constructor; [cbn [same_call]; auto|]). constructor.
Qed.
(** Two generators for one sample of a second, in single precision and in exact arithmetic, with feet of different shapes, that start to walk *)
Example C66_generator_case : exists (h : hum F) (r : hum R),
  rounding float32 (bpow radix2 (-24)) (bpow radix2 (-150)) /\ settings 1 1 2 2 2 1 /\ fine_enough (bpow radix2 (-24)) (bpow radix2 (-150)) 1 1 2 1 /\ 2 <= longest 1 1 2 1
  /\ Forall2 (same_call 1) (before F poly32) (before R (square 1))
  /\ generator 1 (num float32 (IZR 1 * 1)) (num float32 (IZR 2 * 1)) (num float32 (IZR 2 * 1)) (before F poly32) = Ok h
  /\ generator 1 (IZR 1 * 1) (IZR 2 * 1) (IZR 2 * 1) (before R (square 1)) = Ok r.
Proof.
  destruct setup32 as (h & E & _). destruct setupR as (r & E' & _). exists h, r. pose proof settings32 as (S1 & S2 & S3). pose proof before32 as B.
  do 5 (split; [first [exact f32|assumption]|]). split; [exact E|exact E'].
Qed.
End Case.
Print Assumptions C66_generator_case.
