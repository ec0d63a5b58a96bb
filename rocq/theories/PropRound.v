(** Rounding does not change the schedule (C66). *)

From Coq Require Import Reals List ZArith Arith Bool Lra Lia.
From Flocq Require Import Core Relative.
From Verif Require Import Scalar LinAlg LinAlgFacts ToolsModel InterpModel PolygonModel FootModel SupModel SupSpec HullFacts RoundModel RoundSpec RoundSup PropSup.
Import ListNotations.
Local Open Scope R_scope.

(** ** From the specification to the simulation *)
Section Bridge.
Variables (rnd : R -> R) (u eta : R) (N : nat) (a j l m : Z) (fb : R).
Hypothesis HR : rounding rnd u eta.
Hypothesis HS : settings N a j l m fb.
Hypothesis HF : fine_enough u eta N a m fb.
Definition num (x : R) : fl rnd := Fl (rnd x).
Let g := fb / 2.
Let Bd := longest N a m fb.

Lemma half k : IZR (2 * k) * g = IZR k * fb.
Proof. unfold g. rewrite mult_IZR. field. Qed.
Lemma br_B : IZR (KB N a m) * g + 1/1000 <= Bd.
Proof. unfold KB, Bd, longest. rewrite half. lra. Qed.
Lemma br_g : 2/10000 <= g.
Proof. unfold g. destruct HS as (_ & _ & _ & _ & _ & _ & H). lra. Qed.
Lemma br_EM : EM u eta Bd N a m + d u eta Bd * IZR (a + 40) < 1/10000.
Proof.
  unfold fine_enough in HF. unfold EM, ZZ, d. fold Bd in HF. unfold one_error in HF. rewrite <- !Rmult_plus_distr_l, <- !plus_IZR.
  replace (Z.of_nat N + 18 + 2 * m + 2 * Z.of_nat N * a + (2 * a + 2 + 2 * XS N a m) + (a + 40))%Z with (Z.of_nat N + 3 * a + 60 + 2 * m + 2 * Z.max m (Z.of_nat N * a))%Z by (unfold XS; lia). exact HF.
Qed.
Lemma br_setting k : (0 <= k <= m)%Z \/ (0 <= k <= Z.of_nat N * a + m + a + 1)%Z -> setting rnd u eta g Bd (2 * k) (num (IZR k * fb)) (IZR k * fb).
Proof.
  intros Hk. assert (Hk' : (0 <= k <= Z.of_nat N * a + m + a + 1)%Z) by (destruct HS as (h1 & h2 & h3 & _); destruct Hk; nia). destruct Hk' as (K0 & K1).
  split; [symmetry; apply half|]. unfold near, num. cbn [val]. destruct HR as (H1 & H2 & H3 & _). pose proof (H1 (IZR k * fb)) as H.
  assert (F0 : 0 < fb) by (destruct HS as (_ & _ & _ & _ & _ & _ & Hf); lra). apply IZR_le in K0. apply IZR_le in K1.
  assert (P0 : 0 <= IZR k * fb) by (apply Rmult_le_pos; lra). rewrite (Rabs_pos_eq (IZR k * fb)) in H by exact P0.
  assert (P1 : IZR k * fb <= Bd) by (unfold Bd, longest; pose proof (Rmult_le_compat_r fb _ _ (Rlt_le _ _ F0) K1); lra).
  unfold d. assert (u * (IZR k * fb) <= u * Bd) by (apply Rmult_le_compat_l; assumption). assert (0 <= eta * Bd) by (apply Rmult_le_pos; lra). lra.
Qed.
Definition Srel := srel rnd u eta g Bd N a m.
Lemma br_a : setting rnd u eta g Bd (2 * a) (num (IZR a * fb)) (IZR a * fb).
Proof. apply br_setting. destruct HS as (h1 & h2 & h3 & h4 & h5 & h6 & _). lia. Qed.
Lemma br_fb : setting rnd u eta g Bd 2 (num fb) fb.
Proof. pose proof (br_setting 1 ltac:(destruct HS as (h1 & h2 & h3 & h4 & h5 & h6 & _); lia)) as H. rewrite Rmult_1_l in H. exact H. Qed.
Lemma br_walk es es' : Forall2 same_shape es es' ->
  rres Srel (walk N (num (IZR a * fb)) (num fb) (num (IZR j * fb)) (num (IZR l * fb)) es) (walk N (IZR a * fb) fb (IZR j * fb) (IZR l * fb) es').
Proof.
  intros He. pose proof HS as (h1 & h2 & h3 & h4 & h5 & h6 & h7). pose proof HR as (r1 & r2 & r3 & r4 & r5).
  apply (walk_sim rnd u eta r1 r2 r3 r4 r5 g Bd N a m (conj h1 h2) h3 h6 br_B br_g br_EM j l); try assumption; [apply br_a|apply br_fb|apply br_setting; lia|apply br_setting; lia].
Qed.
Lemma br_plan s r : Srel s r -> same_plan s r.
Proof.
  pose proof HS as (h1 & h2 & h3 & h4 & h5 & h6 & h7). pose proof HR as (r1 & r2 & r3 & r4 & r5).
  apply (srel_plan rnd u eta r2 r3 g Bd N a m (conj h1 h2) h3 h6 br_B br_g br_EM).
Qed.
Lemma br_update s r v w : Srel s r -> vlen v = vlen w ->
  rres (fun p q => srel1 rnd u eta g Bd N a m (fst p) (fst q) /\ vlen (snd p) = vlen (snd q)) (s_updateTimeline v (num fb) s) (s_updateTimeline w fb r).
Proof.
  intros H E. pose proof HS as (h1 & h2 & h3 & h4 & h5 & h6 & h7). pose proof HR as (r1 & r2 & r3 & r4 & r5).
  apply (updateTimeline_sim rnd u eta r1 r2 r3 r4 g Bd N a m (conj h1 h2) h3 h6 br_B br_g br_EM); [exact H|exact E|apply br_fb].
Qed.
Lemma br_calls s r : srel1 rnd u eta g Bd N a m s r -> rres eq (s_getNbOfCallsBeforeNextSample s) (s_getNbOfCallsBeforeNextSample r).
Proof.
  intros H. pose proof HS as (h1 & h2 & h3 & h4 & h5 & h6 & h7). pose proof HR as (r1 & r2 & r3 & r4 & r5).
  apply (nbOfCalls_sim rnd u eta r1 r2 r3 r4 g Bd N a m (conj h1 h2) h3 h6 br_B br_g br_EM). exact H.
Qed.
Lemma br_feet s r v w : srel1 rnd u eta g Bd N a m s r -> vlen v = vlen w -> rres Srel (s_updateFeetStates v (num fb) s) (s_updateFeetStates w fb r).
Proof.
  intros H E. pose proof HS as (h1 & h2 & h3 & h4 & h5 & h6 & h7). pose proof HR as (r1 & r2 & r3 & r4 & r5).
  apply (updateFeet_sim rnd u eta r1 r2 r3 r4 r5 g Bd N a m (conj h1 h2) h3 h6 br_B br_g br_EM); [exact H|exact E|apply br_fb].
Qed.
Lemma br_events es es' s r : Forall2 same_shape es es' -> Srel s r ->
  rres Srel (ssteps (flat_map (event_calls (num fb)) es) s) (ssteps (flat_map (event_calls fb) es') r).
Proof.
  intros He H. pose proof HS as (h1 & h2 & h3 & h4 & h5 & h6 & h7). pose proof HR as (r1 & r2 & r3 & r4 & r5).
  apply (events_sim rnd u eta r1 r2 r3 r4 r5 g Bd N a m (conj h1 h2) h3 h6 br_B br_g br_EM); [apply br_fb|exact He|exact H].
Qed.
End Bridge.

(** ** C66: the schedule *)
(** In every arithmetic whose rounding errors are small enough for the settings, after every history of calls, the supervisor has returned
    from the same calls and has the same plan as with exact arithmetic, whatever the numbers in the calls. *)
Theorem C66_same_schedule : forall rnd u eta N a j l m fb es es', rounding rnd u eta -> settings N a j l m fb -> fine_enough u eta N a m fb ->
  Forall2 same_shape es es' ->
  rres same_plan (walk N (num rnd (IZR a * fb)) (num rnd fb) (num rnd (IZR j * fb)) (num rnd (IZR l * fb)) es)
                 (walk N (IZR a * fb) fb (IZR j * fb) (IZR l * fb) es').
Proof.
  intros rnd u eta N a j l m fb es es' HR HS HF He. eapply rres_impl; [|apply (br_walk rnd u eta N a j l m fb HR HS HF es es' He)].
  intros s r H. exact (br_plan rnd u eta N a j l m fb HR HS HF s r H).
Qed.
(** And so does the next solve, which finds the same number of feedback periods before the next sample and a decision vector of the same
    size. *)
Theorem C66_same_solve : forall rnd u eta N a j l m fb es es' v w, rounding rnd u eta -> settings N a j l m fb -> fine_enough u eta N a m fb ->
  Forall2 same_shape es es' -> vlen v = vlen w ->
  rres (fun p q => same_plan (fst (fst p)) (fst (fst q)) /\ vlen (snd (fst p)) = vlen (snd (fst q)) /\ snd p = snd q)
    (do s <- walk N (num rnd (IZR a * fb)) (num rnd fb) (num rnd (IZR j * fb)) (num rnd (IZR l * fb)) es;
     do q <- s_updateTimeline v (num rnd fb) s; do c <- s_getNbOfCallsBeforeNextSample (fst q); Ok (q, c))
    (do s <- walk N (IZR a * fb) fb (IZR j * fb) (IZR l * fb) es';
     do q <- s_updateTimeline w fb s; do c <- s_getNbOfCallsBeforeNextSample (fst q); Ok (q, c)).
Proof.
  intros rnd u eta N a j l m fb es es' v w HR HS HF He E. eapply rres_bind; [apply (br_walk rnd u eta N a j l m fb HR HS HF es es' He)|]. intros s r H.
  eapply rres_bind; [apply (br_update rnd u eta N a j l m fb HR HS HF s r v w H E)|]. intros p q (H1 & E1).
  eapply rres_bind; [apply (br_calls rnd u eta N a j l m fb HR HS HF _ _ H1)|]. intros c c' <-. cbn [rres fst snd].
  split; [|split; [exact E1|reflexivity]]. apply (br_plan rnd u eta N a j l m fb HR HS HF). apply H1.
Qed.

(** ** C66: a walk never fails *)
Definition ghost_event {K} (e : event K) : event R :=
  match e with
  | EMove b => EMove b
  | EKin f p => EKin f (match pverts p with [] => emptyPolygon | _ => MkPoly [(0, 0)] 0 0 0 0 [] end)
  | ECop f _ => ECop f emptyPolygon | EHeight f _ => EHeight f 0
  | EFootX f v => EFootX f (vzero (vlen v)) | EFootY f v => EFootY f (vzero (vlen v)) | EFootZ f v => EFootZ f (vzero (vlen v))
  | ESolve v w => ESolve (vzero (vlen v)) (vzero (vlen w))
  end.
Lemma ghost_shape {K} (es : list (event K)) : Forall2 same_shape es (map ghost_event es).
Proof.
  induction es as [|e es IH]; cbn [map]; constructor; [|exact IH]. destruct e; cbn [ghost_event same_shape]; try reflexivity; try (split; reflexivity).
  split; [reflexivity|]. destruct (pverts p); cbn; split; intros; congruence.
Qed.
Definition ghost {K} (x : stride K) : action := MkAction (flat_map (event_calls 0) (map ghost_event (st_events x))) (st_move x) (fun w => w).
Lemma proper_calls {K} (es : list (event K)) fb : Forall proper es ->
  flat_map (event_calls fb) (map ghost_event es) = flat_map (event_calls 0) (map ghost_event es) /\ Forall foot_call (flat_map (event_calls 0) (map ghost_event es)).
Proof.
  induction 1 as [|e es He H (IH1 & IH2)]; cbn [map flat_map]; [split; [reflexivity|constructor]|]. rewrite IH1. split.
  - destruct e; cbn [proper] in He; try contradiction; reflexivity.
  - apply Forall_app. split; [|exact IH2]. destruct e; cbn [proper] in He; try contradiction; cbn [ghost_event event_calls]; constructor; try constructor; cbn [foot_call vlen vzero]; try exact He; try exact Logic.I.
    destruct (pverts p); [contradiction|]. discriminate.
Qed.
Lemma ghost_allowed {K} (x : stride K) : proper_stride x -> allowed (ghost x).
Proof. intros (H & _). split; [apply (proper_calls _ 0 H)|reflexivity]. Qed.
Lemma rides_sim rnd u eta N a j l m fb : rounding rnd u eta -> settings N a j l m fb -> fine_enough u eta N a m fb ->
  forall xs, Forall proper_stride xs -> forall s v r w, Srel rnd u eta N a m fb s r -> vlen v = vlen w ->
  rres (fun p q => Srel rnd u eta N a m fb (fst p) (fst q) /\ vlen (snd p) = vlen (snd q)) (rides (num rnd fb) xs (s, v)) (cycles fb (map ghost xs) (r, w)).
Proof.
  intros HR HS HF xs Hx. induction Hx as [|x xs (Hp & Hq) Hx IH]; intros s v r w H E; cbn [rides cycles map]; [split; assumption|].
  apply rres_bind with (P := fun p q => Srel rnd u eta N a m fb (fst p) (fst q) /\ vlen (snd p) = vlen (snd q)); [|intros (s' & v') (r' & w') (H' & E'); apply IH; [exact H'|exact E']].
  unfold ride, cycle, ghost. cbn [acalls amove aqp fst snd]. rewrite <- (proj1 (proper_calls _ fb Hp)).
  eapply rres_bind; [apply (br_events rnd u eta N a j l m fb HR HS HF _ _ s r (ghost_shape _) H)|]. intros s0 r0 H0.
  assert (H1 : Srel rnd u eta N a m fb (s_setMove (st_move x) s0) (s_setMove (st_move x) r0)).
  { assert (Q : rres (Srel rnd u eta N a m fb) (ssteps (flat_map (event_calls (num rnd fb)) [EMove (st_move x)]) s0) (ssteps (flat_map (event_calls fb) [EMove (st_move x)]) r0))
      by (apply (br_events rnd u eta N a j l m fb HR HS HF); [constructor; [reflexivity|constructor]|exact H0]). exact Q. }
  eapply rres_bind; [apply (br_update rnd u eta N a j l m fb HR HS HF _ _ v w H1 E)|]. intros (s1 & v1) (r1 & w1) (H2 & E2). cbn [fst snd] in H2, E2.
  assert (En : sN s1 = sN r1 /\ snb s1 = snb r1) by (destruct H2 as (((A1 & A2 & _ & _ & _ & A3 & _) & _) & _); split; [congruence|exact A3]). destruct En as (-> & ->).
  eapply rres_bind; [apply (br_feet rnd u eta N a j l m fb HR HS HF _ _ _ (vseg w1 (2 * sN r1) (2 * snb r1)) H2); reflexivity|].
  intros s2 r2 H3. cbn [rres fst snd]. split; [exact H3|]. rewrite Hq. exact E2.
Qed.
(** The exact supervisor of the settings. *)
Lemma exact_start N n p b fb pl pr : (0 < N)%nat -> (0 < n)%nat -> (0 < p <= S N)%nat -> (0 < b)%nat -> 4/10000 <= fb -> pverts pl <> [] -> pverts pr <> [] ->
  exists s, walk N (INR n * fb) fb (INR p * (INR n * fb)) (INR b * (INR n * fb)) [EKin SLeft pl; EKin SRight pr] = Ok s
            /\ configured s (vzero (2 * N)) n p b fb /\ sN s = N.
Proof.
  intros HN Hn Hp Hb Hfb Hl Hr. assert (n1 : 1 <= INR n) by (apply (le_INR 1); lia). assert (p1 : 1 <= INR p) by (apply (le_INR 1); lia). assert (b1 : 1 <= INR b) by (apply (le_INR 1); lia).
  set (T := INR n * fb). assert (HT : 0 < T) by (unfold T; nra). assert (HP : 0 < INR p * T) by nra. assert (HL : 0 < INR b * T) by nra.
  unfold walk. set (cs := SSetStepPeriod (INR p * T) :: SSetDSLength (INR b * T) :: flat_map (event_calls fb) [EKin SLeft pl; EKin SRight pr]).
  assert (E0 : exists s0, newSup N T = Ok s0 /\ exists s, ssteps cs s0 = Ok s /\ sN s = N /\ sT s = T /\ sstep s = INR p * T /\ sDS s = INR b * T /\ fkin (sleft s) = pl /\ fkin (sright s) = pr).
  { unfold newSup, newFoot. change (sltb s0 T) with (Rltb 0 T). rewrite (proj2 (Rltb_true 0 T) HT). rewrite (proj2 (Nat.ltb_lt 0 N) HN). cbn [guard bind]. eexists. split; [reflexivity|].
    unfold cs. cbn [flat_map event_calls app ssteps sstep_call]. unfold s_setStepPeriod at 1. change (sltb s0 (INR p * T)) with (Rltb 0 (INR p * T)). rewrite (proj2 (Rltb_true 0 (INR p * T)) HP).
    cbn [guard bind s_isInDS s_front cb_at stl cbl rd nth_error phType is_DS]. unfold s_setInitialDoubleSupportLength at 1. cbn [bind s_isInDS s_front cb_at stl cbl rd nth_error phType is_DS sDS sttnp].
    match goal with |- context [sltb ?A ?B] => destruct (sltb A B) end.
    - match goal with |- context [guard (sltb ?A ?B)] => assert (sltb A B = true) as -> end.
      { apply Rltb_true. rsimpl_goal. lra. }
      cbn [guard bind cb_set cbl cb_size length Nat.ltb Nat.leb lset]. eexists. split; [reflexivity|]. repeat split.
    - cbn [guard bind cb_set cbl cb_size length Nat.ltb Nat.leb lset]. eexists. split; [reflexivity|]. repeat split. }
  destruct E0 as (s0 & E0 & s & Es & A1 & A2 & A3 & A4 & A5 & A6). exists s. rewrite E0. cbn [bind]. split; [exact Es|]. split; [|exact A1].
  constructor; try assumption; try (rewrite ?A1, ?A2, ?A3, ?A4, ?A5, ?A6; assumption || reflexivity || lia).
  - exists N, T, s0, cs. split; [exact E0|]. split; [|exact Es]. unfold cs. cbn [flat_map event_calls app]. repeat constructor.
  - rsimpl_goal. lra.
  - rewrite A5, A6. split; assumption.
Qed.
(** A walk in rounded arithmetic never fails: no assertion fires, nothing is read outside a container, no division by zero.  The sampling
    period is [n] feedback periods, a step lasts [p] sampling periods and at most one more than the horizon, the initial double support
    lasts [b] sampling periods. *)
Theorem C66_rounded_walk_never_fails : forall rnd u eta N n p b m fb pl pr xs, rounding rnd u eta ->
  settings N (Z.of_nat n) (Z.of_nat (p * n)) (Z.of_nat (b * n)) m fb -> fine_enough u eta N (Z.of_nat n) m fb ->
  (p <= S N)%nat -> pverts pl <> [] -> pverts pr <> [] -> Forall proper_stride xs ->
  exists q, (do s <- walk N (num rnd (INR n * fb)) (num rnd fb) (num rnd (INR (p * n) * fb)) (num rnd (INR (b * n) * fb)) [EKin SLeft pl; EKin SRight pr];
             rides (num rnd fb) xs (s, vzero (2 * N))) = Ok q.
Proof.
  intros rnd u eta N n p b m fb pl pr xs HR HS HF Hp Hl Hr Hx. pose proof HS as (h1 & h2 & h3 & h4 & h5 & h6 & h7).
  destruct (exact_start N n p b fb (MkPoly [(0, 0)] 0 0 0 0 []) (MkPoly [(0, 0)] 0 0 0 0 []) h1 ltac:(lia) ltac:(nia) ltac:(nia) h7 ltac:(discriminate) ltac:(discriminate)) as (r & Er & C & N2).
  pose proof (br_walk rnd u eta N _ _ _ m fb HR HS HF [EKin SLeft pl; EKin SRight pr] (map ghost_event [EKin SLeft pl; EKin SRight pr]) (ghost_shape _)) as W.
  rewrite <- !INR_IZR_INZ in W.
  assert (Eg : map ghost_event [EKin SLeft pl; EKin SRight pr] = [EKin SLeft (MkPoly [(0, 0)] 0 0 0 0 []); EKin SRight (MkPoly [(0, 0)] 0 0 0 0 [])]).
  { cbn [map ghost_event]. destruct (pverts pl); [contradiction|]. destruct (pverts pr); [contradiction|]. reflexivity. }
  rewrite Eg in W. rewrite !mult_INR, !Rmult_assoc, Er in W. rewrite !mult_INR, !Rmult_assoc.
  clear Er. destruct (walk N (num rnd _) _ _ _ _) as [s| | | |]; cbn [rres] in W; try contradiction. cbn [bind].
  destruct (C31_walk_never_fails r _ n p b fb (map ghost xs) C) as (r' & w' & Ec & _).
  { clear -Hx. induction Hx; cbn [map]; constructor; [apply ghost_allowed; assumption|assumption]. }
  pose proof (rides_sim rnd u eta N _ _ _ m fb HR HS HF xs Hx s (vzero (2 * N)) r (vzero (2 * N)) W eq_refl) as Q. rewrite Ec in Q.
  destruct (rides _ _ _) as [q| | | |]; cbn [rres] in Q; try contradiction. exists q. reflexivity.
Qed.

(** ** C66: IEEE 754 *)
(** Rounding to nearest, ties to even, with [prec] bits and smallest exponent [emin]; the range of the exponents is not bounded above. *)
Definition ieee (emin prec : Z) : R -> R := round radix2 (FLT_exp emin prec) ZnearestE.
Theorem C66_ieee_rounding : forall emin prec, (15 <= prec)%Z -> (emin <= -1)%Z -> rounding (ieee emin prec) (bpow radix2 (- prec)) (bpow radix2 (emin - 1)).
Proof.
  intros emin prec Hp He. assert (P0 : Prec_gt_0 prec) by (unfold Prec_gt_0; lia).
  assert (Hex : forall z e, (Z.abs z < 2 ^ prec)%Z -> (emin <= e)%Z -> ieee emin prec (F2R (Float radix2 z e)) = F2R (Float radix2 z e)).
  { intros z e Hz H. unfold ieee. apply round_generic; [apply valid_rnd_N|]. apply generic_format_FLT. exists (Float radix2 z e); [reflexivity|exact Hz|exact H]. }
  assert (P14 : (16384 < 2 ^ prec)%Z) by (apply Z.lt_le_trans with (2 ^ 15)%Z; [reflexivity|apply Z.pow_le_mono_r; lia]).
  repeat split.
  - intros x. destruct (relative_error_N_FLT'_ex radix2 emin prec P0 (fun z => negb (Z.even z)) x) as (e & h & He1 & Hh & _ & E). unfold ieee. rewrite E.
    replace (x * (1 + e) + h - x) with (x * e + h) by ring. eapply Rle_trans; [apply Rabs_triang|]. rewrite Rabs_mult. apply Rplus_le_compat.
    + rewrite Rmult_comm. apply Rmult_le_compat_r; [apply Rabs_pos|]. eapply Rle_trans; [exact He1|]. unfold u_ro.
      assert (B : / 2 * bpow radix2 (- prec + 1) = bpow radix2 (- prec)) by (rewrite bpow_plus; cbn [bpow]; change (Z.pow_pos radix2 1) with 2%Z; field). rewrite B.
      pose proof (bpow_gt_0 radix2 (- prec)) as Q. apply Rmult_le_reg_r with (1 + bpow radix2 (- prec)); [lra|]. unfold Rdiv. rewrite Rmult_assoc, Rinv_l by lra. nra.
    + eapply Rle_trans; [exact Hh|]. replace (emin - 1)%Z with (emin + -1)%Z by lia. rewrite bpow_plus. change (bpow radix2 (-1)) with (/ 2). lra.
  - apply bpow_ge_0.
  - apply bpow_ge_0.
  - intros z Hz. specialize (Hex z 0%Z ltac:(lia) ltac:(lia)). unfold F2R in Hex. cbn [Fnum Fexp bpow] in Hex. rewrite Rmult_1_r in Hex. exact Hex.
  - specialize (Hex 1%Z (-1)%Z ltac:(lia) ltac:(lia)). unfold F2R in Hex. cbn [Fnum Fexp] in Hex. change (bpow radix2 (-1)) with (/ 2) in Hex. replace (1 * / 2) with (1 / 2) in Hex by field. exact Hex.
Qed.

(** ** Cases *)
(** Sampling period 0.1 s, 16 samples, feedback period 0.02 s, steps of 0.8 s, initial double support of 0.2 s, in
    single and in double precision. *)
Lemma bpow_small : bpow radix2 (-150) <= / 2 ^ 60 /\ bpow radix2 (-1075) <= / 2 ^ 60 /\ bpow radix2 (-24) = / 2 ^ 24 /\ bpow radix2 (-53) <= / 2 ^ 24.
Proof.
  assert (E : forall k, bpow radix2 (- Z.of_nat k) = / 2 ^ k) by (intros k; rewrite bpow_opp; f_equal; rewrite pow_powerRZ, bpow_powerRZ; reflexivity).
  assert (E60 : bpow radix2 (-60) = / 2 ^ 60) by apply (E 60%nat). assert (E24 : bpow radix2 (-24) = / 2 ^ 24) by apply (E 24%nat).
  rewrite <- E60, <- E24. repeat split; try (apply bpow_le; lia).
Qed.
Lemma case_settings : settings 16 5 40 10 40 (1/50).
Proof. unfold settings. repeat split; try lia; lra. Qed.
Lemma case_fine u eta : 0 <= u -> 0 <= eta -> u <= / 2 ^ 24 -> eta <= / 2 ^ 60 -> fine_enough u eta 16 5 40 (1/50).
Proof.
  intros U0 E0 U E. unfold fine_enough, one_error, longest. change (Z.of_nat 16 + 3 * 5 + 60 + 2 * 40 + 2 * Z.max 40 (Z.of_nat 16 * 5))%Z with 331%Z.
  change (Z.of_nat 16 * 5 + 40 + 5 + 1)%Z with 126%Z. assert (E60 : / 2 ^ 60 <= / 2 ^ 24) by (apply Rinv_le_contravar; [apply pow_lt; lra|apply Rle_pow; [lra|lia]]).
  assert (E24 : / 2 ^ 24 = / 16777216) by (f_equal; ring). assert (S60 : / 2 ^ 60 <= / 1000000000000).
  { apply Rinv_le_contravar; [lra|]. replace (2 ^ 60) with ((2 ^ 10) ^ 6) by (rewrite <- pow_mult; reflexivity). replace (2 ^ 10) with 1024 by ring. apply Rle_trans with (1000 ^ 6); [lra|]. apply pow_incr. lra. }
  rewrite E24 in U. assert (eta <= / 1000000000000) by lra. lra.
Qed.
Definition float32 := ieee (-149) 24.
Definition float64 := ieee (-1074) 53.
Example C66_case_settings : settings 16 5 40 10 40 (1/50)
  /\ rounding float32 (bpow radix2 (-24)) (bpow radix2 (-150)) /\ fine_enough (bpow radix2 (-24)) (bpow radix2 (-150)) 16 5 40 (1/50)
  /\ rounding float64 (bpow radix2 (-53)) (bpow radix2 (-1075)) /\ fine_enough (bpow radix2 (-53)) (bpow radix2 (-1075)) 16 5 40 (1/50).
Proof.
  destruct bpow_small as (B1 & B2 & B3 & B4). pose proof (bpow_ge_0 radix2). split; [exact case_settings|]. split; [apply (C66_ieee_rounding (-149) 24); lia|].
  split; [apply case_fine; auto; lra|]. split; [apply (C66_ieee_rounding (-1074) 53); lia|apply case_fine; auto].
Qed.
(** A walk of a thousand solves in single precision, with feet data changed before each, and a quadratic program that shifts everything. *)
Definition case_poly {rnd} : polygon (fl rnd) := MkPoly [(s0, s0); (s1, s0); (s1, s1)] s0 s0 s0 s0 [].
Definition case_stride : stride (fl float32) :=
  MkStride [EFootX SLeft (vzero 3); EKin SRight case_poly; EHeight SLeft s1] true (fun w => MkVec (vlen w) (fun i => sadd (vget w i) s1)).
Example C66_case_walk : exists q,
  (do s <- walk 16 (num float32 (INR 5 * (1/50))) (num float32 (1/50)) (num float32 (INR (8 * 5) * (1/50))) (num float32 (INR (2 * 5) * (1/50)))
             [EKin SLeft case_poly; EKin SRight case_poly];
   rides (num float32 (1/50)) (repeat case_stride 1000) (s, vzero 32)) = Ok q.
Proof.
  destruct C66_case_settings as (S & R1 & F1 & _). apply (C66_rounded_walk_never_fails float32 _ _ 16 5 8 2 40 (1/50) case_poly case_poly (repeat case_stride 1000) R1 S F1); try discriminate; try lia.
  apply Forall_forall. intros x Hx. apply repeat_spec in Hx. subst x. split; [repeat constructor; discriminate|reflexivity].
Qed.
(** A history with a solve in the two arithmetics. *)
Example C66_case_history : let es (K : Type) (SK : Scalar K) := [EKin SLeft (MkPoly [(s0, s0)] s0 s0 s0 s0 []); EMove true; ESolve (vzero 32) (vzero 32)] : list (event K) in
  Forall2 same_shape (es _ (FlScalar float32)) (es R _).
Proof. repeat constructor; discriminate. Qed.

Print Assumptions C66_same_schedule.
Print Assumptions C66_same_solve.
Print Assumptions C66_rounded_walk_never_fails.
Print Assumptions C66_ieee_rounding.
