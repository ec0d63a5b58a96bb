(** Rounding does not change the schedule of the humanoid walk generator (C66). *)

From Coq Require Import Reals List ZArith Arith Bool Lra Lia.
From Verif Require Import Scalar LinAlg LinAlgFacts ToolsModel PolygonModel QPModel TrajModel LipModel FootModel ModelsFacts SupModel SupSpec HumModel RoundModel RoundSpec RoundSup PropRound RoundHumSpec.
Import ListNotations.
Local Open Scope R_scope.

(** ** What the calls of the generator do to its supervisor *)
Section Parts.
Context {K : Type} {SK : Scalar K} {TK : Trig K}.
Lemma prep_parts fb (h h1 : hum K) : h_prepare fb h = Ok h1 ->
  exists s X, s_updateTimeline (hX h) fb (hsup h) = Ok (s, X) /\ hsup h1 = s /\ vlen (hX h1) = vlen X.
Proof.
  unfold h_prepare, h_updateModels. intros H. apply bind_ok in H. destruct H as (h2 & H1 & H).
  apply bind_ok in H1. destruct H1 as ((s & X) & Hu & H1). apply bind_ok in H1. destruct H1 as (l & Hl & H1).
  apply guard_ok in H1. destruct H1 as (_ & H1). apply guard_ok in H1. destruct H1 as (_ & H1). injection H1 as <-.
  apply bind_ok in H. destruct H as (c & _ & H). exists s, X. split; [exact Hu|].
  unfold h_firstFill in H. cbn [hfirst hlip hsup hX] in H. destruct (hfirst h).
  - apply bind_ok in H. destruct H as (lx & _ & H). apply bind_ok in H. destruct H as (ly & _ & H).
    apply guard_ok in H. destruct H as (_ & H). injection H as <-. split; reflexivity.
  - injection H as <-. split; reflexivity.
Qed.
Lemma finish_parts o fb q i (h : hum K) r : h_finish o fb q i h = Ok r ->
  exists w, vlen w = (2 * snb (hsup h))%nat /\ s_updateFeetStates w fb (hsup h) = Ok (hsup (snd r)) /\ vlen (hX (snd r)) = vlen (hX h).
Proof.
  unfold h_finish. intros H. apply bind_ok in H. destruct H as (e & _ & H). apply bind_ok in H. destruct H as (((sv & dX) & fd) & _ & H).
  apply bind_ok in H. destruct H as (X & HX & H). apply bind_ok in H. destruct H as (t & _ & H).
  apply bind_ok in H. destruct H as (l1 & _ & H). apply bind_ok in H. destruct H as (l2 & _ & H).
  apply bind_ok in H. destruct H as (s & H3 & H). injection H as <-. unfold vaddE in HX. apply guard_ok in HX. destruct HX as (_ & HX). injection HX as <-.
  eexists. split; [|split; [exact H3|reflexivity]]. reflexivity.
Qed.
Lemma setup_parts N T step L cs (h : hum K) : generator N T step L cs = Ok h ->
  exists h0 s0', newSup 1 s1 = Ok s0' /\ ssteps [SSetNbSamples N; SSetSamplingPeriod T; SSetStepPeriod step; SSetDSLength L] s0' = Ok (hsup h0)
    /\ vlen (hX h0) = (2 * N + 2 * snb s0')%nat /\ hsteps cs h0 = Ok h.
Proof.
  unfold generator, newHum. intros H. apply bind_ok in H. destruct H as (g & Hg & H). apply bind_ok in Hg. destruct Hg as (s & Hs & Hg). apply bind_ok in Hg. destruct Hg as (l & _ & Hg). injection Hg as <-.
  cbn [hsteps hstep] in H. apply bind_ok in H. destruct H as (h1 & H1 & H). apply bind_ok in H. destruct H as (h2 & H2 & H). apply bind_ok in H. destruct H as (h3 & H3 & H). apply bind_ok in H. destruct H as (h4 & H4 & H).
  exists h4, s. split; [exact Hs|].
  unfold h_setNbSamples in H1. apply guard_ok in H1. destruct H1 as (_ & H1). apply bind_ok in H1. destruct H1 as (l1 & _ & H1). apply bind_ok in H1. destruct H1 as (a1 & E1 & H1). injection H1 as <-.
  unfold h_setSamplingPeriod in H2. apply guard_ok in H2. destruct H2 as (_ & H2). apply bind_ok in H2. destruct H2 as (l2 & _ & H2). apply bind_ok in H2. destruct H2 as (a2 & E2 & H2). injection H2 as <-.
  unfold h_setStepPeriod in H3. apply guard_ok in H3. destruct H3 as (_ & H3). apply guard_ok in H3. destruct H3 as (_ & H3). apply bind_ok in H3. destruct H3 as (a3 & E3 & H3). injection H3 as <-.
  unfold h_setInitialDoubleSupportLength in H4. apply bind_ok in H4. destruct H4 as (a4 & E4 & H4). injection H4 as <-.
  unfold h_computeConstantPart in *. cbn [hsup hX h_setSup h_setModels] in *. cbn [ssteps sstep_call].
  rewrite E1. cbn [bind]. rewrite E2. cbn [bind]. rewrite E3. cbn [bind]. rewrite E4. split; [reflexivity|]. split; [|exact H].
  unfold s_setNbSamples in E1. binds E1. injection E1 as <-. cbn [s_setN sN snb vzero vlen]. reflexivity.
Qed.
Lemma setup_state N (T step L : K) x s : newSup 1 s1 = Ok x ->
  ssteps [SSetNbSamples N; SSetSamplingPeriod T; SSetStepPeriod step; SSetDSLength L] x = Ok s ->
  exists f, vlen (fsx f) = 3%nat /\ vlen (fsy f) = 3%nat /\ vlen (fsz f) = 3%nat /\ pverts (fkin f) = []
    /\ let y := smul (sofZ 2) s1 in let e := sadd y (ssub L y) in
       s = MkSup N T T f f 0 step L e false (vzero 0) (MkCb [MkPhase DS e] 1) noSel.
Proof.
  unfold newSup, newFoot. intros E1 E3. destruct (sltb s0 s1); [|discriminate]. cbn [guard Nat.ltb Nat.leb bind] in E1. injection E1 as <-.
  cbn [ssteps sstep_call] in E3. apply bind_ok in E3. destruct E3 as (x1 & X1 & E3). apply bind_ok in E3. destruct E3 as (x2 & X2 & E3). apply bind_ok in E3. destruct E3 as (x3 & X3 & E3). apply bind_ok in E3. destruct E3 as (x4 & X4 & E3). injection E3 as <-.
  unfold s_setNbSamples, f_setNbSamples in X1. destruct (Nat.ltb 0 N); [|discriminate]. cbn [guard bind sleft sright s_setN] in X1. injection X1 as <-.
  unfold s_setSamplingPeriod, f_setSamplingPeriod in X2. cbn [sleft sright sN snb sstep sDS sttnp smove sstepVec stl ssel s_setN] in X2. destruct (sleb s0 T); [|discriminate]. destruct (sltb s0 T); [|discriminate]. cbn [guard bind] in X2. injection X2 as <-.
  unfold s_setStepPeriod in X3. destruct (sltb s0 step); [|discriminate]. cbn [guard bind s_isInDS s_front cb_at stl cbl rd nth_error phType is_DS] in X3. injection X3 as <-.
  unfold s_setInitialDoubleSupportLength in X4. cbn [bind s_isInDS s_front cb_at stl cbl rd nth_error phType is_DS sDS sttnp sN sT sfb sleft sright snb sstep smove sstepVec ssel] in X4.
  apply bind_ok in X4. destruct X4 as (c & _ & X4). cbn [cb_set cbl cb_size length Nat.ltb Nat.leb lset bind cbcap phDur] in X4. injection X4 as <-.
  eexists. split; [|split; [|split; [|split; [|reflexivity]]]]; reflexivity.
Qed.
End Parts.

Section Gen.
Variables (rnd : R -> R) (u eta : R) (N : nat) (a j l m : Z) (fb : R).
Hypothesis HR : rounding rnd u eta.
Hypothesis HS : settings N a j l m fb.
Hypothesis HF : fine_enough u eta N a m fb.
Hypothesis H2 : 2 <= longest N a m fb.
Context {TF : Trig (fl rnd)} {TR : Trig R}.
Notation num := (num rnd).
Notation Srel := (Srel rnd u eta N a m fb).
Let g := fb / 2.
Let Bd := longest N a m fb.
Definition hr (h : hum (fl rnd)) (r : hum R) : Prop := Srel (hsup h) (hsup r) /\ vlen (hX h) = vlen (hX r).

Lemma rres_ok {A B} (P : A -> B -> Prop) x y p q : rres P x y -> x = Ok p -> y = Ok q -> P p q.
Proof. intros H -> ->. exact H. Qed.
Lemma start_rel s r s1' r1' : newSup 1 s1 = Ok s1' -> newSup 1 (s1 : R) = Ok r1' ->
  ssteps [SSetNbSamples N; SSetSamplingPeriod (num (IZR a * fb)); SSetStepPeriod (num (IZR j * fb)); SSetDSLength (num (IZR l * fb))] s1' = Ok s ->
  ssteps [SSetNbSamples N; SSetSamplingPeriod (IZR a * fb); SSetStepPeriod (IZR j * fb); SSetDSLength (IZR l * fb)] r1' = Ok r ->
  Srel s r /\ snb s1' = snb r1'.
Proof.
  intros E1 E2 E3 E4. split; [|unfold newSup in E1, E2; binds E1; binds E2; injection E1 as <-; injection E2 as <-; reflexivity].
  pose proof HS as (h1 & h2 & h3 & h4 & h5 & h6 & h7). pose proof HR as (r1 & r2 & r3 & r4 & r5).
  pose proof (br_B N a m fb) as BB. pose proof (br_g N a j l m fb HS) as BG. pose proof (br_EM u eta N a m fb HF) as BE.
  pose proof (d_small u eta r2 r3 _ _ N a m (conj h1 h2) h3 h6 BB BG BE) as DS. pose proof (d_pos u eta r2 r3 _ _ N a m (conj h1 h2) h3 h6 BB BG) as DP.
  assert (EM0 : 0 <= EM u eta (longest N a m fb) N a m) by (destruct (EM_small u eta r2 r3 _ _ N a m (conj h1 h2) h3 h6 BB BG BE) as (_ & Q1 & Q2 & _); lra).
  assert (two : val (smul (sofZ 2) (s1 : fl rnd)) = 2) by (cbn [smul sofZ s1 FlScalar val]; rewrite (r4 2%Z) by lia; rewrite Rmult_1_r; apply (r4 2%Z); lia).
  assert (two' : smul (sofZ 2) (s1 : R) = 2) by (rsimpl_goal; lra).
  destruct (setup_state _ _ _ _ _ _ E1 E3) as (f & A1 & A2 & A3 & A4 & ->). destruct (setup_state _ _ _ _ _ _ E2 E4) as (f' & B1 & B2 & B3 & B4 & ->). cbv zeta. clear E1 E2 E3 E4.
  set (y := smul (sofZ 2) (s1 : fl rnd)) in *. rewrite two'.
  pose proof (br_setting rnd u eta N a j l m fb HR HS a ltac:(lia)) as Sa. pose proof (br_setting rnd u eta N a j l m fb HR HS j ltac:(lia)) as Sj. pose proof (br_setting rnd u eta N a j l m fb HR HS l ltac:(lia)) as Sl.
  set (D := d u eta (longest N a m fb)) in *.
  assert (HD : duration rnd u eta (fb / 2) (longest N a m fb) m (sadd y (ssub (num (IZR l * fb)) y)) (sadd 2 (ssub (IZR l * fb) 2))).
  { exists l. split; [exact h5|]. rsimpl_goal. split; [rewrite half; lra|]. apply (bounds_near rnd). cbn [sadd ssub FlScalar val]. rewrite two.
    destruct Sl as (_ & Sl). apply near_bounds in Sl. fold D in Sl |- *. unfold PropRound.num in Sl |- *. cbn [val] in Sl |- *.
    pose proof (KBg (fb/2) (longest N a m fb) N a m (conj h1 h2) BB BG (2 * l)%Z ltac:(unfold KB; nia)) as Q0. rewrite half in Q0.
    assert (L0 : 4/10000 <= IZR l * fb) by (assert (1 <= IZR l) by (apply IZR_le; lia); nra).
    pose proof (rnd_bounds rnd u eta r1 r2 r3 _ _ N a m (conj h1 h2) h3 h6 BB BG) as RB. fold D in RB.
    pose proof (RB (rnd (IZR l * fb) - 2) ltac:(lra)) as Q1. pose proof (RB (2 + rnd (rnd (IZR l * fb) - 2)) ltac:(lra)) as Q2. lra. }
  split; [|split; [|split; [reflexivity|repeat split]]].
  - split; [reflexivity|]. split; [reflexivity|]. split; [exact Sa|]. cbn [sleft sright snb sstep sDS smove stl].
    assert (FR : frel rnd f f') by (unfold frel, nonempty; rewrite A1, A2, A3, A4, B1, B2, B3, B4; repeat split; reflexivity).
    split; [exact FR|]. split; [exact FR|]. split; [reflexivity|]. split; [exists j; destruct Sj as (Ej & Sj); split; [exact h4|]; split; [exact Ej|]; refine (near_weaken rnd _ _ _ _ _ Sj); fold D; clearbody D; lra|].
    split; [exists l; destruct Sl as (El & Sl); split; [exact h5|]; split; [exact El|]; refine (near_weaken rnd _ _ _ _ _ Sl); fold D; clearbody D; lra|].
    split; [reflexivity|]. split; [reflexivity|]. constructor; [|constructor]. split; [reflexivity|exact HD].
  - cbn [sttnp]. destruct (dur_tm rnd u eta r2 r3 _ _ N a m (conj h1 h2) h3 h6 BB BG _ _ HD) as (k & Hk & Tk). exists k. split; [lia|exact Tk].
Qed.

(** Every call keeps the two supervisors on the same plan. *)
Lemma one_event e e' s r s' r' : same_shape e e' -> Srel s r -> ssteps (event_calls (num fb) e) s = Ok s' -> ssteps (event_calls fb e') r = Ok r' -> Srel s' r'.
Proof.
  intros He H E1 E2. pose proof (br_events rnd u eta N a j l m fb HR HS HF [e] [e'] s r ltac:(constructor; [exact He|constructor]) H) as Q.
  cbn [flat_map] in Q. rewrite !app_nil_r in Q. exact (rres_ok _ _ _ _ _ Q E1 E2).
Qed.
Lemma call_rel c c' h r h' r' : same_call fb c c' -> hr h r -> hstep c h = Ok h' -> hstep c' r = Ok r' -> hr h' r'.
Proof.
  intros Hc (H & Hx) E1 E2.
  destruct c, c'; cbn [same_call] in Hc; try contradiction; cbn [hstep] in E1, E2.
  - destruct Hc as (<- & Hp). injection E1 as <-. injection E2 as <-. split; [|exact Hx]. apply (one_event (EKin d p) (EKin d p0) (hsup h) (hsup r)); [split; [reflexivity|exact Hp]|exact H|reflexivity|reflexivity].
  - subst d0. injection E1 as <-. injection E2 as <-. split; [|exact Hx]. apply (one_event (ECop d p) (ECop d p0) (hsup h) (hsup r)); [reflexivity|exact H|reflexivity|reflexivity].
  - subst d0. injection E1 as <-. injection E2 as <-. split; [|exact Hx]. apply (one_event (EHeight d z) (EHeight d z0) (hsup h) (hsup r)); [reflexivity|exact H|reflexivity|reflexivity].
  - unfold h_setVelRef in E1, E2. binds E1. binds E2. injection E1 as <-. injection E2 as <-. split; assumption.
  - subst d0. unfold h_setFootStateX in E1, E2. apply guard_ok in E1. destruct E1 as (G1 & E1). apply guard_ok in E2. destruct E2 as (G2 & E2). apply Nat.eqb_eq in G1, G2.
    apply bind_ok in E1. destruct E1 as (s1 & Q1 & E1). apply bind_ok in E2. destruct E2 as (s2 & Q2 & E2). injection E1 as <-. injection E2 as <-. split; [|exact Hx].
    apply (one_event (EFootX d v) (EFootX d v0) (hsup h) (hsup r)); [split; [reflexivity|congruence]|exact H|cbn [event_calls ssteps sstep_call]; rewrite Q1; reflexivity|cbn [event_calls ssteps sstep_call]; rewrite Q2; reflexivity].
  - subst d0. unfold h_setFootStateY in E1, E2. apply guard_ok in E1. destruct E1 as (G1 & E1). apply guard_ok in E2. destruct E2 as (G2 & E2). apply Nat.eqb_eq in G1, G2.
    apply bind_ok in E1. destruct E1 as (s1 & Q1 & E1). apply bind_ok in E2. destruct E2 as (s2 & Q2 & E2). injection E1 as <-. injection E2 as <-. split; [|exact Hx].
    apply (one_event (EFootY d v) (EFootY d v0) (hsup h) (hsup r)); [split; [reflexivity|congruence]|exact H|cbn [event_calls ssteps sstep_call]; rewrite Q1; reflexivity|cbn [event_calls ssteps sstep_call]; rewrite Q2; reflexivity].
  - subst d0. unfold h_setFootStateZ in E1, E2. apply guard_ok in E1. destruct E1 as (G1 & E1). apply guard_ok in E2. destruct E2 as (G2 & E2). apply Nat.eqb_eq in G1, G2.
    apply bind_ok in E1. destruct E1 as (s1 & Q1 & E1). apply bind_ok in E2. destruct E2 as (s2 & Q2 & E2). injection E1 as <-. injection E2 as <-. split; [|exact Hx].
    apply (one_event (EFootZ d v) (EFootZ d v0) (hsup h) (hsup r)); [split; [reflexivity|congruence]|exact H|cbn [event_calls ssteps sstep_call]; rewrite Q1; reflexivity|cbn [event_calls ssteps sstep_call]; rewrite Q2; reflexivity].
  - unfold h_setComStateX in E1, E2. binds E1. binds E2. injection E1 as <-. injection E2 as <-. split; assumption.
  - unfold h_setComStateY in E1, E2. binds E1. binds E2. injection E1 as <-. injection E2 as <-. split; assumption.
  - unfold h_setComStateZ in E1, E2. binds E1. binds E2. injection E1 as <-. injection E2 as <-. split; assumption.
  - unfold h_setWeightings in E1, E2. binds E1. binds E2. injection E1 as <-. injection E2 as <-. split; assumption.
  - injection E1 as <-. injection E2 as <-. split; assumption.
  - subst b0. unfold h_setMove in E1, E2. binds E1. binds E2. injection E1 as <-. injection E2 as <-. split; [|exact Hx].
    apply (one_event (EMove b) (EMove b) (hsup h) (hsup r)); [reflexivity|exact H|reflexivity|reflexivity].
  - destruct Hc as (Hf & ->). assert (fb0 = num fb) as -> by (destruct fb0; unfold PropRound.num; cbn [val] in Hf; congruence).
    apply bind_ok in E1. destruct E1 as (q1 & S1 & E1). apply bind_ok in E2. destruct E2 as (q2 & S2 & E2). injection E1 as <-. injection E2 as <-.
    unfold h_solve in S1, S2. apply bind_ok in S1. destruct S1 as (h1 & P1 & S1). apply bind_ok in S2. destruct S2 as (r1 & P2 & S2).
    apply bind_ok in S1. destruct S1 as (p1 & _ & S1). apply bind_ok in S2. destruct S2 as (p2 & _ & S2).
    apply prep_parts in P1. destruct P1 as (s & X & U1 & <- & L1). apply prep_parts in P2. destruct P2 as (t & Y & U2 & <- & L2).
    pose proof (rres_ok _ _ _ _ _ (br_update rnd u eta N a j l m fb HR HS HF _ _ _ _ H Hx) U1 U2) as (Q & E). cbn [fst snd] in Q, E.
    apply finish_parts in S1. destruct S1 as (w & W1 & F1 & M1). apply finish_parts in S2. destruct S2 as (z & W2 & F2 & M2).
    assert (En : snb (hsup h1) = snb (hsup r1)) by (destruct Q as (((_ & _ & _ & _ & _ & Q & _) & _) & _); exact Q).
    assert (Ez : vlen w = vlen z) by (rewrite W1, W2, En; reflexivity).
    split; [|congruence]. exact (rres_ok _ _ _ _ _ (br_feet rnd u eta N a j l m fb HR HS HF _ _ _ _ Q Ez) F1 F2).
Qed.
Lemma calls_rel cs cs' : Forall2 (same_call fb) cs cs' -> forall h r h' r', hr h r -> hsteps cs h = Ok h' -> hsteps cs' r = Ok r' -> hr h' r'.
Proof.
  induction 1 as [|c c' cs cs' Hc Hcs IH]; intros h r h' r' H E1 E2; cbn [hsteps] in E1, E2; [injection E1 as <-; injection E2 as <-; exact H|].
  apply bind_ok in E1. destruct E1 as (h1 & Q1 & E1). apply bind_ok in E2. destruct E2 as (r1 & Q2 & E2). apply (IH h1 r1); [|exact E1|exact E2]. exact (call_rel _ _ _ _ _ _ Hc H Q1 Q2).
Qed.
Lemma generator_rel cs cs' h r : Forall2 (same_call fb) cs cs' -> generator N (num (IZR a * fb)) (num (IZR j * fb)) (num (IZR l * fb)) cs = Ok h ->
  generator N (IZR a * fb) (IZR j * fb) (IZR l * fb) cs' = Ok r -> hr h r.
Proof.
  intros Hc E1 E2. destruct (setup_parts _ _ _ _ _ _ E1) as (h0 & x & A1 & A2 & A3 & A4). destruct (setup_parts _ _ _ _ _ _ E2) as (r0 & y & B1 & B2 & B3 & B4).
  destruct (start_rel _ _ _ _ A1 B1 A2 B2) as (H & E). apply (calls_rel cs cs' Hc h0 r0); [|exact A4|exact B4]. split; [exact H|]. rewrite A3, B3, E. reflexivity.
Qed.
End Gen.

(** ** C66: the schedule of the generator *)
(** Set up with the same settings, one in rounded and one in exact arithmetic, two generators that get the same calls, with any references,
    states, weights, polygons and heights, and with any two solvers, have the same plan and problems of the same size whenever both return. *)
Theorem C66_generator_same_schedule : forall rnd (TF : Trig (fl rnd)) (TR : Trig R) u eta N a j l m fb cs cs' h r,
  rounding rnd u eta -> settings N a j l m fb -> fine_enough u eta N a m fb -> 2 <= longest N a m fb -> Forall2 (same_call fb) cs cs' ->
  generator N (num rnd (IZR a * fb)) (num rnd (IZR j * fb)) (num rnd (IZR l * fb)) cs = Ok h -> generator N (IZR a * fb) (IZR j * fb) (IZR l * fb) cs' = Ok r ->
  same_plan (hsup h) (hsup r) /\ vlen (hX h) = vlen (hX r).
Proof.
  intros rnd TF TR u eta N a j l m fb cs cs' h r HR HS HF H2 Hc E1 E2. destruct (generator_rel rnd u eta N a j l m fb HR HS HF H2 cs cs' h r Hc E1 E2) as (H & E).
  split; [|exact E]. exact (br_plan rnd u eta N a j l m fb HR HS HF _ _ H).
Qed.
(** The next call of solve has the same outcome for the timeline, and uses the same preview of the dynamics. *)
Theorem C66_generator_same_solve : forall rnd (TF : Trig (fl rnd)) (TR : Trig R) u eta N a j l m fb cs cs' h r,
  rounding rnd u eta -> settings N a j l m fb -> fine_enough u eta N a m fb -> 2 <= longest N a m fb -> Forall2 (same_call fb) cs cs' ->
  generator N (num rnd (IZR a * fb)) (num rnd (IZR j * fb)) (num rnd (IZR l * fb)) cs = Ok h -> generator N (IZR a * fb) (IZR j * fb) (IZR l * fb) cs' = Ok r ->
  rres (fun p q => same_plan (fst (fst p)) (fst (fst q)) /\ vlen (snd (fst p)) = vlen (snd (fst q)) /\ snd p = snd q)
    (do p <- s_updateTimeline (hX h) (num rnd fb) (hsup h); do c <- s_getNbOfCallsBeforeNextSample (fst p); Ok (p, c))
    (do p <- s_updateTimeline (hX r) fb (hsup r); do c <- s_getNbOfCallsBeforeNextSample (fst p); Ok (p, c)).
Proof.
  intros rnd TF TR u eta N a j l m fb cs cs' h r HR HS HF H2 Hc E1 E2. destruct (generator_rel rnd u eta N a j l m fb HR HS HF H2 cs cs' h r Hc E1 E2) as (H & E).
  eapply rres_bind; [apply (br_update rnd u eta N a j l m fb HR HS HF _ _ _ _ H E)|]. intros p q (H1 & E3).
  eapply rres_bind; [apply (br_calls rnd u eta N a j l m fb HR HS HF _ _ H1)|]. intros c c' <-. cbn [rres fst snd].
  split; [|split; [exact E3|reflexivity]]. apply (br_plan rnd u eta N a j l m fb HR HS HF). apply H1.
Qed.
Print Assumptions C66_generator_same_schedule.
Print Assumptions C66_generator_same_solve.
