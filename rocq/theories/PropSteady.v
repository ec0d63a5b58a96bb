(** Property C76: a robot that already moves as asked goes on doing so. *)

From Coq Require Import Reals List ZArith Lra Lia Arith Bool.
From Verif Require Import Scalar LinAlg LinAlgFacts ToolsModel ToolsSpec ToolsFacts NoDynModel QPModel QPFacts TrajModel TrajSpec TrajFacts PropTraj TrajCallSpec PropTrajCalls SteadySpec.
Import ListNotations.
Local Open Scope R_scope.

Lemma sim_course T p v i : sim T T (St3 p v 0) (fun _ => 0) i = St3 (p + v * (INR (S i) * T)) v 0.
Proof.
  induction i as [|i IH]; cbn [sim].
  - unfold updateState_raw. cbn [pos vel acc]. change (INR 1) with 1. f_equal; rsimpl; field.
  - rewrite IH, (S_INR (S i)). generalize (INR (S i)). intros n. unfold updateState_raw. cbn [pos vel acc]. f_equal; rsimpl; field.
Qed.
Lemma course_cost t v : on_course t v -> tcost t (fun _ => 0) = 0.
Proof.
  intros (V & A & HV & HP). unfold t_getState in *. unfold tcost, traj_cost. destruct (nstate (tmod t)) as [p v0 c] eqn:E. cbn [pos vel acc] in *. subst v0 c.
  rewrite (ssum_0 _ (fun _ => 0 ^ 2)) by (intros; ring).
  assert (E1 : Rmax 0 (wVel (tw t)) * ssum (nN (tmod t)) (fun i => (vel (sim (nT (tmod t)) (nT (tmod t)) (St3 p v 0) (fun _ => 0) i) - vget (tvelRef t) i) ^ 2) = 0).
  { unfold Rmax. destruct (Rle_dec 0 (wVel (tw t))) as [L|L]; [|ring]. destruct (Rle_lt_or_eq_dec _ _ L) as [G|<-]; [|ring].
    rewrite ssum_0; [ring|]. intros i Hi. rewrite sim_course, (HV G i Hi). cbn [vel]. ring. }
  assert (E2 : Rmax 0 (wPos (tw t)) * ssum (nN (tmod t)) (fun i => (pos (sim (nT (tmod t)) (nT (tmod t)) (St3 p v 0) (fun _ => 0) i) - vget (tposRef t) i) ^ 2) = 0).
  { unfold Rmax. destruct (Rle_dec 0 (wPos (tw t))) as [L|L]; [|ring]. destruct (Rle_lt_or_eq_dec _ _ L) as [G|<-]; [|ring].
    rewrite ssum_0; [ring|]. intros i Hi. rewrite sim_course, (HP G i Hi). cbn [pos]. ring. }
  rewrite E1, E2. ring.
Qed.
Lemma no_cost_no_jerk t X : 0 < wJerk (tw t) -> tcost t X <= 0 -> forall i, (i < nN (tmod t))%nat -> X i = 0.
Proof.
  intros W H i Hi. destruct (Req_dec (X i) 0) as [Z|Z]; [exact Z|exfalso].
  assert (P : 0 < ssum (nN (tmod t)) (fun i => X i ^ 2)).
  { apply (ssum_pos _ _ i); [intros; apply pow2_ge_0|exact Hi|]. rewrite <- Rsqr_pow2. apply Rsqr_pos_lt, Z. }
  unfold tcost, traj_cost in H. rewrite (Rmax_right 0 (wJerk (tw t))) in H by lra. pose proof (Rmax_l 0 (wVel (tw t))) as M1. pose proof (Rmax_l 0 (wPos (tw t))) as M2.
  match type of H with / 2 * (Rmax 0 (wVel (tw t)) * ?a + Rmax 0 (wPos (tw t)) * ?b + _) <= 0 => assert (A : 0 <= a) by (apply ssum_nonneg; intros; apply pow2_ge_0); assert (B : 0 <= b) by (apply ssum_nonneg; intros; apply pow2_ge_0);
    pose proof (Rmult_le_pos _ _ M1 A); pose proof (Rmult_le_pos _ _ M2 B) end.
  pose proof (Rmult_lt_0_compat _ _ W P). lra.
Qed.

(** ** C76 *)
(** On course, the plan of an exact solver is no jerk at all, and the robot goes on for one feedback period. *)
Theorem C76_stays_on_course : forall t v o f b t', reachable t -> on_course t v -> course_allowed t v -> 0 < wJerk (tw t) -> exact_solver o t -> t_solve o f t = Ok (b, t') ->
  (forall i, (i < nN (tmod t))%nat -> vget (tX t') i = 0) /\ t_getJerk t' = 0 /\ t_getState t' = St3 (pos (t_getState t) + v * f) v 0.
Proof.
  intros t v o f b t' Hr C A W E H. pose proof (course_cost _ _ C) as Z.
  assert (K : tcost t (vget (tX t')) <= 0).
  { unfold course_allowed in A. destruct (tmc t) eqn:M.
    - assert (Y : tadm t (fun _ => 0)).
      { intros i Hi. destruct C as (V & Ac & _). unfold t_getState in *. destruct (nstate (tmod t)) as [p v0 c]. cbn [pos vel acc] in *. subst v0 c. rewrite sim_course. cbn [vel acc]. rewrite Rabs_R0. exact A. }
      pose proof (C22_optimal_with_limits _ _ _ _ _ Hr E M H (ex_intro _ _ Y)) as (_ & O). specialize (O _ Y). lra.
    - pose proof (C22_optimal_without_limits _ _ _ _ _ Hr E M H) as ((_ & O) & _). rewrite <- Z. apply O. intros i Hi. rewrite Rminus_0_l, Rabs_Ropp. apply A, Hi. }
  pose proof (no_cost_no_jerk _ _ W K) as X. split; [exact X|].
  pose proof (reachable_tinv _ Hr) as I. assert (N : (0 < nN (tmod t))%nat) by (destruct I as (F & _); exact (nf_N _ (of_mod _ F))).
  destruct (solve_X _ _ _ _ _ I H) as (_ & _ & _ & _ & S). specialize (X 0%nat N). split; [exact X|].
  destruct C as (V & Ac & _). unfold t_getState in *. rewrite S, X. unfold updateState_raw. rewrite V, Ac. f_equal; rsimpl; field.
Qed.
Lemma solve_keeps o f t b t' : t_solve o f t = Ok (b, t') -> nN (tmod t') = nN (tmod t) /\ nT (tmod t') = nT (tmod t) /\ nvelLim (tmod t') = nvelLim (tmod t) /\ naccLim (tmod t') = naccLim (tmod t)
  /\ njerkLim (tmod t') = njerkLim (tmod t) /\ tvelRef t' = tvelRef t /\ tposRef t' = tposRef t /\ tw t' = tw t /\ tmc t' = tmc t.
Proof. intros H. apply solve_inv in H. destruct H as (q & s & d & _ & _ & _ & _ & ->). repeat split. Qed.
Lemma allowed_next t t' v : course_allowed t v -> nN (tmod t') = nN (tmod t) -> nvelLim (tmod t') = nvelLim (tmod t) -> naccLim (tmod t') = naccLim (tmod t) -> njerkLim (tmod t') = njerkLim (tmod t) -> tmc t' = tmc t ->
  (forall i, (i < nN (tmod t))%nat -> vget (tX t') i = 0) -> course_allowed t' v.
Proof.
  unfold course_allowed. intros A E1 E2 E3 E4 E5 X. rewrite E1, E2, E3, E4, E5. destruct (tmc t); [exact A|]. intros i Hi. rewrite (X i Hi), Rabs_R0. lra.
Qed.

(** For ever: solves with any periods, by any exact solvers.  With a weight on positions, whose reference stays where it is, the robot stands still. *)
Theorem C76_stays_for_ever : forall l t v t', reachable t -> on_course t v -> (0 < wPos (tw t) -> v = 0) -> course_allowed t v -> 0 < wJerk (tw t) ->
  exact_calls (only_solves l) t -> tsteps (only_solves l) t = Ok t' ->
  t_getState t' = St3 (pos (t_getState t) + v * elapsed l) v 0 /\ (l <> [] -> forall i, (i < nN (tmod t))%nat -> vget (tX t') i = 0).
Proof.
  induction l as [|(o, f) l IH]; intros t v t' Hr C P A W E H.
  - injection H as <-. split; [|congruence]. destruct C as (V & Ac & _). cbn [elapsed fold_right]. rewrite Rmult_0_r, Rplus_0_r. rewrite (st3_eta (t_getState t)) at 1. rewrite V, Ac. reflexivity.
  - cbn [only_solves map fst snd exact_calls] in E. destruct E as (E & En). cbn [only_solves map fst snd tsteps] in H. apply bind_ok in H. destruct H as (t1 & H1 & H). specialize (En _ H1).
    pose proof (reach_step _ _ _ Hr H1) as R1. cbn [tstep] in H1. apply bind_ok in H1. destruct H1 as ((b & t1') & H1 & Q). injection Q as <-. cbn [snd] in *.
    destruct (C76_stays_on_course _ _ _ _ _ _ Hr C A W E H1) as (X & _ & S). destruct (solve_keeps _ _ _ _ _ H1) as (K1 & K2 & K3 & K4 & K5 & K6 & K7 & K8 & K9).
    assert (C1 : on_course t1' v).
    { destruct C as (V & Ac & HV & HP). unfold on_course. rewrite S, K1, K2, K6, K7, K8. cbn [pos vel acc]. repeat split; [exact HV|]. intros G i Hi. rewrite (HP G i Hi). rewrite (P G). ring. }
    assert (P1 : 0 < wPos (tw t1') -> v = 0) by (rewrite K8; exact P). assert (W1 : 0 < wJerk (tw t1')) by (rewrite K8; exact W).
    destruct (IH t1' v t' R1 C1 P1 (allowed_next _ _ _ A K1 K3 K4 K5 K9 X) W1 En H) as (S' & X'). split.
    + rewrite S', S. cbn [pos elapsed fold_right snd]. fold (elapsed l). f_equal. ring.
    + intros _ i Hi. destruct l as [|s l]; [cbn in H; injection H as <-; apply X, Hi|]. apply X'; [discriminate|]. rewrite K1. exact Hi.
Qed.

(** With the position reference renewed before each solve, the robot follows it exactly at any velocity allowed. *)
Theorem C76_follows_exactly : forall l t p v d t', reachable t -> t_getState t = St3 (p + v * d) v 0 ->
  (0 < wVel (tw t) -> forall i, (i < nN (tmod t))%nat -> vget (tvelRef t) i = v) -> course_allowed t v -> 0 < wJerk (tw t) ->
  exact_calls (renewed_solves (nN (tmod t)) (nT (tmod t)) p v d l) t -> tsteps (renewed_solves (nN (tmod t)) (nT (tmod t)) p v d l) t = Ok t' ->
  t_getState t' = St3 (p + v * (d + elapsed l)) v 0 /\ (l <> [] -> forall i, (i < nN (tmod t))%nat -> vget (tX t') i = 0).
Proof.
  induction l as [|(o, f) l IH]; intros t p v d t' Hr S0 HV A W E H.
  - injection H as <-. split; [|congruence]. cbn [elapsed fold_right]. rewrite S0. f_equal. ring.
  - cbn [renewed_solves exact_calls] in E. destruct E as (_ & E). cbn [renewed_solves] in H. change (tsteps (?a :: ?r) t) with (bind (tstep a t) (tsteps r)) in H. apply bind_ok in H. destruct H as (u & Hu & H). specialize (E _ Hu). destruct E as (E & En).
    pose proof (reach_step _ _ _ Hr Hu) as Ru. cbn [tstep] in Hu. unfold t_setPosRef in Hu. apply guard_ok in Hu. destruct Hu as (_ & Hu).
    change (tsteps (?a :: ?r) u) with (bind (tstep a u) (tsteps r)) in H. apply bind_ok in H. destruct H as (t1 & H1 & H). specialize (En _ H1). pose proof (reach_step _ _ _ Ru H1) as R1.
    cbn [tstep] in H1. apply bind_ok in H1. destruct H1 as ((b & t1') & H1 & Q). injection Q as <-. cbn [snd] in *.
    assert (U : tmod u = tmod t /\ tvelRef u = tvelRef t /\ tw u = tw t /\ tmc u = tmc t /\ tX u = tX t /\ tposRef u = MkVec (nN (tmod t)) (fun i => p + v * (d + INR (S i) * nT (tmod t)))) by (injection Hu as <-; repeat split).
    clear Hu. destruct U as (U1 & U2 & U3 & U4 & U5 & U6).
    assert (Su : t_getState u = t_getState t) by (unfold t_getState; rewrite U1; reflexivity).
    assert (Cu : on_course u v).
    { unfold on_course. rewrite Su, S0, U1, U2, U3, U6. cbn [pos vel acc vget]. repeat split; [exact HV|]. intros _ i _. ring. }
    assert (Au : course_allowed u v) by (unfold course_allowed; rewrite U1, U4, U5; exact A).
    assert (Wu : 0 < wJerk (tw u)) by (rewrite U3; exact W).
    destruct (C76_stays_on_course _ _ _ _ _ _ Ru Cu Au Wu E H1) as (X & _ & S1). destruct (solve_keeps _ _ _ _ _ H1) as (K1 & K2 & K3 & K4 & K5 & K6 & K7 & K8 & K9).
    rewrite Su, S0 in S1. cbn [pos] in S1.
    assert (S1' : t_getState t1' = St3 (p + v * (d + f)) v 0) by (rewrite S1; f_equal; ring).
    assert (N1 : nN (tmod t1') = nN (tmod t)) by (rewrite K1, U1; reflexivity). assert (T1 : nT (tmod t1') = nT (tmod t)) by (rewrite K2, U1; reflexivity).
    rewrite <- N1, <- T1 in H, En.
    assert (HV1 : 0 < wVel (tw t1') -> forall i, (i < nN (tmod t1'))%nat -> vget (tvelRef t1') i = v) by (rewrite K8, U3, N1, K6, U2; exact HV).
    assert (W1 : 0 < wJerk (tw t1')) by (rewrite K8; exact Wu).
    destruct (IH t1' p v (d + f) t' R1 S1' HV1 (allowed_next _ _ _ Au K1 K3 K4 K5 K9 X) W1 En H) as (S' & X'). split.
    + rewrite S'. cbn [elapsed fold_right snd]. fold (elapsed l). f_equal. ring.
    + intros _ i Hi. destruct l as [|s l]; [cbn in H; injection H as <-; apply X; rewrite U1; exact Hi|]. apply X'; [discriminate|]. rewrite N1. exact Hi.
Qed.

(** ** Concrete cases *)
(** The solver that answers 0.  It is exact on course, with the limits on, when the plan stored is no jerk. *)
Definition idle : oracle R := fun _ _ => ((fun _ => 0), true).
Definition no_plan (t : traj R) : Prop := forall i, (i < nN (tmod t))%nat -> vget (tX t) i = 0.
Lemma idle_exact t v : reachable t -> on_course t v -> course_allowed t v -> tmc t = true -> no_plan t -> exact_solver idle t.
Proof.
  intros Hr C A M X q it Hq _. cbn [idle fst]. pose proof (reachable_tinv _ Hr) as I. pose proof (problem_feasible _ _ I Hq) as F. pose proof (problem_cost _ _ I Hq) as Q. rewrite M in F. unfold course_allowed in A. rewrite M in A.
  assert (Z : forall i, (i < nN (tmod t))%nat -> 0 = shift t (fun _ => 0) i) by (intros i Hi; unfold shift; rewrite (X i Hi); ring).
  assert (Z0 : forall i, (i < nN (tmod t))%nat -> vget (tX t) i = 0) by exact X.
  assert (Y : tadm t (fun _ => 0)).
  { intros i Hi. destruct C as (V & Ac & _). unfold t_getState in *. destruct (nstate (tmod t)) as [p v0 c]. cbn [pos vel acc] in *. subst v0 c. rewrite sim_course. cbn [vel acc]. rewrite Rabs_R0. exact A. }
  split; [apply F; exact (tadm_ext t _ _ Z Y)|]. intros y _. rewrite !Q.
  rewrite (tcost_ext t (shift t (fun _ => 0)) (fun _ => 0)) by (intros i Hi; symmetry; apply Z, Hi). rewrite (course_cost _ _ C).
  assert (0 <= tcost t (shift t y)); [|lra]. unfold tcost, traj_cost. apply Rmult_le_pos; [lra|].
  repeat apply Rplus_le_le_0_compat; (apply Rmult_le_pos; [apply Rmax_l|apply ssum_nonneg; intros; apply pow2_ge_0]).
Qed.
Lemma idle_solves v f n : 0 < f -> forall t, reachable t -> on_course t v -> (0 < wPos (tw t) -> v = 0) -> course_allowed t v -> tmc t = true -> 0 < wJerk (tw t) -> no_plan t ->
  vlen (tvelRef t) = nN (tmod t) -> vlen (tposRef t) = nN (tmod t) ->
  exact_calls (only_solves (repeat (idle, f) n)) t /\ exists t', tsteps (only_solves (repeat (idle, f) n)) t = Ok t'.
Proof.
  intros Hf. induction n as [|n IH]; intros t Hr C P A M W X L1 L2; [split; [exact Logic.I|exists t; reflexivity]|].
  pose proof (idle_exact _ _ Hr C A M X) as E. destruct (proj2 (C23_solve_returns_iff t idle f Hr) (conj Hf (conj L1 L2))) as ((b & t1) & H1).
  assert (H1' : tstep (TSolve idle f) t = Ok t1) by (cbn [tstep]; rewrite H1; reflexivity). pose proof (reach_step _ _ _ Hr H1') as R1.
  destruct (C76_stays_on_course _ _ _ _ _ _ Hr C A W E H1) as (X1 & _ & S). destruct (solve_keeps _ _ _ _ _ H1) as (K1 & K2 & K3 & K4 & K5 & K6 & K7 & K8 & K9).
  assert (C1 : on_course t1 v).
  { destruct C as (V & Ac & HV & HP). unfold on_course. rewrite S, K1, K2, K6, K7, K8. cbn [pos vel acc]. repeat split; [exact HV|]. intros G i Hi. rewrite (HP G i Hi). rewrite (P G). ring. }
  assert (IH1 : exact_calls (only_solves (repeat (idle, f) n)) t1 /\ exists t', tsteps (only_solves (repeat (idle, f) n)) t1 = Ok t').
  { apply IH; rewrite ?K1, ?K6, ?K7, ?K8, ?K9; try assumption; [exact (allowed_next _ _ _ A K1 K3 K4 K5 K9 X1)|]. unfold no_plan. rewrite K1. exact X1. }
  destruct IH1 as (E1 & (t' & H')). cbn [repeat only_solves map fst snd exact_calls]. split.
  - split; [exact E|]. intros u Hu. rewrite H1' in Hu. injection Hu as <-. exact E1.
  - exists t'. change (bind (tstep (TSolve idle f) t) (tsteps (only_solves (repeat (idle, f) n))) = Ok t'). rewrite H1'. exact H'.
Qed.
Definition steady_view (w : R) : tview := MkTView 2 (1/2) 7 (1/2) 0 1 1 1 [1/2; 1/2] [7; 7] 1 w (1/4) true [0; 0].
Lemma steady_made w : exists t, reachable t /\ tview_of t = steady_view w.
Proof.
  destruct C71_initial_state as (t0 & E0 & V0). assert (R0 : reachable t0) by (exists t0, []; split; [exact E0|reflexivity]).
  assert (Go : forall t v c v', reachable t -> tview_of t = v -> taccepts c v -> teffect c v = eq v' -> exists t', reachable t' /\ tview_of t' = v').
  { intros t v c v' Hr E A Ev. rewrite <- E in A. apply (C71_calls_accepted t c Hr) in A. destruct A as (t1 & E1). exists t1. split; [exact (reach_step _ _ _ Hr E1)|]. pose proof (C71_call_effect t c t1 Hr E1) as F. rewrite E, Ev in F. symmetry. exact F. }
  epose proof (Go t0 _ (TSetNbSamples 2) _ R0 V0 ltac:(cbn; lia) eq_refl) as (t1 & R1 & V1).
  epose proof (Go t1 _ (TSetSamplingPeriod (1/2)) _ R1 V1 ltac:(cbn; lra) eq_refl) as (t2 & R2 & V2).
  epose proof (Go t2 _ (TSetVelRef (vfill 2 (1/2))) _ R2 V2 ltac:(reflexivity) eq_refl) as (t3 & R3 & V3).
  epose proof (Go t3 _ (TSetPosRef (vfill 2 7)) _ R3 V3 ltac:(reflexivity) eq_refl) as (t4 & R4 & V4).
  epose proof (Go t4 _ (TSetState (MkVec 3 (fun k => match k with O => 7 | 1%nat => 1/2 | _ => 0 end))) _ R4 V4 ltac:(reflexivity) eq_refl) as (t8 & R8 & V8).
  epose proof (Go t8 _ (TSetWeightings (MkTW 1 w (1/4))) _ R8 V8 ltac:(cbn; lra) eq_refl) as (t9 & R9 & V9).
  epose proof (Go t9 _ (TSetConfig true) _ R9 V9 ltac:(exact Logic.I) eq_refl) as (t & Rt & Vt).
  exists t. split; [exact Rt|exact Vt].
Qed.
Lemma list_get (v : vec R) l i : list_of_vec v = l -> (i < vlen v)%nat -> vget v i = nth i l 0.
Proof. intros <- Hi. unfold list_of_vec. rewrite (nth_indep _ 0 (vget v 0%nat)) by (rewrite map_length, seq_length; lia). rewrite map_nth, seq_nth by lia. reflexivity. Qed.
Lemma steady_facts w t : tview_of t = steady_view w -> nN (tmod t) = 2%nat /\ nT (tmod t) = 1/2 /\ t_getState t = St3 7 (1/2) 0 /\ wVel (tw t) = 1 /\ wPos (tw t) = w /\ wJerk (tw t) = 1/4 /\ tmc t = true /\ no_plan t
  /\ vlen (tvelRef t) = nN (tmod t) /\ vlen (tposRef t) = nN (tmod t) /\ course_allowed t (1/2) /\ (forall i, (i < 2)%nat -> vget (tvelRef t) i = 1/2).
Proof.
  intros V. unfold tview_of, steady_view in V. injection V as V1 V2 V3 V4 V5 V6 V7 V8 V9 V10 V11 V12 V13 V14 V15.
  assert (L1 : vlen (tvelRef t) = 2%nat) by (rewrite <- list_len, V9; reflexivity). assert (L2 : vlen (tposRef t) = 2%nat) by (rewrite <- list_len, V10; reflexivity). assert (L3 : vlen (tX t) = 2%nat) by (rewrite <- list_len, V15; reflexivity).
  repeat split; try assumption; rewrite ?V1; try assumption.
  - rewrite (st3_eta (t_getState t)), V3, V4, V5. reflexivity.
  - intros i Hi. rewrite V1 in Hi. rewrite (list_get _ _ i V15) by lia. destruct i as [|[|i]]; [reflexivity..|lia].
  - unfold course_allowed. rewrite V14, V6, V7, V8. rewrite Rabs_right by lra. lra.
  - intros i Hi. rewrite (list_get _ _ i V9) by lia. destruct i as [|[|i]]; [reflexivity..|lia].
Qed.
(** Half a metre per second asked for and reached: any number of solves leaves the velocity as it is. *)
Example C76_case : forall n, exists t t', reachable t /\ on_course t (1/2) /\ (0 < wPos (tw t) -> 1/2 = 0) /\ course_allowed t (1/2) /\ 0 < wJerk (tw t)
  /\ exact_calls (only_solves (repeat (idle, 1/20) n)) t /\ tsteps (only_solves (repeat (idle, 1/20) n)) t = Ok t' /\ vel (t_getState t') = 1/2.
Proof.
  intros n. destruct (steady_made 0) as (t & Hr & V). destruct (steady_facts _ _ V) as (N & T & S & W1 & W2 & W3 & M & X & L1 & L2 & A & HV).
  assert (C : on_course t (1/2)) by (unfold on_course; rewrite S, N, W1, W2; cbn [pos vel acc]; repeat split; [intros _; exact HV|intros Z; lra]).
  assert (P : 0 < wPos (tw t) -> 1/2 = 0) by (rewrite W2; intros Z; lra). assert (J : 0 < wJerk (tw t)) by (rewrite W3; lra).
  assert (F : 0 < 1/20) by lra. destruct (idle_solves (1/2) (1/20) n F t Hr C P A M J X L1 L2) as (E & t' & H). exists t, t'. repeat (split; [assumption|]).
  destruct (C76_stays_for_ever _ _ _ _ Hr C P A J E H) as (S' & _). rewrite S'. reflexivity.
Qed.
(** The same with a weight on positions and the reference renewed before the solve *)
Example C76_following_case : exists t t', reachable t /\ 0 < wPos (tw t) /\ t_getState t = St3 (7 + 1/2 * 0) (1/2) 0 /\ (forall i, (i < nN (tmod t))%nat -> vget (tvelRef t) i = 1/2)
  /\ course_allowed t (1/2) /\ 0 < wJerk (tw t)
  /\ exact_calls (renewed_solves (nN (tmod t)) (nT (tmod t)) 7 (1/2) 0 [(idle, 1/20)]) t /\ tsteps (renewed_solves (nN (tmod t)) (nT (tmod t)) 7 (1/2) 0 [(idle, 1/20)]) t = Ok t'.
Proof.
  destruct (steady_made 1) as (t & Hr & V). destruct (steady_facts _ _ V) as (N & T & S & W1 & W2 & W3 & M & X & L1 & L2 & A & HV).
  set (c := TSetPosRef (MkVec (nN (tmod t)) (fun i => 7 + 1/2 * (0 + INR (Datatypes.S i) * nT (tmod t))))).
  assert (Hu : exists u, tstep c t = Ok u) by (cbn [c tstep]; unfold t_setPosRef; cbn [vlen]; rewrite Nat.eqb_refl; eexists; reflexivity). destruct Hu as (u & Hu). pose proof (reach_step _ _ _ Hr Hu) as Ru.
  assert (U : tmod u = tmod t /\ tvelRef u = tvelRef t /\ tw u = tw t /\ tmc u = tmc t /\ tX u = tX t /\ tposRef u = MkVec (nN (tmod t)) (fun i => 7 + 1/2 * (0 + INR (Datatypes.S i) * nT (tmod t)))).
  { cbn [c tstep] in Hu. unfold t_setPosRef in Hu. apply guard_ok in Hu. destruct Hu as (_ & Hu). injection Hu as <-. repeat split. }
  destruct U as (U1 & U2 & U3 & U4 & U5 & U6). assert (Su : t_getState u = t_getState t) by (unfold t_getState; rewrite U1; reflexivity).
  assert (Cu : on_course u (1/2)) by (unfold on_course; rewrite Su, S, U1, U2, U6, N; cbn [pos vel acc vget]; repeat split; [intros _; exact HV|intros _ i _; ring]).
  assert (E : exact_solver idle u).
  { apply (idle_exact u (1/2) Ru Cu); [unfold course_allowed; rewrite U1, U4, U5; exact A|rewrite U4; exact M|unfold no_plan; rewrite U1, U5; exact X]. }
  assert (R : exists r, t_solve idle (1/20) u = Ok r) by (apply (C23_solve_returns_iff u idle (1/20) Ru); rewrite U1, U2, U6, L1; repeat split; lra). destruct R as ((b & t') & H1).
  exists t, t'. split; [exact Hr|]. split; [rewrite W2; lra|]. split; [rewrite S; f_equal; ring|]. split; [rewrite N; exact HV|]. split; [exact A|]. split; [rewrite W3; lra|].
  cbn [renewed_solves]. fold c. split.
  - split; [exact Logic.I|]. intros u' Hu'. rewrite Hu in Hu'. injection Hu' as <-. split; [exact E|]. intros; exact Logic.I.
  - change (bind (tstep c t) (tsteps [TSolve idle (1/20)]) = Ok t'). rewrite Hu. cbn [bind tsteps tstep]. rewrite H1. reflexivity.
Qed.

Print Assumptions C76_stays_on_course.
Print Assumptions C76_stays_for_ever.
Print Assumptions C76_follows_exactly.
