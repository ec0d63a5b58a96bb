(** Property C71: which calls the trajectory generator accepts and what each changes. *)

From Coq Require Import Reals List ZArith Lra Lia Arith Bool.
From Verif Require Import Scalar LinAlg LinAlgFacts ToolsModel ToolsSpec ToolsFacts NoDynModel QPModel QPFacts TrajModel TrajSpec TrajFacts PropTraj TrajCallSpec.
Import ListNotations.
Local Open Scope R_scope.

Lemma list_len (v : vec R) : length (list_of_vec v) = vlen v.
Proof. unfold list_of_vec. rewrite map_length, seq_length. reflexivity. Qed.
Lemma list_zero n : list_of_vec (vzero (K:=R) n) = repeat 0 n.
Proof. unfold list_of_vec. cbn [vzero vlen vget]. rsimpl. generalize 0%nat. induction n as [|n IH]; intros k; [reflexivity|]. cbn [seq map repeat]. f_equal. apply IH. Qed.
Lemma list_same (v w : vec R) : list_of_vec v = list_of_vec w <-> vlen v = vlen w /\ forall i, (i < vlen v)%nat -> vget v i = vget w i.
Proof.
  split.
  - intros E. assert (L : vlen v = vlen w) by (rewrite <- !list_len, E; reflexivity). split; [exact L|]. intros i Hi. unfold list_of_vec in E. rewrite <- L in E.
    apply (f_equal (fun l => nth i l 0)) in E. rewrite !(nth_indep _ 0 (vget v 0%nat)) in E by (rewrite map_length, seq_length; lia).
    rewrite map_nth, seq_nth in E by lia. rewrite (nth_indep _ _ (vget w 0%nat)) in E by (rewrite map_length, seq_length; lia). rewrite map_nth, seq_nth in E by lia. exact E.
  - intros (L & E). unfold list_of_vec. rewrite L. apply map_ext_in. intros i Hi. apply in_seq in Hi. apply E. lia.
Qed.
Lemma compute_same t t' : t_computeConstantPart t = Ok t' ->
  tmod t' = tmod t /\ tvelRef t' = tvelRef t /\ tposRef t' = tposRef t /\ tw t' = tw t /\ tmc t' = tmc t /\ tX t' = tX t.
Proof. intros H. unfold t_computeConstantPart in H. do 4 (apply guard_ok in H; destruct H as (_ & H)). injection H as <-. auto 10. Qed.
Lemma st3_eta (x : st3 R) : x = St3 (pos x) (vel x) (acc x).
Proof. destruct x. reflexivity. Qed.

(** ** C71 *)
Theorem C71_initial_state : exists t, newTraj = Ok t /\ tview_of t = tview0.
Proof.
  unfold newTraj, newNoDynDefault, nodyn_auto, nodyn_computeDynamics, computePosDynamic, computeVelDynamic, computeAccDynamic.
  cbn [nauto nT nN]. rsimpl. rewrite !sabs_Rabs, Rabs_right by lra. rewrite (proj2 (Rltb_true 0 1)) by lra.
  cbn [Nat.ltb Nat.leb guard bind]. eexists; split; [reflexivity|]. reflexivity.
Qed.

Theorem C71_call_effect : forall t c t', reachable t -> tstep c t = Ok t' -> teffect c (tview_of t) (tview_of t').
Proof.
  intros t c t' Hr H. pose proof (reachable_tinv _ Hr) as (O & Q). destruct c; cbn [tstep] in H; unfold teffect; cbn [tview_of].
  - unfold t_setNbSamples in H. apply guard_ok in H. destruct H as (_ & H). apply bind_ok in H. destruct H as (m & Hm & H). apply compute_same in H. destruct H as (E1 & E2 & E3 & E4 & E5 & E6).
    unfold nodyn_setNbSamples in Hm. apply guard_ok in Hm. destruct Hm as (_ & Hm). apply nodyn_auto_fresh in Hm; [|exact (of_auto _ O)]. cbn [nN nT nstate nvelLim naccLim njerkLim] in Hm. destruct Hm as (_ & _ & M1 & M2 & M3 & M4 & M5 & M6).
    cbn [t_objectives t_setX t_setMod tmod tvelRef tposRef tw tmc tX] in *. unfold tview_of, t_getState. rewrite E1, E2, E3, E4, E5, E6, M1, M2, M3, M4, M5, M6, list_zero. reflexivity.
  - unfold t_setSamplingPeriod in H. apply guard_ok in H. destruct H as (_ & H). apply bind_ok in H. destruct H as (m & Hm & H). apply compute_same in H. destruct H as (E1 & E2 & E3 & E4 & E5 & E6).
    unfold nodyn_setSamplingPeriod in Hm. apply guard_ok in Hm. destruct Hm as (_ & Hm). apply nodyn_auto_fresh in Hm; [|exact (of_auto _ O)]. cbn [nN nT nstate nvelLim naccLim njerkLim] in Hm. destruct Hm as (_ & _ & M1 & M2 & M3 & M4 & M5 & M6).
    cbn [t_objectives t_setX t_setMod tmod tvelRef tposRef tw tmc tX] in *. unfold tview_of, t_getState. rewrite E1, E2, E3, E4, E5, E6, M1, M2, M3, M4, M5, M6. reflexivity.
  - unfold t_setVelRef in H. apply guard_ok in H. destruct H as (_ & H). injection H as <-. reflexivity.
  - unfold t_setPosRef in H. apply guard_ok in H. destruct H as (_ & H). injection H as <-. reflexivity.
  - unfold t_setVelLimit, nodyn_setVelocityLimit in H. apply bind_ok in H. destruct H as (m & Hm & H). injection H as <-. apply guard_ok in Hm. destruct Hm as (_ & Hm). injection Hm as <-. reflexivity.
  - unfold t_setAccLimit, nodyn_setAccelerationLimit in H. apply bind_ok in H. destruct H as (m & Hm & H). injection H as <-. apply guard_ok in Hm. destruct Hm as (_ & Hm). injection Hm as <-. reflexivity.
  - unfold t_setJerkLimit, nodyn_setJerkLimit in H. apply bind_ok in H. destruct H as (m & Hm & H). injection H as <-. apply guard_ok in Hm. destruct Hm as (_ & Hm). injection Hm as <-. reflexivity.
  - unfold t_setState, nodyn_setState, st3_of_vec in H. apply bind_ok in H. destruct H as (m & Hm & H). injection H as <-. apply bind_ok in Hm. destruct Hm as (st & Hs & Hm). injection Hm as <-. apply guard_ok in Hs. destruct Hs as (_ & Hs). injection Hs as <-. reflexivity.
  - unfold t_setWeightings in H. do 3 (apply guard_ok in H; destruct H as (_ & H)). apply compute_same in H. destruct H as (E1 & E2 & E3 & E4 & E5 & E6). unfold tview_of, t_getState. rewrite E1, E2, E3, E4, E5, E6. reflexivity.
  - unfold t_setConfig in H. apply compute_same in H. destruct H as (E1 & E2 & E3 & E4 & E5 & E6). unfold tview_of, t_getState. rewrite E1, E2, E3, E4, E5, E6. reflexivity.
  - apply bind_ok in H. destruct H as ((b & u) & Hs & H). injection H as <-. pose proof (solve_tinv _ _ _ _ _ (conj O Q) Hs) as (O' & _). apply solve_inv in Hs. destruct Hs as (q & s & dX & _ & Hf & _ & _ & ->). cbn [snd] in *.
    pose proof (of_X _ O') as LX. pose proof (nf_N _ (of_mod _ O')) as HN. cbn [tX tmod nodyn_withState nN] in LX, HN. set (X := vadd (tX t) dX) in *. clearbody X. exists (vget X 0).
    exists (map (vget X) (seq 1 (vlen X - 1))). assert (EX : list_of_vec X = vget X 0%nat :: map (vget X) (seq 1 (vlen X - 1))) by (unfold list_of_vec; destruct (vlen X); [lia|]; cbn [seq map Nat.sub]; rewrite Nat.sub_0_r; reflexivity).
    split; [rewrite <- EX, list_len; exact LX|]. unfold tview_of, t_getState. cbn [tmod tvelRef tposRef tw tmc tX nodyn_withState nN nT nstate nvelLim naccLim njerkLim]. rewrite EX. unfold updateState_raw. cbn [pos vel acc]. rsimpl. f_equal; field.
Qed.

Theorem C71_calls_accepted : forall t c, reachable t -> ((exists t', tstep c t = Ok t') <-> taccepts c (tview_of t)).
Proof.
  intros t c Hr. destruct (C23_calls_return t Hr) as (R1 & R2 & R3 & R4 & R5 & R6 & R7 & R8). destruct c; cbn [tstep taccepts tview_of vwN vwVelRef vwPosRef].
  - split; [|apply R1]. intros (t' & H). unfold t_setNbSamples in H. apply guard_ok in H. apply Nat.ltb_lt. apply H.
  - split; [|apply R2]. intros (t' & H). unfold t_setSamplingPeriod in H. apply guard_ok in H. apply Rltb_true. apply H.
  - split; [|apply R3]. intros (t' & H). unfold t_setVelRef in H. apply guard_ok in H. apply Nat.eqb_eq. apply H.
  - split; [|apply R4]. intros (t' & H). unfold t_setPosRef in H. apply guard_ok in H. apply Nat.eqb_eq. apply H.
  - split; [|apply R5]. intros (t' & H). unfold t_setVelLimit, nodyn_setVelocityLimit in H. apply bind_ok in H. destruct H as (m & Hm & _). apply guard_ok in Hm. apply Rleb_true. apply Hm.
  - split; [|apply R5]. intros (t' & H). unfold t_setAccLimit, nodyn_setAccelerationLimit in H. apply bind_ok in H. destruct H as (m & Hm & _). apply guard_ok in Hm. apply Rleb_true. apply Hm.
  - split; [|apply R5]. intros (t' & H). unfold t_setJerkLimit, nodyn_setJerkLimit in H. apply bind_ok in H. destruct H as (m & Hm & _). apply guard_ok in Hm. apply Rleb_true. apply Hm.
  - split; [|apply R6]. intros (t' & H). unfold t_setState, nodyn_setState, st3_of_vec in H. apply bind_ok in H. destruct H as (m & Hm & _). apply bind_ok in Hm. destruct Hm as (st & Hs & _). apply guard_ok in Hs. apply Nat.eqb_eq. apply Hs.
  - split; [|intros (A & B); apply R7; assumption]. intros (t' & H). unfold t_setWeightings in H. apply guard_ok in H. destruct H as (A & H). apply guard_ok in H. destruct H as (_ & H). apply guard_ok in H. destruct H as (B & _). split; apply Rleb_true; assumption.
  - split; [intros; exact Logic.I|intros _; apply R8].
  - rewrite !list_len. rewrite <- (C23_solve_returns_iff t o feedBackPeriod Hr). split.
    + intros (t' & H). apply bind_ok in H. destruct H as (r & H & _). eauto.
    + intros (r & ->). eexists. reflexivity.
Qed.
(** A call that is not accepted is stopped by an assertion: it has no undefined effect. *)
Theorem C71_refused_calls_stop : forall t c, reachable t -> ~ taccepts c (tview_of t) -> tstep c t = Abort.
Proof.
  intros t c Hr Na. pose proof (reachable_tinv _ Hr) as I. destruct c; cbn [tstep taccepts tview_of vwN vwVelRef vwPosRef] in *.
  - unfold t_setNbSamples. destruct (Nat.ltb_spec 0 n); [contradiction|reflexivity].
  - unfold t_setSamplingPeriod. change (sltb s0 T) with (Rltb 0 T). destruct (Rltb_spec 0 T); [contradiction|reflexivity].
  - unfold t_setVelRef. destruct (Nat.eqb_spec (vlen r) (nN (tmod t))); [contradiction|reflexivity].
  - unfold t_setPosRef. destruct (Nat.eqb_spec (vlen r) (nN (tmod t))); [contradiction|reflexivity].
  - unfold t_setVelLimit, nodyn_setVelocityLimit. destruct (sleb s0 l) eqn:E; [exfalso; apply Na; apply Rleb_true; exact E|reflexivity].
  - unfold t_setAccLimit, nodyn_setAccelerationLimit. destruct (sleb s0 l) eqn:E; [exfalso; apply Na; apply Rleb_true; exact E|reflexivity].
  - unfold t_setJerkLimit, nodyn_setJerkLimit. destruct (sleb s0 l) eqn:E; [exfalso; apply Na; apply Rleb_true; exact E|reflexivity].
  - unfold t_setState, nodyn_setState, st3_of_vec. destruct (Nat.eqb_spec (vlen s) 3); [contradiction|reflexivity].
  - unfold t_setWeightings. destruct (sleb s0 (wVel w)) eqn:E1; [|reflexivity]. destruct (sleb s0 (wJerk w)) eqn:E2; [|reflexivity]. exfalso. apply Na. split; apply Rleb_true; assumption.
  - exfalso. apply Na. exact Logic.I.
  - rewrite !list_len in Na. unfold t_solve. destruct (Nat.eq_dec (vlen (tvelRef t)) (nN (tmod t))) as [E1|E1]; [destruct (Nat.eq_dec (vlen (tposRef t)) (nN (tmod t))) as [E2|E2]|].
    + destruct (problem_ok t I E1 E2) as (q & ->). cbn [bind]. change (sltb s0 feedBackPeriod) with (Rltb 0 feedBackPeriod). destruct (Rltb_spec 0 feedBackPeriod); [exfalso; apply Na; auto|reflexivity].
    + rewrite (problem_abort t I) by tauto. reflexivity.
    + rewrite (problem_abort t I) by tauto. reflexivity.
Qed.

(** Two generators that a user sees in the same state, whatever calls led there, pose the same problem: the same
    motions are admissible and each has the same cost. *)
Theorem C71_no_hidden_state : forall t u q r, reachable t -> reachable u -> tview_of t = tview_of u -> t_problem t = Ok q -> t_problem u = Ok r ->
  forall d, qcost q d = qcost r d /\ (qfeasible q d <-> qfeasible r d).
Proof.
  intros t u q r Ht Hu V Eq Er d. pose proof (reachable_tinv _ Ht) as It. pose proof (reachable_tinv _ Hu) as Iu.
  unfold tview_of in V. injection V as V1 V2 V3 V4 V5 V6 V7 V8 V9 V10 V11 V12 V13 V14 V15.
  apply list_same in V9, V10, V15. destruct V9 as (L1 & V9), V10 as (L2 & V10), V15 as (L3 & V15). destruct (problem_refs t q Eq) as (Lx & Lv & Lp). rewrite Lv in V9. rewrite Lp in V10. rewrite Lx in V15.
  assert (S : same_task t u).
  { unfold same_task. split; [exact V1|]. split; [exact V2|]. split; [rewrite (st3_eta (t_getState t)), (st3_eta (t_getState u)); congruence|]. split; [exact V6|]. split; [exact V7|]. split; [exact V8|].
    split; [destruct (tw t) as [w1 w2 w3], (tw u) as [y1 y2 y3]; cbn [wVel wPos wJerk] in *; congruence|]. auto. }
  destruct (same_task_cost t u S) as (SC & SA). assert (Sh : forall i, (i < nN (tmod u))%nat -> shift t d i = shift u d i) by (intros i Hi; unfold shift; rewrite V15; [reflexivity|lia]). split.
  - rewrite (problem_cost t q It Eq), (problem_cost u r Iu Er), !SC. rewrite (tcost_ext u _ _ Sh), (tcost_ext u (vget (tX t)) (vget (tX u))); [reflexivity|]. intros i Hi. apply V15. lia.
  - rewrite (problem_feasible t q It Eq), (problem_feasible u r Iu Er), V14, V1. destruct (tmc u); [|reflexivity]. rewrite SA. split; apply tadm_ext; intros i Hi; [|symmetry]; apply Sh; exact Hi.
Qed.

(** The place does not matter either: with the state and the position references a
    further on, the problem has the same costs and the same admissible motions. *)
Definition further (a : R) (v : tview) : tview :=
  MkTView (vwN v) (vwT v) (vwPos v + a) (vwVel v) (vwAcc v) (vwVelLim v) (vwAccLim v) (vwJerkLim v) (vwVelRef v) (map (Rplus a) (vwPosRef v))
    (vwVelW v) (vwPosW v) (vwJerkW v) (vwMotion v) (vwJerks v).
Lemma sim_further a f T p v c X i : sim f T (St3 (p + a) v c) X i = let x := sim f T (St3 p v c) X i in St3 (pos x + a) (vel x) (acc x).
Proof. induction i as [|i IH]; cbn [sim]; [|rewrite IH]; unfold updateState_raw; cbn [pos vel acc]; rsimpl; f_equal; ring. Qed.
Theorem C71_anywhere : forall a t u q r, reachable t -> reachable u -> tview_of u = further a (tview_of t) -> t_problem t = Ok q -> t_problem u = Ok r ->
  forall d, qcost q d = qcost r d /\ (qfeasible q d <-> qfeasible r d).
Proof.
  intros a t u q r Ht Hu V Eq Er d. pose proof (reachable_tinv _ Ht) as It. pose proof (reachable_tinv _ Hu) as Iu.
  unfold tview_of, further in V. cbn [vwN vwT vwPos vwVel vwAcc vwVelLim vwAccLim vwJerkLim vwVelRef vwPosRef vwVelW vwPosW vwJerkW vwMotion vwJerks] in V. injection V as V1 V2 V3 V4 V5 V6 V7 V8 V9 V10 V11 V12 V13 V14 V15.
  assert (V10' : list_of_vec (tposRef u) = list_of_vec (MkVec (vlen (tposRef t)) (fun k => a + vget (tposRef t) k))) by (rewrite V10; unfold list_of_vec; cbn [vlen vget]; apply map_map).
  apply list_same in V9, V10', V15. cbn [vlen vget] in V10'. destruct V9 as (L1 & V9), V10' as (L2 & V10'), V15 as (L3 & V15). destruct (problem_refs t q Eq) as (Lx & Lv & Lp). rewrite L1, Lv in V9. rewrite L2, Lp in V10'. rewrite L3, Lx in V15.
  assert (Es : nstate (tmod u) = St3 (pos (nstate (tmod t)) + a) (vel (nstate (tmod t))) (acc (nstate (tmod t)))) by (unfold t_getState in *; rewrite (st3_eta (nstate (tmod u))); congruence).
  assert (Es' : nstate (tmod t) = St3 (pos (nstate (tmod t))) (vel (nstate (tmod t))) (acc (nstate (tmod t)))) by apply st3_eta.
  assert (SC : forall X, tcost u X = tcost t X).
  { intros X. unfold tcost, traj_cost. rewrite V1, V2, V11, V12, V13, Es. f_equal. f_equal. f_equal; f_equal; apply ssum_ext; intros i Hi; rewrite sim_further, <- Es'; cbv zeta; cbn [pos vel acc].
    - rewrite V9 by exact Hi. reflexivity.
    - rewrite V10' by exact Hi. ring. }
  assert (SA : forall X, tadm u X <-> tadm t X).
  { intros X. unfold tadm, traj_admissible. rewrite V1, V2, V6, V7, V8, Es. split; intros H i Hi; specialize (H i Hi); rewrite sim_further, <- Es' in *; exact H. }
  assert (Sh : forall i, (i < nN (tmod t))%nat -> shift u d i = shift t d i) by (intros i Hi; unfold shift; rewrite V15; [reflexivity|exact Hi]). split.
  - rewrite (problem_cost t q It Eq), (problem_cost u r Iu Er), !SC. rewrite (tcost_ext t _ _ Sh), (tcost_ext t (vget (tX u)) (vget (tX t))); [reflexivity|]. intros i Hi. apply V15. exact Hi.
  - rewrite (problem_feasible t q It Eq), (problem_feasible u r Iu Er), V14, V1. destruct (tmc t); [|reflexivity]. rewrite SA. split; apply tadm_ext; intros i Hi; [symmetry|]; apply Sh; exact Hi.
Qed.

(** ** Concrete case *)
(** A generator with every setter called, and the same at another place: what is read of it, and that it can be
    solved, at both places. *)
Definition case_view (a : R) : tview := MkTView 2 (1/2) (7 + a) 8 9 4 5 6 [1/5; 1/5] [a + 3; a + 3] 10 11 12 true [0; 0].
Lemma reach_step t c t' : reachable t -> tstep c t = Ok t' -> reachable t'.
Proof.
  intros (u & l & Hu & Hl) H. exists u, (l ++ [c]). split; [assumption|]. clear -Hl H. revert u Hl.
  induction l as [|d l IH]; intros u Hl; cbn [tsteps app] in *; [injection Hl as <-; rewrite H; reflexivity|]. destruct (tstep d u); [|discriminate..]. cbn [bind] in *. apply IH; assumption.
Qed.
Example C71_case : forall a, exists t, reachable t /\ tview_of t = case_view a /\ (exists q, t_problem t = Ok q) /\ case_view a = further a (case_view 0).
Proof.
  intros a. destruct C71_initial_state as (t0 & E0 & V0). assert (R0 : reachable t0) by (exists t0, []; split; [exact E0|reflexivity]).
  assert (Go : forall t v c v', reachable t -> tview_of t = v -> taccepts c v -> teffect c v = eq v' -> exists t', reachable t' /\ tview_of t' = v').
  { intros t v c v' Hr E A Ev. rewrite <- E in A. apply (C71_calls_accepted t c Hr) in A. destruct A as (t1 & E1). exists t1. split; [exact (reach_step _ _ _ Hr E1)|]. pose proof (C71_call_effect t c t1 Hr E1) as F. rewrite E, Ev in F. symmetry. exact F. }
  epose proof (Go t0 _ (TSetNbSamples 2) _ R0 V0 ltac:(cbn; lia) eq_refl) as (t1 & R1 & V1).
  epose proof (Go t1 _ (TSetSamplingPeriod (1/2)) _ R1 V1 ltac:(cbn; lra) eq_refl) as (t2 & R2 & V2).
  epose proof (Go t2 _ (TSetVelRef (vfill 2 (1/5))) _ R2 V2 ltac:(reflexivity) eq_refl) as (t3 & R3 & V3).
  epose proof (Go t3 _ (TSetPosRef (vfill 2 (a + 3))) _ R3 V3 ltac:(reflexivity) eq_refl) as (t4 & R4 & V4).
  epose proof (Go t4 _ (TSetVelLimit 4) _ R4 V4 ltac:(cbn; lra) eq_refl) as (t5 & R5 & V5).
  epose proof (Go t5 _ (TSetAccLimit 5) _ R5 V5 ltac:(cbn; lra) eq_refl) as (t6 & R6 & V6).
  epose proof (Go t6 _ (TSetJerkLimit 6) _ R6 V6 ltac:(cbn; lra) eq_refl) as (t7 & R7 & V7).
  epose proof (Go t7 _ (TSetState (MkVec 3 (fun k => match k with O => 7 + a | 1%nat => 8 | _ => 9 end))) _ R7 V7 ltac:(reflexivity) eq_refl) as (t8 & R8 & V8).
  epose proof (Go t8 _ (TSetWeightings (MkTW 10 11 12)) _ R8 V8 ltac:(cbn; lra) eq_refl) as (t9 & R9 & V9).
  epose proof (Go t9 _ (TSetConfig true) _ R9 V9 ltac:(exact Logic.I) eq_refl) as (t & Rt & Vt).
  assert (Vc : tview_of t = case_view a) by exact Vt. exists t. split; [exact Rt|]. split; [exact Vc|]. split.
  - apply problem_ok; [exact (reachable_tinv _ Rt)| |]; unfold tview_of, case_view in Vc; injection Vc as E1 _ _ _ _ _ _ _ E9 E10 _ _ _ _ _; rewrite <- list_len, ?E9, ?E10, E1; reflexivity.
  - unfold case_view, further. cbn [vwN vwT vwPos vwVel vwAcc vwVelLim vwAccLim vwJerkLim vwVelRef vwPosRef vwVelW vwPosW vwJerkW vwMotion vwJerks map]. rewrite Rplus_0_r, !Rplus_0_l. reflexivity.
Qed.
(** Two samples are set and the references are left as they are: solving stops until both are set again. *)
Example C71_refused_case : forall o, exists t0 t, newTraj = Ok t0 /\ tstep (TSetNbSamples 2) t0 = Ok t /\ tstep (TSolve o 1) t = Abort /\ tstep (TSetVelLimit (-1)) t = Abort.
Proof.
  intros o. destruct C71_initial_state as (t0 & E0 & V0). assert (R0 : reachable t0) by (exists t0, []; split; [exact E0|reflexivity]).
  destruct (proj2 (C71_calls_accepted t0 (TSetNbSamples 2) R0)) as (t & E); [cbn; lia|]. exists t0, t. split; [exact E0|]. split; [exact E|].
  pose proof (C71_call_effect _ _ _ R0 E) as F. rewrite V0 in F. pose proof (reach_step _ _ _ R0 E) as Rt.
  split; apply C71_refused_calls_stop; try exact Rt; rewrite <- F; cbn [taccepts vwN vwVelRef vwPosRef tview0 length]; [lia|lra].
Qed.

Print Assumptions C71_initial_state.
Print Assumptions C71_call_effect.
Print Assumptions C71_calls_accepted.
Print Assumptions C71_refused_calls_stop.
Print Assumptions C71_no_hidden_state.
Print Assumptions C71_anywhere.
