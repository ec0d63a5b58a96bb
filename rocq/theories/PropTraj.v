(** Properties of the trajectory generator: C19 to C23. *)

From Coq Require Import Reals List Lra Lia Arith Bool.
From Verif Require Import Scalar LinAlg LinAlgFacts ToolsModel ToolsSpec ToolsFacts NoDynModel QPModel QPFacts QPExist
  TrajModel TrajSpec TrajFacts.
Import ListNotations.
Local Open Scope R_scope.

(** A generator obtained from the constructor by any sequence of public calls that returned. *)
Definition reachable (t : traj R) : Prop := exists t0 calls, newTraj = Ok t0 /\ tsteps calls t0 = Ok t.
Lemma reachable_tinv t : reachable t -> tinv t.
Proof. intros (t0 & l & H0 & H). exact (steps_tinv l t0 t (newTraj_tinv _ H0) H). Qed.

(** The same generator with a solver object that has never been used. *)
Definition cold (t : traj R) : traj R := t_setQP t (tqp t) (newSolver (snbVar (tsolver t)) (snbCtr (tsolver t))).

(** C19.  Warm starting is transparent: whatever calls came before, solving with the
    remembered matrices is the same as solving with a fresh solver object. *)
Theorem C19_warm_start_transparent : forall t o f,
  reachable t -> t_solve o f t = t_solve o f (cold t).
Proof.
  intros t o f R. apply reachable_tinv in R. unfold t_solve. change (t_problem (cold t)) with (t_problem t).
  destruct (t_problem t) as [q| | | |] eqn:Hq; [|reflexivity..]. cbn [bind].
  destruct (guard _); [|reflexivity..]. cbn [bind].
  pose proof (problem_shape _ _ R Hq) as (P1 & P2 & _). destruct R as (_ & [_ _ _ _ _ _ _ _ _ M]). rewrite <- P1, <- P2 in M.
  unfold solver_solve. cbn [cold t_setQP tsolver snbVar snbCtr newSolver smem tdX].
  destruct (dimensionsAreConsistent q _ _); [|reflexivity]. cbn [guard bind]. rewrite !effective_same; [|left; reflexivity|assumption].
  destruct (o q _) as [x ok]. destruct (ubguard _); [|reflexivity..]. cbn [bind andb].
  assert (E : (if (match smem (tsolver t) with Some _ => true | None => false end && true)%bool then tsolver t
               else MkSolver (snbVar (tsolver t)) (snbCtr (tsolver t)) (Some (qQ q, qA q)))
            = MkSolver (snbVar (tsolver t)) (snbCtr (tsolver t)) (Some (qQ q, qA q))).
  { destruct M as [M|M]; rewrite M; cbn [andb]; [reflexivity|]. destruct (tsolver t); cbn in *. rewrite M. reflexivity. }
  rewrite E. reflexivity.
Qed.

(** C20.  The objective handed to the solver is, up to a constant, the cost of the simulated
    motion under X + dX. *)
Theorem C20_objective : forall t q,
  reachable t -> t_problem t = Ok q ->
  forall d, qcost q d =
    traj_cost (nN (tmod t)) (nT (tmod t)) (t_getState t) (wVel (tw t)) (wPos (tw t)) (wJerk (tw t))
      (vget (tvelRef t)) (vget (tposRef t)) (fun k => vget (tX t) k + d k)
    - traj_cost (nN (tmod t)) (nT (tmod t)) (t_getState t) (wVel (tw t)) (wPos (tw t)) (wJerk (tw t))
      (vget (tvelRef t)) (vget (tposRef t)) (vget (tX t)).
Proof. intros t q R H. exact (problem_cost t q (reachable_tinv t R) H). Qed.

(** C21.  With motion constraints on, the constraints handed to the solver are exactly the
    limits on the simulated motion; otherwise only the 1e11 box remains. *)
Theorem C21_constraints : forall t q,
  reachable t -> t_problem t = Ok q -> tmc t = true ->
  forall d, qfeasible q d <->
    traj_admissible (nN (tmod t)) (nT (tmod t)) (t_getState t) (nvelLim (tmod t)) (naccLim (tmod t)) (njerkLim (tmod t))
      (fun k => vget (tX t) k + d k).
Proof. intros t q R H M d. rewrite (problem_feasible t q (reachable_tinv t R) H d), M. reflexivity. Qed.
Theorem C21_no_constraints : forall t q,
  reachable t -> t_problem t = Ok q -> tmc t = false ->
  forall d, qfeasible q d <-> forall i, (i < nN (tmod t))%nat -> Rabs (d i) <= 100000000000.
Proof. intros t q R H M d. rewrite (problem_feasible t q (reachable_tinv t R) H d), M. reflexivity. Qed.

(** The QP solver is exact on the problem that [t] poses: it finds a minimiser if there is one. *)
Definition exact_solver (o : oracle R) (t : traj R) : Prop :=
  forall q it, t_problem t = Ok q -> (exists y, qminimiser q y) -> qminimiser q (fst (o q it)).
(** Y is admissible and no admissible sequence is cheaper. *)
Definition optimal (t : traj R) (Y : nat -> R) : Prop :=
  tadm t Y /\ forall Z, tadm t Z -> tcost t Y <= tcost t Z.

(** C22.  With an exact solver, one call produces an optimal admissible jerk sequence for the
    current state, whatever the previous guess and the previous calls. *)
Theorem C22_optimal_with_limits : forall t o f b t',
  reachable t -> exact_solver o t -> tmc t = true -> t_solve o f t = Ok (b, t') ->
  (exists Y, tadm t Y) -> optimal t (vget (tX t')).
Proof.
  intros t o f b t' R E M H (Y & HY). apply reachable_tinv in R.
  destruct (solve_X o f t b t' R H) as (q & Hq & HX & _).
  assert (CF := problem_feasible t q R Hq). rewrite M in CF. assert (CC := problem_cost t q R Hq).
  set (x := fst (o q 10000%Z)) in HX.
  assert (S : forall Z i, shift t (fun k => Z k - vget (tX t) k) i = Z i) by (intros; unfold shift; ring).
  assert (Q : qminimiser q x).
  { apply (E q 10000%Z Hq), qp_has_minimiser. exists (fun k => Y k - vget (tX t) k).
    apply CF. apply (tadm_ext t Y); [intros; rewrite S; reflexivity|assumption]. }
  destruct Q as (QF & QM). apply CF in QF. split.
  - apply (tadm_ext t (shift t x)); [intros; symmetry; auto|assumption].
  - intros Z HZ. specialize (QM (fun k => Z k - vget (tX t) k)). rewrite !CC in QM.
    rewrite (tcost_ext t (shift t (fun k => Z k - vget (tX t) k)) Z) in QM by (intros; apply S).
    rewrite (tcost_ext t (vget (tX t')) (shift t x)) by assumption.
    assert (tcost t (shift t x) - tcost t (vget (tX t)) <= tcost t Z - tcost t (vget (tX t))); [|lra].
    apply QM. apply CF. apply (tadm_ext t Z); [intros; rewrite S; reflexivity|assumption].
Qed.
(** Without limits the same holds among the sequences within 1e11 of the previous one; if the
    answer is strictly inside that box it is optimal among all sequences. *)
Definition in_box (t : traj R) (Y : nat -> R) : Prop :=
  forall i, (i < nN (tmod t))%nat -> Rabs (Y i - vget (tX t) i) <= 100000000000.
Theorem C22_optimal_without_limits : forall t o f b t',
  reachable t -> exact_solver o t -> tmc t = false -> t_solve o f t = Ok (b, t') ->
  (in_box t (vget (tX t')) /\ forall Z, in_box t Z -> tcost t (vget (tX t')) <= tcost t Z)
  /\ ((forall i, (i < nN (tmod t))%nat -> Rabs (vget (tX t') i - vget (tX t) i) < 100000000000) ->
      forall Z, tcost t (vget (tX t')) <= tcost t Z).
Proof.
  intros t o f b t' R E M H. apply reachable_tinv in R.
  destruct (solve_X o f t b t' R H) as (q & Hq & HX & _).
  assert (CF := problem_feasible t q R Hq). rewrite M in CF. assert (CC := problem_cost t q R Hq).
  set (x := fst (o q 10000%Z)) in HX.
  assert (S : forall Z i, shift t (fun k => Z k - vget (tX t) k) i = Z i) by (intros; unfold shift; ring).
  assert (Q : qminimiser q x).
  { apply (E q 10000%Z Hq), qp_has_minimiser. exists (fun _ => 0). apply CF. intros i Hi. rewrite Rabs_R0. lra. }
  destruct Q as (QF & QM). assert (QF' := proj1 (CF _) QF).
  assert (B : in_box t (vget (tX t')) /\ forall Z, in_box t Z -> tcost t (vget (tX t')) <= tcost t Z).
  { split.
    - intros i Hi. rewrite HX by assumption. unfold shift. replace (vget (tX t) i + x i - vget (tX t) i) with (x i) by ring. auto.
    - intros Z HZ. specialize (QM (fun k => Z k - vget (tX t) k)). rewrite !CC in QM.
      rewrite (tcost_ext t (shift t (fun k => Z k - vget (tX t) k)) Z) in QM by (intros; apply S).
      rewrite (tcost_ext t (vget (tX t')) (shift t x)) by assumption.
      assert (tcost t (shift t x) - tcost t (vget (tX t)) <= tcost t Z - tcost t (vget (tX t))); [|lra].
      apply QM. apply CF. exact HZ. }
  split; [exact B|]. intros HI Z. destruct B as (_ & B).
  (* a step towards Z small enough to stay in the box *)
  assert (G : forall n, (n <= nN (tmod t))%nat -> exists e, 0 < e <= 1
     /\ forall i, (i < n)%nat -> Rabs (mix e (vget (tX t')) Z i - vget (tX t) i) <= 100000000000).
  { induction n as [|n IH]; intros Hn; [exists 1; split; [lra|intros; lia]|].
    destruct (IH ltac:(lia)) as (e & He & Hb). clear IH.
    specialize (HI n ltac:(lia)). set (g := 100000000000 - Rabs (vget (tX t') n - vget (tX t) n)) in *.
    assert (Hg : 0 < g) by (unfold g; lra). set (m := Rabs (Z n - vget (tX t') n)).
    assert (Hm : 0 <= m) by apply Rabs_pos.
    set (e' := Rmin e (g / (m + 1))).
    assert (He1 : 0 < g / (m + 1)) by (apply Rdiv_lt_0_compat; lra).
    assert (He' : 0 < e') by (apply Rmin_glb_lt; lra).
    assert (Hle : e' <= e) by apply Rmin_l. assert (Hle2 : e' <= g / (m + 1)) by apply Rmin_r.
    exists e'. split; [lra|]. intros i Hi. destruct (Nat.eq_dec i n) as [->|Hne].
    - unfold mix. replace (vget (tX t') n + e' * (Z n - vget (tX t') n) - vget (tX t) n)
        with ((vget (tX t') n - vget (tX t) n) + e' * (Z n - vget (tX t') n)) by ring.
      eapply Rle_trans; [apply Rabs_triang|]. rewrite Rabs_mult, (Rabs_right e') by lra. fold m.
      assert (e' * m <= g); [|unfold g in *; lra].
      apply Rle_trans with (g / (m + 1) * m); [apply Rmult_le_compat_r; assumption|].
      apply Rmult_le_reg_r with (m + 1); [lra|]. replace (g / (m + 1) * m * (m + 1)) with (g * m) by (field; lra). nra.
    - specialize (Hb i ltac:(lia)). specialize (QF' i ltac:(lia)).
      assert (QF2 : Rabs (vget (tX t') i - vget (tX t) i) <= 100000000000).
      { rewrite HX by lia. unfold shift. replace (vget (tX t) i + x i - vget (tX t) i) with (x i) by ring. assumption. }
      unfold mix in *.
      replace (vget (tX t') i + e' * (Z i - vget (tX t') i) - vget (tX t) i) with
        ((vget (tX t') i - vget (tX t) i) + e' / e * ((vget (tX t') i + e * (Z i - vget (tX t') i) - vget (tX t) i) - (vget (tX t') i - vget (tX t) i)))
        by (field; lra).
      apply Rabs_mix; try assumption. split.
      + apply Rlt_le, Rdiv_lt_0_compat; lra.
      + apply Rmult_le_reg_r with e; [lra|]. replace (e' / e * e) with e' by (field; lra). lra. }
  destruct (G (nN (tmod t)) (le_n _)) as (e & He & Hb). specialize (B _ Hb).
  pose proof (tcost_mix t (vget (tX t')) Z e ltac:(lra)) as HC.
  pose proof (ssum_nonneg (nN (tmod t)) (fun i => (Z i - vget (tX t') i) ^ 2) ltac:(intros; apply pow2_ge_0)) as HS.
  pose proof (Rmax_l 0 (wJerk (tw t))) as HW.
  assert (HN : 0 <= / 2 * Rmax 0 (wJerk (tw t)) * (e * (1 - e)) * ssum (nN (tmod t)) (fun i => (Z i - vget (tX t') i) ^ 2)).
  { apply Rmult_le_pos; [|assumption]. apply Rmult_le_pos; [lra|]. apply Rmult_le_pos; lra. }
  apply Rmult_le_reg_l with e; lra.
Qed.

(** With a positive jerk weight the optimum is unique, so two generators with the same
    settings and state produce the same jerk and the same next state whatever they did before. *)
Lemma optimal_unique t X Y : 0 < wJerk (tw t) -> optimal t X -> optimal t Y ->
  forall i, (i < nN (tmod t))%nat -> X i = Y i.
Proof.
  intros HW (AX & OX) (AY & OY) i Hi.
  assert (EC : tcost t X = tcost t Y) by (apply Rle_antisym; auto).
  pose proof (tcost_mix t X Y (1/2) ltac:(lra)) as HC.
  specialize (OX _ (tadm_mix t X Y (1/2) ltac:(lra) AX AY)). rewrite Rmax_right in HC by lra.
  pose proof (ssum_nonneg (nN (tmod t)) (fun i => (Y i - X i) ^ 2) ltac:(intros; apply pow2_ge_0)) as HS.
  assert (HZ : ssum (nN (tmod t)) (fun i => (Y i - X i) ^ 2) = 0).
  { rewrite EC in HC, OX. replace (tcost t Y - tcost t Y) with 0 in HC by ring. nra. }
  destruct (Req_dec (X i) (Y i)) as [|Hne]; [assumption|exfalso].
  assert (0 < ssum (nN (tmod t)) (fun i => (Y i - X i) ^ 2)); [|lra].
  apply (ssum_pos _ _ i); [intros; apply pow2_ge_0|assumption|]. nra.
Qed.
Definition same_task (t u : traj R) : Prop :=
  nN (tmod t) = nN (tmod u) /\ nT (tmod t) = nT (tmod u) /\ t_getState t = t_getState u
  /\ nvelLim (tmod t) = nvelLim (tmod u) /\ naccLim (tmod t) = naccLim (tmod u) /\ njerkLim (tmod t) = njerkLim (tmod u)
  /\ tw t = tw u
  /\ (forall i, (i < nN (tmod t))%nat -> vget (tvelRef t) i = vget (tvelRef u) i)
  /\ (forall i, (i < nN (tmod t))%nat -> vget (tposRef t) i = vget (tposRef u) i).
Lemma same_task_cost t u : same_task t u -> (forall X, tcost t X = tcost u X) /\ (forall X, tadm t X <-> tadm u X).
Proof.
  intros (E1 & E2 & E3 & E4 & E5 & E6 & E7 & E8 & E9). unfold t_getState in *. split; intros X.
  - unfold tcost, traj_cost. rewrite <- E1, <- E2, <- E3, <- E7. f_equal. f_equal. f_equal; f_equal; apply ssum_ext; intros i Hi.
    + rewrite E8 by assumption. reflexivity.
    + rewrite E9 by assumption. reflexivity.
  - unfold tadm, traj_admissible. rewrite E1, E2, E3, E4, E5, E6. reflexivity.
Qed.
Theorem C22_independent_of_history : forall t u o1 o2 f b1 b2 t' u',
  reachable t -> reachable u -> same_task t u ->
  exact_solver o1 t -> exact_solver o2 u -> tmc t = true -> tmc u = true -> 0 < wJerk (tw t) ->
  t_solve o1 f t = Ok (b1, t') -> t_solve o2 f u = Ok (b2, u') -> (exists Y, tadm t Y) ->
  (forall i, (i < nN (tmod t))%nat -> vget (tX t') i = vget (tX u') i)
  /\ t_getJerk t' = t_getJerk u' /\ t_getState t' = t_getState u'.
Proof.
  intros t u o1 o2 f b1 b2 t' u' Rt Ru S E1 E2 M1 M2 HW Ht Hu (Y & HY).
  destruct (same_task_cost _ _ S) as (SC & SA).
  assert (TU : forall Z, optimal t Z <-> optimal u Z).
  { intros Z. unfold optimal. rewrite SA. split; intros (H1 & H2); (split; [assumption|]); intros W HW'.
    - rewrite <- !SC. apply H2, SA, HW'.
    - rewrite !SC. apply H2, SA, HW'. }
  pose proof (C22_optimal_with_limits _ _ _ _ _ Rt E1 M1 Ht (ex_intro _ Y HY)) as Ot.
  pose proof (C22_optimal_with_limits _ _ _ _ _ Ru E2 M2 Hu (ex_intro _ Y (proj1 (SA Y) HY))) as Ou.
  apply TU in Ou. pose proof (optimal_unique t _ _ HW Ot Ou) as EQ. split; [assumption|].
  destruct (solve_X _ _ _ _ _ (reachable_tinv _ Rt) Ht) as (_ & _ & _ & _ & S1).
  destruct (solve_X _ _ _ _ _ (reachable_tinv _ Ru) Hu) as (_ & _ & _ & _ & S2).
  assert (HN : (0 < nN (tmod t))%nat) by (apply reachable_tinv in Rt; destruct Rt as ([F _ _ _ _ _ _ _] & _); exact (nf_N _ F)).
  unfold t_getJerk, t_getState. split; [apply EQ; assumption|]. rewrite S1, S2. destruct S as (_ & _ & S3 & _). unfold t_getState in S3.
  rewrite S3, (EQ 0%nat HN). reflexivity.
Qed.
(** The state advances by exactly one feedback period under the returned jerk. *)
Theorem C22_state_advances : forall t o f b t',
  reachable t -> t_solve o f t = Ok (b, t') ->
  run [(t_getJerk t', f)] (t_getState t) = Ok (t_getState t').
Proof.
  intros t o f b t' R H. destruct (solve_X _ _ _ _ _ (reachable_tinv _ R) H) as (q & _ & _ & Hf & HS).
  cbn [run]. rewrite updateState_ok by assumption. cbn [bind]. unfold t_getState, t_getJerk. rewrite HS. reflexivity.
Qed.

(** C23.  solve returns exactly when the feedback period is positive and both references have
    the size of the horizon; in particular after a change of the number of samples it aborts
    until both references have been set again. *)
Theorem C23_solve_returns_iff : forall t o f,
  reachable t ->
  ((exists r, t_solve o f t = Ok r)
   <-> 0 < f /\ vlen (tvelRef t) = nN (tmod t) /\ vlen (tposRef t) = nN (tmod t)).
Proof.
  intros t o f R. apply reachable_tinv in R. split.
  - intros ([b t'] & H). apply solve_inv in H. destruct H as (q & s & dX & Hq & Hf & _).
    apply problem_refs in Hq. tauto.
  - intros (Hf & HV & HP). apply solve_ok; assumption.
Qed.
Theorem C23_resize_refuted : forall t n t' o f,
  reachable t -> vlen (tvelRef t) = nN (tmod t) -> n <> nN (tmod t) ->
  t_setNbSamples n t = Ok t' -> t_solve o f t' = Abort.
Proof.
  intros t n t' o f R HV Hn H.
  assert (I : tinv t') by (apply (step_tinv (TSetNbSamples n) t); [apply reachable_tinv; assumption|exact H]).
  assert (E : vlen (tvelRef t') = nN (tmod t) /\ nN (tmod t') = n).
  { unfold t_setNbSamples in H. apply guard_ok in H. destruct H as (_ & H). apply bind_ok in H. destruct H as (m & Hm & H).
    unfold nodyn_setNbSamples in Hm. apply guard_ok in Hm. destruct Hm as (_ & Hm).
    apply nodyn_auto_fresh in Hm; [|cbn; apply reachable_tinv in R; destruct R as ([_ A _ _ _ _ _ _] & _); exact A].
    destruct Hm as (_ & _ & EN & _). cbn [nN] in EN. unfold t_computeConstantPart in H.
    do 4 (apply guard_ok in H; destruct H as (_ & H)). injection H as <-. cbn. auto. }
  destruct E as (E1 & E2). unfold t_solve. rewrite problem_abort; [reflexivity|assumption|].
  rewrite E1, E2. intros (E & _). congruence.
Qed.

(** ** Every call with meaningful arguments returns *)
Theorem C23_calls_return : forall t, reachable t ->
  (forall n, (0 < n)%nat -> exists t', t_setNbSamples n t = Ok t')
  /\ (forall T, 0 < T -> exists t', t_setSamplingPeriod T t = Ok t')
  /\ (forall r, vlen r = nN (tmod t) -> exists t', t_setVelRef r t = Ok t')
  /\ (forall r, vlen r = nN (tmod t) -> exists t', t_setPosRef r t = Ok t')
  /\ (forall l, 0 <= l -> (exists t', t_setVelLimit l t = Ok t') /\ (exists t', t_setAccLimit l t = Ok t') /\ (exists t', t_setJerkLimit l t = Ok t'))
  /\ (forall s, vlen s = 3%nat -> exists t', t_setState s t = Ok t')
  /\ (forall w, 0 <= wVel w -> 0 <= wJerk w -> exists t', t_setWeightings w t = Ok t')
  /\ (forall c, exists t', t_setConfig c t = Ok t').
Proof.
  intros t R. apply reachable_tinv in R. destruct R as (O & _).
  repeat apply conj.
  - intros n Hn. unfold t_setNbSamples, nodyn_setNbSamples. rewrite (proj2 (Nat.ltb_lt 0 n) Hn). cbn [guard bind].
    destruct (nodyn_auto_ok (MkNoDyn (nauto (tmod t)) n (nT (tmod t)) (nstate (tmod t)) (nvelLim (tmod t)) (naccLim (tmod t)) (njerkLim (tmod t))
                  (nposD (tmod t)) (nvelD (tmod t)) (naccD (tmod t)) (njerkD (tmod t)))) as (m & Hm); [exact Hn|exact (nf_T _ (of_mod _ O))|].
    rewrite Hm. cbn [bind]. apply nodyn_auto_fresh in Hm; [|exact (of_auto _ O)]. destruct Hm as (F & A & EN & _). cbn in EN.
    apply compute_ok. constructor; cbn; auto.
  - intros T HT. unfold t_setSamplingPeriod, nodyn_setSamplingPeriod. rsimpl. rewrite (proj2 (Rltb_true 0 T) HT). cbn [guard bind].
    destruct (nodyn_auto_ok (MkNoDyn (nauto (tmod t)) (nN (tmod t)) T (nstate (tmod t)) (nvelLim (tmod t)) (naccLim (tmod t)) (njerkLim (tmod t))
                  (nposD (tmod t)) (nvelD (tmod t)) (naccD (tmod t)) (njerkD (tmod t)))) as (m & Hm); [exact (nf_N _ (of_mod _ O))|exact HT|].
    rewrite Hm. cbn [bind]. apply nodyn_auto_fresh in Hm; [|exact (of_auto _ O)]. destruct Hm as (F & A & EN & _). cbn in EN.
    apply compute_ok. destruct O. constructor; cbn; auto; congruence.
  - intros r Hr. unfold t_setVelRef. rewrite Hr, Nat.eqb_refl. eexists; reflexivity.
  - intros r Hr. unfold t_setPosRef. rewrite Hr, Nat.eqb_refl. eexists; reflexivity.
  - intros l Hl. unfold t_setVelLimit, t_setAccLimit, t_setJerkLimit, nodyn_setVelocityLimit, nodyn_setAccelerationLimit, nodyn_setJerkLimit.
    rsimpl. rewrite (proj2 (Rleb_true 0 l) Hl). cbn [guard bind]. repeat split; eexists; reflexivity.
  - intros s Hs. unfold t_setState, nodyn_setState, st3_of_vec. rewrite Hs. eexists; reflexivity.
  - intros w Hv Hj. unfold t_setWeightings. rsimpl. rewrite (proj2 (Rleb_true 0 (wVel w)) Hv), (proj2 (Rleb_true 0 (wJerk w)) Hj). cbn [guard bind].
    apply compute_ok. destruct O. constructor; assumption.
  - intros c. apply compute_ok. destruct O. constructor; assumption.
Qed.

(** ** Concrete cases *)
Lemma newTraj_ok : exists t, newTraj (K:=R) = Ok t /\ nN (tmod t) = 1%nat /\ nT (tmod t) = 1 /\ nstate (tmod t) = St3 0 0 0
  /\ nvelLim (tmod t) = 1 /\ naccLim (tmod t) = 1 /\ njerkLim (tmod t) = 1 /\ vlen (tposRef t) = 1%nat /\ vlen (tvelRef t) = 1%nat
  /\ (forall i, vget (tposRef t) i = 0) /\ (forall i, vget (tX t) i = 0).
Proof.
  unfold newTraj, newNoDynDefault, nodyn_auto, nodyn_computeDynamics, computePosDynamic, computeVelDynamic, computeAccDynamic.
  cbn [nauto nT nN]. rsimpl. rewrite !sabs_Rabs, Rabs_right by lra. rewrite (proj2 (Rltb_true 0 1)) by lra.
  cbn [Nat.ltb Nat.leb guard bind]. eexists; split; [reflexivity|]. repeat split.
Qed.
(** One sample of one second, reference velocity 1/2, weights (1, 0, 1/4), limits 1: the best
    jerk is 1/2, found whatever calls came before. *)
Definition demo_calls : list (tcall R) := [TSetVelRef (vfill 1 (1/2)); TSetWeightings (MkTW 1 0 (1/4)); TSetConfig true].
Example C19_to_C23_case : exists t, reachable t /\ tmc t = true /\ 0 < wJerk (tw t)
  /\ (exists q, t_problem t = Ok q) /\ (forall o, exists r, t_solve o (1/20) t = Ok r)
  /\ optimal t (fun _ => 1/2) /\ (exists o, exact_solver o t) /\ (exists t', t_setNbSamples 3 t = Ok t').
Proof.
  destruct newTraj_ok as (t0 & H0 & EN & ET & ES & EV & EA & EJ & LP & LV & EP & EX).
  assert (R0 : reachable t0) by (exists t0, []; split; [assumption|reflexivity]).
  assert (RS : forall t c t', reachable t -> tstep c t = Ok t' -> reachable t').
  { intros t c t' (u & l & Hu & Hl) H. exists u, (l ++ [c]). split; [assumption|]. clear -Hl H. revert u Hl.
    induction l as [|d l IH]; intros u Hl; cbn [tsteps app] in *; [injection Hl as <-; rewrite H; reflexivity|].
    destruct (tstep d u); [|discriminate..]. cbn [bind] in *. apply IH; assumption. }
  destruct (C23_calls_return t0 R0) as (_ & _ & G & _). destruct (G (vfill 1 (1/2))) as (t1 & H1); [symmetry; assumption|].
  assert (R1 := RS _ (TSetVelRef (vfill 1 (1/2))) _ R0 H1). unfold t_setVelRef in H1. apply guard_ok in H1. destruct H1 as (_ & H1). injection H1 as <-.
  set (t1 := MkTraj _ _ _ _ _ _ _ _ _ _ _ _ _) in R1.
  destruct (C23_calls_return t1 R1) as (_ & _ & _ & _ & _ & _ & G2 & _). destruct (G2 (MkTW 1 0 (1/4))) as (t2 & H2); [cbn; lra|cbn; lra|].
  assert (R2 := RS _ (TSetWeightings (MkTW 1 0 (1/4))) _ R1 H2).
  destruct (C23_calls_return t2 R2) as (_ & _ & _ & _ & _ & _ & _ & G3). destruct (G3 true) as (t3 & H3).
  assert (R3 := RS _ (TSetConfig true) _ R2 H3).
  unfold t_setWeightings, t_computeConstantPart in H2. repeat (apply guard_ok in H2; destruct H2 as (_ & H2)). injection H2 as <-.
  unfold t_setConfig, t_computeConstantPart in H3. repeat (apply guard_ok in H3; destruct H3 as (_ & H3)). injection H3 as <-.
  match goal with |- context [optimal] => idtac end.
  match type of R3 with reachable ?T => set (t := T) in * end.
  assert (FN : nN (tmod t) = 1%nat) by exact EN. assert (FT : nT (tmod t) = 1) by exact ET. assert (FS : nstate (tmod t) = St3 0 0 0) by exact ES.
  assert (HO : optimal t (fun _ => 1/2)).
  { split.
    - unfold tadm, traj_admissible. rewrite FN, FT, FS. change (nvelLim (tmod t)) with (nvelLim (tmod t0)). change (naccLim (tmod t)) with (naccLim (tmod t0)).
      change (njerkLim (tmod t)) with (njerkLim (tmod t0)). rewrite EV, EA, EJ. intros i Hi. replace i with 0%nat by lia.
      cbn [sim updateState_raw vel acc pos]. rsimpl. rewrite !Rabs_right by lra. lra.
    - intros Z _. unfold tcost, traj_cost. rewrite FN, FT, FS. cbn [t tw t_setQP tvelRef wVel wPos wJerk t1 vfill vget ssum sim updateState_raw vel pos acc]. rsimpl.
      rewrite !(Rmax_right 0 1), !(Rmax_left 0 0), !(Rmax_right 0 (1/4)) by lra. set (z := Z 0%nat).
      assert (0 <= (z - 1/2) ^ 2) by apply pow2_ge_0. nra. }
  exists t. split; [assumption|]. split; [reflexivity|]. split; [cbn; lra|].
  split; [apply problem_ok; [apply reachable_tinv; assumption|exact (eq_sym EN)|transitivity 1%nat; [exact LP|exact (eq_sym EN)]]|].
  split; [intros o; apply C23_solve_returns_iff; [assumption|]; split; [lra|]; split; [exact (eq_sym EN)|transitivity 1%nat; [exact LP|exact (eq_sym EN)]]|].
  split; [exact HO|]. split; [|destruct (C23_calls_return t R3) as (G4 & _); apply G4; lia].
  exists (fun _ _ => (fun _ => 1/2, true)). intros q it Hq _. cbn [fst].
  assert (CF := problem_feasible t q (reachable_tinv _ R3) Hq). change (tmc t) with true in CF. cbv iota in CF.
  assert (CC := problem_cost t q (reachable_tinv _ R3) Hq).
  assert (SX : forall d i, shift t d i = d i) by (intros d i; unfold shift; change (vget (tX t) i) with (vget (tX t0) i); rewrite EX; ring).
  destruct HO as (HA & HM). split.
  - apply CF. apply (tadm_ext t (fun _ => 1/2)); [intros; rewrite SX; reflexivity|assumption].
  - intros y Hy. rewrite !CC. rewrite (tcost_ext t (shift t (fun _ => 1/2)) (fun _ => 1/2)) by (intros; apply SX).
    apply CF in Hy. specialize (HM _ Hy). lra.
Qed.

Print Assumptions C19_warm_start_transparent.
Print Assumptions C20_objective.
Print Assumptions C21_constraints.
Print Assumptions C21_no_constraints.
Print Assumptions C22_optimal_with_limits.
Print Assumptions C22_optimal_without_limits.
Print Assumptions C22_independent_of_history.
Print Assumptions C22_state_advances.
Print Assumptions C23_solve_returns_iff.
Print Assumptions C23_resize_refuted.
Print Assumptions C23_calls_return.
