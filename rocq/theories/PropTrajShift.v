(** Property C75: the trajectory generator behaves the same with another origin of positions and with the axis the other way round. *)

From Coq Require Import Reals List ZArith Lra Lia Arith Bool FunctionalExtensionality.
From Verif Require Import Scalar LinAlg LinAlgFacts ToolsModel ToolsSpec ToolsFacts NoDynModel QPModel QPFacts TrajModel TrajSpec TrajFacts
  PropTraj TrajCallSpec PropTrajCalls ShiftSpec ZebShiftSpec ZebShift TrajShiftSpec TrajShift.
Import ListNotations.
Local Open Scope R_scope.

Lemma sim_reversed f T x X i : sim f T (reversed_state x) (fun k => - X k) i = reversed_state (sim f T x X i).
Proof. induction i as [|i IH]; cbn [sim]; [|rewrite IH]; unfold updateState_raw, reversed_state; cbn [pos vel acc]; f_equal; rsimpl; field. Qed.
Lemma reversed_admissible t Y : tadm t Y -> tadm (t_reversed t) (fun k => - Y k).
Proof.
  intros H i Hi. specialize (H i Hi). cbn [t_reversed tmod nodyn_withState nstate nT nvelLim naccLim njerkLim] in *. rewrite sim_reversed. unfold reversed_state. cbn [vel acc]. rewrite !Rabs_Ropp. exact H.
Qed.
Lemma steps_like f g (P : traj R -> Prop) : (forall c t, P t -> tstep (g c) (f t) = outcome_map f (tstep c t)) -> (forall t c t', P t -> tstep c t = Ok t' -> P t') ->
  forall cs t, P t -> tsteps (map g cs) (f t) = outcome_map f (tsteps cs t).
Proof.
  intros Hs Hp. induction cs as [|c cs IH]; intros t Ht; [reflexivity|]. cbn [map tsteps]. rewrite (Hs _ _ Ht). destruct (tstep c t) as [t1| | | |] eqn:E; try reflexivity. cbn [bind outcome_map]. apply IH. exact (Hp _ _ _ Ht E).
Qed.

(** ** C75, another origin *)
(** With the state and the position reference a further on, the solver is given the very same problem, and the solve ends the same way, a further on. *)
Theorem C75_same_problem_anywhere : forall a t, reachable t ->
  t_problem (t_at a t) = t_problem t /\ forall o f, t_solve o f (t_at a t) = outcome_map (fun r => (fst r, t_at a (snd r))) (t_solve o f t).
Proof. intros a t Hr. pose proof (reachable_tinv _ Hr) as I. split; [apply at_problem, I|]. intros o f. apply at_solve, I. Qed.

(** Every later history of calls returns or fails alike, and ends a further on. *)
Theorem C75_histories_anywhere : forall a t cs, reachable t -> tsteps (map (t_at_call a) cs) (t_at a t) = outcome_map (t_at a) (tsteps cs t).
Proof.
  intros a t cs. apply (steps_like (t_at a) (t_at_call a) reachable).
  - intros c u Hu. apply at_step, reachable_tinv, Hu.
  - intros u c u' Hu H. exact (reach_step u c u' Hu H).
Qed.

(** What a user reads after such a history: the jerk is the same, and the state is the same a further on. *)
Theorem C75_read_anywhere : forall a t cs t', reachable t -> tsteps cs t = Ok t' ->
  exists u, tsteps (map (t_at_call a) cs) (t_at a t) = Ok u /\ t_getJerk u = t_getJerk t'
    /\ pos (t_getState u) = pos (t_getState t') + a /\ vel (t_getState u) = vel (t_getState t') /\ acc (t_getState u) = acc (t_getState t').
Proof. intros a t cs t' Hr H. exists (t_at a t'). rewrite (C75_histories_anywhere a t cs Hr), H. repeat split. Qed.

(** Two calls put a generator there. *)
Theorem C75_put_anywhere : forall a t, vlen (tposRef t) = nN (tmod t) ->
  tsteps [TSetState (vec_of_st3 (carried a (t_getState t))); TSetPosRef (carried_all a (tposRef t))] t = Ok (t_at a t).
Proof.
  intros a t L. cbn [tsteps tstep]. unfold t_setState, nodyn_setState, st3_of_vec. cbn [vec_of_st3 vlen Nat.eqb guard bind vget]. unfold t_setPosRef. cbn [carried_all vlen tmod t_setMod nN nodyn_withState].
  rewrite L, Nat.eqb_refl. reflexivity.
Qed.

(** ** C75, the axis the other way round *)
Theorem C75_reversed_histories : forall t cs, tsteps (map t_reversed_call cs) (t_reversed t) = outcome_map t_reversed (tsteps cs t).
Proof. intros t cs. apply (steps_like t_reversed t_reversed_call (fun _ => True)); [intros c u _; apply reversed_step|intros; exact I|exact I]. Qed.

(** A new generator is its own reverse, so that a reversed generator is reached by the reversed calls. *)
Theorem C75_reversed_from_new : forall t0 cs, newTraj = Ok t0 -> tsteps (map t_reversed_call cs) t0 = outcome_map t_reversed (tsteps cs t0).
Proof.
  intros t0 cs H. rewrite <- C75_reversed_histories. f_equal.
  unfold newTraj in H. apply bind_ok in H. destruct H as (m & Hm & H). unfold t_computeConstantPart in H. do 4 (apply guard_ok in H; destruct H as (_ & H)). injection H as <-.
  assert (E : nodyn_withState (reversed_state (nstate m)) m = m).
  { unfold newNoDynDefault, nodyn_auto in Hm. cbn [nauto] in Hm. unfold nodyn_computeDynamics in Hm. do 3 (apply bind_ok in Hm; destruct Hm as (? & _ & Hm)). injection Hm as <-.
    unfold nodyn_withState, reversed_state. cbn. f_equal. f_equal; rsimpl; ring. }
  unfold t_reversed. cbn [tmod t_objectives t_setQP t_setX tjerkH tvelH tposH tmotG tvelRef tposRef tw tmc tdX tX tqp tsolver]. rewrite E. unfold reversed_qp. cbn [qQ qp qxl qxu qA qbu qbl]. rewrite !opp_zero. reflexivity.
Qed.
Lemma reversed_reachable t : reachable t -> reachable (t_reversed t).
Proof. intros (t0 & cs & H0 & H). exists t0, (map t_reversed_call cs). split; [exact H0|]. rewrite (C75_reversed_from_new _ _ H0), H. reflexivity. Qed.

(** The reversed solver is exact on the reversed generator when the solver is exact on the generator. *)
Theorem C75_reversed_solver_exact : forall o t, exact_solver o t -> exact_solver (reversed_solver o) (t_reversed t).
Proof.
  intros o t E q it Hq (y & Hy). rewrite reversed_problem in Hq. destruct (t_problem t) as [p| | | |] eqn:Ep; try discriminate. cbn [outcome_map] in Hq. injection Hq as <-.
  apply reversed_minimiser in Hy. rewrite reversed_twice in Hy. specialize (E p it Ep (ex_intro _ _ Hy)). unfold reversed_solver. rewrite reversed_twice. destruct (o p it) as (x & ok). cbn [fst] in *.
  apply reversed_minimiser, E.
Qed.

(** Whatever exact solvers two generators use, one with the opposite state and the opposite references plans the opposite jerks and moves the opposite way. *)
Theorem C75_exact_solvers_reverse : forall t o o' f b b' t' u', reachable t -> exact_solver o t -> exact_solver o' (t_reversed t) -> tmc t = true -> 0 < wJerk (tw t) ->
  t_solve o f t = Ok (b, t') -> t_solve o' f (t_reversed t) = Ok (b', u') -> (exists Y, tadm t Y) ->
  (forall i, (i < nN (tmod t))%nat -> vget (tX u') i = - vget (tX t') i) /\ t_getJerk u' = - t_getJerk t' /\ t_getState u' = reversed_state (t_getState t').
Proof.
  intros t o o' f b b' t' u' Hr E E' M W H H' (Y & HY). pose proof (reversed_reachable _ Hr) as Hr'.
  assert (H2 : t_solve (reversed_solver o) f (t_reversed t) = Ok (b, t_reversed t')) by (rewrite reversed_solve, H; reflexivity).
  assert (S : same_task (t_reversed t) (t_reversed t)) by (repeat split; auto).
  exact (C22_independent_of_history _ _ _ _ _ _ _ _ _ Hr' Hr' S E' (C75_reversed_solver_exact _ _ E) M M W H' H2 (ex_intro _ _ (reversed_admissible _ _ HY))).
Qed.

(** ** A concrete case *)
Example C75_case : exists t o b t' b' u', reachable t /\ exact_solver o t /\ exact_solver (reversed_solver o) (t_reversed t) /\ tmc t = true /\ 0 < wJerk (tw t)
  /\ vlen (tposRef t) = nN (tmod t) /\ (exists Y, tadm t Y) /\ t_solve o (1/20) t = Ok (b, t') /\ t_solve (reversed_solver o) (1/20) (t_reversed t) = Ok (b', u')
  /\ t_getJerk t' = 1/2 /\ t_getJerk u' = - (1/2) /\ t_at 3 t <> t.
Proof.
  destruct C19_to_C23_case as (t & Hr & M & W & (q & Hq) & S & O & (o & E) & _). destruct (S o) as ((b & t') & H).
  pose proof (C22_optimal_with_limits _ _ _ _ _ Hr E M H (ex_intro _ _ (proj1 O))) as O'.
  assert (N : (0 < nN (tmod t))%nat) by (pose proof (reachable_tinv _ Hr) as (F & _); exact (nf_N _ (of_mod _ F))).
  pose proof (optimal_unique t _ _ W O' O 0%nat N) as J.
  exists t, o, b, t', b, (t_reversed t'). split; [exact Hr|]. split; [exact E|]. split; [apply C75_reversed_solver_exact, E|]. split; [exact M|]. split; [exact W|].
  split; [exact (proj2 (proj2 (problem_refs _ _ Hq)))|]. split; [exists (fun _ => 1/2); exact (proj1 O)|]. split; [exact H|]. split; [rewrite reversed_solve, H; reflexivity|].
  split; [exact J|]. split; [unfold t_getJerk, t_reversed; cbn [tX vopp vget]; unfold t_getJerk in J; rsimpl; rewrite J; reflexivity|].
  intros C. apply (f_equal (fun u => pos (nstate (tmod u)))) in C. unfold t_at, carried in C. cbn [tmod nodyn_withState nstate pos] in C. lra.
Qed.

Print Assumptions C75_same_problem_anywhere.
Print Assumptions C75_histories_anywhere.
Print Assumptions C75_read_anywhere.
Print Assumptions C75_put_anywhere.
Print Assumptions C75_reversed_histories.
Print Assumptions C75_reversed_from_new.
Print Assumptions C75_reversed_solver_exact.
Print Assumptions C75_exact_solvers_reverse.
