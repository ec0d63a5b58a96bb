(** With an exact solver, one call of solve on a humanoid walk generator applies the best motion (C67). *)

From Coq Require Import Reals List ZArith Arith Bool Lra Lia FunctionalExtensionality Classical_Prop.
From Verif Require Import Scalar LinAlg LinAlgFacts ToolsModel ToolsSpec NoDynModel PolygonModel PolygonFacts QPModel QPFacts TrajModel LipModel FootModel
  ModelsSpec ModelsFacts SupModel SupSpec SupFacts SupTime SupWalk PropQP PropSup HumModel HumAlg HumSpec HumFacts HumObj HumProb HumWorld HumRunSpec HumRun PropHum PropHumSolve PropHumStart
  HumOptSpec.
From Verif Require QPExist PropHumRun.
Import ListNotations.
Local Open Scope R_scope.

Section Opt.
Context {TK : Trig R}.

Lemma on_ground_det tl tn tau f st p p' : (forall j j', in_progress tn tl tau j -> in_progress tn tl tau j' -> j = j') ->
  on_ground tl tn tau f st p -> on_ground tl tn tau f st p' -> p = p'.
Proof. intros U (j & A & ->) (j' & B & ->). rewrite (U _ _ A B). reflexivity. Qed.

Section Call.
Context (n c : nat) (fb tn : R) (h0 h : hum R) (A : about_to_solve n c fb tn h0) (Hp : h_prepare fb h0 = Ok h).
Let S0 := INR c * fb.
Let N := lN (hlip h).
Let M := snb (hsup h).

Lemma call_first : first_interval h S0.
Proof.
  destruct A as [Rc Rd Hfb HT Hc Hl]. destruct (C39_first_interval _ _ _ _ _ n c Rc Hp Rd Hfb HT eq_refl) as (F & _ & E).
  assert (El : lfb (hlip h) = fb); [|rewrite El in F; exact F]. destruct Hl as [Hl|Hl]; [|exact (E Hl)].
  destruct (h_prepare_cases _ _ _ Hp) as (s & X & l & _ & Hl' & _ & _ & _ & E2 & _). rewrite E2. rewrite Hl in Hl'. replace (fb - fb) with 0 in Hl' by ring. rewrite Rabs_R0 in Hl'.
  destruct (Rltb_spec EPS 0) as [He|_]; [assert (0 < EPS) by (rsimpl; lra); lra|]. injection Hl' as <-. exact Hl.
Qed.
Lemma call_sizes : lN (hlip h0) = N /\ sN (hsup h0) = N /\ lT (hlip h) = sT (hsup h0) /\ S0 <= sT (hsup h0).
Proof.
  destruct A as [Rc Rd Hfb HT Hc Hl]. destruct (prepared _ _ _ Rc Hp) as (I & _ & _). destruct (prepared_T _ _ _ Rc Hp) as (ET & _ & EN). pose proof (reached_inv _ Rc) as I0.
  unfold N. rewrite (hi_N _ I), (hi_N _ I0) in EN. split; [symmetry; exact EN|]. split; [rewrite (hi_N _ I0); symmetry; exact EN|].
  split; [rewrite ET; symmetry; exact (reached_T _ Rc)|]. rewrite HT. apply Rmult_le_compat_r; [assert (0 < EPS) by (rsimpl; lra); lra|]. apply le_INR. lia.
Qed.
Lemma call_unique i j j' : (i < N)%nat -> in_progress tn (cbl (stl (hsup h))) (S0 + INR i * lT (hlip h)) j -> in_progress tn (cbl (stl (hsup h))) (S0 + INR i * lT (hlip h)) j' -> j = j'.
Proof.
  intros Hi. destruct call_sizes as (_ & EN & -> & _). destruct (h_prepare_cases _ _ _ Hp) as (s & X1 & l & Hu & _ & _ & _ & E1 & _). rewrite E1.
  destruct (C29_one_support_per_sample _ _ _ _ fb (as_ready _ _ _ _ _ A)) as (s' & v' & E2 & _ & _ & _ & _ & _ & U). rewrite Hu in E2. injection E2 as <- <-.
  destruct (U i) as (j0 & _ & U0 & _); [lia|]. intros H1 H2. rewrite (U0 _ H1), (U0 _ H2). reflexivity.
Qed.
Context (fx fy : R) (Hs : support_is (hsup h) fx fy) (Hx : exact_inverses h).

(** The jerks that solve computes from a decision vector make a motion with it, *)
Lemma convert_motion X t : h_convert (hlip h) (hsup h) X = Ok t -> motion_of h tn S0 fx fy (vget X) (vget t) (fun i => vget t (N + i)).
Proof.
  intros Ht i Hi. destruct call_sizes as (EN & _ & ET & _).
  destruct (C39_jerks_give_the_cop _ _ _ _ _ _ _ _ _ _ (as_reached _ _ _ _ _ A) Hp (as_ready _ _ _ _ _ A) Hs call_first Hx Ht) as (_ & _ & Q).
  rewrite EN in Q. rewrite ET. fold N in Hi. exact (Q i Hi).
Qed.
(** and no others do. *)
Lemma motion_convert Y Jx Jy X t : motion_of h tn S0 fx fy Y Jx Jy -> h_convert (hlip h) (hsup h) X = Ok t -> (forall k, vget X k = Y k) ->
  forall i, (i < N)%nat -> Jx i = vget t i /\ Jy i = vget t (N + i)%nat.
Proof.
  intros Mo Ht E. destruct call_sizes as (EN & _ & ET & _).
  assert (EY : vget X = Y) by (apply functional_extensionality; exact E). subst Y.
  rewrite <- EN. apply (C39_no_other_jerks _ _ _ X t fx fy tn S0 S0 Jx Jy (as_reached _ _ _ _ _ A) Hp (as_ready _ _ _ _ _ A) Hs call_first Hx Ht).
  intros i px py Hi G1 G2. rewrite EN in Hi, G1, G2 |- *. rewrite <- ET in G1, G2. destruct (Mo i Hi) as (qx & qy & F1 & F2 & F3 & F4).
  rewrite (on_ground_det _ _ _ _ _ _ _ (fun j j' => call_unique i j j' Hi) G1 F1), (on_ground_det _ _ _ _ _ _ _ (fun j j' => call_unique i j j' Hi) G2 F2). auto.
Qed.
Lemma price_ext Y Jx Jy Kx Ky : (forall i, (i < N)%nat -> Jx i = Kx i /\ Jy i = Ky i) -> price h S0 Y Jx Jy = price h S0 Y Kx Ky.
Proof.
  intros E. unfold price, hum_cost. cbv zeta. fold N. f_equal. f_equal. f_equal; f_equal; apply ssum_ext; intros i Hi.
  - rewrite (sim_ext S0 (lT (hlip h)) (lsx (hlip h)) Jx Kx i) by (intros k Hk; apply E; lia). rewrite (sim_ext S0 (lT (hlip h)) (lsy (hlip h)) Jy Ky i) by (intros k Hk; apply E; lia). reflexivity.
  - destruct (E i Hi) as (-> & ->). reflexivity.
Qed.
Lemma plan_iff q idx d : h_problem h = Ok (q, idx) -> (qfeasible q d <-> permitted_plan h fx fy (moved h d)).
Proof.
  intros Hq. destruct (prepared _ _ _ (as_reached _ _ _ _ _ A) Hp) as (I & Sh & _). rewrite (feasible_iff _ _ _ _ _ _ I Hq Hs). unfold permitted_plan.
  replace (fun k => moved h d k - vget (hX h) k) with d by (apply functional_extensionality; intros k; unfold moved; ring). reflexivity.
Qed.
Lemma moved_back Y : moved h (fun k => Y k - vget (hX h) k) = Y.
Proof. apply functional_extensionality. intros k. unfold moved. ring. Qed.

(** The minimisers of the problem are the changes that lead to the best motions. *)
Lemma minimiser_iff q idx d t : h_problem h = Ok (q, idx) -> h_convert (hlip h) (hsup h) (vadd (hX h) d) = Ok t ->
  (qminimiser q (vget d) <-> best_motion h tn S0 fx fy (moved h (vget d)) (vget t) (fun i => vget t (N + i))).
Proof.
  intros Hq Ht. destruct (convert_defined h (vadd (hX h) d) (hX h) t Ht) as (t0 & Ht0); [reflexivity|].
  assert (C : forall e u, h_convert (hlip h) (hsup h) (vadd (hX h) e) = Ok u -> qcost q (vget e) = price h S0 (moved h (vget e)) (vget u) (fun i => vget u (N + i)) - price h S0 (vget (hX h)) (vget t0) (fun i => vget t0 (N + i))).
  { intros e u Hu. exact (C38_cost_of_the_motion _ _ _ _ _ _ _ _ _ _ _ (as_reached _ _ _ _ _ A) Hp Hq (as_ready _ _ _ _ _ A) call_first Ht0 Hu). }
  unfold best_motion, qminimiser. rewrite (plan_iff q idx _ Hq). split.
  - intros (F & Mi). split; [exact (convert_motion _ _ Ht)|]. split; [exact F|]. intros Z Kx Ky Mo Pl.
    set (e := MkVec (vlen d) (fun k => Z k - vget (hX h) k)).
    destruct (convert_defined h (vadd (hX h) d) (vadd (hX h) e) t Ht) as (u & Hu); [reflexivity|].
    assert (Pe : moved h (vget e) = Z) by exact (moved_back Z). pose proof (Mi (vget e)) as Q. rewrite (plan_iff q idx _ Hq), Pe in Q. specialize (Q Pl).
    rewrite (C d t Ht), (C e u Hu), Pe in Q.
    rewrite (price_ext Z Kx Ky (vget u) (fun i => vget u (N + i))); [lra|]. apply (motion_convert Z Kx Ky _ u Mo Hu). intros k. exact (f_equal (fun f => f k) Pe).
  - intros (Mo & F & Mi). split; [exact F|]. intros y Hy. set (e := MkVec (vlen d) y).
    destruct (convert_defined h (vadd (hX h) d) (vadd (hX h) e) t Ht) as (u & Hu); [reflexivity|].
    change y with (vget e). rewrite (C d t Ht), (C e u Hu). apply Rplus_le_compat_r. apply Mi; [exact (convert_motion _ _ Hu)|]. apply (plan_iff q idx _ Hq). exact Hy.
Qed.
(** Every step of the decision vector is under the robot at some sample. *)
Lemma step_used k : (k < M)%nat -> exists i j, (i < N)%nat /\ in_progress tn (cbl (stl (hsup h))) (S0 + INR i * lT (hlip h)) j /\ steps_before (cbl (stl (hsup h))) j = S k.
Proof.
  unfold M. intros Hk. destruct call_sizes as (_ & EN & -> & _). destruct (h_prepare_cases _ _ _ Hp) as (s & X1 & l & Hu & _ & _ & _ & E1 & _). rewrite E1 in Hk |- *.
  pose proof (as_ready _ _ _ _ _ A) as Rd. pose proof (ry_T _ _ _ _ Rd) as HT. assert (HE : 0 < EPS) by (rsimpl; lra).
  destruct (ready_update _ _ _ _ fb Rd) as (s' & v' & f & r0 & a & b & n' & w & n1 & i & E & U & Hst & Hd & Ha & Hb & Htn & _). rewrite Hu in E. injection E as <- <-.
  rewrite (u_tl _ _ _ _ _ _ _ _ _ _ _ _ _ _ _ U). rewrite (u_nb _ _ _ _ _ _ _ _ _ _ _ _ _ _ _ U) in Hk.
  assert (J : exists j, (j <= i)%nat /\ nbs (smove (hsup h0)) (phType f) j = S k).
  { clear - Hk. induction i as [|i IH]; [cbn [nbs] in Hk; lia|]. destruct (Nat.lt_ge_cases k (nbs (smove (hsup h0)) (phType f) i)) as [L|L]; [destruct (IH L) as (j & H1 & H2); exists j; auto|].
    exists (S i). split; [lia|]. cbn [nbs] in Hk |- *. destruct (is_DS (typ (smove (hsup h0)) (phType f) i)); lia. }
  destruct J as (j & Hj & Ej). destruct j as [|j]; [cbn [nbs] in Ej; discriminate Ej|].
  pose proof (ends_ge (hsup h0) f r0 a b j Ha Hb) as G1. pose proof (ends_lt (hsup h0) f r0 a b (ry_N _ _ _ _ Rd) Ha Hb j (S j) ltac:(lia)) as G2.
  assert (G3 : (ends (hsup h0) f r0 a b j <= N)%nat).
  { rewrite <- EN. destruct (u_low _ _ _ _ _ _ _ _ _ _ _ _ _ _ _ U) as [->|L]; [lia|]. pose proof (ends_mono (hsup h0) f r0 a b (ry_N _ _ _ _ Rd) Ha Hb j (i - 1) ltac:(lia)). lia. }
  exists (ends (hsup h0) f r0 a b j - 1)%nat, (S j). split; [lia|]. split; [|rewrite steps_before_nbs by lia; exact Ej].
  rewrite Htn. apply (in_progress_row (hsup h0) f S0 r0 a b i _ (S j)); try assumption; [lra|]. split; [|exact Hj].
  split; [right; replace (S j - 1)%nat with j by lia; lia|]. replace (S (ends (hsup h0) f r0 a b j - 1)) with (ends (hsup h0) f r0 a b j) by lia. exact G2.
Qed.
(** Motions with the same jerks and the same centres of pressure have the same steps. *)
Lemma same_steps Y Jx Jy Z Kx Ky : motion_of h tn S0 fx fy Y Jx Jy -> motion_of h tn S0 fx fy Z Kx Ky ->
  (forall i, (i < N)%nat -> Jx i = Kx i /\ Jy i = Ky i) -> (forall k, (k < 2 * N)%nat -> Y k = Z k) -> forall k, (k < 2 * N + 2 * M)%nat -> Y k = Z k.
Proof.
  intros MY MZ EJ EC. assert (St : forall k, (k < M)%nat -> dStepX N Y k = dStepX N Z k /\ dStepY N M Y k = dStepY N M Z k).
  { intros k Hk. destruct (step_used k Hk) as (i & j & Hi & Hj & Es). destruct (MY i Hi) as (px & py & (j1 & P1 & P2) & (j2 & P3 & P4) & P5 & P6).
    destruct (MZ i Hi) as (qx & qy & (j3 & Q1 & Q2) & (j4 & Q3 & Q4) & Q5 & Q6).
    rewrite (call_unique i _ _ Hi P1 Hj) in P2. rewrite (call_unique i _ _ Hi P3 Hj) in P4. rewrite (call_unique i _ _ Hi Q1 Hj) in Q2. rewrite (call_unique i _ _ Hi Q3 Hj) in Q4.
    rewrite Es in P2, P4, Q2, Q4. fold N M in P2, P4, Q2, Q4, P6, Q6.
    assert (X1 : cop_x (hlip h) S0 Jx i = cop_x (hlip h) S0 Kx i) by (unfold cop_x; rewrite (sim_ext _ _ _ Jx Kx); [reflexivity|intros m Hm; apply EJ; lia]).
    assert (X2 : cop_y (hlip h) S0 Jy i = cop_y (hlip h) S0 Ky i) by (unfold cop_y; rewrite (sim_ext _ _ _ Jy Ky); [reflexivity|intros m Hm; apply EJ; lia]).
    unfold dCopX in P5, Q5. unfold dCopY in P6, Q6. pose proof (EC i ltac:(lia)) as E1. pose proof (EC (N + i)%nat ltac:(lia)) as E2. split; lra. }
  intros k Hk. destruct (Nat.lt_ge_cases k (2 * N)) as [L|L]; [exact (EC k L)|]. destruct (Nat.lt_ge_cases k (2 * N + M)) as [L2|L2].
  - destruct (St (k - 2 * N)%nat) as (E & _); [lia|]. unfold dStepX in E. replace (2 * N + (k - 2 * N))%nat with k in E by lia. exact E.
  - destruct (St (k - (2 * N + M))%nat) as (_ & E); [lia|]. unfold dStepY in E. replace (2 * N + M + (k - (2 * N + M)))%nat with k in E by lia. exact E.
Qed.
End Call.

(** ** C67 *)
Lemma solve_plan n c fb tn h0 h o found h' : about_to_solve n c fb tn h0 -> h_prepare fb h0 = Ok h -> h_solve o fb h0 = Ok (found, h') ->
  exists q idx d t l1 l2 s, h_problem h = Ok (q, idx) /\ vlen (qp q) = (2 * lN (hlip h) + 2 * snb (hsup h))%nat /\ found = true
  /\ d = MkVec (vlen (qp q)) (fun i => if Nat.ltb i (vlen (qp q)) then fst (o (normalizeMatrices EPS q) 10000%Z) i else vget (hdX h) i)
  /\ h_convert (hlip h) (hsup h) (vadd (hX h) d) = Ok t
  /\ l_updateStateX (vget t 0) fb (hlip h) = Ok l1 /\ l_updateStateY (vget t (lN (hlip h))) fb l1 = Ok l2
  /\ s_updateFeetStates (vseg t (2 * lN (hlip h)) (2 * snb (hsup h))) fb (hsup h) = Ok s
  /\ h' = MkHum s l2 (hvelRef h) (hcopLen h) (hsolvers h) (hmats h) d (vadd (hX h) d) t (hw h) (hcopC h) (hfeetC h) (hmaxC h) (hmaxS h) (hmove h) (hfirst h).
Proof.
  intros A Hp H. destruct (prepared _ _ _ (as_reached _ _ _ _ _ A) Hp) as (I & _ & _). unfold h_solve in H. rewrite Hp in H. cbn [bind] in H.
  apply bind_ok in H. destruct H as ((q & idx) & Hq & H). cbn [fst snd] in H.
  destruct (problem_inv _ _ _ I Hq) as (rc & rf & bc & bf & _ & _ & _ & _ & _ & _ & _ & D1 & D2 & D3 & D4 & D5 & _).
  unfold h_finish in H. cbv zeta in H. rewrite <- D3 in H. apply bind_ok in H. destruct H as ((nv & nc) & _ & H). apply bind_ok in H. destruct H as (((sv & dX) & fd) & Hv & H).
  apply bind_ok in H. destruct H as (X & HX & H). apply bind_ok in H. destruct H as (t & Ht & H). apply bind_ok in H. destruct H as (l1 & Hl1 & H). apply bind_ok in H. destruct H as (l2 & Hl2 & H).
  apply bind_ok in H. destruct H as (s & Hs & H). injection H as <- <-. unfold vaddE in HX. apply guard_ok in HX. destruct HX as (_ & HX). injection HX as <-.
  unfold solver_solve in Hv. apply guard_ok in Hv. destruct Hv as (Hd & Hv). cbn [fst snd newSolver smem effective snbVar andb] in Hv.
  destruct (o _ _) as (x & ok) eqn:Eo. apply ubguard_ok in Hv. destruct Hv as (_ & Hv). rewrite andb_false_r in Hv. injection Hv as _ <- <-.
  assert (En : nv = vlen (qp q)).
  { unfold dimensionsAreConsistent, normalizeMatrices, scale_qp in Hd. cbn in Hd. repeat (apply andb_prop in Hd; destruct Hd as (Hd & ?)).
    repeat match goal with E : Nat.eqb _ _ = true |- _ => apply Nat.eqb_eq in E end. congruence. }
  subst nv. exists q, idx. do 5 eexists. split; [exact Hq|]. split; [exact D3|]. split; [reflexivity|]. split; [reflexivity|].
  cbn [vlen vget] in *. rewrite Eo. cbn [fst].
  split; [exact Ht|]. split; [exact Hl1|]. split; [exact Hl2|]. split; [exact Hs|]. reflexivity.
Qed.
(** If some motion respects the constraints, the plan and the jerks after solve are a best motion; the
    centre of mass advances by the feedback period under its first jerks, the feet follow its steps. *)
Theorem C67_solve_applies_the_best_motion : forall n c fb tn h0 h o found h' fx fy,
  about_to_solve n c fb tn h0 -> h_prepare fb h0 = Ok h -> h_solve o fb h0 = Ok (found, h') ->
  support_is (hsup h) fx fy -> exact_inverses h -> exact_for o h -> (exists Y, permitted_plan h fx fy Y) ->
  let N := lN (hlip h) in
  best_motion h tn (INR c * fb) fx fy (vget (hX h')) (vget (htX h')) (fun i => vget (htX h') (N + i))
  /\ run [(vget (htX h') 0, fb)] (lsx (hlip h0)) = Ok (lsx (hlip h'))
  /\ run [(vget (htX h') N, fb)] (lsy (hlip h0)) = Ok (lsy (hlip h'))
  /\ s_updateFeetStates (vseg (hX h') (2 * N) (2 * snb (hsup h))) fb (hsup h) = Ok (hsup h').
Proof.
  intros n c fb tn h0 h o found h' fx fy A Hp H Hs Hx Ex (Y & HY) N. destruct (C39_solve_applies_first_jerks _ _ _ _ _ (as_reached _ _ _ _ _ A) H) as (h1 & q1 & i1 & d1 & t1 & Hp1 & _ & _ & Ht1 & Ex1 & Ey1 & _ & _ & _ & _ & _ & _ & Ef1).
  rewrite Hp in Hp1. injection Hp1 as <-.
  destruct (solve_plan _ _ _ _ _ _ _ _ _ A Hp H) as (q & idx & d & t & l1 & l2 & s & Hq & Lq & _ & Ed & Ht & Hl1 & Hl2 & Hf & E).
  assert (Et : htX h' = t1 /\ hX h' = vadd (hX h) d) by (rewrite E in Ht1 |- *; cbn [hX htX] in *; rewrite Ht in Ht1; injection Ht1 as <-; auto). destruct Et as (-> & EX). rewrite EX in Ht1. rewrite Ht in Ht1. injection Ht1 as <-.
  assert (EP : 0 <= EPS) by (rsimpl; lra).
  assert (El : lsx (hlip h) = lsx (hlip h0) /\ lsy (hlip h) = lsy (hlip h0) /\ 0 < fb).
  { destruct (h_prepare_cases _ _ _ Hp) as (s' & X' & l & _ & Hl & Hfb & _ & _ & E2 & _). rewrite E2. destruct (Rltb _ _); [|injection Hl as <-; auto].
    pose proof (reached_inv _ (as_reached _ _ _ _ _ A)) as I. destruct (lstep_inv (LSetFeedbackPeriod fb) _ _ (hi_fresh _ I) (hi_auto _ I) Hl) as (_ & _ & O). injection O; intros; auto. }
  destruct El as (<- & <- & Hfb).
  split; [|split; [|split]].
  - rewrite EX. apply (minimiser_iff n c fb tn h0 h A Hp fx fy Hs Hx q idx d t Hq Ht).
    assert (Q : qminimiser (normalizeMatrices EPS q) (fst (o (normalizeMatrices EPS q) 10000%Z))).
    { apply (Ex q idx 10000%Z Hq). apply QPExist.qp_has_minimiser. exists (fun k => Y k - vget (hX h) k). apply (proj2 (proj1 (C17_normalisation_preserves_solutions q EPS _ EP))).
      apply (plan_iff n c fb tn h0 h A Hp fx fy Hs q idx _ Hq). rewrite moved_back. exact HY. }
    apply (proj1 (proj2 (C17_normalisation_preserves_solutions q EPS _ EP))) in Q. apply (QPExist.qminimiser_ext q (fst (o (normalizeMatrices EPS q) 10000%Z))); [|exact Q].
    intros i Hi. rewrite Ed. cbn [vget]. rewrite (proj2 (Nat.ltb_lt _ _) Hi). reflexivity.
  - cbn [run]. rewrite ToolsFacts.updateState_ok by exact Hfb. cbn [bind]. f_equal. symmetry. exact Ex1.
  - cbn [run]. rewrite ToolsFacts.updateState_ok by exact Hfb. cbn [bind]. f_equal. symmetry. exact Ey1.
  - exact Ef1.
Qed.
(** With positive weights on the jerks and on the centres of pressure there is only one best motion. *)
Theorem C67_one_best_motion : forall n c fb tn h0 h fx fy Y Jx Jy Z Kx Ky,
  about_to_solve n c fb tn h0 -> h_prepare fb h0 = Ok h -> (exists q, h_problem h = Ok q) -> (exists X t, vlen X = vlen (hX h) /\ h_convert (hlip h) (hsup h) X = Ok t) ->
  support_is (hsup h) fx fy -> exact_inverses h -> 0 < wJerkM (hw h) ->
  best_motion h tn (INR c * fb) fx fy Y Jx Jy -> best_motion h tn (INR c * fb) fx fy Z Kx Ky ->
  let N := lN (hlip h) in
  (forall i, (i < N)%nat -> Jx i = Kx i /\ Jy i = Ky i)
  /\ (0 < wCopC (hw h) -> forall k, (k < 2 * N + 2 * snb (hsup h))%nat -> Y k = Z k).
Proof.
  intros n c fb tn h0 h fx fy Y Jx Jy Z Kx Ky A Hp ((q & idx) & Hq) (X & t & LX & Ht) Hs Hx HW BY BZ N.
  assert (D : forall W Px Py, best_motion h tn (INR c * fb) fx fy W Px Py -> exists u, let d := MkVec (vlen (hX h)) (fun k => W k - vget (hX h) k) in
     h_convert (hlip h) (hsup h) (vadd (hX h) d) = Ok u /\ moved h (vget d) = W /\ (forall i, (i < N)%nat -> Px i = vget u i /\ Py i = vget u (N + i)%nat) /\ qminimiser q (vget d)).
  { intros W Px Py B. cbv zeta. set (d := MkVec (vlen (hX h)) (fun k => W k - vget (hX h) k)). destruct (convert_defined h X (vadd (hX h) d) t Ht) as (u & Hu); [symmetry; exact LX|]. exists u. split; [exact Hu|].
    assert (Ed : moved h (vget d) = W) by exact (moved_back h W). split; [exact Ed|].
    assert (Ej : forall i, (i < N)%nat -> Px i = vget u i /\ Py i = vget u (N + i)%nat).
    { apply (motion_convert n c fb tn h0 h A Hp fx fy Hs Hx W Px Py _ u (proj1 B) Hu). intros k. exact (f_equal (fun f => f k) Ed). }
    split; [exact Ej|]. apply (minimiser_iff n c fb tn h0 h A Hp fx fy Hs Hx q idx d u Hq Hu). rewrite Ed. destruct B as (B1 & B2 & B3).
    split; [|split; [exact B2|]].
    - rewrite <- Ed. exact (convert_motion n c fb tn h0 h A Hp fx fy Hs Hx _ _ Hu).
    - intros V Qx Qy M1 M2. fold N. rewrite <- (price_ext c fb h W Px Py (vget u) (fun i => vget u (N + i)) Ej). exact (B3 V Qx Qy M1 M2). }
  destruct (D _ _ _ BY) as (u & Hu & EY & JY & MY). destruct (D _ _ _ BZ) as (w & Hw & EZ & JZ & MZ). cbv zeta in *.
  destruct (call_sizes n c fb tn h0 h A Hp) as (_ & _ & _ & HS).
  destruct (C64_one_motion _ _ _ _ _ _ _ _ _ _ _ _ (as_reached _ _ _ _ _ A) Hp Hq (as_ready _ _ _ _ _ A) HS (call_first n c fb tn h0 h A Hp) HW MY MZ Hu Hw) as (P1 & P2).
  assert (P : forall i, (i < N)%nat -> Jx i = Kx i /\ Jy i = Ky i).
  { intros i Hi. destruct (JY i Hi) as (-> & ->), (JZ i Hi) as (-> & ->). fold N in P1. split; apply P1; lia. }
  split; [exact P|]. intros HC. specialize (P2 HC). rewrite EY, EZ in P2.
  apply (same_steps n c fb tn h0 h A Hp fx fy Y Jx Jy Z Kx Ky (proj1 BY) (proj1 BZ) P P2).
Qed.
(** Then the results of two exact solvers cannot be told apart: everything in the generator, and what solve returns, is the same. *)
Theorem C67_exact_solvers_agree : forall n c fb tn h0 h o1 o2 r1 r2 fx fy,
  about_to_solve n c fb tn h0 -> h_prepare fb h0 = Ok h -> h_solve o1 fb h0 = Ok r1 -> h_solve o2 fb h0 = Ok r2 ->
  support_is (hsup h) fx fy -> exact_inverses h -> exact_for o1 h -> exact_for o2 h -> (exists Y, permitted_plan h fx fy Y) ->
  0 < wJerkM (hw h) -> 0 < wCopC (hw h) -> r1 = r2.
Proof.
  intros n c fb tn h0 h o1 o2 (f1 & h1) (f2 & h2) fx fy A Hp H1 H2 Hs Hx X1 X2 HY HW HC.
  destruct (C67_solve_applies_the_best_motion _ _ _ _ _ _ _ _ _ _ _ A Hp H1 Hs Hx X1 HY) as (B1 & _). destruct (C67_solve_applies_the_best_motion _ _ _ _ _ _ _ _ _ _ _ A Hp H2 Hs Hx X2 HY) as (B2 & _).
  destruct (solve_plan _ _ _ _ _ _ _ _ _ A Hp H1) as (q & idx & d1 & t1 & l1 & l2 & s & Hq & Lq & -> & Ed1 & Ht1 & Hl1 & Hl2 & Hf1 & E1).
  destruct (solve_plan _ _ _ _ _ _ _ _ _ A Hp H2) as (q' & idx' & d2 & t2 & m1 & m2 & s' & Hq' & _ & -> & Ed2 & Ht2 & Hm1 & Hm2 & Hf2 & E2).
  rewrite Hq in Hq'. injection Hq' as <- <-.
  assert (Lt : vlen (vadd (hX h) d1) = vlen (hX h)) by reflexivity.
  destruct (C67_one_best_motion _ _ _ _ _ _ _ _ _ _ _ _ _ _ A Hp (ex_intro _ _ Hq) (ex_intro _ _ (ex_intro _ _ (conj Lt Ht1))) Hs Hx HW B1 B2) as (_ & P). specialize (P HC).
  rewrite E1, E2 in P. cbn [hX vadd vget vlen] in P. change (@sadd R _) with Rplus in P.
  assert (Ed : d1 = d2).
  { rewrite Ed1, Ed2 in P |- *. f_equal. apply functional_extensionality. intros k. destruct (Nat.ltb_spec k (vlen (qp q))) as [L|L]; [|reflexivity].
    specialize (P k). rewrite <- Lq in P. specialize (P L). cbn [vget] in P. rewrite (proj2 (Nat.ltb_lt _ _) L) in P. lra. }
  clear P Ed1 Ed2. subst d2. rewrite Ht1 in Ht2. injection Ht2 as <-. rewrite Hl1 in Hm1. injection Hm1 as <-. rewrite Hl2 in Hm2. injection Hm2 as <-. rewrite Hf1 in Hf2. injection Hf2 as <-.
  rewrite E1, E2. reflexivity.
Qed.

(** ** Along a walk *)
Lemma walk_about n a b fb N h : (0 < N)%nat -> (0 < n)%nat -> (0 < a)%nat -> (a <= S N)%nat -> (0 < b)%nat -> EPS < fb -> reached h -> hwalk N n a b fb h -> exists tn c, about_to_solve n c fb tn h.
Proof.
  intros HN Hn Ha HaN Hb Hfb Rc [I W _ _ _ _ (s & f & i & m & k & Wk & Ek & Es & Hmv)].
  destruct (walking_ready N n a b fb HN Hn Ha HaN Hb Hfb s (hX h) f i m k (smove (hsup h)) Wk) as (tn & S0 & Rd & _ & ES). rewrite <- Es in Rd.
  exists tn, (S ((next_m n a b s f m - 1) mod n)). constructor; try assumption.
  - rewrite <- ES. exact Rd.
  - rewrite (reached_T _ Rc). exact (lw_T _ _ _ _ W).
  - split; [lia|]. apply Nat.mod_upper_bound. lia.
  - exact (proj2 (lw_fb _ _ _ _ W)).
Qed.
(** During a walk, whatever is called among what may be called, the next call of solve is as in the theorems above. *)
Theorem C67_always_about_to_solve : forall n a b fb hs cs h0, ready_to_walk n a b fb hs -> permitted n fb cs hs -> hsteps cs hs = Ok h0 ->
  (forall cs1 o cs2 h1, cs = cs1 ++ HSolve o fb :: cs2 -> hsteps cs1 hs = Ok h1 -> ~ hull_fails fb h1) ->
  exists tn c, about_to_solve n c fb tn h0.
Proof.
  intros n a b fb hs cs h0 Rw Pm E Hh. destruct (ready_walks _ _ _ _ _ Rw) as (HN & W). destruct Rw as [(hx & t & St & -> & _) Hfb Hn (Ha & HaN) Hb _ _ _ _ _ _ _ _].
  assert (Rc : reached (h_setSolvers t hx)) by (apply reached_table; exact (up_reached _ (settled_up _ St))).
  destruct (run_ok _ n a b fb HN Hn Ha HaN Hb Hfb cs _ W Pm) as [(h' & E' & W')|(cs1 & o & cs2 & h1 & Ec & E1 & F)]; [|exfalso; exact (Hh _ _ _ _ Ec E1 F)].
  rewrite E in E'. injection E' as <-. exact (walk_about n a b fb _ h0 HN Hn Ha HaN Hb Hfb (hsteps_reached _ _ _ Rc E) W').
Qed.
(** Two walks that differ only in the solver, both solvers being exact, are the same walk. *)
Theorem C67_walks_agree : forall n a b fb hs cs1 cs2 h1 h2, ready_to_walk n a b fb hs -> permitted n fb cs1 hs ->
  Forall2 same_but_solver cs1 cs2 -> solves_exactly fb cs1 hs -> solves_exactly fb cs2 hs ->
  hsteps cs1 hs = Ok h1 -> hsteps cs2 hs = Ok h2 -> h1 = h2.
Proof.
  intros n a b fb hs cs1 cs2 h1 h2 Rw Pm F X1 X2 E1 E2. destruct (ready_walks _ _ _ _ _ Rw) as (HN & W). destruct Rw as [(hx & t & St & Eh & _) Hfb Hn (Ha & HaN) Hb _ _ _ _ _ _ _ _].
  assert (Rc : reached hs) by (rewrite Eh; apply reached_table; exact (up_reached _ (settled_up _ St))). clear hx t St Eh.
  set (N := sN (hsup hs)) in *. clearbody N. revert hs Pm X1 X2 E1 E2 W Rc. induction F as [|c1 c2 cs1 cs2 Hc F IH]; intros hs Pm X1 X2 E1 E2 W Rc.
  - cbn [hsteps] in E1, E2. congruence.
  - cbn [hsteps permitted solves_exactly] in *. destruct Pm as (My & Pm), X1 as (Xa & X1), X2 as (Xb & X2).
    apply bind_ok in E1. destruct E1 as (k1 & E1 & E1'). apply bind_ok in E2. destruct E2 as (k2 & E2 & E2').
    assert (Hk : is_solve c1 -> hull_known fb hs).
    { intros Hi. destruct c1; try destruct Hi. cbn [may] in My. subst. cbn in Xa. destruct Xa as (Hh & _). intros Ec s v Eu. apply NNPP. intros Nh. apply Hh. split; [exact Ec|]. eauto. }
    destruct (call_ok N n a b fb HN Hn Ha HaN Hb Hfb c1 hs W My Hk) as (k & Ek & Wk). rewrite E1 in Ek. injection Ek as <-.
    assert (EE : k1 = k2).
    { destruct Hc as [->|(o1 & o2 & f & -> & ->)]; [congruence|]. cbn [may] in My. subst f. cbn in Xa, Xb. destruct Xa as (_ & Xa), Xb as (_ & Xb).
      destruct (walk_about n a b fb N hs HN Hn Ha HaN Hb Hfb Rc W) as (tn & c & A). cbn [hstep] in E1, E2. apply bind_ok in E1. destruct E1 as (r1 & E1 & R1). apply bind_ok in E2. destruct E2 as (r2 & E2 & R2).
      assert (Hp : exists h, h_prepare fb hs = Ok h) by (unfold h_solve in E1; apply bind_ok in E1; destruct E1 as (h & E & _); eauto). destruct Hp as (h & Hp).
      destruct (Xa h Hp) as (Q1 & Q2 & Q3 & Q4 & Q5). destruct (Xb h Hp) as (_ & P2 & _).
      assert (Hf : exists fx fy, support_is (hsup h) fx fy).
      { unfold h_solve in E1. rewrite Hp in E1. cbn [bind] in E1. apply bind_ok in E1. destruct E1 as ((q & idx) & _ & E1). cbn [fst snd] in E1. apply finish_cases in E1. destruct E1 as (dX & Y & t & l1 & l2 & s & _ & _ & _ & Et & _).
        destruct (prepared _ _ _ Rc Hp) as (I & Sh & _). destruct (convert_inv _ _ _ I Sh Et) as (z & cx & cy & Vx & Vy & fx & fy & G). exists fx, fy. exact (cv_foot _ _ _ _ _ _ _ _ _ _ G). }
      destruct Hf as (fx & fy & Hf). assert (r1 = r2) by exact (C67_exact_solvers_agree _ _ _ _ _ _ _ _ _ _ _ _ A Hp E1 E2 Hf Q1 Q2 P2 (Q5 fx fy Hf) Q3 Q4). congruence. }
    subst k2. apply (IH k1); try assumption; auto. exact (reached_call _ _ _ Rc E1).
Qed.
End Opt.

(** ** Cases *)
(** With one preview sample, nothing is dropped from the inverses unless the matrix exceeds 10000. *)
Lemma one_sample_exact {TK : Trig R} h : hinv h -> lN (hlip h) = 1%nat ->
  (forall z, h_nb (hsup h) = Ok z -> let S := IZR (z + 1) * lfb (hlip h) in Rabs (lm (hlip h) / lM (hlip h) * (S * S * S / 6 - S * lh (hlip h) / gz (lg (hlip h)))) <= 10000) -> exact_inverses h.
Proof.
  intros I EN Hb z d V Hz Hd HV. specialize (Hb z Hz). cbv zeta in Hb.
  assert (E : exists g0, cop_fresh (hlip h) g0 z d) by (destruct Hd as [Hd|Hd]; [apply (getCopX_fresh _ _ _ (hi_fresh _ I)) in Hd|apply (getCopY_fresh _ _ _ (hi_fresh _ I)) in Hd]; destruct Hd as (_ & Hd); eauto).
  destruct E as (g0 & E). unfold cop_fresh in E. rewrite EN in *. set (S := IZR (z + 1) * lfb (hlip h)) in *.
  pose proof (PropTools.C08_cop_inverse _ _ _ _ _ _ _ _ _ E) as (T1 & T2).
  assert (Rg : PropTools.cop_regular S (lT (hlip h)) 1 (lh (hlip h)) (gz (lg (hlip h))) (lm (hlip h) / lM (hlip h))).
  { apply NNPP. intros Rg. apply T2 in Rg. congruence. }
  destruct (T1 Rg) as (B & V' & HB & EV & _ & Hi). rewrite HV in EV. injection EV as <-. apply Hi. intros i j Li Lj. right.
  assert (i = 0 /\ j = 0)%nat as (-> & ->) by lia. destruct (HB 0%nat 0%nat ltac:(lia) ltac:(lia)) as (H1 & _).
  destruct (ToolsFacts.computeCopDynamic_inv _ _ _ _ _ _ _ _ _ E) as (_ & _ & _ & _ & _ & _ & _ & EU & _). rewrite EU in H1.
  cbn [mmul cop_U lower mget mcols ssum mid Nat.eqb Nat.ltb Nat.leb] in H1. rewrite sofnat_INR in H1. cbn [INR] in H1. unfold spow3, spow2, shalf in H1. rsimpl.
  set (u := lm (hlip h) / lM (hlip h) * (S * S * S / 6 - S * lh (hlip h) / gz (lg (hlip h)))) in *.
  assert (H2 : u * mget B 0 0 = 1) by (unfold u; lra). assert (H3 : Rabs u * Rabs (mget B 0 0) = 1) by (rewrite <- Rabs_mult, H2; apply Rabs_R1).
  pose proof (Rabs_pos u). pose proof (Rabs_pos (mget B 0 0)). nra.
Qed.

(** A new generator with square feet, one preview sample, weights 1 and no constraint that starts to walk with an exact solver. *)
Example C67_case : forall TK : Trig R, exists hs o h1, let cs := [HSetWeightings (MkHW 1 1 1); HSetMove true; HSolve o (1/10)] in
  ready_to_walk 10 2 2 (1/10) hs /\ permitted 10 (1/10) cs hs /\ solves_exactly (1/10) cs hs /\ hsteps cs hs = Ok h1 /\ hcopC hs = false.
Proof.
  intros TK. destruct (PropHumRun.C55_case TK false false) as (h0 & hs & E0 & E1 & _ & Rw & _). specialize (Rw eq_refl eq_refl).
  assert (F : hw hs = MkHW 0 0 0 /\ hcopC hs = false /\ hfeetC hs = false /\ lN (hlip hs) = 1%nat /\ lT (hlip hs) = 1 /\ lh (hlip hs) = 1 /\ lm (hlip hs) = 1 /\ lM (hlip hs) = 1 /\ lg (hlip hs) = GRAVITY).
  { clear Rw. unfold newHum, newSupDefault, newSup, newFoot in E0. apply bind_ok in E0. destruct E0 as (s & Hs & E0). apply bind_ok in E0. destruct E0 as (l & Hl & E0). injection E0 as <-.
    binds Hs. repeat match goal with Q : bind _ _ = Ok _ |- _ => lazymatch type of Q with newLipDefault = _ => fail | hsteps _ _ = _ => fail | _ => binds Q; injection Q as <- end end. injection Hs as <-.
    assert (EN : lN l = 1%nat /\ lT l = 1 /\ lh l = 1 /\ lm l = 1 /\ lM l = 1 /\ lg l = GRAVITY). { unfold newLipDefault, newLip, l_auto, l_computeDynamics in Hl. cbn [lauto] in Hl. binds Hl. injection Hl as <-. repeat split. }
    cbn in E1. injection E1 as <-. cbn. repeat split; apply EN. }
  destruct F as (Fw & Fc & Ff & FN & FT & Fh & Fm & FM & Fg).
  assert (Pm : forall o, permitted 10 (1/10) [HSetWeightings (MkHW 1 1 1); HSetMove true; HSolve o (1/10)] hs).
  { intros o. cbn [permitted may]. rewrite Fw. cbn. repeat split; lra. }
  pose (o0 := fun (q : qpmats R) (z : Z) => (fun _ : nat => 0, true)).
  destruct (PropHumRun.C55_unconstrained_cop _ _ _ _ _ _ Rw (Pm o0) Fc) as (h' & E).
  cbn [hsteps] in E. apply bind_ok in E. destruct E as (h2 & E2 & E). apply bind_ok in E. destruct E as (h3 & E3 & E). apply bind_ok in E. destruct E as (h4 & E4 & _).
  cbn [hstep] in E4. apply bind_ok in E4. destruct E4 as (r & E4 & _). unfold h_solve in E4. apply bind_ok in E4. destruct E4 as (h & Ep & E4). apply bind_ok in E4. destruct E4 as ((q & idx) & Eq & E4).
  cbn [fst snd] in E4. apply finish_cases in E4. destruct E4 as (dX & Y & t & l1 & l2 & s & _ & _ & _ & Et & _).
  assert (Rc : reached h3).
  { destruct (rw_history _ _ _ _ _ Rw) as (hx & tt & St & -> & _). eapply reached_call; [|exact E3]. eapply reached_call; [|exact E2]. apply reached_table. exact (up_reached _ (settled_up _ St)). }
  assert (G : hcopC h3 = false /\ hfeetC h3 = false /\ hlip h3 = hlip hs /\ hw h3 = MkHW 1 1 1).
  { cbn [hstep] in E2, E3. unfold h_setWeightings in E2. binds E2. injection E2 as <-. unfold h_setMove in E3. binds E3. injection E3 as <-. cbn. auto. }
  destruct G as (G1 & G2 & G3 & G4).
  destruct (prepared _ _ _ Rc Ep) as (I & Sh & _). destruct (prepared_T _ _ _ Rc Ep) as (ET & _ & _).
  destruct (h_prepare_cases _ _ _ Ep) as (s1 & X1 & l3 & _ & Hl & _ & _ & _ & E5 & _ & _ & _ & _ & Ew & Ec & Efe & _). rewrite G4 in Ew. rewrite G1 in Ec. rewrite G2 in Efe.
  assert (Gm : forall fx fy, permitted_plan h fx fy (vget (hX h))).
  { intros fx fy. unfold permitted_plan, moderate. rewrite Ec, Efe. split; [split; [|split; discriminate]|split; discriminate]. intros k _. replace (vget (hX h) k - vget (hX h) k) with 0 by ring. rewrite Rabs_R0. unfold MAXB. rsimpl. lra. }
  destruct (convert_inv _ _ _ I Sh Et) as (z & cx & cy & Vx & Vy & fx & fy & G). pose proof (cv_foot _ _ _ _ _ _ _ _ _ _ G) as Gs.
  assert (F0 : qfeasible q (fun _ => 0)).
  { apply (feasible_iff h q idx _ fx fy I Eq Gs). unfold moderate. rewrite Ec, Efe. split; [split; [|split; discriminate]|split; discriminate]. intros k _. rewrite Rabs_R0. unfold MAXB. rsimpl. lra. }
  destruct (QPExist.qp_has_minimiser q (ex_intro _ _ F0)) as (x & Hx).
  assert (HE : 0 <= EPS) by (rsimpl; lra).
  destruct (C67_always_about_to_solve 10 2 2 (1/10) hs [HSetWeightings (MkHW 1 1 1); HSetMove true] h3 Rw) as (tn & c & A).
  { destruct (Pm o0) as (M1 & M2). split; [exact M1|]. intros k Ek. destruct (M2 k Ek) as (M3 & _). split; [exact M3|]. intros; exact Logic.I. }
  { cbn [hsteps]. rewrite E2. cbn [bind]. rewrite E3. reflexivity. }
  { intros [|c1 [|c2 [|c3 cs1]]] o1 cs2 k1 Ec1; discriminate Ec1. }
  pose proof (call_first _ _ _ _ _ _ A Ep) as FI.
  assert (EL : lN (hlip h) = lN (hlip hs) /\ lm (hlip h) = lm (hlip hs) /\ lM (hlip h) = lM (hlip hs) /\ lh (hlip h) = lh (hlip hs) /\ lg (hlip h) = lg (hlip hs)).
  { rewrite E5, <- G3. destruct (Rltb _ _); [|injection Hl as <-; auto 10]. pose proof (reached_inv _ Rc) as I3. destruct (lstep_inv (LSetFeedbackPeriod (1/10)) _ _ (hi_fresh _ I3) (hi_auto _ I3) Hl) as (_ & _ & O). injection O; intros; auto 10. }
  destruct EL as (EL1 & EL2 & EL3 & EL4 & EL5).
  pose (o := fun (_ : qpmats R) (_ : Z) => (x, true)). destruct (PropHumRun.C55_unconstrained_cop _ _ _ _ _ _ Rw (Pm o) Fc) as (h5 & E6).
  exists hs, o, h5. split; [exact Rw|]. split; [exact (Pm o)|]. split; [|split; [exact E6|exact Fc]].
  split; [exact Logic.I|]. intros k Ek. rewrite E2 in Ek. injection Ek as <-. split; [exact Logic.I|]. intros k Ek. rewrite E3 in Ek. injection Ek as <-. split; [|intros; exact Logic.I].
  split; [intros (B & _); congruence|]. intros k Ek. rewrite Ep in Ek. injection Ek as <-.
  split; [|split; [|split; [|split]]].
  - apply one_sample_exact; [exact I| |].
    + rewrite EL1. exact FN.
    + intros z0 Hz. cbv zeta. rewrite EL2, EL3, EL4, EL5, Fm, FM, Fh, Fg. unfold h_nb in Hz. apply bind_ok in Hz. destruct Hz as (y & Hy & Hz). injection Hz as <-.
      destruct FI as (y' & Hy' & ES). rewrite Hy in Hy'. injection Hy' as <-. replace (y - 1 + 1)%Z with y by lia. rewrite <- ES.
      pose proof (le_INR _ _ (proj2 (as_c _ _ _ _ _ A))) as C1. pose proof (lt_INR _ _ (proj1 (as_c _ _ _ _ _ A))) as C2. cbn [INR] in C1, C2. set (S := INR c * (1/10)). assert (HS : 0 < S <= 1) by (unfold S; lra).
      assert (0 <= S * S * S <= 1) by (assert (0 <= S * S <= 1) by nra; nra). cbn [GRAVITY gz]. unfold GRAVITY_NORM. rsimpl. apply Rabs_le. lra.
  - intros q' idx' it Hq' _. rewrite Eq in Hq'. injection Hq' as <- <-. apply (proj2 (C17_normalisation_preserves_solutions q EPS x HE)). exact Hx.
  - rewrite Ew. cbn. lra.
  - rewrite Ew. cbn. lra.
  - intros gx0 gy0 _. eexists. apply Gm.
Qed.
Print Assumptions C67_solve_applies_the_best_motion.
Print Assumptions C67_one_best_motion.
Print Assumptions C67_exact_solvers_agree.
Print Assumptions C67_always_about_to_solve.
Print Assumptions C67_walks_agree.
Print Assumptions C67_case.
