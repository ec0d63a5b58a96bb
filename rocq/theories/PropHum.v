(** Properties of the humanoid walk generator: C36 - C39.

    In every theorem, [h0] is a generator reached by any sequence of public calls, [h] is the same
    generator after the first part of solve (timeline, feedback period, first filling of the decision
    vector), and [q] is the quadratic program it builds, whose unknown [d] is the change of the
    decision vector. *)

From Coq Require Import Reals List ZArith Arith Bool Lra Lia.
From Verif Require Import Scalar LinAlg LinAlgFacts ToolsModel ToolsSpec ToolsFacts NoDynModel PolygonModel PolygonFacts QPModel QPFacts TrajModel LipModel FootModel
  ModelsSpec ModelsFacts SupModel SupSpec SupFacts PropTools PropSup HumModel HumAlg HumSpec HumFacts HumObj HumProb HumWorld.
Import ListNotations.
Local Open Scope R_scope.

Section Hum.
Context {TK : Trig R}.

(** ** C36: the centre of pressure stays in the support polygon *)
(** The feasible set, exactly: the new CoP positions are in the support polygons, the new steps are
    on the right side of the oblique sides of their kinematic polygons, and in their boxes placed at
    the foot position of the previous solution. *)
Theorem C36_feasible_iff : forall h0 fb h q idx fx fy d, reached h0 -> h_prepare fb h0 = Ok h -> h_problem h = Ok (q, idx) ->
  support_is (hsup h) fx fy ->
  (qfeasible q d <->
     moderate h d
     /\ (hcopC h = true -> cops_supported h (moved h d))
     /\ (hfeetC h = true -> step_sides h fx fy (moved h d) (moved h d) /\ step_box h fx fy (vget (hX h)) (moved h d))).
Proof.
  intros h0 fb h q idx fx fy d H0 Hp Hq Hs. destruct (prepared _ _ _ H0 Hp) as (I & _). exact (feasible_iff _ _ _ _ _ _ I Hq Hs).
Qed.
(** The polygon of a sample is the one of the phase in progress at the time of the sample. *)
Theorem C36_cop_in_phase_polygon : forall h0 fb h q idx fx fy d tn S0, reached h0 -> h_prepare fb h0 = Ok h -> h_problem h = Ok (q, idx) ->
  support_is (hsup h) fx fy -> ready (hsup h0) (hX h0) tn S0 -> hcopC h0 = true -> qfeasible q d ->
  forall i, (i < lN (hlip h0))%nat -> exists j ph p,
    in_progress tn (cbl (stl (hsup h))) (S0 + INR i * sT (hsup h0)) j
    /\ nth_error (cbl (stl (hsup h))) j = Some ph /\ phase_polygon (hsup h) (phType ph) p
    /\ satisfies p (dCopX (moved h d) i, dCopY (lN (hlip h0)) (moved h d) i).
Proof.
  intros h0 fb h q idx fx fy d tn S0 H0 Hp Hq Hs Rd Hc Hf i Hi. destruct (prepared _ _ _ H0 Hp) as (I & _ & _).
  destruct (h_prepare_cases _ _ _ Hp) as (s & X & l & Hu & Hl & _ & EN & E1 & E2 & _ & _ & _ & _ & _ & Ec & _).
  assert (ENN : lN (hlip h) = lN (hlip h0)).
  { rewrite <- (hi_N _ I), <- (hi_N _ (reached_inv _ H0)), E1. exact (update_N _ _ _ _ _ Hu). }
  assert (Hi' : (i < sN (hsup h0))%nat) by (rewrite (hi_N _ (reached_inv _ H0)); exact Hi).
  destruct (problem_inv _ _ _ I Hq) as (rc & rf & bc & bf & C1 & _). rewrite Ec in C1. destruct (C1 Hc) as (_ & Hr & _).
  unfold copRows in Hr. apply bind_ok in Hr. destruct Hr as (ll & Hll & _). rewrite ENN in Hll. destruct (tabulateM_nth _ _ _ _ _ Hll Hi) as (r & _ & Hr).
  apply bind_ok in Hr. destruct Hr as (p & Hpp & _).
  destruct (polygon_of_phase _ _ _ _ _ _ _ Hp Rd Hi' Hpp) as (j & ph & A & B & C). exists j, ph, p. split; [exact A|]. split; [exact B|]. split; [exact C|].
  apply (feasible_iff _ _ _ _ _ _ I Hq Hs) in Hf. destruct Hf as (_ & Hf & _). rewrite Ec in Hf. specialize (Hf Hc i p). rewrite ENN in Hf. apply Hf; assumption.
Qed.

(** ** C39: the conversion to jerks *)
(** The jerks make the centre of mass move in such a way that its CoP, sample after sample, is the
    CoP of the decision vector relative to the foot then on the ground. *)
Theorem C39_jerks_give_the_cop : forall h0 fb h X t fx fy tn S0 S, reached h0 -> h_prepare fb h0 = Ok h ->
  ready (hsup h0) (hX h0) tn S0 -> support_is (hsup h) fx fy -> first_interval h S -> exact_inverses h ->
  h_convert (hlip h) (hsup h) X = Ok t ->
  let N := lN (hlip h0) in let M := snb (hsup h) in
  vlen t = vlen X /\ (forall k, (2 * N <= k)%nat -> vget t k = vget X k)
  /\ forall i, (i < N)%nat -> exists px py,
       on_ground (cbl (stl (hsup h))) tn (S0 + INR i * sT (hsup h0)) fx (dStepX N (vget X)) px
       /\ on_ground (cbl (stl (hsup h))) tn (S0 + INR i * sT (hsup h0)) fy (dStepY N M (vget X)) py
       /\ cop_x (hlip h) S (vget t) i = dCopX (vget X) i + px
       /\ cop_y (hlip h) S (fun k => vget t (N + k)) i = dCopY N (vget X) i + py.
Proof.
  intros h0 fb h X t fx fy tn S0 S H0 Hp Rd Hs (nb & Hnb & ->) Hx Ht N M. destruct (prepared _ _ _ H0 Hp) as (I & Sh & _).
  destruct (h_prepare_cases _ _ _ Hp) as (s & X1 & l & Hu & Hl & _ & EN & E1 & E2 & _).
  assert (ENN : lN (hlip h) = N) by (unfold N; rewrite <- (hi_N _ I), <- (hi_N _ (reached_inv _ H0)), E1; exact (update_N _ _ _ _ _ Hu)).
  destruct (convert_inv _ _ _ I Sh Ht) as (z & cx & cy & Vx & Vy & gx & gy & [A1 A2 A3 A4 A5 A6 A7 A8 A9 A10]). rewrite ENN in *.
  assert (Ef : gx = fx /\ gy = fy).
  { destruct Hs as (vx & vy & S1 & S2 & _ & _ & S3 & S4). destruct A6 as (vx' & vy' & S1' & S2' & _ & _ & S3' & S4'). rewrite S1 in S1'. injection S1' as <-. rewrite S2 in S2'. injection S2' as <-. split; congruence. }
  destruct Ef as (-> & ->). assert (Ez : nb = (z + 1)%Z) by (unfold h_nb in A1; rewrite Hnb in A1; cbn [bind] in A1; injection A1 as <-; lia). subst nb.
  split; [apply A7|]. split; [exact A10|]. intros i Hi. assert (Hi' : (i < sN (hsup h0))%nat) by (rewrite (hi_N _ (reached_inv _ H0)); exact Hi).
  exists (foot_at (hsup h) fx (dStepX N (vget X)) i), (foot_at (hsup h) fy (dStepY N M (vget X)) i).
  split; [exact (foot_on_ground _ _ _ _ _ _ _ _ Hp Rd Hi')|]. split; [exact (foot_on_ground _ _ _ _ _ _ _ _ Hp Rd Hi')|].
  pose proof (jerkX_cop h z cx Vx fx (vget X) (vget t) I A2 A4 (Hx _ _ _ A1 (or_introl A2) A4)) as Jx.
  pose proof (jerkY_cop h z cy Vy fy (vget X) (fun k => vget t (N + k)) I A3 A5 (Hx _ _ _ A1 (or_intror A3) A5)) as Jy.
  rewrite ENN in Jx, Jy. split.
  - apply Jx; [|exact Hi]. unfold jerkX. rewrite ENN. exact A8.
  - apply Jy; [|exact Hi]. unfold jerkY. rewrite ENN. exact A9.
Qed.
(** They are the only jerks that do. *)
Theorem C39_no_other_jerks : forall h0 fb h X t fx fy tn S0 S Jx Jy, reached h0 -> h_prepare fb h0 = Ok h ->
  ready (hsup h0) (hX h0) tn S0 -> support_is (hsup h) fx fy -> first_interval h S -> exact_inverses h ->
  h_convert (hlip h) (hsup h) X = Ok t ->
  let N := lN (hlip h0) in let M := snb (hsup h) in
  (forall i px py, (i < N)%nat ->
       on_ground (cbl (stl (hsup h))) tn (S0 + INR i * sT (hsup h0)) fx (dStepX N (vget X)) px ->
       on_ground (cbl (stl (hsup h))) tn (S0 + INR i * sT (hsup h0)) fy (dStepY N M (vget X)) py ->
       cop_x (hlip h) S Jx i = dCopX (vget X) i + px /\ cop_y (hlip h) S Jy i = dCopY N (vget X) i + py) ->
  forall i, (i < N)%nat -> Jx i = vget t i /\ Jy i = vget t (N + i)%nat.
Proof.
  intros h0 fb h X t fx fy tn S0 S Jx Jy H0 Hp Rd Hs (nb & Hnb & ->) Hx Ht N M HJ. destruct (prepared _ _ _ H0 Hp) as (I & Sh & _).
  destruct (h_prepare_cases _ _ _ Hp) as (s & X1 & l & Hu & Hl & _ & EN & E1 & E2 & _).
  assert (ENN : lN (hlip h) = N) by (unfold N; rewrite <- (hi_N _ I), <- (hi_N _ (reached_inv _ H0)), E1; exact (update_N _ _ _ _ _ Hu)).
  destruct (convert_inv _ _ _ I Sh Ht) as (z & cx & cy & Vx & Vy & gx & gy & [A1 A2 A3 A4 A5 A6 A7 A8 A9 A10]). rewrite ENN in *.
  assert (Ef : gx = fx /\ gy = fy).
  { destruct Hs as (vx & vy & S1 & S2 & _ & _ & S3 & S4). destruct A6 as (vx' & vy' & S1' & S2' & _ & _ & S3' & S4'). rewrite S1 in S1'. injection S1' as <-. rewrite S2 in S2'. injection S2' as <-. split; congruence. }
  destruct Ef as (-> & ->). assert (Ez : nb = (z + 1)%Z) by (unfold h_nb in A1; rewrite Hnb in A1; cbn [bind] in A1; injection A1 as <-; lia). subst nb.
  assert (Q : forall i, (i < N)%nat -> cop_x (hlip h) (IZR (z + 1) * lfb (hlip h)) Jx i = vget X i + foot_at (hsup h) fx (dStepX N (vget X)) i
                               /\ cop_y (hlip h) (IZR (z + 1) * lfb (hlip h)) Jy i = vget X (N + i)%nat + foot_at (hsup h) fy (dStepY N M (vget X)) i).
  { intros i Hi. assert (Hi' : (i < sN (hsup h0))%nat) by (rewrite (hi_N _ (reached_inv _ H0)); exact Hi). 
    apply (HJ i); [exact Hi| |]; apply (foot_on_ground _ _ _ _ _ _ _ _ Hp Rd Hi'). }
  pose proof (jerkX_cop h z cx Vx fx (vget X) Jx I A2 A4 (Hx _ _ _ A1 (or_introl A2) A4)) as JX.
  pose proof (jerkY_cop h z cy Vy fy (vget X) Jy I A3 A5 (Hx _ _ _ A1 (or_intror A3) A5)) as JY.
  rewrite ENN in JX, JY. intros i Hi. rewrite A8, A9 by assumption. split.
  - rewrite (proj2 JX) by (try exact Hi; intros k Hk; apply (Q k Hk)). unfold jerkX. rewrite ENN. reflexivity.
  - rewrite (proj2 JY) by (try exact Hi; intros k Hk; apply (Q k Hk)). unfold jerkY. rewrite ENN. reflexivity.
Qed.
(** Hence, when the problem keeps the CoP in the support polygons, so does the motion. *)
Theorem C36_simulated_cop_supported : forall h0 fb h q idx fx fy d t tn S0 S, reached h0 -> h_prepare fb h0 = Ok h -> h_problem h = Ok (q, idx) ->
  support_is (hsup h) fx fy -> ready (hsup h0) (hX h0) tn S0 -> hcopC h0 = true -> qfeasible q (vget d) ->
  first_interval h S -> exact_inverses h -> h_convert (hlip h) (hsup h) (vadd (hX h) d) = Ok t ->
  let N := lN (hlip h0) in let M := snb (hsup h) in let tl := cbl (stl (hsup h)) in let Y := moved h (vget d) in
  forall i, (i < N)%nat -> exists j ph p,
    in_progress tn tl (S0 + INR i * sT (hsup h0)) j
    /\ nth_error tl j = Some ph /\ phase_polygon (hsup h) (phType ph) p
    /\ satisfies p (cop_x (hlip h) S (vget t) i - from_step fx (dStepX N Y) (steps_before tl j),
                    cop_y (hlip h) S (fun k => vget t (N + k)) i - from_step fy (dStepY N M Y) (steps_before tl j)).
Proof.
  intros h0 fb h q idx fx fy d t tn S0 S H0 Hp Hq Hs Rd Hc Hf HS Hx Ht N M tl Y i Hi.
  destruct (C36_cop_in_phase_polygon _ _ _ _ _ _ _ _ _ _ H0 Hp Hq Hs Rd Hc Hf i Hi) as (j & ph & p & A & B & C & D). exists j, ph, p.
  split; [exact A|]. split; [exact B|]. split; [exact C|].
  destruct (C39_jerks_give_the_cop _ _ _ _ _ _ _ _ _ _ H0 Hp Rd Hs HS Hx Ht) as (_ & _ & Q). destruct (Q i Hi) as (px & py & (jx & P1 & P2) & (jy & P3 & P4) & P5 & P6).
  destruct (h_prepare_cases _ _ _ Hp) as (s & X1 & l & Hu & _ & _ & _ & E1 & _). subst s.
  destruct (C29_one_support_per_sample _ _ _ _ fb Rd) as (s' & v' & E2 & _ & _ & _ & _ & _ & U). rewrite Hu in E2. injection E2 as <- <-.
  assert (Hi' : (i < sN (hsup h0))%nat) by (rewrite (hi_N _ (reached_inv _ H0)); exact Hi). destruct (U i Hi') as (j0 & _ & U0 & _).
  pose proof (U0 _ A) as Ej. pose proof (U0 _ P1) as Ejx. pose proof (U0 _ P3) as Ejy. subst jx jy j0. fold N in P5, P6. rewrite P5, P6.
  change (vget (vadd (hX h) d)) with Y in P2, P4 |- *. unfold from_step. fold tl in P2, P4 |- *. fold N in P2, P4. fold M in P4.
  replace (dCopX Y i + px - _) with (dCopX Y i) by (rewrite P2; ring). replace (dCopY N Y i + py - _) with (dCopY N Y i) by (rewrite P4; ring). exact D.
Qed.

(** ** C37: the steps are reachable *)
(** What feasibility gives: the oblique sides hold between consecutive new steps, the axis aligned
    sides hold up to the move of the previous step. *)
Theorem C37_steps_up_to_previous_move : forall h0 fb h q idx fx fy d, reached h0 -> h_prepare fb h0 = Ok h -> h_problem h = Ok (q, idx) ->
  support_is (hsup h) fx fy -> hfeetC h0 = true -> qfeasible q d ->
  let N := lN (hlip h) in let M := snb (hsup h) in let Y := moved h d in
  step_sides h fx fy Y Y
  /\ forall k p, (k < M)%nat -> s_getKinematicConvexPolygon k (hsup h) = Ok p ->
     let x := dStepX N Y k - from_step fx (dStepX N Y) k in
     let y := dStepY N M Y k - from_step fy (dStepY N M Y) k in
     let mx := from_step 0 (dStepX N d) k in
     let my := from_step 0 (dStepY N M d) k in
     (xInf p <= x + mx <= xSup p /\ yInf p <= y + my <= ySup p)
     /\ (mx = 0 -> my = 0 -> satisfies p (x, y)).
Proof.
  intros h0 fb h q idx fx fy d H0 Hp Hq Hs Hc Hf N M Y. destruct (prepared _ _ _ H0 Hp) as (I & _ & _).
  destruct (h_prepare_cases _ _ _ Hp) as (s & X & l & Hu & Hl & _ & EN & E1 & E2 & _ & _ & _ & _ & _ & _ & Ec & _).
  apply (feasible_iff _ _ _ _ _ _ I Hq Hs) in Hf. destruct Hf as (_ & _ & Hf). rewrite Ec in Hf. destruct (Hf Hc) as (F1 & F2). split; [exact F1|].
  intros k p Hk Hpk. cbn zeta. pose proof (F2 k p Hk Hpk) as B. cbn zeta in B. fold N M Y in B.
  assert (Ex : from_step fx (dStepX N Y) k = from_step fx (dStepX N (vget (hX h))) k + from_step 0 (dStepX N d) k) by (destruct k; unfold from_step; [ring|reflexivity]).
  assert (Ey : from_step fy (dStepY N M Y) k = from_step fy (dStepY N M (vget (hX h))) k + from_step 0 (dStepY N M d) k) by (destruct k; unfold from_step; [ring|reflexivity]).
  split; [rewrite Ex, Ey; lra|]. intros Mx My. pose proof (F1 k p Hk Hpk) as S. fold N M Y in S. split; [|split].
  - cbn [fst]. rewrite Ex, Mx. lra.
  - cbn [snd]. rewrite Ey, My. lra.
  - cbn [fst snd]. rewrite Forall_forall in *. intros c Hc'. specialize (S c Hc'). unfold side_value in S. destruct c as ((a, b), k0). exact S.
Qed.
(** The first step is always reachable from the support foot. *)
Theorem C37_first_step_reachable : forall h0 fb h q idx fx fy d p, reached h0 -> h_prepare fb h0 = Ok h -> h_problem h = Ok (q, idx) ->
  support_is (hsup h) fx fy -> hfeetC h0 = true -> qfeasible q d -> (0 < snb (hsup h))%nat ->
  s_getKinematicConvexPolygon 0 (hsup h) = Ok p ->
  satisfies p (dStepX (lN (hlip h)) (moved h d) 0 - fx, dStepY (lN (hlip h)) (snb (hsup h)) (moved h d) 0 - fy).
Proof.
  intros h0 fb h q idx fx fy d p H0 Hp Hq Hs Hc Hf HM Hpk.
  destruct (C37_steps_up_to_previous_move _ _ _ _ _ _ _ _ H0 Hp Hq Hs Hc Hf) as (_ & Q). destruct (Q 0%nat p HM Hpk) as (_ & R). apply R; reflexivity.
Qed.
(** All steps are reachable exactly when the boxes also hold from the new previous steps... *)
Theorem C37_reachable_iff : forall h0 fb h q idx fx fy d, reached h0 -> h_prepare fb h0 = Ok h -> h_problem h = Ok (q, idx) ->
  support_is (hsup h) fx fy -> hfeetC h0 = true -> qfeasible q d ->
  (steps_reachable h fx fy (moved h d) <-> step_box h fx fy (moved h d) (moved h d)).
Proof.
  intros h0 fb h q idx fx fy d H0 Hp Hq Hs Hc Hf. destruct (C37_steps_up_to_previous_move _ _ _ _ _ _ _ _ H0 Hp Hq Hs Hc Hf) as (S & _).
  split; intros Q k p Hk Hpk; specialize (Q k p Hk Hpk); specialize (S k p Hk Hpk); cbn zeta in *.
  - destruct Q as (Q1 & Q2 & _). auto.
  - destruct Q as (Q1 & Q2). split; [exact Q1|]. split; [exact Q2|]. cbn [fst snd]. rewrite Forall_forall in *. intros c Hc'. specialize (S c Hc'). unfold side_value in S. destruct c as ((a, b), k0). exact S.
Qed.
(** ... for instance when only the last step is changed. *)
Theorem C37_reachable_if_last_only : forall h0 fb h q idx fx fy d, reached h0 -> h_prepare fb h0 = Ok h -> h_problem h = Ok (q, idx) ->
  support_is (hsup h) fx fy -> hfeetC h0 = true -> qfeasible q d ->
  (forall k, (S k < snb (hsup h))%nat -> dStepX (lN (hlip h)) d k = 0 /\ dStepY (lN (hlip h)) (snb (hsup h)) d k = 0) ->
  steps_reachable h fx fy (moved h d).
Proof.
  intros h0 fb h q idx fx fy d H0 Hp Hq Hs Hc Hf Hd k p Hk Hpk.
  destruct (C37_steps_up_to_previous_move _ _ _ _ _ _ _ _ H0 Hp Hq Hs Hc Hf) as (_ & Q). destruct (Q k p Hk Hpk) as (_ & R).
  apply R; (destruct k as [|k]; [reflexivity|]); unfold from_step; apply (Hd k); assumption.
Qed.

(** ** C38: the cost *)
(** The cost of the problem is the change of the cost of the motion that solve will apply: [t] are
    the jerks of the changed decision vector, [t0] those of the present one. *)
Theorem C38_cost_of_the_motion : forall h0 fb h q idx d t0 t tn S0 S, reached h0 -> h_prepare fb h0 = Ok h -> h_problem h = Ok (q, idx) ->
  ready (hsup h0) (hX h0) tn S0 -> first_interval h S ->
  h_convert (hlip h) (hsup h) (hX h) = Ok t0 -> h_convert (hlip h) (hsup h) (vadd (hX h) d) = Ok t ->
  let N := lN (hlip h) in
  let cost := hum_cost h S (sample_weight N S0 (lT (hlip h))) in
  qcost q (vget d) = cost (moved h (vget d)) (vget t) (fun i => vget t (N + i)) - cost (vget (hX h)) (vget t0) (fun i => vget t0 (N + i)).
Proof.
  intros h0 fb h q idx d t0 t tn S0 S H0 Hp Hq Rd HS Ht0 Ht N cost. pose proof (reached_T _ H0) as ET. rewrite <- (proj1 (prepared_T _ _ _ H0 Hp)) in ET. destruct (prepared _ _ _ H0 Hp) as (I & Sh & _).
  rewrite (problem_cost _ _ _ _ _ _ _ I Sh Hq HS Ht0 Ht). fold N.
  destruct (h_prepare_cases _ _ _ Hp) as (s & X1 & l & Hu & Hl & _ & EN & E1 & E2 & _).
  assert (ENN : sN (hsup h0) = N) by (unfold N; rewrite <- (hi_N _ I), E1; symmetry; exact (update_N _ _ _ _ _ Hu)).
  assert (Hw : forall i, (i < N)%nat -> mget (selW (ssel (hsup h))) i i = sample_weight N S0 (lT (hlip h)) i).
  { intros i Hi. rewrite (weights _ _ _ _ _ _ Hp Rd) by (rewrite ENN; exact Hi). rewrite ENN, ET. reflexivity. }
  unfold cost, hum_cost. fold N. f_equal; f_equal; f_equal; f_equal; f_equal; apply ssum_ext; intros i Hi; rewrite Hw by assumption; reflexivity.
Qed.
(** So a minimiser of the problem gives the cheapest motion among the feasible ones. *)
Theorem C38_minimiser_minimises_the_motion_cost : forall h0 fb h q idx d d' t t' tn S0 S, reached h0 -> h_prepare fb h0 = Ok h -> h_problem h = Ok (q, idx) ->
  ready (hsup h0) (hX h0) tn S0 -> first_interval h S ->
  qminimiser q (vget d) -> qfeasible q (vget d') ->
  (exists t0, h_convert (hlip h) (hsup h) (hX h) = Ok t0) ->
  h_convert (hlip h) (hsup h) (vadd (hX h) d) = Ok t -> h_convert (hlip h) (hsup h) (vadd (hX h) d') = Ok t' ->
  let N := lN (hlip h) in
  let cost := hum_cost h S (sample_weight N S0 (lT (hlip h))) in
  cost (moved h (vget d)) (vget t) (fun i => vget t (N + i)) <= cost (moved h (vget d')) (vget t') (fun i => vget t' (N + i)).
Proof.
  intros h0 fb h q idx d d' t t' tn S0 S H0 Hp Hq Rd HS (_ & Hm) Hf (t0 & Ht0) Ht Ht' N cost. specialize (Hm _ Hf).
  rewrite (C38_cost_of_the_motion _ _ _ _ _ _ _ _ _ _ _ H0 Hp Hq Rd HS Ht0 Ht) in Hm.
  rewrite (C38_cost_of_the_motion _ _ _ _ _ _ _ _ _ _ _ H0 Hp Hq Rd HS Ht0 Ht') in Hm. fold N cost in Hm. lra.
Qed.
(** The Hessian is symmetric and, when the next sample is at most one period away, positive semidefinite. *)
Theorem C38_hessian_symmetric_psd : forall h0 fb h q idx tn S0, reached h0 -> h_prepare fb h0 = Ok h -> h_problem h = Ok (q, idx) ->
  ready (hsup h0) (hX h0) tn S0 -> S0 <= sT (hsup h0) ->
  let n := vlen (qp q) in
  n = (2 * lN (hlip h) + 2 * snb (hsup h))%nat
  /\ (forall i j, (i < n)%nat -> (j < n)%nat -> mget (qQ q) i j = mget (qQ q) j i)
  /\ forall d, 0 <= ssum n (fun i => d i * ssum n (fun j => mget (qQ q) i j * d j)).
Proof.
  intros h0 fb h q idx tn S0 H0 Hp Hq Rd HS n. destruct (prepared _ _ _ H0 Hp) as (I & Sh & HN).
  split; [destruct (problem_inv _ _ _ I Hq) as (rc & rf & bc & bf & _ & _ & _ & _ & _ & _ & _ & _ & _ & Ln & _); exact Ln|].
  split; [exact (problem_sym _ _ _ n I Sh Hq)|]. intros d. apply (problem_psd _ _ _ _ I Sh Hq). intros i Hi.
  destruct (h_prepare_cases _ _ _ Hp) as (s & X1 & l & Hu & Hl & _ & EN & E1 & E2 & _).
  assert (ENN : sN (hsup h0) = lN (hlip h)) by (rewrite <- (hi_N _ I), E1; symmetry; exact (update_N _ _ _ _ _ Hu)).
  rewrite (weights _ _ _ _ _ _ Hp Rd) by (rewrite ENN; exact Hi). unfold sample_weight.
  destruct (ry_sample _ _ _ _ Rd) as ((S1 & _) & _). pose proof (ry_T _ _ _ _ Rd) as HT. assert (HE : 0 < EPS) by (rsimpl; lra).
  assert (Hd : 0 <= S0 / sT (hsup h0) <= 1).
  { split; [apply Rle_mult_inv_pos; lra|]. apply (Rmult_le_reg_r (sT (hsup h0))); [lra|]. unfold Rdiv. rewrite Rmult_assoc, Rinv_l by lra. lra. }
  destruct (Nat.eqb _ _); [lra|]. destruct (Nat.eqb _ _); lra.
Qed.
End Hum.

Print Assumptions C36_feasible_iff.
Print Assumptions C36_cop_in_phase_polygon.
Print Assumptions C39_jerks_give_the_cop.
Print Assumptions C39_no_other_jerks.
Print Assumptions C36_simulated_cop_supported.
Print Assumptions C37_steps_up_to_previous_move.
Print Assumptions C37_first_step_reachable.
Print Assumptions C37_reachable_iff.
Print Assumptions C37_reachable_if_last_only.
Print Assumptions C38_cost_of_the_motion.
Print Assumptions C38_minimiser_minimises_the_motion_cost.
Print Assumptions C38_hessian_symmetric_psd.
