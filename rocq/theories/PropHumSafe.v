(** In a walk, the centre of pressure is under the feet at every sample, and the steps land within reach (C68). *)

From Coq Require Import Reals List ZArith Arith Bool Lra Lia FunctionalExtensionality.
From Verif Require Import Scalar LinAlg LinAlgFacts ToolsModel ToolsSpec NoDynModel PolygonModel PolygonFacts QPModel QPFacts TrajModel LipModel FootModel
  ModelsSpec ModelsFacts SupModel SupSpec SupFacts SupTime SupWalk PropQP PropSup PropSteps HumModel HumAlg HumSpec HumFacts HumObj HumProb HumWorld HumRunSpec HumRun PropHum PropHumSolve PropHumStart
  HumOptSpec PropHumOpt HumSafeSpec.
From Verif Require QPExist PropHumRun.
Import ListNotations.
Local Open Scope R_scope.

Section Safe.
Context {TK : Trig R}.

(** What the double support polygon is made of *)
Lemma ds_within s p L Rt O g : nth_error (cbl (stl s)) 0 = Some p -> ds_feet s (phType p) L Rt O -> s_computeDSCopConvexPolygon s = Ok g ->
  makePolygon (map (seen_from O) (placed L (fcop (sleft s)) ++ placed Rt (fcop (sright s)))) = Ok g.
Proof.
  intros Hp Hf H. unfold s_computeDSCopConvexPolygon in H. apply bind_ok in H. destruct H as (lx & Hlx & H). apply bind_ok in H. destruct H as (ly & Hly & H).
  apply bind_ok in H. destruct H as (rx & Hrx & H). apply bind_ok in H. destruct H as (ry & Hry & H).
  unfold vread in Hlx, Hly, Hrx, Hry. apply guard_ok in Hlx, Hly, Hrx, Hry. destruct Hlx as (_ & Hlx), Hly as (_ & Hly), Hrx as (_ & Hrx), Hry as (_ & Hry).
  injection Hlx as <-. injection Hly as <-. injection Hrx as <-. injection Hry as <-.
  unfold s_front, cb_at in H. rewrite (rd_some _ _ _ Hp) in H. cbn [bind] in H.
  assert (Hsh : forall (P : polygon R) d, map (seen_from O) (placed d P) = shiftPoly P (psub d O)).
  { intros P d. unfold placed, seen_from, shiftPoly. rewrite map_map. apply map_ext. intros q. unfold psub. cbn [fst snd]. rsimpl_goal. f_equal; ring. }
  rewrite map_app, !Hsh. unfold ds_feet in Hf.
  destruct (phType p), (smove s); try contradiction; destruct Hf as (-> & -> & ->); cbn [bind fst snd] in *; try exact H;
    apply bind_ok in H; destruct H as (q & Hq & H); apply bind_ok in Hq; destruct Hq as (x & Hx & Hq); apply bind_ok in Hq; destruct Hq as (y & Hy & Hq);
    unfold vread in Hx, Hy; apply guard_ok in Hx, Hy; destruct Hx as (_ & Hx), Hy as (_ & Hy); injection Hx as <-; injection Hy as <-; injection Hq as <-; exact H.
Qed.
(** In the last feedback period of a step the moving foot comes, on the ground plane, to the first planned step. *)
Lemma lands s v fb s' p : nth_error (cbl (stl s)) 0 = Some p -> phType p <> DS -> 0 < fb -> sttnp s = fb -> fb < phDur p - sT s + EPS ->
  s_updateFeetStates v fb s = Ok s' -> foot_pos (moving (phType p) s') = (vget v 0, vget v (snb s)).
Proof.
  intros Hp Hss Hfb Ht Hfl H. unfold s_updateFeetStates, s_front, cb_at in H. rewrite (rd_some _ _ _ Hp) in H. cbn [bind] in H.
  change (sltb (sttnp s) (sadd (ssub (phDur p) (sT s)) EPS)) with (Rltb (sttnp s) (phDur p - sT s + EPS)) in H. rewrite Ht in H.
  destruct (Rltb_spec fb (phDur p - sT s + EPS)) as [_|L]; [|lra].
  destruct (is_DS_spec (phType p)) as [|_]; [contradiction|]. cbn [negb andb] in H.
  apply bind_ok in H. destruct H as (x & Hx & H). apply bind_ok in H. destruct H as (y & Hy & H).
  unfold vread in Hx, Hy. apply guard_ok in Hx, Hy. destruct Hx as (_ & Hx), Hy as (_ & Hy). injection Hx as <-. injection Hy as <-.
  assert (Hfly : forall f g z Tz, flyTo f (vget v 0) (vget v (snb s)) z fb Tz fb = Ok g -> foot_pos g = (vget v 0, vget v (snb s))).
  { intros f g z Tz Hg. unfold flyTo, f_updateStateX, f_updateStateY, f_updateStateZ in Hg.
    apply bind_ok in Hg. destruct Hg as (f1 & H1 & Hg). apply bind_ok in H1. destruct H1 as (wx & Hx & H1). injection H1 as <-.
    apply bind_ok in Hg. destruct Hg as (f2 & H2 & Hg). apply bind_ok in H2. destruct H2 as (wy & Hy & H2). injection H2 as <-.
    apply bind_ok in Hg. destruct Hg as (wz & Hz & Hg). injection Hg as <-. apply interpolateVec_end in Hx, Hy; try exact Hfb.
    destruct Hx as (_ & Hx & _), Hy as (_ & Hy & _). unfold foot_pos. cbn. rewrite Hx, Hy. reflexivity. }
  destruct (phType p); [contradiction| |]; apply bind_ok in H; destruct H as (g & Hg & H); injection H as <-; cbn [moving sleft sright];
    destruct (sltb _ _); exact (Hfly _ _ _ _ Hg).
Qed.
(** The feet keep their polygons, and the supervisor its timeline. *)
Lemma feet_frame v fb s s' : s_updateFeetStates v fb s = Ok s' ->
  fcop (sleft s') = fcop (sleft s) /\ fcop (sright s') = fcop (sright s) /\ fkin (sleft s') = fkin (sleft s) /\ fkin (sright s') = fkin (sright s)
  /\ stl s' = stl s /\ smove s' = smove s /\ sT s' = sT s /\ sttnp s' = sttnp s - fb.
Proof.
  intros H. unfold s_updateFeetStates in H. apply bind_ok in H. destruct H as (p & Hp & H).
  assert (Hfly : forall f g x y z T Tz, flyTo f x y z T Tz fb = Ok g -> fcop g = fcop f /\ fkin g = fkin f).
  { intros f g x y z T Tz Hg. unfold flyTo, f_updateStateX, f_updateStateY, f_updateStateZ in Hg.
    apply bind_ok in Hg. destruct Hg as (f1 & H1 & Hg). apply bind_ok in H1. destruct H1 as (wx & Hx & H1). injection H1 as <-.
    apply bind_ok in Hg. destruct Hg as (f2 & H2 & Hg). apply bind_ok in H2. destruct H2 as (wy & Hy & H2). injection H2 as <-.
    apply bind_ok in Hg. destruct Hg as (wz & Hz & Hg). injection Hg as <-. cbn. auto. }
  destruct (andb _ _); [|injection H as <-; cbn; auto 10].
  apply bind_ok in H. destruct H as (x & Hx & H). apply bind_ok in H. destruct H as (y & Hy & H).
  destruct (phType p); [discriminate H| |]; apply bind_ok in H; destruct H as (g & Hg & H); injection H as <-; cbn; destruct (sltb _ _); apply Hfly in Hg; destruct Hg as (-> & ->); auto 10.
Qed.

(** Where the support foot is *)
Lemma support_pos s p fx fy : nth_error (cbl (stl s)) 0 = Some p -> support_is s fx fy ->
  (fx, fy) = match phType p with LeftSS => foot_pos (sleft s) | RightSS => foot_pos (sright s) | DS => if smove s then foot_pos (sleft s) else midpoint (foot_pos (sright s)) (foot_pos (sleft s)) end.
Proof.
  intros Hp (vx & vy & E1 & E2 & _ & _ & <- & <-). unfold s_getSupportFootStateX, s_getSupportFootStateY, s_front, cb_at in E1, E2. rewrite (rd_some _ _ _ Hp) in E1, E2. cbn [bind] in E1, E2.
  destruct (phType p); [destruct (smove s)| |]; try (injection E1 as <-; injection E2 as <-; reflexivity).
  unfold middle in E1, E2. apply guard_ok in E1, E2. destruct E1 as (_ & E1), E2 as (_ & E2). injection E1 as <-. injection E2 as <-. unfold midpoint, foot_pos. cbn [vget fst snd]. rsimpl_goal. reflexivity.
Qed.
Section Call.
Context (n : nat) (fb tn : R) (h0 h h' : hum R) (o : oracle R) (found : bool) (A : about_to_solve n 1 fb tn h0) (Hp : h_prepare fb h0 = Ok h) (Hs : h_solve o fb h0 = Ok (found, h')).
Context (Hr : respects o h) (Hd : forall p, nth_error (cbl (stl (hsup h))) 0 = Some p -> phType p <> DS -> 2 * sT (hsup h) <= phDur p).
Let N := lN (hlip h).
Let M := snb (hsup h).
Let Y := vget (hX h').

Lemma as_solved : exists q idx d t, h_problem h = Ok (q, idx) /\ hX h' = vadd (hX h) d /\ qfeasible q (vget d) /\ h_convert (hlip h) (hsup h) (hX h') = Ok t
  /\ lsx (hlip h') = updateState_raw (vget t 0) fb (lsx (hlip h)) /\ lsy (hlip h') = updateState_raw (vget t N) fb (lsy (hlip h))
  /\ lh (hlip h') = lh (hlip h) /\ lg (hlip h') = lg (hlip h) /\ lm (hlip h') = lm (hlip h) /\ lM (hlip h') = lM (hlip h)
  /\ s_updateFeetStates (vseg (hX h') (2 * N) (2 * M)) fb (hsup h) = Ok (hsup h').
Proof.
  destruct (C39_solve_applies_first_jerks _ _ _ _ _ (as_reached _ _ _ _ _ A) Hs) as (h1 & q1 & i1 & d1 & t1 & Hp1 & _ & _ & Ht1 & Ex1 & Ey1 & _ & _ & Eh & Eg & Em & EM & Ef1).
  rewrite Hp in Hp1. injection Hp1 as <-.
  destruct (solve_plan _ _ _ _ _ _ _ _ _ A Hp Hs) as (q & idx & d & t & l1 & l2 & s & Hq & Lq & _ & Ed & Ht & Hl1 & Hl2 & Hf & E).
  assert (EX : hX h' = vadd (hX h) d) by (rewrite E; reflexivity). exists q, idx, d, t1. split; [exact Hq|]. split; [exact EX|]. split.
  - assert (EP : 0 <= EPS) by (rsimpl; lra). pose proof (proj1 (proj1 (C17_normalisation_preserves_solutions q EPS _ EP)) (Hr q idx 10000%Z Hq)) as F.
    apply (QPExist.qfeasible_ext q (fst (o (normalizeMatrices EPS q) 10000%Z))); [|exact F]. intros i Hi. rewrite Ed. cbn [vget]. rewrite (proj2 (Nat.ltb_lt _ _) Hi). reflexivity.
  - auto 12.
Qed.
(** The timeline that the call walks on *)
Lemma as_planned : exists f i r, cbl (stl (hsup h)) = tlist (hsup h0) f i /\ tn = fb + INR r * sT (hsup h) /\ sttnp (hsup h) = tn
  /\ smove (hsup h) = smove (hsup h0) /\ 0 < fb /\ EPS < sT (hsup h) /\ sT (hsup h) <= sstep (hsup h0) /\ sT (hsup h) <= sDS (hsup h0) /\ (0 < lN (hlip h0))%nat
  /\ (r = 0%nat -> (0 < i)%nat) /\ M = nbs (smove (hsup h0)) (phType f) i
  /\ vget (sstepVec (hsup h)) 0 = fst (first_step h) /\ vget (sstepVec (hsup h)) M = snd (first_step h).
Proof.
  destruct A as [Rc Rd Hfb HT Hc _]. assert (HE : 0 < EPS) by (rsimpl; lra).
  destruct (h_prepare_cases _ _ _ Hp) as (s & X & l & Hu & Hl & _ & EN & E1 & E2 & _ & _ & _ & _ & _ & _ & _ & _ & _ & _ & EX & _ & Ek & _).
  destruct (ready_update _ _ _ _ fb Rd) as (s' & v' & f & r0 & a & b & n' & w & n1 & i & E & U & Hst & HDS & Ha & Hb & Htn & _). rewrite Hu in E. injection E as <- <-.
  destruct (u_static _ _ _ _ _ _ _ _ _ _ _ _ _ _ _ U) as (U1 & U2 & U3 & U4 & U5 & U6 & U7 & U8 & U9).
  assert (EM : M = snb s) by (unfold M; rewrite E1; reflexivity). unfold first_step. rewrite EM, E1, E2, <- EN, U1, U2. exists f, i, r0.
  assert (HT0 : 0 < sT (hsup h0)) by (pose proof (ry_T _ _ _ _ Rd); lra).
  assert (G : forall k, (0 < k)%nat -> sT (hsup h0) <= INR k * sT (hsup h0)) by (intros k Hk; assert (1 <= INR k) by (apply (le_INR 1); exact Hk); nra).
  split; [exact (u_tl _ _ _ _ _ _ _ _ _ _ _ _ _ _ _ U)|]. split; [rewrite Htn; cbn [INR]; ring|]. split; [exact U9|]. split; [exact U8|]. split; [lra|]. split; [exact (ry_T _ _ _ _ Rd)|].
  split; [rewrite Hst; apply G; exact Ha|]. split; [rewrite HDS; apply G; exact Hb|].
  split; [rewrite <- (hi_N _ (reached_inv _ Rc)); exact (ry_N _ _ _ _ Rd)|].
  split.
  { intros ->. destruct i; [|lia]. pose proof (u_high _ _ _ _ _ _ _ _ _ _ _ _ _ _ _ U) as Hh. cbn [ends] in Hh. pose proof (ry_N _ _ _ _ Rd). lia. }
  split; [exact (u_nb _ _ _ _ _ _ _ _ _ _ _ _ _ _ _ U)|].
  rewrite (u_stepVec _ _ _ _ _ _ _ _ _ _ _ _ _ _ _ U). unfold vseg, dStepX, dStepY. cbn [vget fst snd]. rewrite !Ek by lia.
  split; f_equal; lia.
Qed.
Lemma as_supported : exists fx fy, support_is (hsup h) fx fy.
Proof.
  destruct as_solved as (q & idx & d & t & Hq & EX & _ & Ht & _). destruct (prepared _ _ _ (as_reached _ _ _ _ _ A) Hp) as (I & Sh & _).
  destruct (convert_inv _ _ _ I Sh Ht) as (z & cx & cy & Vx & Vy & fx & fy & G). exists fx, fy. exact (cv_foot _ _ _ _ _ _ _ _ _ _ G).
Qed.
Lemma cop_next fx fy : exact_inverses h -> hcopC h0 = true -> support_is (hsup h) fx fy ->
  let tl := cbl (stl (hsup h)) in let c := robot_cop (hlip h') in
  exists j ph p, in_progress tn tl fb j /\ nth_error tl j = Some ph /\ phase_polygon (hsup h) (phType ph) p
    /\ satisfies p (fst c - from_step fx (dStepX N Y) (steps_before tl j), snd c - from_step fy (dStepY N M Y) (steps_before tl j)).
Proof.
  intros Hx Hc Hf tl c. destruct as_solved as (q & idx & d & t & Hq & EX & F & Ht & Ex & Ey & Eh & Eg & Em & EM & _).
  destruct (call_sizes _ _ _ _ _ _ A Hp) as (S1 & S2 & S3 & S4). pose proof (call_first _ _ _ _ _ _ A Hp) as FI. replace (INR 1 * fb) with fb in FI by (cbn [INR]; ring).
  rewrite EX in Ht. pose proof (as_ready _ _ _ _ _ A) as Rd. replace (INR 1 * fb) with fb in Rd by (cbn [INR]; ring).
  destruct as_planned as (_ & _ & _ & _ & _ & _ & _ & _ & _ & _ & _ & HN & _).
  destruct (C36_simulated_cop_supported _ _ _ _ _ _ _ _ _ _ _ _ (as_reached _ _ _ _ _ A) Hp Hq Hf Rd Hc F FI Hx Ht 0%nat HN) as (j & ph & p & P1 & P2 & P3 & P4).
  exists j, ph, p. replace (fb + INR 0 * sT (hsup h0)) with fb in P1 by (cbn [INR]; ring). split; [exact P1|]. split; [exact P2|]. split; [exact P3|].
  unfold cop_x, cop_y in P4. cbn [sim] in P4. rewrite Nat.add_0_r in P4. unfold c, robot_cop. cbn [fst snd]. rewrite Ex, Ey, Eh, Eg, Em, EM. unfold Y, M, N. rewrite EX. rewrite S1 in P4. exact P4.
Qed.
(** The sample is in the phase the robot is in after the call. *)
Lemma next_phase j ph : in_progress tn (cbl (stl (hsup h))) fb j -> nth_error (cbl (stl (hsup h))) j = Some ph ->
  exists f i, cbl (stl (hsup h)) = tlist (hsup h0) f i /\ sttnp (hsup h) = tn /\ (forall q, phase_now (hsup h') q -> q = ph)
  /\ phase_now (hsup h') ph
  /\ (j = 0%nat /\ ph = f /\ EPS <= sttnp (hsup h')
       \/ j = 1%nat /\ tn = fb /\ sttnp (hsup h') < EPS /\ phType ph = nextType (smove (hsup h)) (phType f)
          /\ steps_before (cbl (stl (hsup h))) 1 = (if is_DS (phType f) then 0 else 1)%nat /\ (is_DS (phType f) = false -> (0 < M)%nat)).
Proof.
  intros Hj Hn. destruct as_solved as (_ & _ & _ & _ & _ & _ & _ & _ & _ & _ & _ & _ & _ & _ & Hu). destruct (feet_frame _ _ _ _ Hu) as (_ & _ & _ & _ & Ft & Fm & FT & Fn).
  destruct as_planned as (f & i & r & Et & Etn & En & Em & Hfb & HT & Hst & HDS & _ & Hi & EM & _). assert (HE : 0 < EPS) by (rsimpl; lra).
  exists f, i. split; [exact Et|]. split; [exact En|]. unfold phase_now. rewrite Ft, Fn, En. rewrite Et in *.
  assert (D1 : (0 < i)%nat -> nth_error (tlist (hsup h0) f i) 1 = Some (mkph (hsup h0) (typ (smove (hsup h0)) (phType f) 1))).
  { intros L. unfold tlist. destruct i; [lia|]. reflexivity. }
  assert (D2 : forall k, 0 <= match nth_error (tlist (hsup h0) f i) (S k) with Some q => phDur q | None => 0 end).
  { intros k. destruct (nth_error (tlist (hsup h0) f i) (S k)) as [q|] eqn:Eq; [|lra]. unfold tlist in Eq.
    change (nth_error (map (fun j => mkph (hsup h0) (typ (smove (hsup h0)) (phType f) j)) (seq 1 i)) k = Some q) in Eq. apply nth_error_In in Eq. apply in_map_iff in Eq. destruct Eq as (m & <- & _).
    cbn [phDur mkph]. unfold durationOf. match goal with |- context [typ ?a ?b ?c] => destruct (typ a b c) end; lra. }
  destruct r as [|r].
  - cbn [INR] in Etn. assert (E0 : tn = fb) by lra. specialize (Hi eq_refl). specialize (D1 Hi).
    assert (Ej : j = 1%nat).
    { destruct Hj as (J1 & J2 & J3). destruct j as [|[|j]]; [cbn [start_time] in J3; lra|reflexivity|exfalso]. destruct J2 as [J2|J2]; [discriminate J2|].
      assert (Mo : forall k, start_time tn (tlist (hsup h0) f i) (S (S k)) >= tn + sT (hsup h)).
      { induction k as [|k IH].
        - cbn [start_time]. rewrite D1. cbn [phDur mkph]. unfold durationOf. match goal with |- context [typ ?a ?b ?c] => destruct (typ a b c) end; lra.
        - change (start_time tn (tlist (hsup h0) f i) (S (S (S k)))) with (start_time tn (tlist (hsup h0) f i) (S (S k)) + match nth_error (tlist (hsup h0) f i) (S (S k)) with Some q => phDur q | None => 0 end).
          specialize (D2 (S k)). lra. }
      specialize (Mo j). lra. }
    subst j. rewrite D1 in Hn. injection Hn as <-. split; [intros q [(L & _)|(_ & Q)]; [lra|rewrite D1 in Q; injection Q as <-; reflexivity]|]. split; [right; split; [lra|exact D1]|]. right.
    split; [reflexivity|]. split; [exact E0|]. split; [lra|]. split; [rewrite Em; reflexivity|]. split.
    + rewrite steps_before_nbs by lia. cbn [nbs typ Nat.iter nat_rect]. destruct (is_DS (phType f)); reflexivity.
    + intros Hss. rewrite EM. assert (B : forall k, (0 < k)%nat -> (0 < nbs (smove (hsup h0)) (phType f) k)%nat); [|apply B; exact Hi].
      induction k as [|k IH]; [lia|]. intros _. cbn [nbs]. destruct k; [cbn [typ Nat.iter nat_rect]; rewrite Hss; lia|]. specialize (IH ltac:(lia)). destruct (is_DS (typ (smove (hsup h0)) (phType f) (S k))); lia.
  - assert (G : sT (hsup h) <= INR (S r) * sT (hsup h)). { rewrite S_INR. pose proof (pos_INR r). nra. }
    assert (Ej : j = 0%nat).
    { destruct Hj as (J1 & [J2|J2] & _); [exact J2|]. destruct j as [|j]; [reflexivity|exfalso].
      assert (Mo : forall k, start_time tn (tlist (hsup h0) f i) (S k) >= tn).
      { induction k as [|k IH]; [cbn [start_time]; lra|].
        change (start_time tn (tlist (hsup h0) f i) (S (S k))) with (start_time tn (tlist (hsup h0) f i) (S k) + match nth_error (tlist (hsup h0) f i) (S k) with Some q => phDur q | None => 0 end).
        specialize (D2 k). lra. }
      specialize (Mo j). lra. }
    subst j. cbn [tlist nth_error] in Hn. injection Hn as <-. split; [intros q [(_ & Q)|(L & _)]; [cbn [tlist nth_error] in Q; congruence|lra]|]. split; [left; split; [lra|reflexivity]|]. left.
    split; [reflexivity|]. split; [reflexivity|]. lra.
Qed.
Lemma unmoved f i : cbl (stl (hsup h)) = tlist (hsup h0) f i ->
  (phType f = DS -> sleft (hsup h') = sleft (hsup h) /\ sright (hsup h') = sright (hsup h))
  /\ (phType f = LeftSS -> sleft (hsup h') = sleft (hsup h)) /\ (phType f = RightSS -> sright (hsup h') = sright (hsup h)).
Proof.
  intros Et. destruct as_solved as (_ & _ & _ & _ & _ & _ & _ & _ & _ & _ & _ & _ & _ & _ & Hu). destruct (C34_support_foot_never_moves _ _ _ _ Hu) as (p & Hn & P1 & P2 & P3 & _).
  rewrite Et in Hn. injection Hn as <-. auto.
Qed.
Lemma landed f i : cbl (stl (hsup h)) = tlist (hsup h0) f i -> phType f <> DS -> sttnp (hsup h) = fb -> foot_pos (moving (phType f) (hsup h')) = (dStepX N Y 0, dStepY N M Y 0).
Proof.
  intros Et Hss Hn. destruct as_solved as (_ & _ & _ & _ & _ & _ & _ & _ & _ & _ & _ & _ & _ & _ & Hu). destruct as_planned as (_ & _ & _ & _ & _ & _ & _ & Hfb & HT & _).
  assert (Hf : nth_error (cbl (stl (hsup h))) 0 = Some f) by (rewrite Et; reflexivity). specialize (Hd f Hf Hss). assert (HE : 0 < EPS) by (rsimpl; lra).
  destruct (call_sizes _ _ _ _ _ _ A Hp) as (S1 & S2 & S3 & S4). assert (ET : sT (hsup h) = sT (hsup h0)).
  { destruct (h_prepare_cases _ _ _ Hp) as (s & X & l & Hu' & _ & _ & _ & E1 & _). rewrite E1. exact (update_T _ _ _ _ _ Hu'). }
  rewrite <- ET in S4. cbn [INR] in S4.
  rewrite (lands _ _ _ _ f Hf Hss Hfb Hn) with (2 := Hu) by lra. unfold dStepX, dStepY, vseg, Y. cbn [vget]. f_equal; f_equal; unfold M; lia.
Qed.
Lemma safe_call : exact_inverses h -> hcopC h0 = true -> forall ph, phase_now (hsup h') ph -> ~ (exists t, step_over (hsup h') t /\ phType ph = DS) ->
  under_the_feet (hsup h') (phType ph) (robot_cop (hlip h')).
Proof.
  intros Hx Hc ph0 Hph Hcl. destruct as_supported as (fx & fy & Sp). destruct (cop_next fx fy Hx Hc Sp) as (j & ph & p & P1 & P2 & P3 & P4).
  destruct (next_phase j ph P1 P2) as (f & i & Et & En & Uq & _ & K). rewrite (Uq _ Hph) in *. clear ph0 Hph Uq.
  destruct as_solved as (_ & _ & _ & _ & _ & _ & _ & _ & _ & _ & _ & _ & _ & _ & Hu). destruct (feet_frame _ _ _ _ Hu) as (Fl & Fr & _ & _ & Ft & Fm & FT & Fn).
  assert (Hf : nth_error (cbl (stl (hsup h))) 0 = Some f) by (rewrite Et; reflexivity). pose proof (support_pos _ _ _ _ Hf Sp) as Sf.
  destruct (unmoved f i Et) as (U1 & U2 & U3).
  assert (DSc : phType f = DS -> phase_polygon (hsup h) DS p -> satisfies p (seen_from (fx, fy) (robot_cop (hlip h'))) -> under_the_feet (hsup h') DS (robot_cop (hlip h'))).
  { intros Ed Q1 Q2. cbn [under_the_feet]. cbn [phase_polygon] in Q1. rewrite Ed in Sf. destruct (U1 Ed) as (-> & ->). rewrite Fm. cbv zeta. rewrite Sf in Q2. exists p. split; [|exact Q2].
    apply (ds_within _ f); [exact Hf| |exact Q1]. rewrite Ed. unfold ds_feet. destruct (smove (hsup h)); auto. }
  destruct K as [(-> & -> & Lt)|(-> & E0 & Lt & Ety & Est & _)].
  - change (satisfies p (seen_from (fx, fy) (robot_cop (hlip h')))) in P4. destruct (phType f) eqn:Ef; [exact (DSc eq_refl P3 P4)| |]; cbn [phase_polygon under_the_feet] in *; rewrite Sf in P4.
    + rewrite (U2 eq_refl). rewrite P3 in P4. exact P4.
    + rewrite (U3 eq_refl). rewrite P3 in P4. exact P4.
  - rewrite Est in P4. destruct (phType f) eqn:Ef; cbn [is_DS from_step] in P4.
    + change (satisfies p (seen_from (fx, fy) (robot_cop (hlip h')))) in P4. destruct (smove (hsup h)) eqn:Em; cbn [nextType] in Ety; rewrite Ety in *.
      * cbn [phase_polygon under_the_feet] in *. destruct (U1 eq_refl) as (-> & _). rewrite Sf in P4. rewrite P3 in P4. exact P4.
      * exact (DSc eq_refl P3 P4).
    + destruct (smove (hsup h)) eqn:Em; cbn [nextType] in Ety; rewrite Ety in *.
      * cbn [phase_polygon under_the_feet] in *. rewrite E0 in En. assert (Hss : phType f <> DS) by (rewrite Ef; discriminate). pose proof (landed f i Et Hss En) as La. rewrite Ef in La. cbn [moving] in La. rewrite La, Fr, <- P3. exact P4.
      * exfalso. apply Hcl. exists LeftSS. split; [|reflexivity]. split; [discriminate|]. split; [exact Lt|]. exists f. rewrite Ft. auto.
    + destruct (smove (hsup h)) eqn:Em; cbn [nextType] in Ety; rewrite Ety in *.
      * cbn [phase_polygon under_the_feet] in *. rewrite E0 in En. assert (Hss : phType f <> DS) by (rewrite Ef; discriminate). pose proof (landed f i Et Hss En) as La. rewrite Ef in La. cbn [moving] in La. rewrite La, Fl, <- P3. exact P4.
      * exfalso. apply Hcl. exists RightSS. split; [|reflexivity]. split; [discriminate|]. split; [exact Lt|]. exists f. rewrite Ft. auto.
Qed.
(** When the step that has just come to its end closes the walk *)
Lemma closing_call : exact_inverses h -> hcopC h0 = true -> forall t ph, step_over (hsup h') t -> phase_now (hsup h') ph -> phType ph = DS ->
  let s' := hsup h' in let c := robot_cop (hlip h') in let e := seen_from (foot_pos (moving t s')) (first_step h) in
  let l := match t with RightSS => first_step h | _ => foot_pos (sleft s') end in let r := match t with RightSS => foot_pos (sright s') | _ => first_step h end in
  within (first_step h) (placed l (fcop (sleft s')) ++ placed r (fcop (sright s'))) (fst c + fst e, snd c + snd e).
Proof.
  intros Hx Hc t ph0 (Ht & Hlt & p0 & Hp0 & Et0) Hph Hds. destruct as_supported as (fx & fy & Sp). destruct (cop_next fx fy Hx Hc Sp) as (j & ph & p & P1 & P2 & P3 & P4).
  destruct (next_phase j ph P1 P2) as (f & i & Et & En & Uq & _ & K). rewrite (Uq _ Hph) in *. clear ph0 Hph Uq. intros s' c e l r.
  destruct as_solved as (_ & _ & _ & _ & _ & _ & _ & _ & _ & _ & _ & _ & _ & _ & Hu). destruct (feet_frame _ _ _ _ Hu) as (Fl & Fr & _ & _ & Ft & Fm & FT & Fn).
  assert (Hf : nth_error (cbl (stl (hsup h))) 0 = Some f) by (rewrite Et; reflexivity). rewrite Ft, Hf in Hp0. injection Hp0 as <-. rewrite Et0 in *.
  destruct (unmoved f i Et) as (U1 & U2 & U3). assert (HE : 0 < EPS) by (rsimpl; lra).
  destruct K as [(-> & -> & Lt)|(-> & E0 & Lt & Ety & Est & _)]; [lra|]. rewrite Est in P4. rewrite Hds in Ety, P3. cbn [phase_polygon] in P3.
  assert (Em : smove (hsup h) = false) by (destruct (smove (hsup h)); [destruct t; discriminate Ety|reflexivity]).
  rewrite E0 in En. assert (Hss : phType f <> DS) by (rewrite Et0; exact Ht). pose proof (landed f i Et Hss En) as La. rewrite Et0 in La.
  destruct as_planned as (_ & _ & _ & _ & _ & _ & _ & _ & _ & _ & _ & _ & _ & _ & V1 & V2).
  assert (Fs : (vget (sstepVec (hsup h)) 0, vget (sstepVec (hsup h)) (snb (hsup h))) = first_step h) by (fold M; rewrite V1, V2; destruct (first_step h); reflexivity).
  exists p. unfold s'. rewrite Fl, Fr. split.
  - apply (ds_within _ f); [exact Hf| |exact P3]. rewrite Et0. unfold ds_feet. rewrite Em. unfold l, r, s'. destruct t; [contradiction| |].
    + rewrite (U2 Et0). rewrite Fs. auto.
    + rewrite (U3 Et0). rewrite Fs. auto.
  - assert (Eq : seen_from (first_step h) (fst c + fst e, snd c + snd e) = (fst c - dStepX N Y 0, snd c - dStepY N M Y 0)).
    { unfold e, s'. rewrite La. unfold seen_from. cbn [fst snd]. f_equal; ring. }
    rewrite Eq. destruct t; [contradiction| |]; exact P4.
Qed.
(** The foot that has just landed is within reach of the other one. *)
Lemma reach_call : hfeetC h0 = true -> forall t, step_over (hsup h') t -> let s' := hsup h' in
  satisfies (fkin (standing t s')) (seen_from (foot_pos (standing t s')) (foot_pos (moving t s'))).
Proof.
  intros Hc t (Ht & Hlt & p0 & Hp0 & Et0) s'. destruct as_supported as (fx & fy & Sp).
  destruct as_solved as (q & idx & d & tX & Hq & EX & F & _ & _ & _ & _ & _ & _ & _ & Hu). destruct (feet_frame _ _ _ _ Hu) as (_ & _ & Kl & Kr & Ft & Fm & FT & Fn).
  destruct as_planned as (f & i & r & Et & Etn & En & Em & Hfb & HT & Hst & HDS & _ & Hi & EM & _). assert (HE : 0 < EPS) by (rsimpl; lra).
  assert (Hf : nth_error (cbl (stl (hsup h))) 0 = Some f) by (rewrite Et; reflexivity). rewrite Ft, Hf in Hp0. injection Hp0 as <-.
  assert (E0 : r = 0%nat). { destruct r; [reflexivity|exfalso]. rewrite S_INR in Etn. pose proof (pos_INR r). assert (0 <= INR r * sT (hsup h)) by nra. lra. }
  subst r. specialize (Hi eq_refl). cbn [INR] in Etn. assert (E0 : sttnp (hsup h) = fb) by lra.
  assert (Hss : phType f <> DS) by (rewrite Et0; exact Ht). pose proof (landed f i Et Hss E0) as La. rewrite Et0 in La. pose proof (support_pos _ _ _ _ Hf Sp) as Sf. rewrite Et0 in Sf.
  assert (HM : (0 < M)%nat).
  { rewrite EM. destruct i; [lia|]. clear - Hss. induction i as [|i IH]; [cbn [nbs typ Nat.iter nat_rect]; destruct (is_DS_spec (phType f)); [contradiction|lia]|].
    change (nbs (smove (hsup h0)) (phType f) (S (S i))) with (if is_DS (typ (smove (hsup h0)) (phType f) (S i)) then nbs (smove (hsup h0)) (phType f) (S i) else S (nbs (smove (hsup h0)) (phType f) (S i))).
    destruct (is_DS _); lia. }
  destruct (unmoved f i Et) as (_ & U2 & U3). rewrite Et0 in U2, U3.
  assert (Kp : s_getKinematicConvexPolygon 0 (hsup h) = Ok (fkin (standing t (hsup h)))).
  { unfold s_getKinematicConvexPolygon. fold M. rewrite (proj2 (Nat.ltb_lt _ _) HM). cbn [guard bind]. unfold s_isInDS, s_front, cb_at. rewrite (rd_some _ _ _ Hf). cbn [bind]. rewrite Et0.
    destruct t; [contradiction| |]; cbn [is_DS andb]; rewrite (rd_some _ _ _ Hf); cbn [bind]; rewrite Et0; reflexivity. }
  pose proof (C37_first_step_reachable _ _ _ _ _ _ _ _ _ (as_reached _ _ _ _ _ A) Hp Hq Sp Hc F HM Kp) as Q.
  change (moved h (vget d)) with (vget (vadd (hX h) d)) in Q. rewrite <- EX in Q. fold Y N M in Q.
  unfold s'. rewrite La. unfold seen_from. cbn [fst snd]. destruct t; [contradiction| |]; cbn [standing] in *; [rewrite (U2 eq_refl)|rewrite (U3 eq_refl)]; rewrite <- Sf; exact Q.
Qed.
Lemma now_exists : exists ph, phase_now (hsup h') ph.
Proof.
  destruct as_solved as (_ & _ & _ & _ & _ & _ & _ & _ & _ & _ & _ & _ & _ & _ & Hu). destruct (feet_frame _ _ _ _ Hu) as (_ & _ & _ & _ & Ft & _ & _ & Fn).
  destruct as_planned as (f & i & r & Et & Etn & En & _ & Hfb & HT & _ & _ & _ & Hi & _). assert (HE : 0 < EPS) by (rsimpl; lra). unfold phase_now. rewrite Ft, Fn, En, Et.
  destruct (Rle_lt_dec EPS (tn - fb)) as [L|L]; [exists f; left; auto|]. assert (E0 : r = 0%nat).
  { destruct r; [reflexivity|exfalso]. rewrite S_INR in Etn. pose proof (pos_INR r). assert (0 <= INR r * sT (hsup h)) by nra. lra. }
  specialize (Hi E0). destruct i; [lia|]. eexists. right. split; [exact L|reflexivity].
Qed.
End Call.

(** ** C68 *)
Lemma walked_walk n a b fb h : walked n a b fb h -> exists N, (0 < N)%nat /\ (0 < n)%nat /\ (0 < a)%nat /\ (a <= S N)%nat /\ (0 < b)%nat /\ EPS < fb /\ reached h /\ hwalk N n a b fb h.
Proof.
  intros (hs & cs & Rw & Pm & Hh & E). destruct (ready_walks _ _ _ _ _ Rw) as (HN & W). destruct Rw as [(hx & t & St & -> & _) Hfb Hn (Ha & HaN) Hb _ _ _ _ _ _ _ _].
  exists (sN (hsup (h_setSolvers t hx))). do 6 (split; [assumption|]). set (N := sN (hsup (h_setSolvers t hx))) in *. clearbody N.
  assert (Rc : reached (h_setSolvers t hx)) by (apply reached_table; exact (up_reached _ (settled_up _ St))). revert Pm Hh E W Rc. generalize (h_setSolvers t hx). clear hx t St.
  induction cs as [|c cs IH]; intros hs Pm Hh E W Rc; cbn [hsteps permitted hulls_found] in *; [injection E as <-; auto|].
  destruct Pm as (My & Pm), Hh as (Hk & Hh). apply bind_ok in E. destruct E as (h1 & E1 & E).
  assert (Hk' : is_solve c -> hull_known fb hs).
  { intros Hi. specialize (Hk Hi). intros Ec s v Eu. apply Classical_Prop.NNPP. intros Nh. apply Hk. split; [exact Ec|]. eauto. }
  destruct (call_ok N n a b fb HN Hn Ha HaN Hb Hfb c hs W My Hk') as (k & Ek & Wk). rewrite E1 in Ek. injection Ek as <-.
  apply (IH h1); auto. exact (reached_call _ _ _ Rc E1).
Qed.
Lemma long_steps n a b fb h0 h o found h' : walked n a b fb h0 -> (2 <= a)%nat -> ~ hull_fails fb h0 -> h_prepare fb h0 = Ok h -> h_solve o fb h0 = Ok (found, h') ->
  forall p, nth_error (cbl (stl (hsup h))) 0 = Some p -> phType p <> DS -> 2 * sT (hsup h) <= phDur p.
Proof.
  intros Wd Ha2 Hh Hp Hs p Hn Hss. destruct (walked_walk _ _ _ _ _ Wd) as (N & HN & Hn0 & Ha & HaN & Hb & Hfb & Rc & W).
  assert (Hk : hull_known fb h0) by (intros Ec s v Eu; apply Classical_Prop.NNPP; intros Nh; apply Hh; split; [exact Ec|]; eauto).
  destruct (solve_ok N n a b fb HN Hn0 Ha HaN Hb Hfb o h0 W Hk) as (r & Er & W'). rewrite Hs in Er. injection Er as <-. cbn [snd] in W'.
  destruct (walk_about n a b fb N h0 HN Hn0 Ha HaN Hb Hfb Rc W) as (tn & c & A).
  destruct (C39_solve_applies_first_jerks _ _ _ _ _ Rc Hs) as (h1 & _ & _ & _ & _ & Hp1 & _ & _ & _ & _ & _ & _ & _ & _ & _ & _ & _ & Hu). rewrite Hp in Hp1. injection Hp1 as <-.
  destruct (feet_frame _ _ _ _ Hu) as (_ & _ & _ & _ & Ft & _ & FT & _). destruct (hk_walk _ _ _ _ _ _ W') as (s & f & i & m & k & Wk & _ & Es & _).
  assert (E1 : stl (hsup h') = stl s /\ sT (hsup h') = sT s) by (rewrite Es; split; reflexivity). destruct E1 as (E1 & E2).
  rewrite <- Ft, E1, (w_tl _ _ _ _ _ _ _ _ _ _ _ Wk) in Hn. injection Hn as <-. rewrite (w_front _ _ _ _ _ _ _ _ _ _ _ Wk). rewrite <- FT, E2.
  assert (0 < sT s). { rewrite (w_T _ _ _ _ _ _ _ _ _ _ _ Wk). assert (0 < EPS) by (rsimpl; lra). apply Rmult_lt_0_compat; [apply lt_0_INR; exact Hn0|lra]. }
  assert (D : durationOf s (phType f) = sstep s) by (destruct (phType f); [contradiction| |]; reflexivity). rewrite D, (w_step _ _ _ _ _ _ _ _ _ _ _ Wk).
  apply Rmult_le_compat_r; [lra|]. apply (le_INR 2). exact Ha2.
Qed.
Lemma one_call_left n c fb tn h0 o found h' : about_to_solve n c fb tn h0 -> h_solve o fb h0 = Ok (found, h') ->
  (at_sample (hsup h') \/ exists t, step_over (hsup h') t) -> c = 1%nat.
Proof.
  intros A Hs Hat. destruct (C39_solve_applies_first_jerks _ _ _ _ _ (as_reached _ _ _ _ _ A) Hs) as (h & _ & _ & _ & _ & Hp & _ & _ & _ & _ & _ & _ & _ & _ & _ & _ & _ & Hu).
  destruct (feet_frame _ _ _ _ Hu) as (_ & _ & _ & _ & _ & _ & FT & Fn). destruct A as [Rc Rd Hfb HT (Hc & Hcn) _]. assert (HE : 0 < EPS) by (rsimpl; lra).
  destruct (h_prepare_cases _ _ _ Hp) as (s & X & l & Hu' & _ & _ & _ & E1 & _). rewrite E1 in FT, Fn. rewrite (update_T _ _ _ _ _ Hu') in FT.
  destruct (C29_one_support_per_sample _ _ _ _ fb Rd) as (s' & v' & E2 & Et & _). rewrite Hu' in E2. injection E2 as <- <-. rewrite Et in Fn.
  destruct (ry_sample _ _ _ _ Rd) as (_ & r & Hr). rewrite Hr, HT in Fn.
  assert (E : sttnp (hsup h') = INR (c - 1 + r * n) * fb) by (rewrite Fn, plus_INR, minus_INR, mult_INR by lia; cbn [INR]; ring).
  destruct Hat as [(r' & Hr')|(t & _ & Lt & _)].
  - rewrite FT, HT, E in Hr'. replace (INR r' * (INR n * fb)) with (INR (r' * n) * fb) in Hr' by (rewrite mult_INR; ring).
    apply Rmult_eq_reg_r in Hr'; [|lra]. apply INR_eq in Hr'. assert (Nat.modulo (c - 1 + r * n) n = Nat.modulo (r' * n) n) by congruence.
    rewrite Nat.mod_add, Nat.mod_small, Nat.mod_mul in H by lia. lia.
  - rewrite E in Lt. destruct (c - 1 + r * n)%nat as [|k] eqn:Ek; [lia|]. rewrite S_INR in Lt. pose proof (pos_INR k). nra.
Qed.
(** At every sample of a walk, steps lasting two samples or more, the centre of pressure of the robot is under
    the feet that are on the ground, where they then are.  One case is left out: when the robot has just made
    the step that ends its walk (see the next theorem). *)
Theorem C68_cop_under_the_feet : forall n a b fb h0 o found h', walked n a b fb h0 -> (2 <= a)%nat -> ~ hull_fails fb h0 -> hcopC h0 = true ->
  (forall h, h_prepare fb h0 = Ok h -> exact_inverses h /\ respects o h) ->
  h_solve o fb h0 = Ok (found, h') -> at_sample (hsup h') ->
  exists ph, phase_now (hsup h') ph
    /\ ((exists t, step_over (hsup h') t /\ phType ph = DS) \/ under_the_feet (hsup h') (phType ph) (robot_cop (hlip h'))).
Proof.
  intros n a b fb h0 o found h' Wd Ha2 Hh Hc Hx Hs Hat. destruct (walked_walk _ _ _ _ _ Wd) as (N & HN & Hn0 & Ha & HaN & Hb & Hfb & Rc & W).
  destruct (walk_about n a b fb N h0 HN Hn0 Ha HaN Hb Hfb Rc W) as (tn & c & A). pose proof (one_call_left _ _ _ _ _ _ _ _ A Hs (or_introl Hat)) as ->.
  assert (Hp : exists h, h_prepare fb h0 = Ok h) by (unfold h_solve in Hs; apply bind_ok in Hs; destruct Hs as (h & E & _); eauto). destruct Hp as (h & Hp). destruct (Hx h Hp) as (Hi & Hr).
  pose proof (long_steps _ _ _ _ _ _ _ _ _ Wd Ha2 Hh Hp Hs) as Hd. destruct (now_exists n fb tn h0 h h' o found A Hp Hs Hr) as (ph & Hph). exists ph. split; [exact Hph|].
  destruct (Classical_Prop.classic (exists t, step_over (hsup h') t /\ phType ph = DS)) as [K|K]; [left; exact K|right].
  exact (safe_call n fb tn h0 h h' o found A Hp Hs Hr Hd Hi Hc ph Hph K).
Qed.
(** When the robot has just made the step that ends its walk, the polygon is that of the foot that stood and of
    the other one where the plan had put it before this call: the centre of pressure is in there once it is
    displaced by as much as the call has changed the step. *)
Theorem C68_cop_after_the_last_step : forall n a b fb h0 o found h' h t ph, walked n a b fb h0 -> (2 <= a)%nat -> ~ hull_fails fb h0 -> hcopC h0 = true ->
  h_prepare fb h0 = Ok h -> exact_inverses h -> respects o h -> h_solve o fb h0 = Ok (found, h') ->
  step_over (hsup h') t -> phase_now (hsup h') ph -> phType ph = DS ->
  let s := hsup h' in let c := robot_cop (hlip h') in let e := seen_from (foot_pos (moving t s)) (first_step h) in
  let l := match t with RightSS => first_step h | _ => foot_pos (sleft s) end in let r := match t with RightSS => foot_pos (sright s) | _ => first_step h end in
  within (first_step h) (placed l (fcop (sleft s)) ++ placed r (fcop (sright s))) (fst c + fst e, snd c + snd e)
  /\ (foot_pos (moving t s) = first_step h -> within (foot_pos (moving t s)) (placed (foot_pos (sleft s)) (fcop (sleft s)) ++ placed (foot_pos (sright s)) (fcop (sright s))) c).
Proof.
  intros n a b fb h0 o found h' h t ph Wd Ha2 Hh Hc Hp Hi Hr Hs Ho Hph Hds s c e l r. destruct (walked_walk _ _ _ _ _ Wd) as (N & HN & Hn0 & Ha & HaN & Hb & Hfb & Rc & W).
  destruct (walk_about n a b fb N h0 HN Hn0 Ha HaN Hb Hfb Rc W) as (tn & k & A). pose proof (one_call_left _ _ _ _ _ _ _ _ A Hs (or_intror (ex_intro _ t Ho))) as ->.
  pose proof (long_steps _ _ _ _ _ _ _ _ _ Wd Ha2 Hh Hp Hs) as Hd. pose proof (closing_call n fb tn h0 h h' o found A Hp Hs Hr Hd Hi Hc t ph Ho Hph Hds) as Q. cbv zeta in Q. split; [exact Q|].
  intros E. assert (Ee : (fst c + fst e, snd c + snd e) = c) by (unfold e; rewrite <- E; destruct c as (cx & cy); unfold seen_from; cbn [fst snd]; f_equal; ring).
  subst s c e l r. rewrite Ee in Q. rewrite <- E in Q. destruct t; [destruct Ho as (X & _); contradiction| |]; exact Q.
Qed.
(** A foot that has just landed is within reach of the other one, from where that one stands. *)
Theorem C68_steps_land_within_reach : forall n a b fb h0 o found h' t, walked n a b fb h0 -> (2 <= a)%nat -> ~ hull_fails fb h0 -> hfeetC h0 = true ->
  (forall h, h_prepare fb h0 = Ok h -> respects o h) -> h_solve o fb h0 = Ok (found, h') -> step_over (hsup h') t ->
  let s := hsup h' in satisfies (fkin (standing t s)) (seen_from (foot_pos (standing t s)) (foot_pos (moving t s))).
Proof.
  intros n a b fb h0 o found h' t Wd Ha2 Hh Hc Hx Hs Ho s. destruct (walked_walk _ _ _ _ _ Wd) as (N & HN & Hn0 & Ha & HaN & Hb & Hfb & Rc & W).
  destruct (walk_about n a b fb N h0 HN Hn0 Ha HaN Hb Hfb Rc W) as (tn & k & A). pose proof (one_call_left _ _ _ _ _ _ _ _ A Hs (or_intror (ex_intro _ t Ho))) as ->.
  assert (Hp : exists h, h_prepare fb h0 = Ok h) by (unfold h_solve in Hs; apply bind_ok in Hs; destruct Hs as (h & E & _); eauto). destruct Hp as (h & Hp).
  pose proof (long_steps _ _ _ _ _ _ _ _ _ Wd Ha2 Hh Hp Hs) as Hd. exact (reach_call n fb tn h0 h h' o found A Hp Hs (Hx h Hp) Hd Hc t Ho).
Qed.
(** An exact solver respects the constraints wherever something does. *)
Theorem C68_exact_solvers_respect : forall n c fb tn h0 h o fx fy, about_to_solve n c fb tn h0 -> h_prepare fb h0 = Ok h -> support_is (hsup h) fx fy ->
  exact_for o h -> (exists Y, permitted_plan h fx fy Y) -> respects o h.
Proof.
  intros n c fb tn h0 h o fx fy A Hp Hf Ex (Y & HY) q idx it Hq. assert (EP : 0 <= EPS) by (rsimpl; lra).
  apply (Ex q idx it Hq). apply QPExist.qp_has_minimiser. exists (fun k => Y k - vget (hX h) k). apply (proj2 (proj1 (C17_normalisation_preserves_solutions q EPS _ EP))).
  apply (plan_iff n c fb tn h0 h A Hp fx fy Hf q idx _ Hq). rewrite moved_back. exact HY.
Qed.
End Safe.
Print Assumptions C68_cop_under_the_feet.
Print Assumptions C68_cop_after_the_last_step.
Print Assumptions C68_steps_land_within_reach.
Print Assumptions C68_exact_solvers_respect.
