(** The limits on velocity, acceleration and jerk along runs of the trajectory and Zebulon generators (C69). *)

From Coq Require Import Reals List ZArith Lra Lia Arith Bool Psatz.
From Verif Require Import Scalar LinAlg LinAlgFacts ToolsModel ToolsSpec ToolsFacts NoDynModel PolygonModel HullFacts
  QPModel QPFacts QPExist TrajModel TrajSpec TrajFacts PropTraj LipModel BaseModel ModelsSpec ModelsFacts ZebModel HumAlg ZebAlg ZebSpec ZebFacts
  ZebObj ZebTilt ZebProb ZebCon ZebLive ZebCalls ZebInv ZebView ZebDemo PropZeb PropZebCases PropZebCalls PropZebSolve LimSpec.
Import ListNotations.
Local Open Scope R_scope.

Lemma raw_carried j d x : updateState_raw j d x = carried j d x.
Proof. unfold updateState_raw, carried. rsimpl. f_equal; field. Qed.

(** ** One axis *)
Section Axis.
Variables (vl al jl T f j : R) (x : st3 R).
Hypothesis (Hf : 0 < f <= T) (Hj : Rabs j <= jl) (Hx : in_limits vl al (jl * T * (T - f) / 2) x).
Hypothesis (Hv : Rabs (vel (carried j T x)) <= vl) (Ha : Rabs (acc (carried j T x)) <= al).

Lemma axis_acc d : 0 <= d <= T -> Rabs (acc (carried j d x)) <= al.
Proof.
  intros Hd. destruct Hx as (A & _). unfold carried in *. cbn [acc] in *. apply Rabs_le. apply Rabs_le_inv in A. apply Rabs_le_inv in Ha.
  assert (E : T * (acc x + j * d) = (T - d) * acc x + d * (acc x + j * T)) by ring.
  assert (T * - al <= T * (acc x + j * d) <= T * al) by (rewrite E; split; nra). split; nra.
Qed.
Lemma axis_vel d : 0 <= d <= T -> Rabs (vel (carried j d x)) <= vl + jl * (T - d) * (T - f + d) / 2.
Proof.
  intros Hd. destruct Hx as (_ & V). unfold carried in *. cbn [vel] in *. apply Rabs_le. apply Rabs_le_inv in V, Hv, Hj.
  assert (E : T * (vel x + acc x * d + j * d ^ 2 / 2) = (T - d) * vel x + d * (vel x + acc x * T + j * T ^ 2 / 2) - T * (d * (T - d) * j / 2)) by field.
  set (W := vel x + acc x * T + j * T ^ 2 / 2) in *. set (w := vel x + acc x * d + j * d ^ 2 / 2) in *.
  assert (P : 0 <= d * (T - d)) by nra.
  assert (P1 : - (d * (T - d) * jl) <= d * (T - d) * j <= d * (T - d) * jl) by (split; nra).
  assert (P2 : (T - d) * - (vl + jl * T * (T - f) / 2) <= (T - d) * vel x <= (T - d) * (vl + jl * T * (T - f) / 2)) by (split; nra).
  assert (P3 : d * - vl <= d * W <= d * vl) by (split; nra).
  assert (P4 : - (T * (d * (T - d) * jl / 2)) <= T * (d * (T - d) * j / 2) <= T * (d * (T - d) * jl / 2)) by (split; nra).
  assert (F : T * (vl + jl * (T - d) * (T - f + d) / 2) = (T - d) * (vl + jl * T * (T - f) / 2) + d * vl + T * (d * (T - d) * jl / 2)) by field.
  assert (T * - (vl + jl * (T - d) * (T - f + d) / 2) <= T * w <= T * (vl + jl * (T - d) * (T - f + d) / 2)) by (split; [|rewrite F]; lra). split; nra.
Qed.
(** The limits hold again at the end of the call, and all along it. *)
Lemma axis_end : in_limits vl al (jl * T * (T - f) / 2) (carried j f x).
Proof.
  split; [apply axis_acc; lra|]. eapply Rle_trans; [apply axis_vel; lra|]. replace (T - f + f) with T by ring. right. field.
Qed.
Lemma axis_along d : 0 <= d <= f -> in_limits vl al (jl * (T - f / 2) ^ 2 / 2) (carried j d x).
Proof.
  intros Hd. split; [apply axis_acc; lra|]. eapply Rle_trans; [apply axis_vel; lra|]. apply Rabs_le_inv in Hj.
  assert (E : (T - f / 2) ^ 2 - (T - d) * (T - f + d) = (d - f / 2) ^ 2) by field. pose proof (pow2_ge_0 (d - f / 2)) as P.
  assert (0 <= jl * ((T - f / 2) ^ 2 - (T - d) * (T - f + d))) by (rewrite E; apply Rmult_le_pos; lra). lra.
Qed.
End Axis.

(** ** The trajectory generator *)
(** What a call of a run does to the state and to what the limits depend on *)
Lemma running_frame f c t t' : reachable t -> running_call f c t -> tstep c t = Ok t' ->
  nT (tmod t') = nT (tmod t) /\ nvelLim (tmod t') = nvelLim (tmod t) /\ naccLim (tmod t') = naccLim (tmod t) /\ njerkLim (tmod t') = njerkLim (tmod t)
  /\ (nstate (tmod t') = nstate (tmod t) \/ exists o b, c = TSolve o f /\ t_solve o f t = Ok (b, t')).
Proof.
  intros Rt Hc H. pose proof (reachable_tinv _ Rt) as (O & _). destruct c; cbn [running_call] in Hc; try contradiction; cbn [tstep] in H.
  - unfold t_setNbSamples in H. apply guard_ok in H. destruct H as (_ & H). apply bind_ok in H. destruct H as (m & Hm & H).
    unfold nodyn_setNbSamples in Hm. apply guard_ok in Hm. destruct Hm as (_ & Hm). apply nodyn_auto_fresh in Hm; [|exact (of_auto _ O)].
    destruct Hm as (_ & _ & _ & E1 & E2 & E3 & E4 & E5). cbn in E1, E2, E3, E4, E5. unfold t_computeConstantPart in H. repeat (apply guard_ok in H; destruct H as (_ & H)). injection H as <-. cbn. auto 10.
  - unfold t_setVelRef in H. apply guard_ok in H. destruct H as (_ & H). injection H as <-. cbn. auto 10.
  - unfold t_setPosRef in H. apply guard_ok in H. destruct H as (_ & H). injection H as <-. cbn. auto 10.
  - unfold t_setWeightings, t_computeConstantPart in H. repeat (apply guard_ok in H; destruct H as (_ & H)). injection H as <-. cbn. auto 10.
  - unfold t_setConfig, t_computeConstantPart in H. repeat (apply guard_ok in H; destruct H as (_ & H)). injection H as <-. cbn. auto 10.
  - destruct Hc as (-> & _). apply bind_ok in H. destruct H as ((b & t1) & H & E). cbn [snd] in E. injection E as ->.
    pose proof H as H'. apply solve_inv in H. destruct H as (q & s & dX & _ & _ & _ & _ & ->). cbn. do 4 (split; [reflexivity|]). right. eauto.
Qed.
Lemma reachable_step c t t' : reachable t -> tstep c t = Ok t' -> reachable t'.
Proof.
  intros (u & l & Hu & Hl) H. exists u, (l ++ [c]). split; [assumption|]. clear -Hl H. revert u Hl.
  induction l as [|d l IH]; intros u Hl; cbn [tsteps app] in *; [injection Hl as <-; rewrite H; reflexivity|].
  destruct (tstep d u); [|discriminate..]. cbn [bind] in *. apply IH; assumption.
Qed.
(** What a call of solve that is answered guarantees on the first sample *)
Lemma solve_first o f t b t' : reachable t -> tmc t = true -> answers o (t_problem t) -> t_solve o f t = Ok (b, t') ->
  Rabs (vget (tX t') 0) <= njerkLim (tmod t) /\ nstate (tmod t') = carried (vget (tX t') 0) f (nstate (tmod t))
  /\ Rabs (vel (carried (vget (tX t') 0) (nT (tmod t)) (nstate (tmod t)))) <= nvelLim (tmod t)
  /\ Rabs (acc (carried (vget (tX t') 0) (nT (tmod t)) (nstate (tmod t)))) <= naccLim (tmod t).
Proof.
  intros Rt M An H. pose proof (reachable_tinv _ Rt) as I. destruct (solve_X o f t b t' I H) as (q & Hq & HX & _ & HS).
  assert (HN : (0 < nN (tmod t))%nat) by exact (nf_N _ (of_mod _ (proj1 I))).
  pose proof (proj1 (problem_feasible t q I Hq _) (An q 10000%Z Hq)) as F. rewrite M in F. destruct (F 0%nat HN) as (F1 & F2 & F3). cbn [sim] in F1, F2.
  rewrite <- (HX 0%nat HN) in F1, F2, F3. rewrite raw_carried in F1, F2. rewrite raw_carried in HS. auto.
Qed.
(** During a run whose feedback period is not longer than the sampling period, the acceleration never exceeds its
    limit, nor the jerk.  The velocity exceeds its limit by at most jl*T*(T-f)/2 when solve returns (not at all if
    f = T), and by at most jl*(T-f/2)^2/2 at any instant. *)
Theorem C69_limits_along_a_run : forall cs f t t', reachable t -> running f cs t -> tsteps cs t = Ok t' ->
  let m := tmod t in let vl := nvelLim m in let al := naccLim m in let jl := njerkLim m in let T := nT m in
  0 < f <= T -> in_limits vl al (jl * T * (T - f) / 2) (t_getState t) ->
  in_limits vl al (jl * T * (T - f) / 2) (t_getState t')
  /\ forall o b t'', tmc t' = true -> answers o (t_problem t') -> t_solve o f t' = Ok (b, t'') ->
       Rabs (t_getJerk t'') <= jl /\ t_getState t'' = carried (t_getJerk t'') f (t_getState t')
       /\ in_limits vl al (jl * T * (T - f) / 2) (t_getState t'')
       /\ forall d, 0 <= d <= f -> in_limits vl al (jl * (T - f / 2) ^ 2 / 2) (carried (t_getJerk t'') d (t_getState t')).
Proof.
  induction cs as [|c cs IH]; intros f t t' Rt Rn H m vl al jl T Hf L.
  - cbn [tsteps] in H. injection H as <-. split; [exact L|]. intros o b t'' M An Hs. destruct (solve_first o f t b t'' Rt M An Hs) as (S1 & S2 & S3 & S4).
    split; [exact S1|]. split; [exact S2|]. unfold t_getState in *. rewrite S2. split; [apply axis_end; assumption|]. intros d Hd. apply axis_along; assumption.
  - cbn [tsteps] in H. apply bind_ok in H. destruct H as (t1 & H1 & H). cbn [running] in Rn. destruct Rn as (Rc & Rn).
    destruct (running_frame f c t t1 Rt Rc H1) as (E1 & E2 & E3 & E4 & E5). pose proof (reachable_step _ _ _ Rt H1) as R1.
    specialize (IH f t1 t' R1 (Rn t1 H1) H). cbv zeta in IH. rewrite E1, E2, E3, E4 in IH. apply IH; [exact Hf|]. clear IH.
    unfold t_getState in *. destruct E5 as [->|(o & b & -> & Hs)]; [exact L|]. cbn [running_call] in Rc. destruct Rc as (_ & M & An).
    destruct (solve_first o f t b t1 Rt M An Hs) as (S1 & S2 & S3 & S4). rewrite S2. apply axis_end; assumption.
Qed.

(** ** Zebulon *)
Lemma zrunning_frame f c z hb cl z' : zreach z hb cl -> zrunning_call f c z -> zstep c z = Ok z' ->
  lT (zl z') = lT (zl z) /\ bvelLim (zb z') = bvelLim (zb z) /\ baccLim (zb z') = baccLim (zb z) /\ bjerkLim (zb z') = bjerkLim (zb z)
  /\ ((bsx (zb z') = bsx (zb z) /\ bsy (zb z') = bsy (zb z)) \/ exists o b, c = ZSolve o f /\ z_solve o f z = Ok (b, z')).
Proof.
  intros Rz Hc H. pose proof (C59_call_effect _ _ _ _ _ Rz H) as E. unfold view_of, lobs_of, bobs_of in E.
  destruct c; cbn [zrunning_call] in Hc; try contradiction; cbn [zeffect lobs_step bobs_step] in E;
    try (injection E; intros; repeat split; try assumption; left; split; assumption).
  1,2: destruct E as (q & _ & E); injection E; intros; repeat split; try assumption; left; split; assumption.
  - destruct E as (r & E & _). injection E; intros; repeat split; try assumption; left; split; assumption.
  - destruct Hc as (-> & _). destruct E as (X' & _ & E). cbv zeta in E. injection E; intros. repeat split; try assumption. right.
    cbn [zstep] in H. apply bind_ok in H. destruct H as ((b & z1) & H & E'). cbn [snd] in E'. injection E' as ->. eauto.
Qed.
Lemma zsolve_first o f z hb cl b z' : zreach z hb cl -> zcBase (zc z) = true -> answers o (z_problem z) -> z_solve o f z = Ok (b, z') ->
  let jx := vget (zX z') (2 * horizon z)%nat in let jy := vget (zX z') (3 * horizon z)%nat in
  Rabs jx <= bjerkLim (zb z) /\ Rabs jy <= bjerkLim (zb z) /\ bsx (zb z') = carried jx f (bsx (zb z)) /\ bsy (zb z') = carried jy f (bsy (zb z))
  /\ Rabs (vel (carried jx (period z) (bsx (zb z)))) <= bvelLim (zb z) /\ Rabs (acc (carried jx (period z) (bsx (zb z)))) <= baccLim (zb z)
  /\ Rabs (vel (carried jy (period z) (bsy (zb z)))) <= bvelLim (zb z) /\ Rabs (acc (carried jy (period z) (bsy (zb z)))) <= baccLim (zb z).
Proof.
  intros Rz M An H jx jy. pose proof (reach_zinv _ _ _ Rz) as I. destruct (z_period_pos _ _ _ Rz) as (_ & HN).
  pose proof H as H'. apply z_solve_inv in H'. destruct H' as (q & s & dX & Hq & Hf & Hs & HL & E).
  pose proof (z_problem_shape _ _ (proj2 I) Hq) as (P1 & P2 & P3 & _). apply solver_solve_inv in Hs; [|rewrite P1, P2; exact (qi_mem _ (proj2 I))].
  destruct Hs as (_ & _ & _ & Hx). destruct (proj1 (C42_feasible_set z hb cl q Rz Hq _) (An q 10000%Z Hq)) as ((A & _) & _). destruct (A M 0%nat HN) as (F1 & F2 & F3 & F4 & F5 & F6).
  unfold baseX, baseY, jBaseX, jBaseY in *. cbn [sim] in F1, F2, F3, F4. rewrite !raw_carried in F1, F2, F3, F4. rewrite !Nat.add_0_r in *.
  assert (G : forall k, (k < 4 * horizon z)%nat -> vget (zX z') k = vget (zX z) k + fst (o q 10000%Z) k).
  { intros k Hk. rewrite E. cbn [zX vadd vget]. rewrite Hx; [reflexivity|]. rewrite (qi_nv _ (proj2 I)). exact Hk. }
  unfold jx, jy. rewrite !G by lia. split; [exact F5|]. split; [exact F6|].
  destruct (C58_states_advance z hb cl o f b z' Rz H) as (_ & _ & S3 & S4 & _). cbn [run] in S3, S4. rewrite updateState_ok in S3, S4 by assumption. cbn [bind] in S3, S4.
  injection S3 as S3. injection S4 as S4. rewrite raw_carried in S3, S4. rewrite !G in S3, S4 by lia. auto 10.
Qed.
Theorem C69_base_limits_along_a_run : forall cs f z hb cleared z', zreach z hb cleared -> zrunning f cs z -> zsteps cs z = Ok z' ->
  let b := zb z in let vl := bvelLim b in let al := baccLim b in let jl := bjerkLim b in let T := period z in let e := jl * T * (T - f) / 2 in
  0 < f <= T -> in_limits vl al e (bsx b) -> in_limits vl al e (bsy b) ->
  in_limits vl al e (bsx (zb z')) /\ in_limits vl al e (bsy (zb z'))
  /\ forall o found z'', zcBase (zc z') = true -> answers o (z_problem z') -> z_solve o f z' = Ok (found, z'') ->
       let jx := vget (zX z'') (2 * horizon z')%nat in let jy := vget (zX z'') (3 * horizon z')%nat in
       Rabs jx <= jl /\ Rabs jy <= jl /\ bsx (zb z'') = carried jx f (bsx (zb z')) /\ bsy (zb z'') = carried jy f (bsy (zb z'))
       /\ in_limits vl al e (bsx (zb z'')) /\ in_limits vl al e (bsy (zb z''))
       /\ forall d, 0 <= d <= f -> in_limits vl al (jl * (T - f / 2) ^ 2 / 2) (carried jx d (bsx (zb z')))
            /\ in_limits vl al (jl * (T - f / 2) ^ 2 / 2) (carried jy d (bsy (zb z'))).
Proof.
  induction cs as [|c cs IH]; intros f z hb cl z' Rz Rn H b vl al jl T e Hf Lx Ly.
  - cbn [zsteps] in H. injection H as <-. split; [exact Lx|]. split; [exact Ly|]. intros o fd z'' M An Hs jx jy. destruct (zsolve_first o f z hb cl fd z'' Rz M An Hs) as (S1 & S2 & S3 & S4 & S5 & S6 & S7 & S8).
    fold jx in S1, S3, S5, S6. fold jy in S2, S4, S7, S8. split; [exact S1|]. split; [exact S2|]. split; [exact S3|]. split; [exact S4|]. rewrite S3, S4.
    split; [apply axis_end; assumption|]. split; [apply axis_end; assumption|]. intros d Hd. split; apply axis_along; assumption.
  - cbn [zsteps] in H. apply bind_ok in H. destruct H as (z1 & H1 & H). cbn [zrunning] in Rn. destruct Rn as (Rc & Rn).
    destruct (zrunning_frame f c z hb cl z1 Rz Rc H1) as (E1 & E2 & E3 & E4 & E5). pose proof (zreach_step _ _ _ _ _ Rz H1) as R1.
    specialize (IH f z1 _ _ z' R1 (Rn z1 H1) H). cbv zeta in IH. unfold period in IH. rewrite E1, E2, E3, E4 in IH. fold (period z) in IH.
    destruct E5 as [(Ex & Ey)|(o & fd & -> & Hs)]; [rewrite Ex, Ey in IH; apply IH; assumption|]. cbn [zrunning_call] in Rc. destruct Rc as (_ & M & An).
    destruct (zsolve_first o f z hb cl fd z1 Rz M An Hs) as (S1 & S2 & S3 & S4 & S5 & S6 & S7 & S8).
    apply IH; [exact Hf|rewrite S3|rewrite S4]; apply axis_end; assumption.
Qed.

(** ** Where the limits are not kept *)
(** A generator with one sample of one second, constrained, in a given state and with given limits *)
Record one_sample (t : traj R) (x : st3 R) (vl al jl r X0 : R) : Prop := {
  one_reach : reachable t; one_N : nN (tmod t) = 1%nat; one_T : nT (tmod t) = 1; one_state : nstate (tmod t) = x; one_mc : tmc t = true;
  one_vl : nvelLim (tmod t) = vl; one_al : naccLim (tmod t) = al; one_jl : njerkLim (tmod t) = jl; one_w : tw t = MkTW 1 0 0;
  one_lv : vlen (tvelRef t) = 1%nat; one_lp : vlen (tposRef t) = 1%nat; one_r : vget (tvelRef t) 0 = r; one_X : vget (tX t) 0 = X0 }.
Lemma set_up x vl al jl r : 0 <= vl -> 0 <= al -> 0 <= jl -> exists t, one_sample t x vl al jl r 0.
Proof.
  intros Hvl Hal Hjl. destruct newTraj_ok as (t0 & H0 & EN & ET & ES & EV & EA & EJ & LP & LV & EP & EX).
  assert (R0 : reachable t0) by (exists t0, []; split; [assumption|reflexivity]).
  destruct (C23_calls_return t0 R0) as (_ & _ & G & _). destruct (G (vfill 1 r)) as (t1 & H1); [symmetry; assumption|].
  assert (R1 := reachable_step (TSetVelRef (vfill 1 r)) _ _ R0 H1). unfold t_setVelRef in H1. apply guard_ok in H1. destruct H1 as (_ & H1). injection H1 as <-.
  match type of R1 with reachable ?t => destruct (C23_calls_return t R1) as (_ & _ & _ & _ & G2 & _) end. destruct (G2 vl Hvl) as ((t2 & H2) & _).
  assert (R2 := reachable_step (TSetVelLimit vl) _ _ R1 H2). unfold t_setVelLimit, nodyn_setVelocityLimit in H2. apply bind_ok in H2. destruct H2 as (m2 & M2 & H2). apply guard_ok in M2. destruct M2 as (_ & M2). injection M2 as <-. injection H2 as <-.
  match type of R2 with reachable ?t => destruct (C23_calls_return t R2) as (_ & _ & _ & _ & G3 & _) end. destruct (G3 al Hal) as (_ & (t3 & H3) & _).
  assert (R3 := reachable_step (TSetAccLimit al) _ _ R2 H3). unfold t_setAccLimit, nodyn_setAccelerationLimit in H3. apply bind_ok in H3. destruct H3 as (m3 & M3 & H3). apply guard_ok in M3. destruct M3 as (_ & M3). injection M3 as <-. injection H3 as <-.
  match type of R3 with reachable ?t => destruct (C23_calls_return t R3) as (_ & _ & _ & _ & G4 & _) end. destruct (G4 jl Hjl) as (_ & _ & (t4 & H4)).
  assert (R4 := reachable_step (TSetJerkLimit jl) _ _ R3 H4). unfold t_setJerkLimit, nodyn_setJerkLimit in H4. apply bind_ok in H4. destruct H4 as (m4 & M4 & H4). apply guard_ok in M4. destruct M4 as (_ & M4). injection M4 as <-. injection H4 as <-.
  match type of R4 with reachable ?t => destruct (C23_calls_return t R4) as (_ & _ & _ & _ & _ & G5 & _) end. destruct (G5 (vec_of_st3 x)) as (t5 & H5); [reflexivity|].
  assert (R5 := reachable_step (TSetState (vec_of_st3 x)) _ _ R4 H5). unfold t_setState, nodyn_setState, st3_of_vec in H5. apply bind_ok in H5. destruct H5 as (m5 & M5 & H5). injection M5 as <-. injection H5 as <-.
  match type of R5 with reachable ?t => destruct (C23_calls_return t R5) as (_ & _ & _ & _ & _ & _ & G6 & _) end. destruct (G6 (MkTW 1 0 0)) as (t6 & H6); [cbn; lra..|].
  assert (R6 := reachable_step (TSetWeightings (MkTW 1 0 0)) _ _ R5 H6). unfold t_setWeightings, t_computeConstantPart in H6. repeat (apply guard_ok in H6; destruct H6 as (_ & H6)). injection H6 as <-.
  match type of R6 with reachable ?t => destruct (C23_calls_return t R6) as (_ & _ & _ & _ & _ & _ & _ & G7) end. destruct (G7 true) as (t7 & H7).
  assert (R7 := reachable_step (TSetConfig true) _ _ R6 H7). unfold t_setConfig, t_computeConstantPart in H7. repeat (apply guard_ok in H7; destruct H7 as (_ & H7)). injection H7 as <-.
  eexists. constructor; [exact R7|..]; cbn; try reflexivity; try assumption; [destruct x; reflexivity|apply EX].
Qed.
Lemma one_solve_ok t x vl al jl r X0 o f : one_sample t x vl al jl r X0 -> 0 < f -> exists b t', t_solve o f t = Ok (b, t').
Proof.
  intros K Hf. destruct (proj2 (C23_solve_returns_iff t o f (one_reach _ _ _ _ _ _ _ K))) as ((b & t') & H); [|eauto].
  rewrite (one_N _ _ _ _ _ _ _ K). split; [exact Hf|]. split; [exact (one_lv _ _ _ _ _ _ _ K)|exact (one_lp _ _ _ _ _ _ _ K)].
Qed.
Lemma one_adm t x vl al jl r X0 Y : one_sample t x vl al jl r X0 ->
  tadm t Y <-> Rabs (vel (carried (Y 0%nat) 1 x)) <= vl /\ Rabs (acc (carried (Y 0%nat) 1 x)) <= al /\ Rabs (Y 0%nat) <= jl.
Proof.
  intros K. unfold tadm, traj_admissible. rewrite (one_N _ _ _ _ _ _ _ K), (one_T _ _ _ _ _ _ _ K), (one_state _ _ _ _ _ _ _ K), (one_vl _ _ _ _ _ _ _ K), (one_al _ _ _ _ _ _ _ K), (one_jl _ _ _ _ _ _ _ K). split.
  - intros H. specialize (H 0%nat ltac:(lia)). cbn [sim] in H. rewrite raw_carried in H. exact H.
  - intros H i Hi. replace i with 0%nat by lia. cbn [sim]. rewrite raw_carried. exact H.
Qed.
Lemma one_answers t x vl al jl r X0 o : one_sample t x vl al jl r X0 ->
  (forall q it, t_problem t = Ok q -> let Y := X0 + fst (o q it) 0%nat in Rabs (vel (carried Y 1 x)) <= vl /\ Rabs (acc (carried Y 1 x)) <= al /\ Rabs Y <= jl) -> answers o (t_problem t).
Proof.
  intros K H q it Hq. apply (problem_feasible t q (reachable_tinv _ (one_reach _ _ _ _ _ _ _ K)) Hq). rewrite (one_mc _ _ _ _ _ _ _ K). apply (one_adm _ _ _ _ _ _ _ _ K).
  unfold shift. rewrite (one_X _ _ _ _ _ _ _ K). exact (H q it Hq).
Qed.
Lemma one_next t x vl al jl r X0 o f b t' : one_sample t x vl al jl r X0 -> t_solve o f t = Ok (b, t') ->
  exists q, t_problem t = Ok q /\ let Y := X0 + fst (o q 10000%Z) 0%nat in one_sample t' (carried Y f x) vl al jl r Y.
Proof.
  intros K H. pose proof (one_reach _ _ _ _ _ _ _ K) as Rt. destruct (solve_X o f t b t' (reachable_tinv _ Rt) H) as (q & Hq & HX & _ & HS). exists q. split; [exact Hq|].
  specialize (HX 0%nat). rewrite (one_N _ _ _ _ _ _ _ K) in HX. specialize (HX ltac:(lia)). unfold shift in HX. rewrite (one_X _ _ _ _ _ _ _ K) in HX. cbv zeta. rewrite <- HX.
  rewrite raw_carried, (one_state _ _ _ _ _ _ _ K) in HS.
  assert (R' : reachable t') by (apply (reachable_step (TSolve o f) t); [exact Rt|cbn [tstep]; rewrite H; reflexivity]).
  apply solve_inv in H. destruct H as (q' & s & dX & _ & _ & _ & _ & E). rewrite E in HS, R' |- *. cbn in HS |- *. destruct K. constructor; cbn; auto.
Qed.
(** With a feedback period shorter than the sampling period the velocity limit is not kept, although the state
    is within the limits, the constraints are on and the solver respects them. *)
Theorem C69_velocity_limit_refuted : exists t o f b t', reachable t /\ tmc t = true /\ answers o (t_problem t) /\ 0 < f <= nT (tmod t)
  /\ in_limits (nvelLim (tmod t)) (naccLim (tmod t)) 0 (t_getState t) /\ t_solve o f t = Ok (b, t') /\ nvelLim (tmod t') = nvelLim (tmod t) /\ nvelLim (tmod t) < vel (t_getState t').
Proof.
  destruct (set_up (St3 0 1 (1/2)) 1 1 1 0) as (t & K); [lra..|]. set (o := fun (_ : qpmats R) (_ : Z) => (fun _ : nat => -1, true)).
  destruct (one_solve_ok _ _ _ _ _ _ _ o (1/2) K ltac:(lra)) as (b & t' & H). destruct (one_next _ _ _ _ _ _ _ _ _ _ _ K H) as (q & _ & K'). cbn [o fst] in K'. cbv zeta in K'.
  exists t, o, (1/2), b, t'. unfold t_getState. rewrite (one_T _ _ _ _ _ _ _ K), (one_state _ _ _ _ _ _ _ K), (one_vl _ _ _ _ _ _ _ K), (one_al _ _ _ _ _ _ _ K), (one_state _ _ _ _ _ _ _ K'), (one_vl _ _ _ _ _ _ _ K').
  split; [apply K|]. split; [apply K|]. split; [apply (one_answers _ _ _ _ _ _ _ _ K); intros; unfold Y, o, carried; cbn [fst vel acc]; repeat split; apply Rabs_le; lra|].
  split; [lra|]. split; [split; cbn [vel acc]; apply Rabs_le; lra|]. split; [exact H|]. split; [reflexivity|]. unfold carried. cbn [vel acc]. lra.
Qed.
(** With a feedback period longer than the sampling period, which solve accepts, no limit is kept. *)
Theorem C69_long_feedback_refuted : exists t o f b t', reachable t /\ tmc t = true /\ answers o (t_problem t) /\ t_getState t = St3 0 0 0 /\ t_solve o f t = Ok (b, t')
  /\ nvelLim (tmod t') < vel (t_getState t') /\ naccLim (tmod t') < acc (t_getState t').
Proof.
  destruct (set_up (St3 0 0 0) 1 1 1 0) as (t & K); [lra..|]. set (o := fun (_ : qpmats R) (_ : Z) => (fun _ : nat => 1, true)).
  destruct (one_solve_ok _ _ _ _ _ _ _ o 3 K ltac:(lra)) as (b & t' & H). destruct (one_next _ _ _ _ _ _ _ _ _ _ _ K H) as (q & _ & K'). cbn [o fst] in K'. cbv zeta in K'.
  exists t, o, 3, b, t'. unfold t_getState. rewrite (one_state _ _ _ _ _ _ _ K), (one_state _ _ _ _ _ _ _ K'), (one_vl _ _ _ _ _ _ _ K'), (one_al _ _ _ _ _ _ _ K').
  split; [apply K|]. split; [apply K|]. split; [apply (one_answers _ _ _ _ _ _ _ _ K); intros; unfold Y, o, carried; cbn [fst vel acc]; repeat split; apply Rabs_le; lra|].
  split; [reflexivity|]. split; [exact H|]. unfold carried. cbn [vel acc]. lra.
Qed.
(** Nor is a run that always has an admissible motion: with an exact solver, from rest, the generator drives itself in
    two calls to a state that no motion within the limits leaves. *)
Definition largest : oracle R := fun q _ => (vget (qxu q), true).
Lemma one_largest t x vl al jl r X0 q : one_sample t x vl al jl r X0 -> t_problem t = Ok q -> vget (qxu q) 0 = jl - X0.
Proof.
  intros K H. unfold t_problem in H. repeat (apply bind_ok in H; destruct H as (? & _ & H)). rewrite (one_mc _ _ _ _ _ _ _ K) in H.
  repeat (apply bind_ok in H; destruct H as (? & ? & H)). injection H as <-. cbn [qxu].
  match goal with E : vsubE (vfill _ (njerkLim (tmod t))) _ = Ok ?x |- vget ?x 0 = _ => unfold vsubE in E; apply guard_ok in E; destruct E as (_ & E); injection E as <- end.
  cbn [vsub vget vfill]. rewrite (one_jl _ _ _ _ _ _ _ K), (one_X _ _ _ _ _ _ _ K). reflexivity.
Qed.
Lemma one_exact t x jl X0 : one_sample t x 1 1 jl 10 X0 -> 0 <= jl -> 0 <= vel x -> 0 <= acc x -> vel x + acc x + jl / 2 <= 1 -> acc x + jl <= 1 -> exact_solver largest t.
Proof.
  intros K Hj Hv Ha V A q it Hq _. pose proof (reachable_tinv _ (one_reach _ _ _ _ _ _ _ K)) as I. pose proof (one_largest _ _ _ _ _ _ _ _ K Hq) as EL. split.
  - apply (problem_feasible t q I Hq). rewrite (one_mc _ _ _ _ _ _ _ K). apply (one_adm _ _ _ _ _ _ _ _ K). unfold shift, largest. cbn [fst]. rewrite (one_X _ _ _ _ _ _ _ K), EL.
    replace (X0 + (jl - X0)) with jl by ring. unfold carried. cbn [vel acc]. repeat split; apply Rabs_le; lra.
  - intros y Hy. apply (problem_feasible t q I Hq) in Hy. rewrite (one_mc _ _ _ _ _ _ _ K) in Hy. apply (one_adm _ _ _ _ _ _ _ _ K) in Hy. destruct Hy as (Y1 & Y2 & Y3).
    rewrite !(problem_cost t q I Hq). unfold tcost, traj_cost. rewrite (one_N _ _ _ _ _ _ _ K), (one_T _ _ _ _ _ _ _ K), (one_state _ _ _ _ _ _ _ K), (one_w _ _ _ _ _ _ _ K). cbn [wVel wPos wJerk ssum sim]. rewrite !raw_carried, (one_r _ _ _ _ _ _ _ K).
    assert (ES : shift t (fst (largest q it)) 0%nat = jl) by (unfold shift, largest; cbn [fst]; rewrite (one_X _ _ _ _ _ _ _ K), EL; ring). rewrite ES.
    rsimpl. rewrite !(Rmax_right 0 1), !(Rmax_left 0 0) by lra. set (Y := shift t y 0%nat) in *. unfold carried in *. cbn [vel acc pos] in *. apply Rabs_le_inv in Y1, Y3.
    set (a := vel x + acc x * 1 + jl * 1 ^ 2 / 2) in *. set (c := vel x + acc x * 1 + Y * 1 ^ 2 / 2) in *. assert (c <= a) by (unfold a, c; lra). assert (a <= 1) by (unfold a; lra).
    assert ((a - 10) ^ 2 <= (c - 10) ^ 2) by nra. lra.
Qed.
Theorem C69_always_admissible_refuted : exists t0 o f b0 t1 b1 t2, reachable t0 /\ tmc t0 = true /\ t_getState t0 = St3 0 0 0 /\ f = nT (tmod t0)
  /\ exact_solver o t0 /\ (exists Y, tadm t0 Y) /\ t_solve o f t0 = Ok (b0, t1) /\ exact_solver o t1 /\ (exists Y, tadm t1 Y) /\ t_solve o f t1 = Ok (b1, t2) /\ ~ exists Y, tadm t2 Y.
Proof.
  destruct (set_up (St3 0 0 0) 1 1 (1/2) 10) as (t0 & K0); [lra..|].
  destruct (one_solve_ok _ _ _ _ _ _ _ largest 1 K0 ltac:(lra)) as (b0 & t1 & H0). destruct (one_next _ _ _ _ _ _ _ _ _ _ _ K0 H0) as (q0 & Q0 & K1). unfold largest in K1. cbn [fst] in K1. cbv zeta in K1. rewrite (one_largest _ _ _ _ _ _ _ _ K0 Q0) in K1.
  replace (0 + (1/2 - 0)) with (1/2) in K1 by ring.
  destruct (one_solve_ok _ _ _ _ _ _ _ largest 1 K1 ltac:(lra)) as (b1 & t2 & H1). destruct (one_next _ _ _ _ _ _ _ _ _ _ _ K1 H1) as (q1 & Q1 & K2). unfold largest in K2. cbn [fst] in K2. cbv zeta in K2. rewrite (one_largest _ _ _ _ _ _ _ _ K1 Q1) in K2.
  exists t0, largest, 1, b0, t1, b1, t2. unfold t_getState. rewrite (one_T _ _ _ _ _ _ _ K0), (one_state _ _ _ _ _ _ _ K0).
  split; [apply K0|]. split; [apply K0|]. split; [reflexivity|]. split; [reflexivity|]. split; [apply (one_exact _ _ _ _ K0); cbn [vel acc]; lra|].
  split; [exists (fun _ => 1/2); apply (one_adm _ _ _ _ _ _ _ _ K0); unfold carried; cbn [vel acc]; repeat split; apply Rabs_le; lra|]. split; [exact H0|].
  split; [apply (one_exact _ _ _ _ K1); unfold carried; cbn [vel acc]; lra|].
  split; [exists (fun _ => 1/2); apply (one_adm _ _ _ _ _ _ _ _ K1); unfold carried; cbn [vel acc]; repeat split; apply Rabs_le; lra|]. split; [exact H1|].
  intros (Y & HY). apply (one_adm _ _ _ _ _ _ _ _ K2) in HY. unfold carried in HY. cbn [vel acc] in HY. destruct HY as (V & _ & J). apply Rabs_le_inv in V, J. lra.
Qed.

(** ** Concrete cases *)
Example C69_case : exists t t' o, reachable t /\ 0 < 1/2 <= nT (tmod t) /\ in_limits (nvelLim (tmod t)) (naccLim (tmod t)) (njerkLim (tmod t) * nT (tmod t) * (nT (tmod t) - 1/2) / 2) (t_getState t)
  /\ running (1/2) [TSetVelRef (vfill 1 3); TSolve o (1/2); TSolve o (1/2)] t /\ tsteps [TSetVelRef (vfill 1 3); TSolve o (1/2); TSolve o (1/2)] t = Ok t' /\ vel (t_getState t') = 1/2.
Proof.
  destruct (set_up (St3 0 0 0) 2 2 1 0) as (t & K); [lra..|].
  assert (H1 : exists t1, t_setVelRef (vfill 1 3) t = Ok t1 /\ one_sample t1 (St3 0 0 0) 2 2 1 3 0).
  { destruct (proj1 (proj2 (proj2 (C23_calls_return t (one_reach _ _ _ _ _ _ _ K)))) (vfill 1 3)) as (t1 & H1); [cbn [vlen vfill]; symmetry; apply K|]. exists t1. split; [exact H1|].
    pose proof (reachable_step (TSetVelRef (vfill 1 3)) _ _ (one_reach _ _ _ _ _ _ _ K) H1) as R1. unfold t_setVelRef in H1. apply guard_ok in H1. destruct H1 as (_ & H1). injection H1 as <-. destruct K. constructor; cbn; auto. }
  destruct H1 as (t1 & H1 & K1). set (o := largest).
  destruct (one_solve_ok _ _ _ _ _ _ _ o (1/2) K1 ltac:(lra)) as (b1 & t2 & H2). destruct (one_next _ _ _ _ _ _ _ _ _ _ _ K1 H2) as (q1 & Q1 & K2). unfold o, largest in K2. cbn [fst] in K2. cbv zeta in K2. rewrite (one_largest _ _ _ _ _ _ _ _ K1 Q1) in K2. replace (0 + (1 - 0)) with 1 in K2 by ring.
  destruct (one_solve_ok _ _ _ _ _ _ _ o (1/2) K2 ltac:(lra)) as (b2 & t3 & H3). destruct (one_next _ _ _ _ _ _ _ _ _ _ _ K2 H3) as (q2 & Q2 & K3). unfold o, largest in K3. cbn [fst] in K3. cbv zeta in K3. rewrite (one_largest _ _ _ _ _ _ _ _ K2 Q2) in K3.
  exists t, t3, o. unfold t_getState. rewrite (one_T _ _ _ _ _ _ _ K), (one_state _ _ _ _ _ _ _ K), (one_vl _ _ _ _ _ _ _ K), (one_al _ _ _ _ _ _ _ K), (one_jl _ _ _ _ _ _ _ K).
  split; [apply K|]. split; [lra|]. split; [split; cbn [vel acc]; apply Rabs_le; lra|].
  split; [|split; [cbn [tsteps tstep]; rewrite H1; cbn [bind]; rewrite H2; cbn [bind snd]; rewrite H3; reflexivity|rewrite (one_state _ _ _ _ _ _ _ K3); unfold carried; cbn [vel acc]; lra]].
  cbn [running running_call]. split; [exact I|]. intros u1 Hu1. cbn [tstep] in Hu1. rewrite H1 in Hu1. injection Hu1 as <-. split.
  - split; [reflexivity|]. split; [apply K1|]. apply (one_answers _ _ _ _ _ _ _ _ K1). intros q it Hq. unfold o, largest, carried. cbn [fst vel acc]. rewrite (one_largest _ _ _ _ _ _ _ _ K1 Hq). repeat split; apply Rabs_le; lra.
  - intros u2 Hu2. cbn [tstep] in Hu2. rewrite H2 in Hu2. injection Hu2 as <-. split; [|auto]. split; [reflexivity|]. split; [apply K2|]. apply (one_answers _ _ _ _ _ _ _ _ K2). intros q it Hq. unfold o, largest, carried. cbn [fst vel acc]. rewrite (one_largest _ _ _ _ _ _ _ _ K2 Hq). repeat split; apply Rabs_le; lra.
Qed.
Example C69_base_case : exists z z' o, zreach z (1/2) false /\ 0 < 1/2 <= period z
  /\ in_limits (bvelLim (zb z)) (baccLim (zb z)) (bjerkLim (zb z) * period z * (period z - 1/2) / 2) (bsx (zb z))
  /\ in_limits (bvelLim (zb z)) (baccLim (zb z)) (bjerkLim (zb z) * period z * (period z - 1/2) / 2) (bsy (zb z))
  /\ zrunning (1/2) [ZSolve o (1/2)] z /\ zsteps [ZSolve o (1/2)] z = Ok z' /\ vel (bsx (zb z')) = 1/16.
Proof.
  destruct (demo_state (MkZC false false true false)) as (z & Rz & V).
  assert (EN : lN (zl z) = 2%nat) by from V (fun v => oN (vl v)). assert (ET : lT (zl z) = 1) by from V (fun v => oT (vl v)).
  assert (Bx : bsx (zb z) = St3 0 0 0) by from V (fun v => psx (vb v)). assert (By : bsy (zb z) = St3 0 0 0) by from V (fun v => psy (vb v)).
  assert (R1 : rvel (zr z) = vfill 4 (1/5)) by from V vvel. assert (R2 : rpos (zr z) = vfill 4 (1/10)) by from V vpos.
  assert (R3 : rcop (zr z) = vfill 4 0) by from V vcop. assert (EX : zX z = vzero 8) by from V vX.
  assert (Ec : zc z = MkZC false false true false) by from V vc.
  assert (L1 : bvelLim (zb z) = 1) by from V (fun v => plv (vb v)). assert (L2 : baccLim (zb z) = 1) by from V (fun v => pla (vb v)).
  assert (L3 : bjerkLim (zb z) = 1) by from V (fun v => plj (vb v)).
  set (y := fun k : nat => match k with 4%nat => 1/2 | 5%nat => - (1/2) | _ => 0 end). set (o := fun (_ : qpmats R) (_ : Z) => (y, true)).
  assert (EY : (fun k => vget (zX z) k + y k) = y) by (apply FunctionalExtensionality.functional_extensionality; intros k; rewrite EX; cbn [vget vzero]; rsimpl; ring).
  assert (An : answers o (z_problem z)).
  { intros q it Hq. apply (C42_base_limits z _ _ q Rz Hq Ec). cbn [o fst]. rewrite EY. unfold horizon. rewrite EN. split.
    - intros i Hi. unfold horizon in Hi. rewrite EN in Hi. unfold baseX, baseY, jBaseX, jBaseY, horizon, period. rewrite Bx, By, EN, ET, L1, L2, L3. destruct i as [|[|i]]; [| |lia];
        cbn [sim Nat.mul Nat.add y]; rewrite !raw_carried; unfold carried; cbn [pos vel acc]; repeat split; apply Rabs_le; lra.
    - intros k Hk. assert (k = 0 \/ k = 1 \/ k = 2 \/ k = 3)%nat as [->|[->|[->| ->]]] by lia; cbn [y]; rewrite Rabs_R0; lra. }
  assert (K : is_ok (z_solve o (1/2) z)) by (apply (C57_solve_returns_iff z _ _ o (1/2) Rz); unfold horizon; rewrite EN, R1, R2, R3; split; [lra|repeat split]).
  destruct K as ((b, z') & K). exists z, z', o. unfold period. rewrite ET, Bx, By, L1, L2, L3. split; [exact Rz|]. split; [lra|].
  split; [split; cbn [vel acc]; apply Rabs_le; lra|]. split; [split; cbn [vel acc]; apply Rabs_le; lra|].
  split; [cbn [zrunning zrunning_call]; rewrite Ec; auto|]. split; [cbn [zsteps zstep]; rewrite K; reflexivity|].
  assert (M : zcBase (zc z) = true) by (rewrite Ec; reflexivity).
  destruct (zsolve_first o (1/2) z _ _ b z' Rz M An K) as (_ & _ & S3 & _). rewrite S3, Bx.
  apply z_solve_inv in K. destruct K as (q & s & dX & Hq & Hf & Hs & HL & E). pose proof (reach_zinv _ _ _ Rz) as I.
  pose proof (z_problem_shape _ _ (proj2 I) Hq) as (P1 & P2 & P3 & _). apply solver_solve_inv in Hs; [|rewrite P1, P2; exact (qi_mem _ (proj2 I))]. destruct Hs as (_ & _ & _ & Hx).
  rewrite E. unfold horizon. cbn [zX vadd vget]. rewrite EN, Hx by (rewrite (qi_nv _ (proj2 I)), EN; lia). rewrite EX. cbn [vzero vget o fst y Nat.mul Nat.add]. rsimpl. unfold carried. cbn [vel acc]. lra.
Qed.
Print Assumptions C69_limits_along_a_run.
Print Assumptions C69_base_limits_along_a_run.
Print Assumptions C69_velocity_limit_refuted.
Print Assumptions C69_long_feedback_refuted.
Print Assumptions C69_always_admissible_refuted.
