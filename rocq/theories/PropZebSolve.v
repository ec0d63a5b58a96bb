(** What one call of solve does on a Zebulon generator: C58, and the parts of C16, C17 and C19 about it. *)

From Coq Require Import Reals List ZArith Lra Lia Arith Bool.
From Verif Require Import Scalar LinAlg LinAlgFacts ToolsModel ToolsSpec ToolsFacts NoDynModel PolygonModel HullFacts
  QPModel QPFacts QPExist TrajModel TrajFacts LipModel BaseModel ModelsSpec ModelsFacts ZebModel HumAlg ZebAlg ZebSpec ZebFacts
  ZebObj ZebTilt ZebProb ZebCon ZebLive ZebCalls ZebInv ZebView ZebDemo PropZeb PropZebCases PropZebCalls.
Import ListNotations.
Local Open Scope R_scope.

(** ** C16, C17, C19 *)
Theorem C16_zebulon_factors : forall z hb cleared, zreach z hb cleared -> 1 <= zfo z /\ 1 <= zfc z.
Proof.
  intros z hb cl R. apply reach_zinv in R. destruct (qi_Q _ (proj2 R)) as (Q & _ & _ & E). rewrite E, (qi_fc _ (proj2 R)).
  split; apply getNormalizationFactor_pos; unfold EPS; rsimpl; lra.
Qed.
(** The same generator with a solver object that has never been used. *)
Definition zcold (z : zeb R) : zeb R := z_setQP z (zqp z) (newSolver (snbVar (zsol z)) (snbCtr (zsol z))) (zfo z) (zfc z).
Theorem C19_zebulon_warm_start : forall z hb cleared o f, zreach z hb cleared -> z_solve o f z = z_solve o f (zcold z).
Proof.
  intros z hb cl o f R. apply reach_zinv in R. unfold z_solve. change (z_problem (zcold z)) with (z_problem z).
  destruct (z_problem z) as [q| | | |] eqn:Hq; [|reflexivity..]. cbn [bind].
  destruct (guard _); [|reflexivity..]. cbn [bind].
  pose proof (z_problem_shape _ _ (proj2 R) Hq) as (P1 & P2 & _). pose proof (qi_mem _ (proj2 R)) as M. rewrite <- P1, <- P2 in M.
  unfold solver_solve. cbn [zcold z_setQP zsol snbVar snbCtr newSolver smem zdX].
  destruct (dimensionsAreConsistent q _ _); [|reflexivity]. cbn [guard bind]. rewrite !effective_same; [|left; reflexivity|assumption].
  destruct (o q _) as [x ok]. destruct (ubguard _); [|reflexivity..]. cbn [bind andb].
  assert (E : (if (match smem (zsol z) with Some _ => true | None => false end && true)%bool then zsol z
               else MkSolver (snbVar (zsol z)) (snbCtr (zsol z)) (Some (qQ q, qA q)))
            = MkSolver (snbVar (zsol z)) (snbCtr (zsol z)) (Some (qQ q, qA q))).
  { destruct M as [M|M]; rewrite M; cbn [andb]; [reflexivity|]. destruct (zsol z); cbn in *. rewrite M. reflexivity. }
  rewrite E. reflexivity.
Qed.

(** ** C58: an exact solver gives an optimal motion *)
(** The jerks Y are admissible, within the numerical infinity of the current ones. *)
Definition zadm (z : zeb R) (Y : nat -> R) : Prop := zadmissible z Y /\ zmoderate z (fun k => Y k - vget (zX z) k).
Definition zcost (z : zeb R) (hb : R) (cleared : bool) : (nat -> R) -> R :=
  zeb_cost z hb (if cleared then 0 else gshift z (gx (lg (zl z)))) (if cleared then 0 else gshift z (gy (lg (zl z)))).
Definition zoptimal (z : zeb R) (hb : R) (cleared : bool) (Y : nat -> R) : Prop :=
  zadm z Y /\ forall W, zadm z W -> zcost z hb cleared Y <= zcost z hb cleared W.
Definition ztilt_moderate (z : zeb R) (hb : R) : Prop :=
  (0 < zwTilt (zw z) -> tilt_moderate (period z) (tilt_a1 z hb) (tilt_a6 z hb))
  /\ (0 < zwTiltVel (zw z) -> tiltvel_moderate (period z) (tilt_a1 z hb) (tilt_a6 z hb)).
Lemma shift_fun (X Y : nat -> R) : (fun k => X k + (Y k - X k)) = Y.
Proof. apply FunctionalExtensionality.functional_extensionality. intros k. ring. Qed.
Lemma unshift_fun (X d : nat -> R) : (fun k => X k + d k - X k) = d.
Proof. apply FunctionalExtensionality.functional_extensionality. intros k. ring. Qed.
(** C17.  The scaling of the problem does not change its solutions: the minimisers of the problem given
    to the solver are the changes that lead to the optimal motions. *)
Theorem C17_zebulon_minimisers : forall z hb cleared q, zreach z hb cleared -> ztilt_moderate z hb -> z_problem z = Ok q ->
  forall d, qminimiser q d <-> zoptimal z hb cleared (fun k => vget (zX z) k + d k).
Proof.
  intros z hb cl q R (HT & HV) Q d. destruct (C41_objective z hb cl q R Q HT HV) as (f & Hf & C). pose proof (C42_feasible_set z hb cl q R Q) as F.
  fold (zcost z hb cl) in C. cbv zeta in C. unfold zoptimal, zadm, qminimiser. rewrite unshift_fun, F. split; intros (H1 & H2); (split; [exact H1|]).
  - intros W HW. specialize (H2 (fun k => W k - vget (zX z) k)). rewrite !C, F, shift_fun in H2. specialize (H2 HW).
    apply Rmult_le_reg_l in H2; lra.
  - intros y Hy. rewrite !C. apply Rmult_le_compat_l; [lra|]. apply F in Hy. specialize (H2 (fun k => vget (zX z) k + y k)). cbv beta in H2. rewrite unshift_fun in H2. specialize (H2 Hy). lra.
Qed.
(** The solver finds a minimiser of the problem that [z] poses if there is one. *)
Definition exact_zsolver (o : oracle R) (z : zeb R) : Prop :=
  forall q it, z_problem z = Ok q -> (exists y, qminimiser q y) -> qminimiser q (fst (o q it)).
(** If some admissible motion exists, solve returns an optimal one. *)
Theorem C58_optimal : forall z hb cleared o f b z',
  zreach z hb cleared -> ztilt_moderate z hb -> exact_zsolver o z -> z_solve o f z = Ok (b, z') ->
  (exists Y, zadm z Y) -> zoptimal z hb cleared (vget (zX z')).
Proof.
  intros z hb cl o f b z' R T E H (Y & HY). pose proof (reach_zinv _ _ _ R) as I. apply z_solve_inv in H. destruct H as (q & s & dX & Hq & Hf & Hs & HL & ->).
  cbn [zX]. change (vget (vadd (zX z) dX)) with (fun k => vget (zX z) k + vget dX k). apply (C17_zebulon_minimisers z hb cl q R T Hq).
  pose proof (z_problem_shape _ _ (proj2 I) Hq) as (P1 & P2 & P3 & _). apply solver_solve_inv in Hs; [|rewrite P1, P2; exact (qi_mem _ (proj2 I))].
  destruct Hs as (_ & _ & _ & Hx). apply (qminimiser_ext q (fst (o q 10000%Z))).
  - intros i Hi. rewrite Hx; [reflexivity|]. rewrite (qi_nv _ (proj2 I)). rewrite P3 in Hi. exact Hi.
  - apply (E q 10000%Z Hq). apply qp_has_minimiser. exists (fun k => Y k - vget (zX z) k). apply (C42_feasible_set z hb cl q R Hq). rewrite shift_fun. exact HY.
Qed.
(** The four states advance by the feedback period under the first jerks of the new plan, and nothing
    else that the user can see changes except the plan. *)
Theorem C58_states_advance : forall z hb cleared o f b z',
  zreach z hb cleared -> z_solve o f z = Ok (b, z') ->
  let N := horizon z in
  run [(vget (zX z') 0, f)] (lsx (zl z)) = Ok (lsx (zl z'))
  /\ run [(vget (zX z') N, f)] (lsy (zl z)) = Ok (lsy (zl z'))
  /\ run [(vget (zX z') (2 * N), f)] (bsx (zb z)) = Ok (bsx (zb z'))
  /\ run [(vget (zX z') (3 * N), f)] (bsy (zb z)) = Ok (bsy (zb z'))
  /\ bsroll (zb z') = bsroll (zb z) /\ bspitch (zb z') = bspitch (zb z) /\ bsyaw (zb z') = bsyaw (zb z)
  /\ zr z' = zr z /\ zw z' = zw z /\ zc z' = zc z.
Proof.
  intros z hb cl o f b z' R H N. apply z_solve_inv in H. destruct H as (q & s & dX & Hq & Hf & Hs & HL & ->).
  cbn [run]. rewrite !updateState_ok by assumption. cbn [bind]. unfold N, horizon. repeat split.
Qed.
(** Nobody reports that the solver failed. *)
Theorem C58_always_reports_success : forall z o f b z', z_solve o f z = Ok (b, z') -> b = true.
Proof.
  intros z o f b z' H. apply z_solve_inv in H. destruct H as (q & s & dX & Hq & Hf & Hs & _). unfold solver_solve in Hs.
  apply guard_ok in Hs. destruct Hs as (_ & Hs). destruct (o _ _) as [x ok]. apply ubguard_ok in Hs. destruct Hs as (_ & Hs).
  rewrite andb_false_r in Hs. injection Hs as _ _ <-. reflexivity.
Qed.

(** *** Uniqueness *)
(** [s0] is half-way between [s1] and [s2] *)
Definition mid3 (s0 s1 s2 : st3 R) : Prop := pos s0 = (pos s1 + pos s2) / 2 /\ vel s0 = (vel s1 + vel s2) / 2 /\ acc s0 = (acc s1 + acc s2) / 2.
Definition mid2 (s0 s1 s2 : st2 R) : Prop := ang s0 = (ang s1 + ang s2) / 2 /\ angv s0 = (angv s1 + angv s2) / 2.
Lemma mid3_raw j0 j1 j2 T s0 s1 s2 : j0 = (j1 + j2) / 2 -> mid3 s0 s1 s2 ->
  mid3 (updateState_raw j0 T s0) (updateState_raw j1 T s1) (updateState_raw j2 T s2).
Proof. intros -> (P & V & A). unfold mid3, updateState_raw. cbn [pos vel acc]. rewrite P, V, A. rsimpl. repeat split; field. Qed.
Lemma mid3_sim S T x X0 X1 X2 i : (forall k, X0 k = (X1 k + X2 k) / 2) -> mid3 (sim S T x X0 i) (sim S T x X1 i) (sim S T x X2 i).
Proof.
  intros H. induction i as [|i IH]; cbn [sim].
  - apply mid3_raw; [apply H|]. unfold mid3. repeat split; field.
  - apply mid3_raw; [apply H|exact IH].
Qed.
Lemma mid2_tilt a1 a6 T x r0 r1 r2 i : (forall k, r0 k = (r1 k + r2 k) / 2) -> mid2 (tilt_run a1 a6 T x r0 i) (tilt_run a1 a6 T x r1 i) (tilt_run a1 a6 T x r2 i).
Proof.
  intros H. induction i as [|i IH]; cbn [tilt_run]; cbv zeta; unfold flow2, mid2, Rdiv; cbn [ang angv]; generalize (/ (a1 * (T ^ 2 * / 2) - a6)); intros D.
  - rewrite (H 0%nat). split; field.
  - destruct IH as (A & V). rewrite (H (S i)), A, V. unfold Rdiv. split; field.
Qed.
Section Mid.
  Variables (z : zeb R) (X0 X1 X2 : nat -> R).
  Hypothesis H : forall k, X0 k = (X1 k + X2 k) / 2.
  Lemma mid_comX i : mid3 (comX z X0 i) (comX z X1 i) (comX z X2 i).
  Proof. apply mid3_sim. intros k. apply H. Qed.
  Lemma mid_comY i : mid3 (comY z X0 i) (comY z X1 i) (comY z X2 i).
  Proof. apply mid3_sim. intros k. apply H. Qed.
  Lemma mid_baseX i : mid3 (baseX z X0 i) (baseX z X1 i) (baseX z X2 i).
  Proof. apply mid3_sim. intros k. apply H. Qed.
  Lemma mid_baseY i : mid3 (baseY z X0 i) (baseY z X1 i) (baseY z X2 i).
  Proof. apply mid3_sim. intros k. apply H. Qed.
  Lemma mid_cop g0 c0 c1 c2 b0 b1 b2 : mid3 c0 c1 c2 -> mid3 b0 b1 b2 -> rel_cop z g0 c0 b0 = (rel_cop z g0 c1 b1 + rel_cop z g0 c2 b2) / 2.
  Proof. intros (P & V & A) (P' & V' & A'). unfold rel_cop, cop_of, Rdiv. cbv zeta. rewrite P, A, P', A'. unfold Rdiv.
    generalize (/ gz (lg (zl z))), (/ (lm (zl z) + bm (zb z))). intros ig iM. destruct Rlt_dec; field. Qed.
  Lemma mid_rhs hb d c0 c1 c2 b0 b1 b2 : mid3 c0 c1 c2 -> mid3 b0 b1 b2 -> tilt_rhs z hb d c0 b0 = (tilt_rhs z hb d c1 b1 + tilt_rhs z hb d c2 b2) / 2.
  Proof. intros (P & V & A) (P' & V' & A'). unfold tilt_rhs. rewrite P, A, P', A'. field. Qed.
  Lemma mid_roll hb i : mid2 (rollAt z hb X0 i) (rollAt z hb X1 i) (rollAt z hb X2 i).
  Proof. apply mid2_tilt. intros k. apply mid_rhs; [apply mid_comX|apply mid_baseX]. Qed.
  Lemma mid_pitch hb i : mid2 (pitchAt z hb X0 i) (pitchAt z hb X1 i) (pitchAt z hb X2 i).
  Proof. apply mid2_tilt. intros k. apply mid_rhs; [apply mid_comY|apply mid_baseY]. Qed.
  (** the square of an affine quantity *)
  Lemma mid_square n (f0 f1 f2 : nat -> R) : (forall i, f0 i = (f1 i + f2 i) / 2) ->
    ssum n (fun i => f0 i ^ 2) <= (ssum n (fun i => f1 i ^ 2) + ssum n (fun i => f2 i ^ 2)) / 2.
  Proof.
    intros E. replace ((ssum n (fun i => f1 i ^ 2) + ssum n (fun i => f2 i ^ 2)) / 2) with (ssum n (fun i => / 2 * (f1 i ^ 2 + f2 i ^ 2)))
      by (rewrite ssum_mul_l, ssum_plus; field).
    apply ssum_le. intros i Hi. rewrite E. pose proof (pow2_ge_0 (f1 i - f2 i)).
    replace (((f1 i + f2 i) / 2) ^ 2) with (/ 2 * (f1 i ^ 2 + f2 i ^ 2) - / 4 * (f1 i - f2 i) ^ 2) by field. lra.
  Qed.
  Lemma mid_term w n (F G : (nat -> R) -> nat -> R) : 0 <= w ->
    (forall i, F X0 i = (F X1 i + F X2 i) / 2) -> (forall i, G X0 i = (G X1 i + G X2 i) / 2) ->
    w * (ssum n (fun i => F X0 i ^ 2) + ssum n (fun i => G X0 i ^ 2))
    <= (w * (ssum n (fun i => F X1 i ^ 2) + ssum n (fun i => G X1 i ^ 2)) + w * (ssum n (fun i => F X2 i ^ 2) + ssum n (fun i => G X2 i ^ 2))) / 2.
  Proof. intros Hw A B. pose proof (mid_square n _ _ _ A). pose proof (mid_square n _ _ _ B).
    eapply Rle_trans; [apply Rmult_le_compat_l; [exact Hw|apply Rplus_le_compat; eassumption]|]. right. field. Qed.
  Lemma mid_jerk w n : w * ssum n (fun i => X0 i ^ 2)
    = (w * ssum n (fun i => X1 i ^ 2) + w * ssum n (fun i => X2 i ^ 2)) / 2 - w / 4 * ssum n (fun i => (X1 i - X2 i) ^ 2).
  Proof.
    assert (E : ssum n (fun i => X0 i ^ 2) = / 2 * ssum n (fun i => X1 i ^ 2) + / 2 * ssum n (fun i => X2 i ^ 2) - / 4 * ssum n (fun i => (X1 i - X2 i) ^ 2)).
    { rewrite <- !ssum_mul_l, <- ssum_plus, <- ssum_minus. apply ssum_ext. intros i Hi. rewrite H. field. }
    rewrite E. field.
  Qed.
  Lemma mid_cost hb sx sy :
    zeb_cost z hb sx sy X0 <= (zeb_cost z hb sx sy X1 + zeb_cost z hb sx sy X2) / 2
      - Rmax 0 (zwJerk (zw z)) / 8 * ssum (4 * horizon z) (fun i => (X1 i - X2 i) ^ 2).
  Proof.
    unfold zeb_cost. cbv zeta.
    set (N := horizon z). set (r := zr z). set (w := zw z).
    assert (M1 := mid_term (Rmax 0 (zwVel w)) N (fun X i => vel (baseX z X i) - vget (rvel r) i) (fun X i => vel (baseY z X i) - vget (rvel r) (N + i)%nat) (Rmax_l _ _)
      ltac:(intros i; cbv beta; rewrite (proj1 (proj2 (mid_baseX i))); field) ltac:(intros i; cbv beta; rewrite (proj1 (proj2 (mid_baseY i))); field)).
    assert (M2 := mid_term (Rmax 0 (zwPos w)) N (fun X i => pos (baseX z X i) - vget (rpos r) i) (fun X i => pos (baseY z X i) - vget (rpos r) (N + i)%nat) (Rmax_l _ _)
      ltac:(intros i; cbv beta; rewrite (proj1 (mid_baseX i)); field) ltac:(intros i; cbv beta; rewrite (proj1 (mid_baseY i)); field)).
    assert (M3 := mid_term (Rmax 0 (zwCop w)) N (fun X i => copX z X i - vget (rcop r) i) (fun X i => copY z X i - vget (rcop r) (N + i)%nat) (Rmax_l _ _)
      ltac:(intros i; cbv beta; unfold copX; rewrite (mid_cop _ _ _ _ _ _ _ (mid_comX i) (mid_baseX i)); field)
      ltac:(intros i; cbv beta; unfold copY; rewrite (mid_cop _ _ _ _ _ _ _ (mid_comY i) (mid_baseY i)); field)).
    assert (M4 := mid_term (Rmax 0 (zwCom w)) N (fun X i => relX z X i - (vget (rcom r) i + sx)) (fun X i => relY z X i - (vget (rcom r) (N + i)%nat + sy)) (Rmax_l _ _)
      ltac:(intros i; cbv beta; unfold relX; rewrite (proj1 (mid_comX i)), (proj1 (mid_baseX i)); field)
      ltac:(intros i; cbv beta; unfold relY; rewrite (proj1 (mid_comY i)), (proj1 (mid_baseY i)); field)).
    assert (M5 := mid_jerk (Rmax 0 (zwJerk w)) (4 * N)).
    assert (M6 := mid_term (Rmax 0 (zwTilt w)) N (fun X i => ang (rollAt z hb X i)) (fun X i => ang (pitchAt z hb X i)) (Rmax_l _ _)
      (fun i => proj1 (mid_roll hb i)) (fun i => proj1 (mid_pitch hb i))).
    assert (M7 := mid_term (Rmax 0 (zwTiltVel w)) N (fun X i => angv (rollAt z hb X i)) (fun X i => angv (pitchAt z hb X i)) (Rmax_l _ _)
      (fun i => proj2 (mid_roll hb i)) (fun i => proj2 (mid_pitch hb i))).
    cbv beta in *. lra.
  Qed.
End Mid.

Lemma feasible_mid q x y : qfeasible q x -> qfeasible q y -> qfeasible q (fun k => (x k + y k) / 2).
Proof.
  intros (B1 & C1) (B2 & C2). split; intros k Hk.
  - specialize (B1 k Hk). specialize (B2 k Hk). lra.
  - specialize (C1 k Hk). specialize (C2 k Hk). cbv zeta in *.
    replace (ssum (vlen (qp q)) (fun j => mget (qA q) k j * ((x j + y j) / 2))) with
      (/ 2 * (ssum (vlen (qp q)) (fun j => mget (qA q) k j * x j) + ssum (vlen (qp q)) (fun j => mget (qA q) k j * y j))); [lra|].
    rewrite <- ssum_plus, <- ssum_mul_l. apply ssum_ext. intros j Hj. field.
Qed.
(** With a positive jerk weight there is only one optimal motion. *)
Theorem C58_unique : forall z hb cleared q Y W, zreach z hb cleared -> z_problem z = Ok q -> 0 < zwJerk (zw z) ->
  zoptimal z hb cleared Y -> zoptimal z hb cleared W -> forall k, (k < 4 * horizon z)%nat -> Y k = W k.
Proof.
  intros z hb cl q Y W R Q HW (AY & OY) (AW & OW) k Hk. set (M := fun k => (Y k + W k) / 2).
  assert (AM : zadm z M).
  { pose proof (C42_feasible_set z hb cl q R Q) as F.
    assert (G : forall Y, zadm z Y <-> qfeasible q (fun k => Y k - vget (zX z) k)) by (intros V; rewrite F, shift_fun; reflexivity).
    apply G. apply G in AY, AW. pose proof (feasible_mid q _ _ AY AW) as E.
    replace (fun k => M k - vget (zX z) k) with (fun k => (Y k - vget (zX z) k + (W k - vget (zX z) k)) / 2); [exact E|].
    apply FunctionalExtensionality.functional_extensionality. intros i. unfold M. field. }
  pose proof (mid_cost z M Y W ltac:(reflexivity) hb (if cl then 0 else gshift z (gx (lg (zl z)))) (if cl then 0 else gshift z (gy (lg (zl z))))) as C.
  fold (zcost z hb cl) in C. rewrite Rmax_right in C by lra. specialize (OY _ AW) as O1. specialize (OW _ AY) as O2. specialize (OY _ AM) as O3.
  destruct (Req_dec (Y k) (W k)) as [|N]; [assumption|exfalso].
  assert (0 < ssum (4 * horizon z) (fun i => (Y i - W i) ^ 2)) by (apply (ssum_pos _ _ k); [intros; apply pow2_ge_0|exact Hk|nra]).
  unfold zcost in *. nra.
Qed.
(** So what solve does depends only on what the user can see: two generators that look the same, after
    whatever histories, produce the same plan and the same next states. *)
Theorem C58_independent_of_history : forall z u hb cleared o1 o2 f b1 b2 z' u',
  zreach z hb cleared -> zreach u hb cleared -> view_of z = view_of u -> ztilt_moderate z hb ->
  exact_zsolver o1 z -> exact_zsolver o2 u -> 0 < zwJerk (zw z) ->
  z_solve o1 f z = Ok (b1, z') -> z_solve o2 f u = Ok (b2, u') -> (exists Y, zadm z Y) ->
  (forall k, (k < 4 * horizon z)%nat -> vget (zX z') k = vget (zX u') k)
  /\ lsx (zl z') = lsx (zl u') /\ lsy (zl z') = lsy (zl u') /\ bsx (zb z') = bsx (zb u') /\ bsy (zb z') = bsy (zb u').
Proof.
  intros z u hb cl o1 o2 f b1 b2 z' u' Rz Ru V T E1 E2 HW Hz Hu (Y & HY). destruct (view_tilt z u hb V) as (V1 & V2 & V3 & V4 & V5).
  assert (VX : zX z = zX u) by exact (f_equal vX V).
  assert (VA : forall W, zadm z W <-> zadm u W) by (intros W; unfold zadm; rewrite VX; apply view_adm; exact V).
  assert (VC : forall W, zcost z hb cl W = zcost u hb cl W).
  { intros W. unfold zcost. rewrite <- V5, <- !(view_gshift z u _ V), (view_cost z u _ _ _ _ V). reflexivity. }
  assert (VO : forall W, zoptimal u hb cl W -> zoptimal z hb cl W).
  { intros W (A & B). split; [apply VA, A|]. intros W' HW'. rewrite !VC. apply B, VA, HW'. }
  assert (Tu : ztilt_moderate u hb) by (unfold ztilt_moderate; rewrite <- V1, <- V2, <- V3, <- V4; exact T).
  pose proof (C58_optimal _ _ _ _ _ _ _ Rz T E1 Hz (ex_intro _ Y HY)) as Oz.
  pose proof (VO _ (C58_optimal _ _ _ _ _ _ _ Ru Tu E2 Hu (ex_intro _ Y (proj1 (VA Y) HY)))) as Ou.
  pose proof (C58_states_advance _ _ _ _ _ _ _ Rz Hz) as (S1 & S2 & S3 & S4 & _). pose proof (C58_states_advance _ _ _ _ _ _ _ Ru Hu) as (U1 & U2 & U3 & U4 & _).
  assert (Q : exists q, z_problem z = Ok q) by (apply z_solve_inv in Hz; destruct Hz as (q & _ & _ & Hq & _); exists q; exact Hq). destruct Q as (q & Q).
  pose proof (C58_unique z hb cl q _ _ Rz Q HW Oz Ou) as EQ. split; [exact EQ|].
  assert (HN : (0 < horizon z)%nat) by exact (proj2 (z_period_pos _ _ _ Rz)).
  assert (EN : horizon z = horizon u) by (exact (f_equal (fun v => oN (vl v)) V)).
  assert (EL1 : lsx (zl z) = lsx (zl u)) by exact (f_equal (fun v => osx (vl v)) V).
  assert (EL2 : lsy (zl z) = lsy (zl u)) by exact (f_equal (fun v => osy (vl v)) V).
  assert (EB1 : bsx (zb z) = bsx (zb u)) by exact (f_equal (fun v => psx (vb v)) V).
  assert (EB2 : bsy (zb z) = bsy (zb u)) by exact (f_equal (fun v => psy (vb v)) V).
  rewrite (EQ 0%nat ltac:(lia)), EL1, U1 in S1. rewrite (EQ (horizon z) ltac:(lia)), EL2, EN, U2 in S2.
  rewrite (EQ (2 * horizon z)%nat ltac:(lia)), EB1, EN, U3 in S3. rewrite (EQ (3 * horizon z)%nat ltac:(lia)), EB2, EN, U4 in S4.
  injection S1 as S1. injection S2 as S2. injection S3 as S3. injection S4 as S4. auto.
Qed.

(** ** Concrete cases *)
(** Some solver is exact on the problem of any generator. *)
Lemma exact_zsolver_exists z : exists o, exact_zsolver o z.
Proof.
  destruct (z_problem z) as [q| | | |] eqn:Q; try (exists (fun _ _ => (fun _ => 0, true)); intros q' it Q'; rewrite Q in Q'; discriminate Q').
  destruct (Classical_Prop.classic (exists y, qminimiser q y)) as [(y & Hy)|N].
  - exists (fun _ _ => (y, true)). intros q' it Q' _. rewrite Q in Q'. injection Q' as <-. exact Hy.
  - exists (fun _ _ => (fun _ => 0, true)). intros q' it Q' Y. rewrite Q in Q'. injection Q' as <-. contradiction.
Qed.
(** Two samples of one second, both masses 1, everything weighted, all four constraints enabled, the
    upper bodies at rest at 1/10: staying at rest is admissible, so solve returns an optimal plan. *)
Example C58_case : exists z hb cleared o b z', zreach z hb cleared /\ zc z = MkZC true true true true /\ zw z = MkZW 1 1 1 1 1 1 1
  /\ ztilt_moderate z hb /\ exact_zsolver o z /\ z_solve o (1/2) z = Ok (b, z') /\ zadm z (fun _ => 0).
Proof.
  destruct (demo_state (MkZC true true true true)) as (z & Z & V).
  assert (EN : lN (zl z) = 2%nat) by from V (fun v => oN (vl v)). assert (ET : lT (zl z) = 1) by from V (fun v => oT (vl v)).
  assert (Em : lm (zl z) = 1) by from V (fun v => om (vl v)). assert (Eh : lh (zl z) = 1) by from V (fun v => oh (vl v)).
  assert (Emb : bm (zb z) = 1) by from V (fun v => pm (vb v)). assert (Ebh : bh (zb z) = 1/2) by from V (fun v => ph (vb v)).
  assert (Eg : lg (zl z) = V3 0 0 (981/100)) by from V (fun v => og (vl v)).
  assert (Sx : lsx (zl z) = St3 (1/10) 0 0) by from V (fun v => osx (vl v)). assert (Sy : lsy (zl z) = St3 0 0 0) by from V (fun v => osy (vl v)).
  assert (Bx : bsx (zb z) = St3 0 0 0) by from V (fun v => psx (vb v)). assert (By : bsy (zb z) = St3 0 0 0) by from V (fun v => psy (vb v)).
  assert (R1 : rvel (zr z) = vfill 4 (1/5)) by from V vvel. assert (R2 : rpos (zr z) = vfill 4 (1/10)) by from V vpos.
  assert (R3 : rcop (zr z) = vfill 4 0) by from V vcop. assert (EX : zX z = vzero 8) by from V vX.
  assert (P1 : bcopPoly (zb z) = box (- (1)) 1 (- (1)) 1) by from V (fun v => pcop (vb v)).
  assert (P2 : bcomPoly (zb z) = box (- (1)) 1 (- (1)) 1) by from V (fun v => pcom (vb v)).
  assert (Ec : zc z = MkZC true true true true) by from V vc. assert (Ew : zw z = MkZW 1 1 1 1 1 1 1) by from V vw.
  assert (L1 : bvelLim (zb z) = 1) by from V (fun v => plv (vb v)). assert (L2 : baccLim (zb z) = 1) by from V (fun v => pla (vb v)).
  assert (L3 : bjerkLim (zb z) = 1) by from V (fun v => plj (vb v)).
  destruct (exact_zsolver_exists z) as (o & Ho).
  assert (K : is_ok (z_solve o (1/2) z)).
  { apply (C57_solve_returns_iff z _ _ o (1/2) Z). unfold horizon. rewrite EN, R1, R2, R3. split; [lra|]. repeat split. }
  destruct K as ((b, z') & K). exists z, (1/2), false, o, b, z'. split; [exact Z|]. split; [exact Ec|]. split; [exact Ew|].
  split; [unfold ztilt_moderate, period, tilt_a1, tilt_a6; rewrite ET, Em, Eh, Emb; split; intros _; apply moderate_demo|].
  split; [exact Ho|]. split; [exact K|].
  assert (CF : com_first z = 1) by (rewrite C41_first_interval; unfold period; rewrite ET; lra).
  (* the motion *)
  assert (AT : forall S T x i, sim S T (St3 x 0 0) (fun _ => 0) i = St3 x 0 0).
  { intros S T x. induction i as [|i IH]; cbn [sim]; [|rewrite IH]; unfold updateState_raw; cbn [pos vel acc]; rsimpl; f_equal; field. }
  assert (CX : forall i, comX z (fun _ => 0) i = St3 (1/10) 0 0) by (intros i; unfold comX; rewrite Sx; apply AT).
  assert (CY : forall i, comY z (fun _ => 0) i = St3 0 0 0) by (intros i; unfold comY; rewrite Sy; apply AT).
  assert (DX : forall i, baseX z (fun _ => 0) i = St3 0 0 0) by (intros i; unfold baseX; rewrite Bx; apply AT).
  assert (DY : forall i, baseY z (fun _ => 0) i = St3 0 0 0) by (intros i; unfold baseY; rewrite By; apply AT).
  assert (PX : forall i, copX z (fun _ => 0) i = 1/20).
  { intros i. unfold copX, rel_cop. rewrite CX, DX, Em, Emb, Eg. destruct Rlt_dec as [G|G]; [|lra]. unfold cop_of. cbn [pos acc gx gy gz]. field. }
  assert (PY : forall i, copY z (fun _ => 0) i = 0).
  { intros i. unfold copY, rel_cop. rewrite CY, DY, Em, Emb, Eg. destruct Rlt_dec as [G|G]; [|lra]. unfold cop_of. cbn [pos acc gx gy gz]. field. }
  assert (EX' : (fun k => 0 - vget (zX z) k) = fun _ => 0) by (apply FunctionalExtensionality.functional_extensionality; intros k; rewrite EX; cbn [vget vzero]; rsimpl; ring).
  assert (EV : vget (zX z) = fun _ => 0) by (rewrite EX; reflexivity).
  assert (EZ : (fun k => vget (zX z) k + 0) = fun _ => 0) by (apply FunctionalExtensionality.functional_extensionality; intros k; rewrite EX; cbn [vget vzero]; rsimpl; ring).
  unfold zadm. rewrite EX'. split.
  - unfold zadmissible. rewrite Ec. split; [|split; [|split]]; intros _ i Hi.
    + rewrite DX, DY, L1, L2, L3. cbn [vel acc]. unfold jBaseX, jBaseY. rewrite !Rabs_R0. lra.
    + rewrite P1, PX, PY. apply inside_box; lra.
    + rewrite P2. unfold relX, relY. rewrite CX, CY, DX, DY. cbn [pos]. apply inside_box; lra.
    + rewrite CX, CY, DX, DY. cbn [vel]. lra.
  - unfold zmoderate. cbv zeta. rewrite EZ, EV. split; [intros k _; rewrite Rabs_R0; unfold MAXB; rsimpl; lra|].
    split; intros _ i j Hi Hj; unfold left_slope, MAXB; rsimpl; nra.
Qed.
Print Assumptions C16_zebulon_factors.
Print Assumptions C17_zebulon_minimisers.
Print Assumptions C19_zebulon_warm_start.
Print Assumptions C58_optimal.
Print Assumptions C58_states_advance.
Print Assumptions C58_always_reports_success.
Print Assumptions C58_unique.
Print Assumptions C58_independent_of_history.
