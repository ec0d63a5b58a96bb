(** Properties of the problem posed by the Zebulon generator: C41 to C46. *)

From Coq Require Import Reals List ZArith Lra Lia Arith Bool.
From Verif Require Import Scalar LinAlg LinAlgFacts ToolsModel ToolsSpec ToolsFacts NoDynModel PolygonModel HullFacts
  QPModel QPFacts TrajModel TrajFacts LipModel BaseModel ModelsSpec ModelsFacts ZebModel HumAlg ZebAlg ZebSpec ZebFacts
  ZebObj ZebTilt ZebProb ZebCon ZebLive ZebCalls ZebInv ZebView ZebDemo.
Import ListNotations.
Local Open Scope R_scope.

(** ** C41: the objective *)
(** The objective given to the solver is, up to a constant and a factor at least 1, the weighted sum of
    the squared errors of the simulated motion under X + dX. *)
Theorem C41_objective : forall z hb cleared q,
  zreach z hb cleared -> z_problem z = Ok q ->
  (0 < zwTilt (zw z) -> tilt_moderate (period z) (tilt_a1 z hb) (tilt_a6 z hb)) ->
  (0 < zwTiltVel (zw z) -> tiltvel_moderate (period z) (tilt_a1 z hb) (tilt_a6 z hb)) ->
  let cost := zeb_cost z hb (if cleared then 0 else gshift z (gx (lg (zl z)))) (if cleared then 0 else gshift z (gy (lg (zl z)))) in
  exists f, 1 <= f /\ forall d, qcost q d = f * (cost (fun k => vget (zX z) k + d k) - cost (vget (zX z))).
Proof.
  intros z hb cl q R H HT HV cost. apply reach_zinv in R. exists (zfo z). split.
  - destruct (qi_Q _ (proj2 R)) as (Q & _ & _ & ->). apply getNormalizationFactor_pos. unfold EPS. rsimpl. lra.
  - intros d. unfold cost. apply (zeb_cost_change z hb cl q R H).
    + intros W. exact (moderate_tilt z hb cl R (HT W)).
    + intros W. exact (moderate_tiltvel z hb cl R (HV W)).
Qed.
(** The first interval of the preview of the centre of mass is the sampling period. *)
Theorem C41_first_interval : forall z, 1/10000 < period z -> com_first z = period z.
Proof.
  intros z HT. unfold com_first. set (T := period z) in *. assert (E : Int_part ((T + 1/10000) / T) = 1%Z).
  { assert (A : 0 < 1/10000 / T < 1).
    { split; [apply Rdiv_lt_0_compat; lra|]. apply Rmult_lt_reg_r with T; [lra|]. replace (1/10000 / T * T) with (1/10000) by (field; lra). lra. }
    replace ((T + 1/10000) / T) with (1 + 1/10000 / T) by (field; lra). pose proof (base_Int_part (1 + 1/10000 / T)) as (B1 & B2).
    set (n := Int_part _) in *. assert (0 < IZR n < 2) as (C1 & C2) by lra. apply lt_IZR in C1, C2. lia. }
  rewrite E. lra.
Qed.

(** ** C42: the feasible set *)
(** The constraints given to the solver are exactly the enabled ones, on the simulated motion, within
    the numerical infinity 10^11. *)
Theorem C42_feasible_set : forall z hb cleared q,
  zreach z hb cleared -> z_problem z = Ok q ->
  forall d, qfeasible q d <-> zadmissible z (fun k => vget (zX z) k + d k) /\ zmoderate z d.
Proof. intros z hb cl q R H. exact (zeb_feasible z hb cl q (reach_zinv _ _ _ R) H). Qed.
Lemma z_period_pos z hb cl : zreach z hb cl -> 0 < period z /\ (0 < horizon z)%nat.
Proof.
  intros R. apply reach_zinv in R. pose proof (models_dyns _ _ (oi_m _ _ _ (proj1 R))) as D. split; [exact (dy_T _ _ D)|exact (dy_N _ _ D)].
Qed.
Ltac nots := let D := fresh in first [intros D; discriminate D | split; [intros D; discriminate D|nots]].
(** With the base limits only: velocity, acceleration and jerk of the base within the limits at every
    sample, along x and y; the jerks of the centre of mass are free. *)
Theorem C42_base_limits : forall z hb cleared q,
  zreach z hb cleared -> z_problem z = Ok q -> zc z = MkZC false false true false ->
  forall d, qfeasible q d <->
    base_limits z (fun k => vget (zX z) k + d k)
    /\ forall k, (k < 2 * horizon z)%nat -> Rabs (d k) <= 100000000000.
Proof.
  intros z hb cl q R H E d. rewrite (C42_feasible_set z hb cl q R H d). unfold zadmissible, zmoderate. rewrite E. cbn [zcCop zcCom zcBase zcTilt].
  unfold MAXB. rsimpl. split.
  - intros ((A & _) & (B & _)). split; [apply A; reflexivity|exact B].
  - intros (A & B). split; [split; [intros _; exact A|nots]|].
    split; [exact B|nots].
Qed.
Theorem C42_no_constraints : forall z hb cleared q,
  zreach z hb cleared -> z_problem z = Ok q -> zc z = MkZC false false false false ->
  forall d, qfeasible q d <-> forall k, (k < 4 * horizon z)%nat -> Rabs (d k) <= 100000000000.
Proof.
  intros z hb cl q R H E d. rewrite (C42_feasible_set z hb cl q R H d). unfold zadmissible, zmoderate. rewrite E. cbn [zcCop zcCom zcBase zcTilt].
  unfold MAXB. rsimpl. split.
  - intros (_ & (B & _)). exact B.
  - intros B. split; [nots|]. split; [exact B|nots].
Qed.

(** ** C43: the polygons *)
(** What is enforced: the opposite of the CoP (of the CoM) relative to the base is in the polygon. *)
Theorem C43_cop_region : forall z hb cleared q d,
  zreach z hb cleared -> z_problem z = Ok q -> zcCop (zc z) = true -> qfeasible q d ->
  forall i, (i < horizon z)%nat -> let X := fun k => vget (zX z) k + d k in
    inside (bcopPoly (zb z)) (- copX z X i) (- copY z X i).
Proof. intros z hb cl q d R H E F i Hi X. apply (C42_feasible_set z hb cl q R H) in F. destruct F as ((_ & F & _) & _). exact (F E i Hi). Qed.
Theorem C43_com_region : forall z hb cleared q d,
  zreach z hb cleared -> z_problem z = Ok q -> zcCom (zc z) = true -> qfeasible q d ->
  forall i, (i < horizon z)%nat -> let X := fun k => vget (zX z) k + d k in
    inside (bcomPoly (zb z)) (- relX z X i) (- relY z X i).
Proof. intros z hb cl q d R H E F i Hi X. apply (C42_feasible_set z hb cl q R H) in F. destruct F as ((_ & _ & F & _) & _). exact (F E i Hi). Qed.
(** The polygon is unchanged by the reflection through the origin. *)
Definition symmetric (p : polygon R) : Prop := forall x y, inside p x y -> inside p (- x) (- y).
Lemma symmetric_iff p x y : symmetric p -> (inside p (- x) (- y) <-> inside p x y).
Proof. intros S. split; intros H; [|apply S, H]. apply S in H. rewrite !Ropp_involutive in H. exact H. Qed.
(** For such polygons the constraints are the intended ones. *)
Theorem C43_symmetric_polygons : forall z hb cleared q,
  zreach z hb cleared -> z_problem z = Ok q -> symmetric (bcopPoly (zb z)) -> symmetric (bcomPoly (zb z)) ->
  forall d, let X := fun k => vget (zX z) k + d k in
    qfeasible q d <->
      ((zcBase (zc z) = true -> base_limits z X)
       /\ (zcCop (zc z) = true -> forall i, (i < horizon z)%nat -> inside (bcopPoly (zb z)) (copX z X i) (copY z X i))
       /\ (zcCom (zc z) = true -> forall i, (i < horizon z)%nat -> inside (bcomPoly (zb z)) (relX z X i) (relY z X i))
       /\ (zcTilt (zc z) = true -> along_heading z X))
      /\ zmoderate z d.
Proof.
  intros z hb cl q R H S1 S2 d X. rewrite (C42_feasible_set z hb cl q R H d). fold X. unfold zadmissible, cop_reflected, com_reflected.
  split; intros ((A & B & C & D) & M); (split; [|exact M]); (split; [exact A|]); (split; [|split; [|exact D]]); intros E i Hi.
  - apply (symmetric_iff _ _ _ S1). exact (B E i Hi).
  - apply (symmetric_iff _ _ _ S2). exact (C E i Hi).
  - apply (symmetric_iff _ _ _ S1). exact (B E i Hi).
  - apply (symmetric_iff _ _ _ S2). exact (C E i Hi).
Qed.

(** ** C44: the heading *)
Theorem C44_along_heading : forall z hb cleared q,
  zreach z hb cleared -> z_problem z = Ok q -> zc z = MkZC false false false true ->
  forall d, let X := fun k => vget (zX z) k + d k in let yaw := pos (bsyaw (zb z)) in
    qfeasible q d <->
      (forall i, (i < horizon z)%nat ->
         vel (comX z X i) * sin yaw = vel (comY z X i) * cos yaw /\ vel (baseX z X i) * sin yaw = vel (baseY z X i) * cos yaw)
      /\ forall k, (k < 4 * horizon z)%nat -> Rabs (d k) <= 100000000000.
Proof.
  intros z hb cl q R H E d X yaw. rewrite (C42_feasible_set z hb cl q R H d). fold X. unfold zadmissible, zmoderate. rewrite E. cbn [zcCop zcCom zcBase zcTilt].
  unfold MAXB. rsimpl. split.
  - intros ((_ & _ & _ & A) & (B & _)). split; [exact (A eq_refl)|exact B].
  - intros (A & B). split; [|split; [exact B|nots]].
    split; [nots|split; [nots|split; [nots|intros _; exact A]]].
Qed.
(** Equivalently the velocity is a multiple of the direction (cos yaw, sin yaw). *)
Theorem C44_parallel : forall vx vy yaw, vx * sin yaw = vy * cos yaw <-> exists s, vx = s * cos yaw /\ vy = s * sin yaw.
Proof.
  intros vx vy yaw. split.
  - intros H. exists (vx * cos yaw + vy * sin yaw). pose proof (sin2_cos2 yaw) as P. unfold Rsqr in P. split.
    + replace ((vx * cos yaw + vy * sin yaw) * cos yaw) with (vx * (sin yaw * sin yaw + cos yaw * cos yaw) - sin yaw * (vx * sin yaw - vy * cos yaw)) by ring. rewrite P, H. ring.
    + replace ((vx * cos yaw + vy * sin yaw) * sin yaw) with (vy * (sin yaw * sin yaw + cos yaw * cos yaw) + cos yaw * (vx * sin yaw - vy * cos yaw)) by ring. rewrite P, H. ring.
  - intros (s & -> & ->). ring.
Qed.

(** ** C45: the tilt equation *)
(** The angles in the cost are those of the equation
      g (m h + M L) psi - (m h^2 + M L^2) psi'' = m g (c - d) - M L c'' - m h d'' - M g e
    where c and d are the positions of the upper bodies and of the base, e the contact point, h and L
    the two heights: they satisfy it, and any other motion that satisfies it has the same angles. *)
Definition solves_tilt (z : zeb R) (L e : R) (c b : nat -> st3 R) (x0 : st2 R) (u : nat -> R) (N : nat) : Prop :=
  let m := lm (zl z) in let M := bm (zb z) in let h := lh (zl z) in let g := 981/100 in
  forall i, (i < N)%nat ->
    g * (m * h + M * L) * ang (sim2 (period z) (period z) x0 u i) - (m * h * h + M * L * L) * u i
    = m * g * (pos (c i) - pos (b i)) - M * L * acc (c i) - m * h * acc (b i) - M * g * e.
Lemma moderate_den T a1 a6 : 0 < T -> tilt_moderate T a1 a6 \/ tiltvel_moderate T a1 a6 -> a1 * (T ^ 2 / 2) - a6 <> 0.
Proof.
  intros HT H. assert (P : 0 < T ^ 2) by (apply pow_lt; assumption).
  assert (E : a1 * (T ^ 2 / 2) - a6 = (T ^ 2 / 2) * (a1 - 2 * a6 / T ^ 2)) by (field; lra). rewrite E. unfold tilt_moderate, tiltvel_moderate in H. cbv zeta in H.
  intros K. apply Rmult_integral in K. destruct K as [K|K]; [lra|]. destruct H as [(_ & [H|H])|(_ & [H|H])]; lra.
Qed.
Lemma sim2_unique a1 a6 T x0 rhs u v N : a1 * (T ^ 2 / 2) - a6 <> 0 ->
  (forall i, (i < N)%nat -> a1 * ang (sim2 T T x0 u i) - a6 * u i = rhs i) ->
  (forall i, (i < N)%nat -> a1 * ang (sim2 T T x0 v i) - a6 * v i = rhs i) ->
  forall i, (i < N)%nat -> u i = v i /\ sim2 T T x0 u i = sim2 T T x0 v i.
Proof.
  intros D Hu Hv. induction i as [|i IH]; intros Hi.
  - specialize (Hu _ Hi). specialize (Hv _ Hi). cbn [sim2] in *. unfold flow2 in *. cbn [ang angv] in *.
    assert (E : u 0%nat = v 0%nat); [|split; [exact E|rewrite E; reflexivity]]. apply Rmult_eq_reg_l with (a1 * (T ^ 2 / 2) - a6); [|assumption]. lra.
  - destruct (IH ltac:(lia)) as (_ & E). specialize (Hu _ Hi). specialize (Hv _ Hi). cbn [sim2] in *. rewrite E in *. unfold flow2 in *. cbn [ang angv] in *.
    assert (E' : u (S i) = v (S i)); [|split; [exact E'|rewrite E'; reflexivity]]. apply Rmult_eq_reg_l with (a1 * (T ^ 2 / 2) - a6); [|assumption]. lra.
Qed.
Theorem C45_tilt_equation : forall z hb X,
  0 < period z ->
  tilt_moderate (period z) (tilt_a1 z hb) (tilt_a6 z hb) \/ tiltvel_moderate (period z) (tilt_a1 z hb) (tilt_a6 z hb) ->
  (exists u, solves_tilt z hb (contactX z) (comX z X) (baseX z X) (st2_of3 (bsroll (zb z))) u (horizon z)
     /\ forall i, rollAt z hb X i = sim2 (period z) (period z) (st2_of3 (bsroll (zb z))) u i)
  /\ (forall u, solves_tilt z hb (contactX z) (comX z X) (baseX z X) (st2_of3 (bsroll (zb z))) u (horizon z) ->
        forall i, (i < horizon z)%nat -> rollAt z hb X i = sim2 (period z) (period z) (st2_of3 (bsroll (zb z))) u i)
  /\ (exists u, solves_tilt z hb (contactY z) (comY z X) (baseY z X) (st2_of3 (bspitch (zb z))) u (horizon z)
     /\ forall i, pitchAt z hb X i = sim2 (period z) (period z) (st2_of3 (bspitch (zb z))) u i)
  /\ (forall u, solves_tilt z hb (contactY z) (comY z X) (baseY z X) (st2_of3 (bspitch (zb z))) u (horizon z) ->
        forall i, (i < horizon z)%nat -> pitchAt z hb X i = sim2 (period z) (period z) (st2_of3 (bspitch (zb z))) u i).
Proof.
  intros z hb X HT HM. assert (D := moderate_den _ _ _ HT HM).
  assert (G : forall e c b x0, let rhs := fun k => tilt_rhs z hb e (c k) (b k) in
    let run := tilt_run (tilt_a1 z hb) (tilt_a6 z hb) (period z) x0 rhs in
    (exists u, solves_tilt z hb e c b x0 u (horizon z) /\ forall i, run i = sim2 (period z) (period z) x0 u i)
    /\ (forall u, solves_tilt z hb e c b x0 u (horizon z) -> forall i, (i < horizon z)%nat -> run i = sim2 (period z) (period z) x0 u i)).
  { intros e c b x0 rhs run.
    assert (G1 : solves_tilt z hb e c b x0 (tilt_u (tilt_a1 z hb) (tilt_a6 z hb) (period z) x0 rhs) (horizon z)).
    { intros i Hi. rewrite <- tilt_run_sim. pose proof (tilt_run_eq (tilt_a1 z hb) (tilt_a6 z hb) (period z) x0 rhs i D) as E.
      set (psi := ang _) in *. set (a := tilt_u _ _ _ _ _ i) in *. clearbody psi a. unfold rhs, tilt_rhs, tilt_a1, tilt_a6 in E. lra. }
    split.
    - exists (tilt_u (tilt_a1 z hb) (tilt_a6 z hb) (period z) x0 rhs). split; [exact G1|]. intros i. apply tilt_run_sim.
    - intros u Hu i Hi. unfold run. rewrite tilt_run_sim.
      refine (proj2 (sim2_unique (tilt_a1 z hb) (tilt_a6 z hb) (period z) x0 rhs _ u (horizon z) D _ _ i Hi)).
      + intros j Hj. rewrite <- tilt_run_sim. apply tilt_run_eq. exact D.
      + intros j Hj. specialize (Hu j Hj). unfold rhs, tilt_rhs, tilt_a1, tilt_a6. cbv zeta in Hu. lra. }
  destruct (G (contactX z) (comX z X) (baseX z X) (st2_of3 (bsroll (zb z)))) as (G1 & G2).
  destruct (G (contactY z) (comY z X) (baseY z X) (st2_of3 (bspitch (zb z)))) as (G3 & G4).
  split; [exact G1|split; [exact G2|split; [exact G3|exact G4]]].
Qed.
(** The documented equation, at one instant *)
Definition documented_tilt (m h M L c ddc d ddd psi ddpsi : R) : Prop :=
  (981/100) * (m * h + M * L) * psi + m * (981/100) * (c - d) = M * L * ddd + m * h * ddc + (m * h * h + M * L * L) * ddpsi.
(** An angle of the previous equation (contact point at the origin) satisfies the documented one only
    where 2 m g (c - d) = (M L + m h) (c'' + d''), and the opposite angle (the other orientation) only
    where (M L - m h) (c'' - d'') = 0: the two accelerations are exchanged. *)
Theorem C45_documented_iff : forall m h M L c ddc d ddd psi ddpsi,
  (981/100) * (m * h + M * L) * psi - (m * h * h + M * L * L) * ddpsi = m * (981/100) * (c - d) - M * L * ddc - m * h * ddd ->
  (documented_tilt m h M L c ddc d ddd psi ddpsi <-> 2 * (m * (981/100) * (c - d)) = (M * L + m * h) * (ddc + ddd))
  /\ (documented_tilt m h M L c ddc d ddd (- psi) (- ddpsi) <-> (M * L - m * h) * (ddc - ddd) = 0).
Proof. intros m h M L c ddc d ddd psi ddpsi H. unfold documented_tilt. split; split; intros K; lra. Qed.

(** ** C46: the CoP reference *)
(** The CoP reference computed by setComAndCopRefInWorldFrame from positions and accelerations of the
    two masses, against the CoP that the preview gives to the same positions and accelerations. *)
Theorem C46_cop_reference : forall z hb cleared pc ac pb ab z',
  zreach z hb cleared -> zstep (ZSetComAndCopRef pc ac pb ab) z = Ok z' ->
  bm (zb z) = 0 \/ 1/10000 < bm (zb z) ->
  let N := horizon z in let g := lg (zl z) in
  let D := 2 * (bm (zb z) * bh (zb z) + lm (zl z) * lh (zl z)) / ((bm (zb z) + lm (zl z)) * gz g) in
  forall i u v, (i < N)%nat ->
    vget (rcop (zr z')) i = rel_cop z (gx g) (St3 (vget pc i) u (vget ac i)) (St3 (vget pb i) v (vget ab i)) + D * gx g
    /\ vget (rcop (zr z')) (N + i) =
         rel_cop z (gy g) (St3 (vget pc (N + i)) u (vget ac (N + i))) (St3 (vget pb (N + i)) v (vget ab (N + i))) + D * gy g.
Proof.
  intros z hb cl pc ac pb ab z' R H HB N g D i u v Hi.
  assert (A : zaccepts (ZSetComAndCopRef pc ac pb ab) z hb) by (apply (step_is_ok _ z hb cl (reach_zinv _ _ _ R)); exists z'; exact H).
  destruct A as (_ & A). pose proof (step_effect z hb cl (reach_zinv _ _ _ R) _ _ H) as (r & E & _ & Er).
  assert (Z : (bm (zb z) + lm (zl z)) * gz (lg (zl z)) <> 0) by (intros Z; rewrite Z, Rabs_R0 in A; lra).
  assert (Z1 : lm (zl z) + bm (zb z) <> 0 /\ gz (lg (zl z)) <> 0) by (split; intros K; apply Z; [rewrite Rplus_comm, K|rewrite K]; ring).
  assert (E' : rcop (zr z') = r) by (apply (f_equal vcop) in E; exact E). rewrite E'.
  change (oN (lobs_of (zl z))) with (horizon z) in Er. fold N in Er.
  assert (K : forall g0 p a p' a' w w', cop_reference (lm (zl z)) (bm (zb z)) (lh (zl z)) (bh (zb z)) g0 (gz (lg (zl z))) p a p' a'
     = rel_cop z g0 (St3 p w a) (St3 p' w' a') + D * g0).
  { intros g0 p a p' a' w w'. unfold cop_reference, rel_cop, cop_of, D, g. cbn [pos vel acc].
    destruct HB as [HB|HB].
    - destruct Rlt_dec as [K|K]; [rewrite HB in K; lra|]. rewrite HB in *. field. rewrite ?Rplus_0_l, ?Rplus_0_r in *. tauto.
    - destruct Rlt_dec as [_|K]; [|contradiction]. field. destruct Z1 as (Z1 & Z2). repeat (apply conj); try assumption; intros K0; apply Z1; rewrite <- K0; ring. }
  split.
  - rewrite (Er i ltac:(lia)). replace (Nat.ltb i N) with true by (symmetry; apply Nat.ltb_lt; exact Hi). apply K.
  - rewrite (Er (N + i)%nat ltac:(lia)). replace (Nat.ltb (N + i) N) with false by (symmetry; apply Nat.ltb_ge; lia). apply K.
Qed.
(** In particular they agree when gravity is vertical. *)
Theorem C46_vertical_gravity : forall z hb cleared pc ac pb ab z',
  zreach z hb cleared -> zstep (ZSetComAndCopRef pc ac pb ab) z = Ok z' ->
  bm (zb z) = 0 \/ 1/10000 < bm (zb z) -> gx (lg (zl z)) = 0 -> gy (lg (zl z)) = 0 ->
  let N := horizon z in
  forall i u v, (i < N)%nat ->
    vget (rcop (zr z')) i = rel_cop z 0 (St3 (vget pc i) u (vget ac i)) (St3 (vget pb i) v (vget ab i))
    /\ vget (rcop (zr z')) (N + i) =
         rel_cop z 0 (St3 (vget pc (N + i)) u (vget ac (N + i))) (St3 (vget pb (N + i)) v (vget ab (N + i))).
Proof.
  intros z hb cl pc ac pb ab z' R H HB G1 G2 N i u v Hi. destruct (C46_cop_reference z hb cl pc ac pb ab z' R H HB i u v Hi) as (A & B).
  rewrite G1 in A. rewrite G2 in B. unfold N. rewrite A, B. split; lra.
Qed.
