(** Facts about the trajectory generator. *)

From Coq Require Import Reals List Lra Lia Arith Bool.
From Verif Require Import Scalar LinAlg LinAlgFacts ToolsModel ToolsSpec ToolsFacts NoDynModel QPModel QPFacts
  TrajModel TrajSpec.
Local Open Scope R_scope.

(** ** The model's dynamics are up to date *)
Record nodyn_fresh (m : nodyn R) : Prop := {
  nf_N : (0 < nN m)%nat; nf_T : 0 < nT m;
  nf_pos : computePosDynamic (nT m) (nT m) (nN m) = Ok (nposD m);
  nf_vel : computeVelDynamic (nT m) (nT m) (nN m) = Ok (nvelD m);
  nf_acc : computeAccDynamic (nT m) (nT m) (nN m) = Ok (naccD m);
  nf_jerk : njerkD m = computeJerkDynamic (nN m)
}.
Lemma nodyn_compute_fresh m m' : nodyn_computeDynamics m = Ok m' ->
  nodyn_fresh m' /\ nauto m' = nauto m /\ nN m' = nN m /\ nT m' = nT m /\ nstate m' = nstate m
  /\ nvelLim m' = nvelLim m /\ naccLim m' = naccLim m /\ njerkLim m' = njerkLim m.
Proof.
  unfold nodyn_computeDynamics. intros H.
  apply bind_ok in H. destruct H as (p & Hp & H). apply bind_ok in H. destruct H as (v & Hv & H).
  apply bind_ok in H. destruct H as (a & Ha & H). injection H as <-. cbn.
  split; [|auto 8]. pose proof (computePosDynamic_inv _ _ _ _ Hp) as (H1 & H2 & H3 & _).
  constructor; cbn; auto.
Qed.
Lemma nodyn_auto_fresh m m' : nauto m = true -> nodyn_auto m = Ok m' ->
  nodyn_fresh m' /\ nauto m' = true /\ nN m' = nN m /\ nT m' = nT m /\ nstate m' = nstate m
  /\ nvelLim m' = nvelLim m /\ naccLim m' = naccLim m /\ njerkLim m' = njerkLim m.
Proof.
  intros Ha H. unfold nodyn_auto in H. rewrite Ha in H. apply nodyn_compute_fresh in H.
  destruct H as (H1 & H2 & H). rewrite Ha in H2. auto.
Qed.
Lemma nodyn_fresh_eq m m' :
  nN m' = nN m -> nT m' = nT m -> nposD m' = nposD m -> nvelD m' = nvelD m -> naccD m' = naccD m ->
  njerkD m' = njerkD m -> nodyn_fresh m -> nodyn_fresh m'.
Proof. intros E1 E2 E3 E4 E5 E6 [H1 H2 H3 H4 H5 H6]. constructor; rewrite ?E1, ?E2, ?E3, ?E4, ?E5, ?E6; assumption. Qed.

(** ** Tracking objectives *)
Lemma track_quad N d H st ref x0 g (f : (nat -> R) -> nat -> R) :
  mrows (dU d) = N -> mcols (dU d) = N -> dUT d = mtr (dU d) ->
  H = track_hessian d ->
  (forall Y i, (i < N)%nat -> ssum N (fun k => mget (dU d) i k * Y k) + vget (mv (dS d) (vec_of_st3 st)) i = f Y i) ->
  track_gradient N d H st ref x0 = Ok g ->
  vlen x0 = N /\ vlen ref = N /\ vlen g = N /\ mrows H = N /\ mcols H = N
  /\ forall dX, quad N (mget H) (vget g) dX
     = / 2 * ssum N (fun i => (f (fun k => vget x0 k + dX k) i - vget ref i) ^ 2)
       - / 2 * ssum N (fun i => (f (vget x0) i - vget ref i) ^ 2).
Proof.
  intros Hr Hc HT -> Hf HG. unfold track_gradient in HG.
  apply guard_ok in HG. destruct HG as (H1 & HG). apply guard_ok in HG. destruct HG as (H2 & HG).
  apply Nat.eqb_eq in H1, H2. apply bind_ok in HG. destruct HG as (tmp & Ht & HG).
  unfold vsubE in Ht. apply guard_ok in Ht. destruct Ht as (_ & Ht). injection Ht as <-.
  unfold vaddE in HG. apply guard_ok in HG. destruct HG as (_ & HG). injection HG as <-.
  unfold track_hessian. rewrite HT. cbn [vlen vadd mv mmul mtr mrows mcols]. rewrite ?Hr, ?Hc.
  repeat split; try congruence. intros dX.
  set (u := mget (dU d)). set (c := fun i => vget (mv (dS d) (vec_of_st3 st)) i - vget ref i).
  rewrite (quad_ext N _ (fun j k => ssum N (fun i => u i j * u i k)) _
    (fun j => ssum N (fun i => u i j * (ssum N (fun k => u i k * vget x0 k) + c i))) dX dX).
  - rewrite quad_lsq. f_equal; f_equal; apply ssum_ext; intros i Hi; unfold c, u;
      rewrite <- (Hf _ i Hi); ring.
  - intros i j Hi Hj. cbn [mget mmul mtr mcols]. rewrite Hr. reflexivity.
  - intros j Hj. cbn [vget vadd mv mmul mtr mrows mcols mget vsub]. rewrite Hr, ?Hc. rsimpl. fold u.
    rewrite <- lsq_grad. reflexivity.
  - reflexivity.
Qed.

Lemma vel_track m st : nodyn_fresh m -> forall Y i, (i < nN m)%nat ->
  ssum (nN m) (fun k => mget (dU (nvelD m)) i k * Y k) + vget (mv (dS (nvelD m)) (vec_of_st3 st)) i
  = vel (sim (nT m) (nT m) st Y i).
Proof.
  intros [_ _ _ H _ _] Y i Hi. apply computeVelDynamic_inv in H.
  destruct H as (_ & _ & _ & -> & -> & _). exact (vel_predict (nT m) (nT m) (nN m) st (MkVec (nN m) Y) i Hi).
Qed.
Lemma pos_track m st : nodyn_fresh m -> forall Y i, (i < nN m)%nat ->
  ssum (nN m) (fun k => mget (dU (nposD m)) i k * Y k) + vget (mv (dS (nposD m)) (vec_of_st3 st)) i
  = pos (sim (nT m) (nT m) st Y i).
Proof.
  intros [_ _ H _ _ _] Y i Hi. apply computePosDynamic_inv in H.
  destruct H as (_ & _ & _ & -> & -> & _). exact (pos_predict (nT m) (nT m) (nN m) st (MkVec (nN m) Y) i Hi).
Qed.
Lemma acc_track m st : nodyn_fresh m -> forall Y i, (i < nN m)%nat ->
  ssum (nN m) (fun k => mget (dU (naccD m)) i k * Y k) + vget (mv (dS (naccD m)) (vec_of_st3 st)) i
  = acc (sim (nT m) (nT m) st Y i).
Proof.
  intros [_ _ _ _ H _] Y i Hi. apply computeAccDynamic_inv in H.
  decompose [and] H.
  repeat match goal with E : dU _ = _ |- _ => rewrite E | E : dS _ = _ |- _ => rewrite E end.
  exact (acc_predict (nT m) (nT m) (nN m) st (MkVec (nN m) Y) i Hi).
Qed.
Lemma fresh_shapes m : nodyn_fresh m ->
  (mrows (dU (nvelD m)) = nN m /\ mcols (dU (nvelD m)) = nN m /\ dUT (nvelD m) = mtr (dU (nvelD m)) /\ mrows (dS (nvelD m)) = nN m)
  /\ (mrows (dU (nposD m)) = nN m /\ mcols (dU (nposD m)) = nN m /\ dUT (nposD m) = mtr (dU (nposD m)) /\ mrows (dS (nposD m)) = nN m)
  /\ (mrows (dU (naccD m)) = nN m /\ mcols (dU (naccD m)) = nN m /\ mrows (dS (naccD m)) = nN m).
Proof.
  intros [_ _ Hp Hv Ha _]. apply computePosDynamic_inv in Hp. apply computeVelDynamic_inv in Hv. apply computeAccDynamic_inv in Ha.
  decompose [and] Hp. decompose [and] Hv. decompose [and] Ha.
  repeat match goal with E : dU _ = _ |- _ => rewrite E in * | E : dS _ = _ |- _ => rewrite E | E : dUT _ = _ |- _ => rewrite E end.
  repeat split.
Qed.

(** ** Invariant of the generator *)
Definition posed_Q (t : traj R) : mat R :=
  let m := tmod t in
  addW (wJerk (tw t)) (mid (nN m)) (addW (wPos (tw t)) (track_hessian (nposD m))
    (addW (wVel (tw t)) (track_hessian (nvelD m)) (mzero (nN m) (nN m)))).
Definition posed_A (t : traj R) : mat R :=
  if tmc t then msetblock (mzero (nbCtr t) (nN (tmod t))) 0 0 (motion_gradient (tmod t))
  else mzero (nbCtr t) (nN (tmod t)).
Record obj_fresh (t : traj R) : Prop := {
  of_mod : nodyn_fresh (tmod t); of_auto : nauto (tmod t) = true;
  of_jerk : tjerkH t = mid (nN (tmod t));
  of_vel : tvelH t = track_hessian (nvelD (tmod t));
  of_pos : tposH t = track_hessian (nposD (tmod t));
  of_mot : tmotG t = motion_gradient (tmod t);
  of_X : vlen (tX t) = nN (tmod t); of_dX : vlen (tdX t) = nN (tmod t)
}.
Record qp_fresh (t : traj R) : Prop := {
  qf_Q : qQ (tqp t) = posed_Q t; qf_A : qA (tqp t) = posed_A t;
  qf_p : vlen (qp (tqp t)) = nN (tmod t);
  qf_xl : vlen (qxl (tqp t)) = nN (tmod t); qf_xu : vlen (qxu (tqp t)) = nN (tmod t);
  qf_bl : vlen (qbl (tqp t)) = nbCtr t; qf_bu : vlen (qbu (tqp t)) = nbCtr t;
  qf_nv : snbVar (tsolver t) = nN (tmod t); qf_nc : snbCtr (tsolver t) = nbCtr t;
  qf_mem : smem (tsolver t) = None \/ smem (tsolver t) = Some (qQ (tqp t), qA (tqp t))
}.
Definition tinv (t : traj R) : Prop := obj_fresh t /\ qp_fresh t.

Lemma compute_tinv t t' : obj_fresh t -> t_computeConstantPart t = Ok t' -> tinv t'.
Proof.
  intros O H. unfold t_computeConstantPart in H. do 4 (apply guard_ok in H; destruct H as (_ & H)).
  injection H as <-. destruct O as [O1 O2 O3 O4 O5 O6 O7 O8]. split.
  - constructor; assumption.
  - constructor; try reflexivity.
    + cbn [t_setQP tqp qQ]. unfold posed_Q. cbn. rewrite O3, O4, O5. reflexivity.
    + cbn [t_setQP tqp qA]. unfold posed_A. cbn. rewrite O6. reflexivity.
    + left. reflexivity.
Qed.

Lemma newTraj_tinv t : newTraj (K:=R) = Ok t -> tinv t.
Proof.
  unfold newTraj. intros H. apply bind_ok in H. destruct H as (m & Hm & H). apply nodyn_auto_fresh in Hm; [|reflexivity].
  destruct Hm as (F & A & EN & _). refine (compute_tinv _ _ _ H). constructor; cbn; auto.
Qed.

Lemma setMod_tinv t m :
  tinv t -> nodyn_fresh m -> nauto m = true -> nN m = nN (tmod t) ->
  nposD m = nposD (tmod t) -> nvelD m = nvelD (tmod t) -> naccD m = naccD (tmod t) ->
  tinv (t_setMod t m).
Proof.
  intros ([O1 O2 O3 O4 O5 O6 O7 O8] & [Q1 Q2 Q3 Q4 Q5 Q6 Q7 Q8 Q9 Q10]) F A EN EP EV EA.
  assert (EM : motion_gradient m = motion_gradient (tmod t)) by (unfold motion_gradient; rewrite EN, EV, EA; reflexivity).
  assert (EC : nbCtr (t_setMod t m) = nbCtr t) by (unfold nbCtr; cbn; rewrite EN; reflexivity).
  split.
  - constructor; cbn [t_setMod tmod tjerkH tvelH tposH tmotG tX tdX]; try assumption;
      rewrite ?EN, ?EP, ?EV, ?EM; assumption.
  - constructor; cbn [t_setMod tmod tqp tsolver]; rewrite ?EN, ?EC; try assumption.
    + rewrite Q1. unfold posed_Q. cbn. rewrite EN, EP, EV. reflexivity.
    + rewrite Q2. unfold posed_A. rewrite EC. cbn [t_setMod tmod tmc]. rewrite EN, EM. reflexivity.
Qed.

Lemma problem_shape t q : tinv t -> t_problem t = Ok q ->
  qQ q = qQ (tqp t) /\ qA q = qA (tqp t) /\ vlen (qp q) = nN (tmod t)
  /\ vlen (qxl q) = nN (tmod t) /\ vlen (qxu q) = nN (tmod t)
  /\ vlen (qbl q) = nbCtr t /\ vlen (qbu q) = nbCtr t.
Proof.
  intros (O & Q) H. destruct Q as [Q1 Q2 Q3 Q4 Q5 Q6 Q7 Q8 Q9 Q10]. unfold t_problem in H.
  apply bind_ok in H. destruct H as (gv & _ & H). apply guard_ok in H. destruct H as (_ & H).
  apply bind_ok in H. destruct H as (gp & _ & H). apply guard_ok in H. destruct H as (_ & H).
  apply bind_ok in H. destruct H as (gj & _ & H). apply guard_ok in H. destruct H as (_ & H).
  assert (AG : forall w g p p', addG (K:=R) w g p = Ok p' -> vlen p' = vlen p).
  { intros w g p p' E. unfold addG in E. destruct (sltb s0 w); [|injection E as <-; reflexivity].
    unfold vaddE in E. apply guard_ok in E. destruct E as (_ & E). injection E as <-. reflexivity. }
  apply bind_ok in H. destruct H as (p1 & E1 & H). apply bind_ok in H. destruct H as (p2 & E2 & H).
  apply bind_ok in H. destruct H as (p3 & E3 & H). apply AG in E1, E2, E3. cbn [vlen vfill] in E1.
  destruct (tmc t) eqn:EM.
  - apply bind_ok in H. destruct H as (fi & _ & H). apply bind_ok in H. destruct H as (fs & _ & H).
    unfold vsetE, vsubE in H.
    do 4 (apply bind_ok in H; destruct H as (? & Hx & H); repeat (apply guard_ok in Hx; destruct Hx as (_ & Hx)); injection Hx as <-).
    injection H as <-. cbn. repeat split; try assumption. congruence.
  - injection H as <-. cbn. repeat split; try assumption. congruence.
Qed.

Lemma solve_inv o f t b t' : t_solve o f t = Ok (b, t') ->
  exists q s dX, t_problem t = Ok q /\ 0 < f
    /\ solver_solve o (tsolver t) q 10000%Z (tdX t) true false = Ok (s, dX, b)
    /\ vlen (tX t) = vlen dX
    /\ t' = MkTraj (nodyn_withState (updateState_raw (vget (vadd (tX t) dX) 0) f (nstate (tmod t))) (tmod t))
              (tjerkH t) (tvelH t) (tposH t) (tmotG t) (tvelRef t) (tposRef t) (tw t) (tmc t) dX (vadd (tX t) dX) q s.
Proof.
  unfold t_solve. intros H. apply bind_ok in H. destruct H as (q & Hq & H). apply guard_ok in H. destruct H as (Hf & H).
  apply bind_ok in H. destruct H as ([[s dX] b'] & Hs & H). apply bind_ok in H. destruct H as (X & HX & H).
  unfold vaddE in HX. apply guard_ok in HX. destruct HX as (HL & HX). injection HX as <-. apply Nat.eqb_eq in HL.
  apply bind_ok in H. destruct H as (m & Hm & H). injection H as <- <-.
  unfold nodyn_updateState in Hm. apply bind_ok in Hm. destruct Hm as (st & Hst & Hm). injection Hm as <-.
  rsimpl. apply Rltb_true in Hf. rewrite updateState_ok in Hst by assumption. injection Hst as <-.
  exists q, s, dX. auto 6.
Qed.
Lemma effective_same s q : (smem s = None \/ smem s = Some (qQ q, qA q)) -> forall w, effective (K:=R) s w q = q.
Proof. intros [E|E] w; unfold effective; rewrite E; [reflexivity|]. destruct w; destruct q; reflexivity. Qed.

Lemma solver_solve_inv o s q it sol os s' x b :
  solver_solve (K:=R) o s q it sol true os = Ok (s', x, b) ->
  (smem s = None \/ smem s = Some (qQ q, qA q)) ->
  s' = MkSolver (snbVar s) (snbCtr s) (Some (qQ q, qA q)) /\ vlen x = vlen sol /\ (snbVar s <= vlen sol)%nat
  /\ (forall i, (i < snbVar s)%nat -> vget x i = fst (o q it) i).
Proof.
  intros H M. unfold solver_solve in H. apply guard_ok in H. destruct H as (_ & H). rewrite effective_same in H by assumption.
  destruct (o q it) as [y ok]. apply ubguard_ok in H. destruct H as (HL & H). apply Nat.leb_le in HL.
  assert (E : s' = (if (match smem s with Some _ => true | None => false end && true)%bool then s
                    else MkSolver (snbVar s) (snbCtr s) (Some (qQ q, qA q)))
     /\ x = MkVec (vlen sol) (fun i => if Nat.ltb i (snbVar s) then y i else vget sol i)).
  { destruct (negb ok && os)%bool; injection H as <- <- _; auto. }
  destruct E as (-> & ->). split; [|split; [reflexivity|split; [assumption|]]].
  - destruct M as [M|M]; rewrite M; cbn [andb]; [reflexivity|]. destruct s; cbn in *. rewrite M. reflexivity.
  - intros i Hi. cbn [vget fst]. apply Nat.ltb_lt in Hi. rewrite Hi. reflexivity.
Qed.

Lemma solve_tinv o f t b t' : tinv t -> t_solve o f t = Ok (b, t') -> tinv t'.
Proof.
  intros I H. apply solve_inv in H. destruct H as (q & s & dX & Hq & Hf & Hs & HL & ->).
  pose proof (problem_shape _ _ I Hq) as (P1 & P2 & P3 & P4 & P5 & P6 & P7).
  destruct I as ([O1 O2 O3 O4 O5 O6 O7 O8] & [Q1 Q2 Q3 Q4 Q5 Q6 Q7 Q8 Q9 Q10]).
  apply solver_solve_inv in Hs; [|rewrite P1, P2; assumption]. destruct Hs as (-> & Hx & _).
  split.
  - constructor; cbn; try assumption; [|congruence]. apply nodyn_fresh_eq with (tmod t); auto.
  - constructor; cbn [tmod tqp tsolver]; try assumption; [rewrite P1; exact Q1|rewrite P2; exact Q2|]. right. reflexivity.
Qed.

Lemma step_tinv c t t' : tinv t -> tstep c t = Ok t' -> tinv t'.
Proof.
  intros I H. destruct I as (O & Q). pose proof O as [O1 O2 O3 O4 O5 O6 O7 O8]. destruct c; cbn [tstep] in H.
  - unfold t_setNbSamples in H. apply guard_ok in H. destruct H as (_ & H). apply bind_ok in H. destruct H as (m & Hm & H).
    unfold nodyn_setNbSamples in Hm. apply guard_ok in Hm. destruct Hm as (_ & Hm). apply nodyn_auto_fresh in Hm; [|assumption].
    destruct Hm as (F & A & EN & _). cbn [nN] in EN. refine (compute_tinv _ _ _ H). constructor; cbn; auto.
  - unfold t_setSamplingPeriod in H. apply guard_ok in H. destruct H as (_ & H). apply bind_ok in H. destruct H as (m & Hm & H).
    unfold nodyn_setSamplingPeriod in Hm. apply guard_ok in Hm. destruct Hm as (_ & Hm). apply nodyn_auto_fresh in Hm; [|assumption].
    destruct Hm as (F & A & EN & _). cbn [nN] in EN. refine (compute_tinv _ _ _ H). constructor; cbn; auto; congruence.
  - unfold t_setVelRef in H. apply guard_ok in H. destruct H as (_ & H). injection H as <-. destruct Q. split; constructor; assumption.
  - unfold t_setPosRef in H. apply guard_ok in H. destruct H as (_ & H). injection H as <-. destruct Q. split; constructor; assumption.
  - unfold t_setVelLimit, nodyn_setVelocityLimit in H. apply bind_ok in H. destruct H as (m & Hm & H). injection H as <-.
    apply guard_ok in Hm. destruct Hm as (_ & Hm). injection Hm as <-.
    apply setMod_tinv; try reflexivity; try assumption; [split; assumption|]. apply nodyn_fresh_eq with (tmod t); auto.
  - unfold t_setAccLimit, nodyn_setAccelerationLimit in H. apply bind_ok in H. destruct H as (m & Hm & H). injection H as <-.
    apply guard_ok in Hm. destruct Hm as (_ & Hm). injection Hm as <-.
    apply setMod_tinv; try reflexivity; try assumption; [split; assumption|]. apply nodyn_fresh_eq with (tmod t); auto.
  - unfold t_setJerkLimit, nodyn_setJerkLimit in H. apply bind_ok in H. destruct H as (m & Hm & H). injection H as <-.
    apply guard_ok in Hm. destruct Hm as (_ & Hm). injection Hm as <-.
    apply setMod_tinv; try reflexivity; try assumption; [split; assumption|]. apply nodyn_fresh_eq with (tmod t); auto.
  - unfold t_setState, nodyn_setState in H. apply bind_ok in H. destruct H as (m & Hm & H). injection H as <-.
    apply bind_ok in Hm. destruct Hm as (st & _ & Hm). injection Hm as <-.
    apply setMod_tinv; try reflexivity; try assumption; [split; assumption|]. apply nodyn_fresh_eq with (tmod t); auto.
  - unfold t_setWeightings in H. do 3 (apply guard_ok in H; destruct H as (_ & H)).
    refine (compute_tinv _ _ _ H). constructor; assumption.
  - refine (compute_tinv _ _ _ H). constructor; assumption.
  - apply bind_ok in H. destruct H as ([b u] & Hs & H). injection H as <-.
    exact (solve_tinv _ _ _ _ _ (conj O Q) Hs).
Qed.
Lemma steps_tinv l : forall t t', tinv t -> tsteps l t = Ok t' -> tinv t'.
Proof.
  induction l as [|c l IH]; intros t t' I H; cbn [tsteps] in H; [injection H as <-; assumption|].
  apply bind_ok in H. destruct H as (u & Hu & H). exact (IH u t' (step_tinv _ _ _ I Hu) H).
Qed.

(** ** The problem that is posed *)
Lemma addW_addG N w g p p' :
  vlen p = N -> addG (K:=R) w g p = Ok p' ->
  vlen p' = N
  /\ forall H Q d, quad N (mget (addW w H Q)) (vget p') d = quad N (mget Q) (vget p) d + Rmax 0 w * quad N (mget H) (vget g) d.
Proof.
  intros HN E. unfold addG in E. unfold addW. rsimpl. destruct (Rltb_spec 0 w) as [Hw|Hw].
  - unfold vaddE in E. apply guard_ok in E. destruct E as (_ & E). injection E as <-. split; [assumption|]. intros H Q d.
    rewrite Rmax_right by lra. cbn [madd mscale mget vadd vscale vget]. rsimpl.
    exact (quad_add N (mget Q) (mget H) (vget p) (vget g) w d).
  - injection E as <-. split; [assumption|]. intros H Q d. rewrite Rmax_left by lra. ring.
Qed.

Lemma jerk_quad N (X d : nat -> R) :
  quad N (mget (mid N)) X d = / 2 * ssum N (fun i => (X i + d i) ^ 2) - / 2 * ssum N (fun i => X i ^ 2).
Proof.
  unfold quad. rewrite (ssum_ext N (fun i => d i * _) (fun i => d i * d i)).
  2:{ intros i Hi. f_equal. rewrite (ssum_single N i); [|assumption|].
      - cbn [mget mid]. rewrite Nat.eqb_refl. rsimpl. ring.
      - intros k Hk Hne. cbn [mget mid]. apply not_eq_sym in Hne. apply Nat.eqb_neq in Hne. rewrite Hne. rsimpl. ring. }
  replace (ssum N (fun i => (X i + d i) ^ 2)) with (ssum N (fun i => X i ^ 2) + 2 * ssum N (fun i => X i * d i) + ssum N (fun i => d i * d i)).
  - field.
  - rewrite <- ssum_mul_l, <- !ssum_plus. apply ssum_ext. intros; ring.
Qed.

Definition tcost (t : traj R) : (nat -> R) -> R :=
  traj_cost (nN (tmod t)) (nT (tmod t)) (nstate (tmod t)) (wVel (tw t)) (wPos (tw t)) (wJerk (tw t))
    (vget (tvelRef t)) (vget (tposRef t)).
Definition tadm (t : traj R) : (nat -> R) -> Prop :=
  traj_admissible (nN (tmod t)) (nT (tmod t)) (nstate (tmod t)) (nvelLim (tmod t)) (naccLim (tmod t)) (njerkLim (tmod t)).
Definition shift (t : traj R) (d : nat -> R) : nat -> R := fun k => vget (tX t) k + d k.

Lemma problem_cost t q : tinv t -> t_problem t = Ok q ->
  forall d, qcost q d = tcost t (shift t d) - tcost t (vget (tX t)).
Proof.
  intros I H d. pose proof (problem_shape _ _ I H) as (P1 & P2 & P3 & _).
  rewrite qcost_quad, P1, P3. destruct I as ([O1 O2 O3 O4 O5 O6 O7 O8] & [Q1 Q2 Q3 _ _ _ _ _ _ _]).
  rewrite Q1. destruct (fresh_shapes _ O1) as ((V1 & V2 & V3 & V4) & (S1 & S2 & S3 & S4) & _).
  unfold t_problem in H.
  apply bind_ok in H. destruct H as (gv & Hgv & H). apply guard_ok in H. destruct H as (_ & H).
  apply bind_ok in H. destruct H as (gp & Hgp & H). apply guard_ok in H. destruct H as (_ & H).
  apply bind_ok in H. destruct H as (gj & Hgj & H). apply guard_ok in H. destruct H as (_ & H).
  apply bind_ok in H. destruct H as (p1 & E1 & H). apply bind_ok in H. destruct H as (p2 & E2 & H).
  apply bind_ok in H. destruct H as (p3 & E3 & H).
  assert (Ep : qp q = p3).
  { destruct (tmc t); [|injection H as <-; reflexivity].
    do 6 (apply bind_ok in H; destruct H as (? & _ & H)). injection H as <-. reflexivity. }
  rewrite Ep. clear H Ep.
  apply (track_quad _ _ _ _ _ _ _ _ V1 V2 V3 O4 (vel_track _ (nstate (tmod t)) O1)) in Hgv.
  apply (track_quad _ _ _ _ _ _ _ _ S1 S2 S3 O5 (pos_track _ (nstate (tmod t)) O1)) in Hgp.
  destruct Hgv as (_ & _ & _ & _ & _ & Hgv). destruct Hgp as (_ & _ & _ & _ & _ & Hgp).
  unfold jerk_gradient in Hgj. apply guard_ok in Hgj. destruct Hgj as (_ & Hgj). injection Hgj as <-.
  rewrite O4 in Hgv. rewrite O5 in Hgp.
  apply (addW_addG (nN (tmod t))) in E1; [|cbn; assumption]. destruct E1 as (L1 & E1).
  apply (addW_addG (nN (tmod t)) _ _ _ _ L1) in E2. destruct E2 as (L2 & E2).
  apply (addW_addG (nN (tmod t)) _ _ _ _ L2) in E3. destruct E3 as (L3 & E3).
  unfold posed_Q. rewrite E3, E2, E1, Hgv, Hgp, jerk_quad.
  change (mget (mzero (nN (tmod t)) (nN (tmod t)))) with (fun _ _ : nat => 0).
  change (vget (vfill (vlen (qp (tqp t))) s0)) with (fun _ : nat => 0). rewrite quad_zero.
  unfold tcost, traj_cost, shift. ring.
Qed.

Lemma Rabs_le_iff x a : Rabs x <= a <-> - a <= x <= a.
Proof. unfold Rabs. destruct (Rcase_abs x); split; lra. Qed.

Lemma motion_gradient_entry m i j : nodyn_fresh m -> (j < nN m)%nat -> (i < nN m)%nat ->
  mget (motion_gradient m) i j = mget (dU (nvelD m)) i j
  /\ mget (motion_gradient m) (nN m + i) j = mget (dU (naccD m)) i j.
Proof.
  intros F Hj Hi. destruct (fresh_shapes _ F) as ((V1 & V2 & _) & _ & (A1 & A2 & _)).
  unfold motion_gradient. cbn [msetblock mget mzero mrows mcols]. rewrite V1, V2, A1, A2, !Nat.add_0_l, !Nat.sub_0_r.
  assert (E1 : Nat.leb (nN m) i = false) by (apply Nat.leb_gt; lia). rewrite E1. cbn [andb].
  assert (E2 : Nat.ltb i (nN m) = true) by (apply Nat.ltb_lt; lia). rewrite E2.
  assert (E3 : Nat.ltb j (nN m) = true) by (apply Nat.ltb_lt; lia). rewrite E3.
  assert (E4 : Nat.leb (nN m) (nN m + i) = true) by (apply Nat.leb_le; lia). rewrite E4.
  assert (E5 : Nat.ltb (nN m + i) (nN m + nN m) = true) by (apply Nat.ltb_lt; lia). rewrite E5.
  cbn [Nat.leb andb]. split; [reflexivity|]. f_equal. lia.
Qed.
Lemma motion_function_entry m x0 vl al i : nodyn_fresh m -> (i < nN m)%nat ->
  vget (motion_function m (motion_gradient m) x0 vl al) i
  = vl - (ssum (nN m) (fun k => mget (dU (nvelD m)) i k * vget x0 k) + vget (mv (dS (nvelD m)) (vec_of_st3 (nstate m))) i)
  /\ vget (motion_function m (motion_gradient m) x0 vl al) (nN m + i)
  = al - (ssum (nN m) (fun k => mget (dU (naccD m)) i k * vget x0 k) + vget (mv (dS (naccD m)) (vec_of_st3 (nstate m))) i).
Proof.
  intros F Hi. destruct (fresh_shapes _ F) as ((V1 & V2 & V3 & V4) & _ & (A1 & A2 & A3)).
  unfold motion_function. set (sv := mv (dS (nvelD m)) (vec_of_st3 (nstate m))). set (sa := mv (dS (naccD m)) (vec_of_st3 (nstate m))).
  assert (Lv : vlen sv = nN m) by (cbn; assumption). assert (La : vlen sa = nN m) by (cbn; assumption).
  cbn [vget vaddseg vopp vfill vlen]. rewrite Lv, La, !Nat.add_0_l.
  assert (E1 : Nat.leb (nN m) i = false) by (apply Nat.leb_gt; lia).
  assert (E2 : Nat.ltb i (nN m) = true) by (apply Nat.ltb_lt; lia).
  assert (E4 : Nat.leb (nN m) (nN m + i) = true) by (apply Nat.leb_le; lia).
  assert (E5 : Nat.ltb (nN m + i) (nN m + nN m) = true) by (apply Nat.ltb_lt; lia).
  assert (E6 : Nat.ltb (nN m + i) (nN m) = false) by (apply Nat.ltb_ge; lia).
  rewrite E1, E2, E4, E5, E6. cbn [Nat.leb andb]. rewrite Nat.sub_0_r. replace (nN m + i - nN m)%nat with i by lia.
  assert (EC : mcols (motion_gradient m) = nN m) by reflexivity.
  assert (G1 : vget (mv (motion_gradient m) x0) i = ssum (nN m) (fun k => mget (dU (nvelD m)) i k * vget x0 k)).
  { cbn [mv vget]. rewrite EC. apply ssum_ext. intros k Hk. rsimpl. destruct (motion_gradient_entry m i k F Hk Hi) as (-> & _). reflexivity. }
  assert (G2 : vget (mv (motion_gradient m) x0) (nN m + i) = ssum (nN m) (fun k => mget (dU (naccD m)) i k * vget x0 k)).
  { cbn [mv vget]. rewrite EC. apply ssum_ext. intros k Hk. rsimpl. destruct (motion_gradient_entry m i k F Hk Hi) as (_ & ->). reflexivity. }
  rewrite G1, G2. rsimpl. split; ring.
Qed.

Lemma problem_feasible t q : tinv t -> t_problem t = Ok q ->
  forall d, qfeasible q d <->
    (if tmc t then tadm t (shift t d)
     else forall i, (i < nN (tmod t))%nat -> Rabs (d i) <= 100000000000).
Proof.
  intros I H d. pose proof (problem_shape _ _ I H) as (P1 & P2 & P3 & _).
  unfold qfeasible. rewrite P2, P3. destruct I as ([O1 O2 O3 O4 O5 O6 O7 O8] & [Q1 Q2 Q3 Q4 Q5 Q6 Q7 _ _ _]).
  rewrite Q2. unfold t_problem in H.
  apply bind_ok in H. destruct H as (gv & _ & H). apply guard_ok in H. destruct H as (_ & H).
  apply bind_ok in H. destruct H as (gp & _ & H). apply guard_ok in H. destruct H as (_ & H).
  apply bind_ok in H. destruct H as (gj & _ & H). apply guard_ok in H. destruct H as (_ & H).
  apply bind_ok in H. destruct H as (p1 & _ & H). apply bind_ok in H. destruct H as (p2 & _ & H).
  apply bind_ok in H. destruct H as (p3 & _ & H). unfold posed_A, nbCtr in *. destruct (tmc t) eqn:EM.
  2:{ injection H as <-. cbn [qxl qxu qbl qbu vget vfill mzero mrows]. rsimpl.
      split; [intros (H1 & _) i Hi; specialize (H1 i Hi); apply Rabs_le_iff; lra|].
      intros H; split; [|intros; lia]. intros i Hi. specialize (H i Hi). apply Rabs_le_iff in H. lra. }
  unfold motion_functionInf, motion_functionSup, vsetE, vsubE in H.
  apply bind_ok in H. destruct H as (fi & Hfi & H). apply guard_ok in Hfi. destruct Hfi as (_ & Hfi). injection Hfi as <-.
  apply bind_ok in H. destruct H as (fs & Hfs & H). apply guard_ok in Hfs. destruct Hfs as (_ & Hfs). injection Hfs as <-.
  rewrite O6 in H.
  set (fi := motion_function _ _ _ _ _) in H. set (fs := motion_function _ _ _ (nvelLim _) _) in H.
  assert (Lfi : vlen fi = (2 * nN (tmod t))%nat) by reflexivity. assert (Lfs : vlen fs = (2 * nN (tmod t))%nat) by reflexivity.
  do 4 (apply bind_ok in H; destruct H as (? & Hx & H); repeat (apply guard_ok in Hx; destruct Hx as (_ & Hx)); injection Hx as <-).
  injection H as <-. cbn [qxl qxu qbl qbu vget vfill vsub vsetseg vlen]. rewrite Lfi, Lfs. cbn [Nat.leb andb]. rewrite Nat.add_0_l.
  set (N := nN (tmod t)) in *. unfold tadm, traj_admissible, shift. fold N.
  assert (EA : forall i j, (i < 2 * N)%nat -> (j < N)%nat ->
     mget (msetblock (mzero (2 * N) N) 0 0 (motion_gradient (tmod t))) i j = mget (motion_gradient (tmod t)) i j).
  { intros i j Hi Hj. cbn [msetblock mget mzero]. change (mrows (motion_gradient (tmod t))) with (2 * N)%nat.
    change (mcols (motion_gradient (tmod t))) with N. rewrite !Nat.sub_0_r, !Nat.add_0_l. apply Nat.ltb_lt in Hi, Hj. rewrite Hi, Hj. reflexivity. }
  assert (EV : forall i, (i < N)%nat -> vel (sim (nT (tmod t)) (nT (tmod t)) (nstate (tmod t)) (fun k => vget (tX t) k + d k) i)
     = vel (sim (nT (tmod t)) (nT (tmod t)) (nstate (tmod t)) (vget (tX t)) i) + ssum N (fun k => mget (dU (nvelD (tmod t))) i k * d k)).
  { intros i Hi. rewrite <- !(vel_track _ (nstate (tmod t)) O1) by assumption. fold N.
    rewrite (ssum_ext N (fun k => mget (dU (nvelD (tmod t))) i k * (vget (tX t) k + d k))
      (fun k => mget (dU (nvelD (tmod t))) i k * vget (tX t) k + mget (dU (nvelD (tmod t))) i k * d k)) by (intros; ring).
    rewrite ssum_plus. ring. }
  assert (EAc : forall i, (i < N)%nat -> acc (sim (nT (tmod t)) (nT (tmod t)) (nstate (tmod t)) (fun k => vget (tX t) k + d k) i)
     = acc (sim (nT (tmod t)) (nT (tmod t)) (nstate (tmod t)) (vget (tX t)) i) + ssum N (fun k => mget (dU (naccD (tmod t))) i k * d k)).
  { intros i Hi. rewrite <- !(acc_track _ (nstate (tmod t)) O1) by assumption. fold N.
    rewrite (ssum_ext N (fun k => mget (dU (naccD (tmod t))) i k * (vget (tX t) k + d k))
      (fun k => mget (dU (naccD (tmod t))) i k * vget (tX t) k + mget (dU (naccD (tmod t))) i k * d k)) by (intros; ring).
    rewrite ssum_plus. ring. }
  (* rows of the two halves *)
  assert (RV : forall i, (i < N)%nat ->
     ssum N (fun j => mget (msetblock (mzero (2 * N) N) 0 0 (motion_gradient (tmod t))) i j * d j) = ssum N (fun k => mget (dU (nvelD (tmod t))) i k * d k)).
  { intros i Hi. apply ssum_ext. intros j Hj. rewrite EA by lia. destruct (motion_gradient_entry (tmod t) i j O1 Hj Hi) as (-> & _). reflexivity. }
  assert (RA : forall i, (i < N)%nat ->
     ssum N (fun j => mget (msetblock (mzero (2 * N) N) 0 0 (motion_gradient (tmod t))) (N + i) j * d j) = ssum N (fun k => mget (dU (naccD (tmod t))) i k * d k)).
  { intros i Hi. apply ssum_ext. intros j Hj. rewrite EA by lia. destruct (motion_gradient_entry (tmod t) i j O1 Hj Hi) as (_ & E). fold N in E. rewrite E. reflexivity. }
  assert (F : forall vl al i, (i < N)%nat ->
     vget (motion_function (tmod t) (motion_gradient (tmod t)) (tX t) vl al) i = vl - vel (sim (nT (tmod t)) (nT (tmod t)) (nstate (tmod t)) (vget (tX t)) i)
     /\ vget (motion_function (tmod t) (motion_gradient (tmod t)) (tX t) vl al) (N + i) = al - acc (sim (nT (tmod t)) (nT (tmod t)) (nstate (tmod t)) (vget (tX t)) i)).
  { intros vl al i Hi. destruct (motion_function_entry (tmod t) (tX t) vl al i O1 Hi) as (M1 & M2). fold N in M2. rewrite M1, M2.
    rewrite (vel_track _ (nstate (tmod t)) O1) by assumption. rewrite (acc_track _ (nstate (tmod t)) O1) by assumption. auto. }
  cbn [mrows msetblock mzero]. split.
  - intros (HB & HC) i Hi. rewrite EV, EAc by assumption. specialize (HB i Hi).
    pose proof (HC i ltac:(lia)) as C1. pose proof (HC (N + i)%nat ltac:(lia)) as C2.
    rewrite RV in C1 by assumption. rewrite RA in C2 by assumption.
    assert (L1 : Nat.ltb i (2 * N) = true) by (apply Nat.ltb_lt; lia). assert (L2 : Nat.ltb (N + i) (2 * N) = true) by (apply Nat.ltb_lt; lia).
    rewrite L1, Nat.sub_0_r in C1. rewrite L2, Nat.sub_0_r in C2. unfold fi, fs in C1, C2.
    rewrite !(proj1 (F _ _ i Hi)) in C1. rewrite !(proj2 (F _ _ i Hi)) in C2.
    rsimpl. rewrite !Rabs_le_iff. lra.
  - intros HA. split.
    + intros i Hi. specialize (HA i Hi). destruct HA as (_ & _ & HJ). apply Rabs_le_iff in HJ. rsimpl. lra.
    + intros k Hk. rewrite (proj2 (Nat.ltb_lt k (2 * N)) Hk). rewrite Nat.sub_0_r. destruct (Nat.lt_ge_cases k N) as [HkN|HkN].
      * rewrite RV by assumption. unfold fi, fs. rewrite !(proj1 (F _ _ k HkN)).
        specialize (HA k HkN). rewrite EV, EAc, !Rabs_le_iff in HA by assumption. rsimpl. lra.
      * replace k with (N + (k - N))%nat by lia. assert (Hk' : (k - N < N)%nat) by lia.
        rewrite RA by assumption. unfold fi, fs. rewrite !(proj2 (F _ _ (k - N)%nat Hk')).
        specialize (HA (k - N)%nat Hk'). rewrite EV, EAc, !Rabs_le_iff in HA by assumption. rsimpl. lra.
Qed.

(** ** Solving *)
Lemma problem_ok t : tinv t -> vlen (tvelRef t) = nN (tmod t) -> vlen (tposRef t) = nN (tmod t) ->
  exists q, t_problem t = Ok q.
Proof.
  intros ([O1 O2 O3 O4 O5 O6 O7 O8] & [Q1 Q2 Q3 Q4 Q5 Q6 Q7 _ _ _]) HV HP.
  destruct (fresh_shapes _ O1) as ((V1 & V2 & V3 & V4) & (S1 & S2 & S3 & S4) & (A1 & A2 & A3)).
  set (N := nN (tmod t)) in *.
  assert (GT : forall d H ref, mrows (dU d) = N -> mcols (dU d) = N -> dUT d = mtr (dU d) -> mrows (dS d) = N -> H = track_hessian d ->
     vlen ref = N -> exists g, track_gradient N d H (nstate (tmod t)) ref (tX t) = Ok g /\ vlen g = N).
  { intros d H ref R1 R2 R3 R4 -> R6. unfold track_gradient, vsubE, vaddE, track_hessian. rewrite R6, O7, !Nat.eqb_refl. cbn [guard bind vlen mv].
    rewrite R4, R3, Nat.eqb_refl. cbn [guard bind mrows mmul mtr]. rewrite Nat.eqb_refl. cbn [guard bind].
    eexists; split; [reflexivity|]. cbn [vlen vadd mv mrows mmul mtr]. assumption. }
  assert (AG : forall w g p, vlen p = N -> vlen g = N -> exists p', addG (K:=R) w g p = Ok p' /\ vlen p' = N).
  { intros w g p Lp Lg. unfold addG. destruct (sltb s0 w); [|eauto]. unfold vaddE. cbn [vlen vscale]. rewrite Lp, Lg, Nat.eqb_refl. cbn [guard bind].
    eexists; split; [reflexivity|]. assumption. }
  unfold t_problem. fold N.
  destruct (GT _ _ _ V1 V2 V3 V4 O4 HV) as (gv & -> & Lv). cbn [bind]. rewrite Lv, Nat.eqb_refl. cbn [guard bind].
  destruct (GT _ _ _ S1 S2 S3 S4 O5 HP) as (gp & -> & Lp). cbn [bind]. rewrite Lp, Nat.eqb_refl. cbn [guard bind].
  unfold jerk_gradient. rewrite O7, Nat.eqb_refl. cbn [guard bind]. rewrite O7, Nat.eqb_refl. cbn [guard bind].
  destruct (AG (wVel (tw t)) gv (vfill (vlen (qp (tqp t))) s0) Q3 Lv) as (p1 & -> & L1). cbn [bind].
  destruct (AG (wPos (tw t)) gp p1 L1 Lp) as (p2 & -> & L2). cbn [bind].
  destruct (AG (wJerk (tw t)) (tX t) p2 L2 O7) as (p3 & -> & L3). cbn [bind].
  destruct (tmc t) eqn:EM; [|eexists; reflexivity].
  unfold motion_functionInf, motion_functionSup. fold N. rewrite O7, Nat.eqb_refl. cbn [guard bind].
  unfold nbCtr in *. rewrite EM in *. fold N. fold N in Q6, Q7.
  unfold vsetE, vsubE. cbn [vlen vfill]. rewrite Q6, Q7, Q4, Q5, O7, !Nat.eqb_refl, !Nat.leb_refl. cbn [guard bind].
  rewrite O6.
  change (vlen (motion_function (tmod t) (motion_gradient (tmod t)) (tX t) (- nvelLim (tmod t)) (- naccLim (tmod t)))%sc) with (2 * N)%nat.
  change (vlen (motion_function (tmod t) (motion_gradient (tmod t)) (tX t) (nvelLim (tmod t)) (naccLim (tmod t)))%sc) with (2 * N)%nat.
  rewrite !Nat.eqb_refl. cbn [guard bind]. eexists; reflexivity.
Qed.
Lemma problem_refs t q : t_problem t = Ok q -> vlen (tX t) = nN (tmod t) /\ vlen (tvelRef t) = nN (tmod t) /\ vlen (tposRef t) = nN (tmod t).
Proof.
  unfold t_problem, track_gradient. intros H.
  apply bind_ok in H. destruct H as (gv & Hv & H). apply guard_ok in H. destruct H as (_ & H).
  apply bind_ok in H. destruct H as (gp & Hp & H).
  apply guard_ok in Hv. destruct Hv as (V1 & Hv). apply guard_ok in Hv. destruct Hv as (V2 & _).
  apply guard_ok in Hp. destruct Hp as (P1 & Hp). apply guard_ok in Hp. destruct Hp as (P2 & _).
  apply Nat.eqb_eq in V1, V2, P1, P2. repeat split; congruence.
Qed.
Lemma problem_abort t : tinv t -> ~ (vlen (tvelRef t) = nN (tmod t) /\ vlen (tposRef t) = nN (tmod t)) -> t_problem t = Abort.
Proof.
  intros (O & _) H. destruct O as [O1 O2 O3 O4 O5 O6 O7 O8].
  destruct (fresh_shapes _ O1) as ((V1 & V2 & V3 & V4) & _).
  unfold t_problem, track_gradient. rewrite O7. set (N := nN (tmod t)) in *.
  destruct (Nat.eqb_spec (vlen (tvelRef t)) N) as [EV|EV]; [|reflexivity]. cbn [guard bind].
  rewrite O4. unfold vsubE, vaddE, track_hessian. cbn [vlen mv]. rewrite V4, EV, Nat.eqb_refl. cbn [guard bind vlen mv mrows mmul].
  rewrite Nat.eqb_refl. cbn [guard bind vlen vadd mv mrows mmul]. rewrite V3. cbn [mrows mtr]. rewrite V2, Nat.eqb_refl. cbn [guard bind].
  destruct (Nat.eqb_spec (vlen (tposRef t)) N) as [EP|EP]; [|reflexivity]. exfalso. apply H. auto.
Qed.

Lemma dims_ok t q : tinv t -> t_problem t = Ok q -> dimensionsAreConsistent q (snbVar (tsolver t)) (snbCtr (tsolver t)) = true.
Proof.
  intros I H. pose proof (problem_shape _ _ I H) as (P1 & P2 & P3 & P4 & P5 & P6 & P7).
  destruct I as (O & [Q1 Q2 Q3 Q4 Q5 Q6 Q7 Q8 Q9 _]). destruct O as [O1 O2 O3 O4 O5 O6 O7 O8].
  assert (EQ : mrows (qQ q) = nN (tmod t) /\ mcols (qQ q) = nN (tmod t)).
  { rewrite P1, Q1. unfold posed_Q, addW.
    destruct (sltb s0 (wJerk (tw t))), (sltb s0 (wPos (tw t))), (sltb s0 (wVel (tw t))); split; reflexivity. }
  assert (EA : mcols (qA q) = nN (tmod t) /\ mrows (qA q) = nbCtr t).
  { rewrite P2, Q2. unfold posed_A. destruct (tmc t); split; reflexivity. }
  destruct EQ as (E1 & E2), EA as (E3 & E4).
  unfold dimensionsAreConsistent. rewrite Q8, Q9, E1, E2, E3, E4, P3, P4, P5, P6, P7, !Nat.eqb_refl. reflexivity.
Qed.

Lemma solve_ok o f t : tinv t -> 0 < f -> vlen (tvelRef t) = nN (tmod t) -> vlen (tposRef t) = nN (tmod t) ->
  exists r, t_solve o f t = Ok r.
Proof.
  intros I Hf HV HP. destruct (problem_ok t I HV HP) as (q & Hq). pose proof (dims_ok t q I Hq) as HD.
  unfold t_solve. rewrite Hq. cbn [bind]. rsimpl. rewrite (proj2 (Rltb_true 0 f) Hf). cbn [guard bind].
  unfold solver_solve. rewrite HD. cbn [guard bind].
  destruct I as (O & Q). destruct O as [O1 O2 O3 O4 O5 O6 O7 O8]. destruct Q as [Q1 Q2 Q3 Q4 Q5 Q6 Q7 Q8 Q9 _].
  destruct (o _ _) as [x ok]. rewrite Q8, O8, Nat.leb_refl. cbn [ubguard bind]. rewrite andb_false_r. cbn [bind].
  unfold vaddE. cbn [vlen]. rewrite O7, Nat.eqb_refl. cbn [guard bind].
  unfold nodyn_updateState. rewrite updateState_ok by assumption. cbn [bind]. eexists; reflexivity.
Qed.

Lemma solve_X o f t b t' : tinv t -> t_solve o f t = Ok (b, t') ->
  exists q, t_problem t = Ok q /\ (forall i, (i < nN (tmod t))%nat -> vget (tX t') i = shift t (fst (o q 10000%Z)) i)
   /\ 0 < f /\ nstate (tmod t') = updateState_raw (vget (tX t') 0) f (nstate (tmod t)).
Proof.
  intros I H. apply solve_inv in H. destruct H as (q & s & dX & Hq & Hf & Hs & HL & ->).
  pose proof (problem_shape _ _ I Hq) as (P1 & P2 & _). destruct I as (O & Q). pose proof Q as [_ _ _ _ _ _ _ Q8 _ Q10].
  apply solver_solve_inv in Hs; [|rewrite P1, P2; assumption]. destruct Hs as (_ & Hx & _ & Hg).
  exists q. split; [assumption|]. split; [|split; [assumption|reflexivity]].
  intros i Hi. cbn [tX vget vadd]. unfold shift. rewrite Hg by (rewrite Q8; assumption). reflexivity.
Qed.

(** ** The cost and the admissible set only look at the horizon, and are convex *)
Lemma tcost_ext t X Y : (forall i, (i < nN (tmod t))%nat -> X i = Y i) -> tcost t X = tcost t Y.
Proof.
  intros H. unfold tcost, traj_cost. f_equal. f_equal; [f_equal|]; f_equal; apply ssum_ext; intros i Hi;
    try (rewrite (sim_causal _ _ _ X Y i) by (intros; apply H; lia); reflexivity). rewrite H by assumption. reflexivity.
Qed.
Lemma tadm_ext t X Y : (forall i, (i < nN (tmod t))%nat -> X i = Y i) -> tadm t X -> tadm t Y.
Proof.
  intros H A i Hi. specialize (A i Hi). rewrite <- (H i Hi), <- (sim_causal _ _ _ X Y i) by (intros; apply H; lia). assumption.
Qed.

(** Moving from X towards Y by a fraction e. *)
Definition mix (e : R) (X Y : nat -> R) : nat -> R := fun i => X i + e * (Y i - X i).
Lemma sim_mix S T x X Y e i :
  pos (sim S T x (mix e X Y) i) = pos (sim S T x X i) + e * (pos (sim S T x Y i) - pos (sim S T x X i))
  /\ vel (sim S T x (mix e X Y) i) = vel (sim S T x X i) + e * (vel (sim S T x Y i) - vel (sim S T x X i))
  /\ acc (sim S T x (mix e X Y) i) = acc (sim S T x X i) + e * (acc (sim S T x Y i) - acc (sim S T x X i)).
Proof.
  induction i as [|i (IH1 & IH2 & IH3)]; cbn [sim updateState_raw pos vel acc]; rsimpl; unfold mix in *.
  - repeat split; field.
  - rewrite IH1, IH2, IH3. repeat split; field.
Qed.
Lemma sq_mix e a b : (a + e * (b - a)) ^ 2 = a ^ 2 + e * (b ^ 2 - a ^ 2) - e * (1 - e) * (b - a) ^ 2.
Proof. ring. Qed.
Lemma ssum_sq_mix N (f g h : nat -> R) e : 0 <= e <= 1 ->
  (forall i, (i < N)%nat -> h i = f i + e * (g i - f i)) ->
  ssum N (fun i => h i ^ 2)
  <= ssum N (fun i => f i ^ 2) + e * (ssum N (fun i => g i ^ 2) - ssum N (fun i => f i ^ 2)).
Proof.
  intros He H. rewrite <- ssum_minus, <- ssum_mul_l, <- ssum_plus. apply ssum_le. intros i Hi. rewrite H by assumption.
  rewrite sq_mix. pose proof (pow2_ge_0 (g i - f i)) as H1. assert (H2 : 0 <= e * (1 - e)) by nra.
  pose proof (Rmult_le_pos _ _ H2 H1). lra.
Qed.
Lemma tcost_mix t X Y e : 0 <= e <= 1 ->
  tcost t (mix e X Y) <= tcost t X + e * (tcost t Y - tcost t X)
    - / 2 * Rmax 0 (wJerk (tw t)) * (e * (1 - e)) * ssum (nN (tmod t)) (fun i => (Y i - X i) ^ 2).
Proof.
  intros He. unfold tcost, traj_cost. set (N := nN (tmod t)). set (T := nT (tmod t)). set (x := nstate (tmod t)).
  set (vr := vget (tvelRef t)). set (pr := vget (tposRef t)).
  assert (Hv := ssum_sq_mix N (fun i => vel (sim T T x X i) - vr i) (fun i => vel (sim T T x Y i) - vr i)
    (fun i => vel (sim T T x (mix e X Y) i) - vr i) e He ltac:(intros i _; cbv beta; rewrite (proj1 (proj2 (sim_mix T T x X Y e i))); ring)).
  assert (Hp := ssum_sq_mix N (fun i => pos (sim T T x X i) - pr i) (fun i => pos (sim T T x Y i) - pr i)
    (fun i => pos (sim T T x (mix e X Y) i) - pr i) e He ltac:(intros i _; cbv beta; rewrite (proj1 (sim_mix T T x X Y e i)); ring)).
  assert (Hj : ssum N (fun i => mix e X Y i ^ 2) = ssum N (fun i => X i ^ 2) + e * (ssum N (fun i => Y i ^ 2) - ssum N (fun i => X i ^ 2))
     - e * (1 - e) * ssum N (fun i => (Y i - X i) ^ 2)).
  { rewrite <- ssum_minus, <- !ssum_mul_l, <- ssum_plus, <- ssum_minus. apply ssum_ext. intros i _. unfold mix. apply sq_mix. }
  cbv beta in Hv, Hp. rewrite Hj.
  pose proof (Rmax_l 0 (wVel (tw t))) as W1. pose proof (Rmax_l 0 (wPos (tw t))) as W2.
  apply (Rmult_le_compat_l _ _ _ W1) in Hv. apply (Rmult_le_compat_l _ _ _ W2) in Hp. lra.
Qed.
Lemma Rabs_mix e a b l : 0 <= e <= 1 -> Rabs a <= l -> Rabs b <= l -> Rabs (a + e * (b - a)) <= l.
Proof. intros He Ha Hb. apply Rabs_le_iff in Ha, Hb. apply Rabs_le_iff. nra. Qed.
Lemma tadm_mix t X Y e : 0 <= e <= 1 -> tadm t X -> tadm t Y -> tadm t (mix e X Y).
Proof.
  intros He HX HY i Hi. destruct (HX i Hi) as (X1 & X2 & X3). destruct (HY i Hi) as (Y1 & Y2 & Y3).
  destruct (sim_mix (nT (tmod t)) (nT (tmod t)) (nstate (tmod t)) X Y e i) as (_ & -> & ->).
  repeat split; apply Rabs_mix; assumption.
Qed.

(** ** Reconfiguration always succeeds *)
Lemma nodyn_auto_ok m : (0 < nN m)%nat -> 0 < nT m -> exists m', nodyn_auto (K:=R) m = Ok m'.
Proof.
  intros HN HT. unfold nodyn_auto, nodyn_computeDynamics, computePosDynamic, computeVelDynamic, computeAccDynamic.
  destruct (nauto m); [|eexists; reflexivity]. rsimpl. rewrite sabs_Rabs, Rabs_right by lra.
  rewrite (proj2 (Rltb_true 0 (nT m)) HT), (proj2 (Nat.ltb_lt 0 (nN m)) HN). cbn [guard bind]. eexists; reflexivity.
Qed.
Lemma compute_ok t : obj_fresh t -> exists t', t_computeConstantPart t = Ok t'.
Proof.
  intros [O1 O2 O3 O4 O5 O6 O7 O8]. destruct (fresh_shapes _ O1) as ((V1 & V2 & V3 & V4) & (S1 & S2 & S3 & S4) & _).
  unfold t_computeConstantPart, nbCtr. rewrite O3, O4, O5, O6. unfold hasSize, track_hessian. cbn [mrows mcols mmul mid]. rewrite V3, S3.
  cbn [mrows mcols mtr]. rewrite V2, S2, !Nat.eqb_refl. cbn [andb guard bind].
  destruct (tmc t); cbn [negb orb]; [|eexists; reflexivity].
  change (mrows (motion_gradient (tmod t))) with (2 * nN (tmod t))%nat. change (mcols (motion_gradient (tmod t))) with (nN (tmod t)).
  rewrite !Nat.eqb_refl. cbn [andb guard bind]. eexists; reflexivity.
Qed.
