(** The trajectory generator with another origin, and on a reversed axis (C75). *)

From Coq Require Import Reals List ZArith Lra Lia Arith Bool FunctionalExtensionality.
From Verif Require Import Scalar LinAlg LinAlgFacts ToolsModel NoDynModel QPModel QPFacts TrajModel TrajFacts ModelsFacts ShiftSpec ZebShiftSpec ZebShift TrajShiftSpec.
Import ListNotations.
Local Open Scope R_scope.

(** ** Another origin *)
Section Origin.
Variable a : R.
Lemma at_problem t : tinv t -> t_problem (t_at a t) = t_problem t.
Proof.
  intros (O & _). pose proof (of_mod _ O) as F. pose proof (pos_like _ _ _ _ (nf_pos _ F)) as P. pose proof (vel_like _ _ _ _ (nf_vel _ F)) as V. pose proof (acc_like _ _ _ _ (nf_acc _ F)) as A.
  unfold t_problem, t_at. cbn [tmod tjerkH tvelH tposH tmotG tvelRef tposRef tw tmc tdX tX tqp tsolver]. unfold nbCtr, nodyn_withState. cbn [tmod tmc nN nstate nvelD nposD].
  unfold motion_functionInf, motion_functionSup, motion_function. cbn [nN nstate nvelD naccD nvelLim naccLim njerkLim].
  unfold track_gradient. rewrite (mv_flat _ _ _ _ V), (mv_flat _ _ _ _ A). change (vlen (carried_all a (tposRef t))) with (vlen (tposRef t)).
  assert (E : forall x, (do tmp <- vsubE (mv (dS (nposD (tmod t))) (vec_of_st3 (carried a (nstate (tmod t))))) (carried_all a (tposRef t)); vaddE x (mv (dUT (nposD (tmod t))) tmp))
            = (do tmp <- vsubE (mv (dS (nposD (tmod t))) (vec_of_st3 (nstate (tmod t)))) (tposRef t); vaddE x (mv (dUT (nposD (tmod t))) tmp))).
  { intros x. unfold vsubE. change (vlen (carried_all a (tposRef t))) with (vlen (tposRef t)). change (vlen (mv (dS (nposD (tmod t))) (vec_of_st3 (carried a (nstate (tmod t)))))) with (vlen (mv (dS (nposD (tmod t))) (vec_of_st3 (nstate (tmod t))))).
    destruct (Nat.eqb _ _); [|reflexivity]. cbn [guard bind]. f_equal. apply mv_same. intros i _. unfold vsub, carried_all. cbn [vget]. rewrite mv_carried by apply P. rewrite (lk_0 _ _ _ P). rsimpl. ring. }
  rewrite E. reflexivity.
Qed.
Lemma at_state j T s : updateState j T (carried a s) = outcome_map (carried a) (updateState j T s).
Proof. unfold updateState. destruct (guard _); try reflexivity. cbn [bind outcome_map]. unfold updateState_raw, carried. cbn [pos vel acc]. do 2 f_equal. rsimpl. ring. Qed.
Lemma at_solve o f t : tinv t -> t_solve o f (t_at a t) = outcome_map (fun r => (fst r, t_at a (snd r))) (t_solve o f t).
Proof.
  intros I. unfold t_solve. rewrite (at_problem _ I). destruct (t_problem t) as [q| | | |]; try reflexivity. cbn [bind]. destruct (guard _); try reflexivity. cbn [bind].
  change (solver_solve o (tsolver (t_at a t)) q 10000%Z (tdX (t_at a t)) true false) with (solver_solve o (tsolver t) q 10000%Z (tdX t) true false).
  destruct (solver_solve _ _ _ _ _ _ _) as [((s & dX) & fd)| | | |]; try reflexivity. cbn [bind]. change (tX (t_at a t)) with (tX t). destruct (vaddE _ _) as [X| | | |]; try reflexivity. cbn [bind].
  unfold nodyn_updateState. change (nstate (tmod (t_at a t))) with (carried a (nstate (tmod t))). rewrite at_state. destruct (updateState _ _ _); reflexivity.
Qed.
Lemma at_compute : commutes (t_at a) t_computeConstantPart.
Proof. intros t. unfold t_computeConstantPart. repeat same_start. Qed.
Lemma at_auto m : nodyn_auto (nodyn_withState (carried a (nstate m)) m) = outcome_map (fun m => nodyn_withState (carried a (nstate m)) m) (nodyn_auto m).
Proof. unfold nodyn_auto. change (nauto (nodyn_withState (carried a (nstate m)) m)) with (nauto m). destruct (nauto m); [|reflexivity]. unfold nodyn_computeDynamics. repeat same_start. Qed.
Lemma at_step c t : tinv t -> tstep (t_at_call a c) (t_at a t) = outcome_map (t_at a) (tstep c t).
Proof.
  intros I. destruct c; cbn [t_at_call tstep].
  - unfold t_setNbSamples, nodyn_setNbSamples. same_start. rewrite ?map_bind. 
    match goal with |- context [nodyn_auto (MkNoDyn ?x0 ?x1 ?x2 (nstate (tmod (t_at a t))) ?x4 ?x5 ?x6 ?x7 ?x8 ?x9 ?x10)] =>
      change (nodyn_auto (MkNoDyn x0 x1 x2 (nstate (tmod (t_at a t))) x4 x5 x6 x7 x8 x9 x10)) with (nodyn_auto (nodyn_withState (carried a (nstate (MkNoDyn x0 x1 x2 (nstate (tmod t)) x4 x5 x6 x7 x8 x9 x10))) (MkNoDyn x0 x1 x2 (nstate (tmod t)) x4 x5 x6 x7 x8 x9 x10))) end.
    rewrite at_auto, bind_map. apply bind_same. intros m _. exact (at_compute (t_objectives (t_setX (t_setMod t m) (vzero n) (vzero n)))).
  - unfold t_setSamplingPeriod, nodyn_setSamplingPeriod. same_start. rewrite ?map_bind.
    match goal with |- context [nodyn_auto (MkNoDyn ?x0 ?x1 ?x2 (nstate (tmod (t_at a t))) ?x4 ?x5 ?x6 ?x7 ?x8 ?x9 ?x10)] =>
      change (nodyn_auto (MkNoDyn x0 x1 x2 (nstate (tmod (t_at a t))) x4 x5 x6 x7 x8 x9 x10)) with (nodyn_auto (nodyn_withState (carried a (nstate (MkNoDyn x0 x1 x2 (nstate (tmod t)) x4 x5 x6 x7 x8 x9 x10))) (MkNoDyn x0 x1 x2 (nstate (tmod t)) x4 x5 x6 x7 x8 x9 x10))) end.
    rewrite at_auto, bind_map. apply bind_same. intros m _. exact (at_compute (t_objectives (t_setMod t m))).
  - unfold t_setVelRef. same_start.
  - unfold t_setPosRef. same_start.
  - unfold t_setVelLimit, nodyn_setVelocityLimit. destruct (guard _); reflexivity.
  - unfold t_setAccLimit, nodyn_setAccelerationLimit. destruct (guard _); reflexivity.
  - unfold t_setJerkLimit, nodyn_setJerkLimit. destruct (guard _); reflexivity.
  - unfold t_setState, nodyn_setState, st3_of_vec. change (vlen (carried_vec a s)) with (vlen s). destruct (guard _); reflexivity.
  - unfold t_setWeightings. repeat same_start. apply (at_compute (MkTraj (tmod t) (tjerkH t) (tvelH t) (tposH t) (tmotG t) (tvelRef t) (tposRef t) w (tmc t) (tdX t) (tX t) (tqp t) (tsolver t))).
  - unfold t_setConfig. apply (at_compute (MkTraj (tmod t) (tjerkH t) (tvelH t) (tposH t) (tmotG t) (tvelRef t) (tposRef t) (tw t) c (tdX t) (tX t) (tqp t) (tsolver t))).
  - rewrite (at_solve _ _ _ I). destruct (t_solve o feedBackPeriod t); reflexivity.
Qed.
End Origin.

(** ** The axis the other way round *)
Ltac vecs := unfold vopp, vadd, vsub, vscale, vfill, vaddseg, vsetseg, vzero; cbn [vlen vget]; f_equal; apply functional_extensionality; intros i.
Lemma opp_opp (v : vec R) : vopp (vopp v) = v.
Proof. destruct v. vecs. rsimpl. ring. Qed.
Lemma opp_fill n (x : R) : vopp (vfill n x) = vfill n (- x).
Proof. reflexivity. Qed.
Lemma opp_zero n : vopp (vzero n : vec R) = vzero n.
Proof. vecs. rsimpl. ring. Qed.
Lemma opp_add (v w : vec R) : vadd (vopp v) (vopp w) = vopp (vadd v w).
Proof. vecs. rsimpl. ring. Qed.
Lemma opp_sub (v w : vec R) : vsub (vopp v) (vopp w) = vopp (vsub v w).
Proof. vecs. rsimpl. ring. Qed.
Lemma opp_scale k (v : vec R) : vscale k (vopp v) = vopp (vscale k v).
Proof. vecs. rsimpl. ring. Qed.
Lemma opp_addseg (v w : vec R) k : vaddseg (vopp v) k (vopp w) = vopp (vaddseg v k w).
Proof. vecs. destruct (_ && _)%bool; [|reflexivity]. rsimpl. ring. Qed.
Lemma opp_setseg (v w : vec R) k : vsetseg (vopp v) k (vopp w) = vopp (vsetseg v k w).
Proof. vecs. destruct (_ && _)%bool; reflexivity. Qed.
Lemma opp_mv (D : mat R) x : mv D (vopp x) = vopp (mv D x).
Proof. unfold mv, vopp. cbn [vlen vget]. f_equal. apply functional_extensionality. intros i. induction (mcols D) as [|n IH]; cbn [ssum]; [rsimpl; ring|]. rewrite IH. rsimpl. ring. Qed.
Lemma opp_state s : vec_of_st3 (reversed_state s) = vopp (vec_of_st3 s).
Proof. unfold vec_of_st3, vopp, reversed_state. cbn [vlen vget pos vel acc]. f_equal. apply functional_extensionality. intros [|[|i]]; reflexivity. Qed.
Lemma opp_addE (v w : vec R) : vaddE (vopp v) (vopp w) = outcome_map vopp (vaddE v w).
Proof. unfold vaddE. change (vlen (vopp v)) with (vlen v). change (vlen (vopp w)) with (vlen w). destruct (guard _); try reflexivity. cbn [bind outcome_map]. rewrite opp_add. reflexivity. Qed.
Lemma opp_subE (v w : vec R) : vsubE (vopp v) (vopp w) = outcome_map vopp (vsubE v w).
Proof. unfold vsubE. change (vlen (vopp v)) with (vlen v). change (vlen (vopp w)) with (vlen w). destruct (guard _); try reflexivity. cbn [bind outcome_map]. rewrite opp_sub. reflexivity. Qed.
Lemma opp_setE (v w : vec R) n : vsetE (vopp v) n (vopp w) = outcome_map vopp (vsetE v n w).
Proof. unfold vsetE. change (vlen (vopp v)) with (vlen v). change (vlen (vopp w)) with (vlen w). destruct (guard _); try reflexivity. cbn [bind]. destruct (guard _); try reflexivity. cbn [bind outcome_map]. rewrite opp_setseg. reflexivity. Qed.
Lemma opp_track N d H s r x : track_gradient N d H (reversed_state s) (vopp r) (vopp x) = outcome_map vopp (track_gradient N d H s r x).
Proof.
  unfold track_gradient. change (vlen (vopp r)) with (vlen r). change (vlen (vopp x)) with (vlen x). destruct (guard _); try reflexivity. cbn [bind]. destruct (guard _); try reflexivity. cbn [bind].
  rewrite opp_state, opp_mv, opp_subE, bind_map, map_bind. apply bind_same. intros y _. rewrite !opp_mv. apply opp_addE.
Qed.
Lemma opp_addG w g p : addG w (vopp g) (vopp p) = outcome_map vopp (addG w g p).
Proof. unfold addG. destruct (sltb s0 w); [|reflexivity]. rewrite opp_scale. apply opp_addE. Qed.
Lemma opp_motion m G x v c : motion_function (nodyn_withState (reversed_state (nstate m)) m) G (vopp x) (- v) (- c) = vopp (motion_function m G x v c).
Proof.
  unfold motion_function, nodyn_withState. cbn [nN nstate nvelD naccD]. rewrite !opp_state, !opp_mv, <- !opp_fill, !opp_addseg. reflexivity.
Qed.
Lemma reversed_problem t : t_problem (t_reversed t) = outcome_map reversed_qp (t_problem t).
Proof.
  unfold t_problem, t_reversed. cbn [tmod tjerkH tvelH tposH tmotG tvelRef tposRef tw tmc tdX tX tqp tsolver]. unfold nbCtr. cbn [tmod tmc].
  set (m := tmod t). set (m' := nodyn_withState (reversed_state (nstate m)) m).
  change (nN m') with (nN m). change (nvelD m') with (nvelD m). change (nposD m') with (nposD m). change (nstate m') with (reversed_state (nstate m)). change (njerkLim m') with (njerkLim m).
  rewrite opp_track, bind_map, map_bind. apply bind_same. intros gv _. change (vlen (vopp gv)) with (vlen gv). rewrite map_bind. apply bind_same. intros _ _.
  rewrite opp_track, bind_map, map_bind. apply bind_same. intros gp _. change (vlen (vopp gp)) with (vlen gp). rewrite map_bind. apply bind_same. intros _ _.
  unfold jerk_gradient. change (vlen (vopp (tX t))) with (vlen (tX t)). rewrite !map_bind.
  destruct (guard _); try reflexivity. cbn [bind]. change (vlen (vopp (tX t))) with (vlen (tX t)). rewrite ?map_bind. apply bind_same. intros _ _.
  cbn [reversed_qp qQ qp qxl qxu qA qbu qbl]. change (vlen (vopp (qp (tqp t)))) with (vlen (qp (tqp t))).
  assert (Z : vfill (vlen (qp (tqp t))) s0 = vopp (vfill (vlen (qp (tqp t))) (s0 : R))) by (rewrite opp_fill; f_equal; rsimpl; ring).
  rewrite Z, opp_addG, bind_map, ?map_bind, <- Z. apply bind_same. intros p1 _. rewrite opp_addG, bind_map, ?map_bind. apply bind_same. intros p2 _. rewrite opp_addG, bind_map, ?map_bind. apply bind_same. intros p3 _.
  set (q := tqp t). change (vlen (vopp (qxu q))) with (vlen (qxu q)). change (vlen (vopp (qxl q))) with (vlen (qxl q)). change (vlen (vopp (qbu q))) with (vlen (qbu q)). change (vlen (vopp (qbl q))) with (vlen (qbl q)).
  assert (M1 : forall n, vfill n (sopp MAXB) = vopp (vfill n (MAXB : R))) by (intros n; rewrite opp_fill; reflexivity).
  assert (M2 : forall n, vfill n MAXB = vopp (vfill n (sopp (MAXB : R)))) by (intros n; rewrite opp_fill; f_equal; rsimpl; ring).
  destruct (tmc t).
  - unfold motion_functionInf, motion_functionSup. change (nN m') with (nN m). change (nvelLim m') with (nvelLim m). change (naccLim m') with (naccLim m). change (vlen (vopp (tX t))) with (vlen (tX t)).
    destruct (guard (Nat.eqb (nN m) (vlen (tX t)))); try reflexivity. cbn [bind].
    assert (F1 : motion_function m' (tmotG t) (vopp (tX t)) (- nvelLim m)%sc (- naccLim m)%sc = vopp (motion_function m (tmotG t) (tX t) (nvelLim m) (naccLim m))) by (apply (opp_motion m (tmotG t) (tX t) (nvelLim m) (naccLim m))).
    assert (F2 : motion_function m' (tmotG t) (vopp (tX t)) (nvelLim m) (naccLim m) = vopp (motion_function m (tmotG t) (tX t) (- nvelLim m)%sc (- naccLim m)%sc)).
    { replace (nvelLim m) with (- - nvelLim m) at 1 by ring. replace (naccLim m) with (- - naccLim m) at 1 by ring. apply (opp_motion m (tmotG t) (tX t) (- nvelLim m) (- naccLim m)). }
    rewrite F1, F2. rewrite (M1 (vlen (qbu q))), (M2 (vlen (qbl q))), !opp_setE.
    assert (J1 : vfill (vlen (qxl q)) (njerkLim m) = vopp (vfill (vlen (qxl q)) (- njerkLim m)%sc)) by (rewrite opp_fill; f_equal; rsimpl; ring).
    assert (J2 : vfill (vlen (qxu q)) (- njerkLim m)%sc = vopp (vfill (vlen (qxu q)) (njerkLim m))) by (rewrite opp_fill; reflexivity).
    rewrite J1, J2, !opp_subE. clear J1 J2.
    assert (W1 : forall v n w, (exists x, vsetE v n w = Ok x) \/ vsetE (K:=R) v n w = Abort) by (intros v n w; unfold vsetE; destruct (Nat.leb n (vlen v)), (Nat.eqb n (vlen w)); cbn [guard bind]; eauto).
    assert (W2 : forall v w, (exists x, vsubE v w = Ok x) \/ vsubE (K:=R) v w = Abort) by (intros v w; unfold vsubE; destruct (Nat.eqb (vlen v) (vlen w)); cbn [guard bind]; eauto).
    match goal with |- bind (outcome_map _ ?x) _ = outcome_map _ (bind ?y _) => assert (X1 : (exists v, x = Ok v) \/ x = Abort) by apply W1; assert (X2 : (exists v, y = Ok v) \/ y = Abort) by apply W1; set (r1 := x) in *; set (r2 := y) in * end.
    assert (X3 := W2 (vfill (vlen (qxl q)) (sopp (njerkLim m))) (tX t)). assert (X4 := W2 (vfill (vlen (qxu q)) (njerkLim m)) (tX t)). set (r3 := vsubE (vfill (vlen (qxl q)) (sopp (njerkLim m))) (tX t)) in *. set (r4 := vsubE (vfill (vlen (qxu q)) (njerkLim m)) (tX t)) in *.
    clearbody r1 r2 r3 r4. destruct X1 as [(v1 & ->)| ->], X2 as [(v2 & ->)| ->]; try reflexivity; destruct X3 as [(v3 & ->)| ->], X4 as [(v4 & ->)| ->]; reflexivity.
  - cbn [outcome_map]. unfold reversed_qp. cbn [qQ qp qxl qxu qA qbu qbl]. rewrite <- !M1, <- !M2. reflexivity.
Qed.
Lemma reversed_twice q : reversed_qp (reversed_qp q) = q.
Proof. destruct q as [x1 x2 x3 x4 x5 x6 x7]. unfold reversed_qp. cbn [qQ qp qxl qxu qA qbu qbl]. rewrite !opp_opp. reflexivity. Qed.
Lemma reversed_effective s w q : effective s w (reversed_qp q) = reversed_qp (effective s w q).
Proof. unfold effective. destruct (smem s) as [(Q & A)|]; [|reflexivity]. destruct w; reflexivity. Qed.
Lemma reversed_dimensions q n m : dimensionsAreConsistent (reversed_qp q) n m = dimensionsAreConsistent q n m.
Proof.
  unfold dimensionsAreConsistent, reversed_qp. cbn [qQ qp qxl qxu qA qbu qbl vopp vlen].
  destruct (Nat.eqb (mrows (qQ q)) n), (Nat.eqb (mcols (qQ q)) n), (Nat.eqb (vlen (qp q)) n), (Nat.eqb (vlen (qxl q)) n), (Nat.eqb (vlen (qxu q)) n), (Nat.eqb (mcols (qA q)) n), (Nat.eqb (mrows (qA q)) m), (Nat.eqb (vlen (qbl q)) m), (Nat.eqb (vlen (qbu q)) m); reflexivity.
Qed.
Lemma reversed_solves o s q it d : solver_solve (reversed_solver o) s (reversed_qp q) it (vopp d) true false
  = outcome_map (fun r => (fst (fst r), vopp (snd (fst r)), snd r)) (solver_solve o s q it d true false).
Proof.
  unfold solver_solve. rewrite reversed_dimensions. destruct (guard _); try reflexivity. cbn [bind]. rewrite reversed_effective. unfold reversed_solver. rewrite reversed_twice.
  destruct (o _ it) as (x & ok). change (vlen (vopp d)) with (vlen d). destruct (ubguard _); try reflexivity. cbn [bind]. rewrite Bool.andb_false_r. cbn [outcome_map fst snd qQ qA reversed_qp].
  assert (E : MkVec (vlen d) (fun i => if Nat.ltb i (snbVar s) then - x i else vget (vopp d) i) = vopp (MkVec (vlen d) (fun i => if Nat.ltb i (snbVar s) then x i else vget d i))).
  { unfold vopp. cbn [vlen vget]. f_equal. apply functional_extensionality. intros i. destruct (Nat.ltb i (snbVar s)); reflexivity. }
  rewrite E. reflexivity.
Qed.
Lemma reversed_update j T s : updateState (- j) T (reversed_state s) = outcome_map reversed_state (updateState j T s).
Proof. unfold updateState. destruct (guard _); try reflexivity. cbn [bind outcome_map]. unfold updateState_raw, reversed_state. cbn [pos vel acc]. f_equal. f_equal; rsimpl; field. Qed.
Lemma reversed_solve o f t : t_solve (reversed_solver o) f (t_reversed t) = outcome_map (fun r => (fst r, t_reversed (snd r))) (t_solve o f t).
Proof.
  unfold t_solve. rewrite reversed_problem, bind_map, map_bind. apply bind_same. intros q _. destruct (guard _); try reflexivity. cbn [bind].
  change (tsolver (t_reversed t)) with (tsolver t). change (tdX (t_reversed t)) with (vopp (tdX t)). rewrite reversed_solves, bind_map, map_bind. apply bind_same. intros ((s & dX) & fd) _. cbn [fst snd].
  change (tX (t_reversed t)) with (vopp (tX t)). rewrite opp_addE, bind_map, map_bind. apply bind_same. intros X _. unfold nodyn_updateState.
  change (nstate (tmod (t_reversed t))) with (reversed_state (nstate (tmod t))). change (vget (vopp X) 0) with (- vget X 0). rewrite reversed_update. destruct (updateState _ _ _); reflexivity.
Qed.
Lemma reversed_compute : commutes t_reversed t_computeConstantPart.
Proof.
  intros t. unfold t_computeConstantPart. repeat (match goal with |- bind ?r _ = outcome_map _ (bind ?r' _) => change r with r'; destruct r'; cbn [bind]; [|reflexivity..] end).
  cbn [outcome_map]. f_equal. unfold t_reversed, t_setQP, reversed_qp, nbCtr. cbn [tmod tjerkH tvelH tposH tmotG tvelRef tposRef tw tmc tdX tX tqp tsolver qQ qp qxl qxu qA qbu qbl nodyn_withState nN].
  rewrite !opp_zero. reflexivity.
Qed.
Lemma reversed_auto m : nodyn_auto (nodyn_withState (reversed_state (nstate m)) m) = outcome_map (fun m => nodyn_withState (reversed_state (nstate m)) m) (nodyn_auto m).
Proof. unfold nodyn_auto. change (nauto (nodyn_withState (reversed_state (nstate m)) m)) with (nauto m). destruct (nauto m); [|reflexivity]. unfold nodyn_computeDynamics. repeat same_start. Qed.
Lemma reversed_step c t : tstep (t_reversed_call c) (t_reversed t) = outcome_map t_reversed (tstep c t).
Proof.
  destruct c; cbn [t_reversed_call tstep].
  - unfold t_setNbSamples, nodyn_setNbSamples. same_start. rewrite ?map_bind.
    match goal with |- context [nodyn_auto (MkNoDyn ?x0 ?x1 ?x2 (nstate (tmod (t_reversed t))) ?x4 ?x5 ?x6 ?x7 ?x8 ?x9 ?x10)] =>
      change (nodyn_auto (MkNoDyn x0 x1 x2 (nstate (tmod (t_reversed t))) x4 x5 x6 x7 x8 x9 x10)) with (nodyn_auto (nodyn_withState (reversed_state (nstate (MkNoDyn x0 x1 x2 (nstate (tmod t)) x4 x5 x6 x7 x8 x9 x10))) (MkNoDyn x0 x1 x2 (nstate (tmod t)) x4 x5 x6 x7 x8 x9 x10))) end.
    rewrite reversed_auto, bind_map. apply bind_same. intros m _. rewrite <- (reversed_compute (t_objectives (t_setX (t_setMod t m) (vzero n) (vzero n)))).
    f_equal. unfold t_reversed at 2, t_objectives, t_setX, t_setMod. cbn [tmod tjerkH tvelH tposH tmotG tvelRef tposRef tw tmc tdX tX tqp tsolver]. rewrite !opp_zero. reflexivity.
  - unfold t_setSamplingPeriod, nodyn_setSamplingPeriod. same_start. rewrite ?map_bind.
    match goal with |- context [nodyn_auto (MkNoDyn ?x0 ?x1 ?x2 (nstate (tmod (t_reversed t))) ?x4 ?x5 ?x6 ?x7 ?x8 ?x9 ?x10)] =>
      change (nodyn_auto (MkNoDyn x0 x1 x2 (nstate (tmod (t_reversed t))) x4 x5 x6 x7 x8 x9 x10)) with (nodyn_auto (nodyn_withState (reversed_state (nstate (MkNoDyn x0 x1 x2 (nstate (tmod t)) x4 x5 x6 x7 x8 x9 x10))) (MkNoDyn x0 x1 x2 (nstate (tmod t)) x4 x5 x6 x7 x8 x9 x10))) end.
    rewrite reversed_auto, bind_map. apply bind_same. intros m _. exact (reversed_compute (t_objectives (t_setMod t m))).
  - unfold t_setVelRef. same_start.
  - unfold t_setPosRef. same_start.
  - unfold t_setVelLimit, nodyn_setVelocityLimit. destruct (guard _); reflexivity.
  - unfold t_setAccLimit, nodyn_setAccelerationLimit. destruct (guard _); reflexivity.
  - unfold t_setJerkLimit, nodyn_setJerkLimit. destruct (guard _); reflexivity.
  - unfold t_setState, nodyn_setState, st3_of_vec. change (vlen (vopp s)) with (vlen s). destruct (guard _); reflexivity.
  - unfold t_setWeightings. do 2 same_start. apply (reversed_compute (MkTraj (tmod t) (tjerkH t) (tvelH t) (tposH t) (tmotG t) (tvelRef t) (tposRef t) w (tmc t) (tdX t) (tX t) (tqp t) (tsolver t))).
  - unfold t_setConfig. apply (reversed_compute (MkTraj (tmod t) (tjerkH t) (tvelH t) (tposH t) (tmotG t) (tvelRef t) (tposRef t) (tw t) c (tdX t) (tX t) (tqp t) (tsolver t))).
  - rewrite reversed_solve. destruct (t_solve o feedBackPeriod t); reflexivity.
Qed.

(** ** Minimisers *)
Lemma opp_sum n (f : nat -> R) : ssum n (fun i => - f i) = - ssum n f.
Proof. induction n as [|n IH]; cbn [ssum]; [rsimpl; ring|]. rewrite IH. rsimpl. ring. Qed.
Lemma reversed_cost q x : qcost (reversed_qp q) (fun i => - x i) = qcost q x.
Proof.
  unfold qcost. cbn [reversed_qp qp qQ vopp vlen vget]. f_equal; [f_equal|]; apply ssum_ext; intros i _; [|rsimpl; ring].
  rewrite (ssum_ext _ (fun j => mget (qQ q) i j * - x j) (fun j => - (mget (qQ q) i j * x j))) by (intros; ring). rewrite opp_sum. ring.
Qed.
Lemma reversed_feasible q x : qfeasible q x -> qfeasible (reversed_qp q) (fun i => - x i).
Proof.
  intros (H1 & H2). split; cbn [reversed_qp qp qQ qA qxl qxu qbl qbu vopp vlen vget].
  - intros i Hi. specialize (H1 i Hi). rsimpl. lra.
  - intros k Hk. specialize (H2 k Hk). rewrite (ssum_ext _ (fun j => mget (qA q) k j * - x j) (fun j => - (mget (qA q) k j * x j))) by (intros; ring). rewrite opp_sum. rsimpl. lra.
Qed.
Lemma reversed_minimiser q x : qminimiser q x -> qminimiser (reversed_qp q) (fun i => - x i).
Proof.
  intros (H1 & H2). split; [apply reversed_feasible; auto|]. intros y Hy. apply reversed_feasible in Hy. rewrite reversed_twice in Hy. specialize (H2 _ Hy).
  rewrite reversed_cost. rewrite <- (reversed_twice q) in H2 at 2. rewrite (reversed_cost (reversed_qp q) y) in H2. exact H2.
Qed.
