(** C73: the state that the generators integrate in float or double stays close to the exact motion under the jerks they report.

    Simplification of the arithmetic: every operation is rounded to the same format.  In the code std::pow (src/tools.cpp:259-265)
    has the type double also when the scalar is float, so that a few intermediate products carry more digits there. *)

From Coq Require Import Reals List ZArith Arith Bool Lra Lia Psatz.
From Flocq Require Import Core.
From Verif Require Import Scalar LinAlg LinAlgFacts ModelsFacts ToolsModel NoDynModel QPModel TrajModel PolygonModel LipModel FootModel SupModel HumModel.
From Verif Require Import RoundModel RoundSpec DriftSpec DriftFacts PropRound.
Import ListNotations.
Local Open Scope R_scope.

(** One update of a state: the errors of the position, the velocity and the acceleration. *)
Theorem C73_one_update : forall rnd u eta P V A J (T j : fl rnd) s s', rounding rnd u eta -> u <= 1/1000 -> eta <= 1 -> val T <= 1 ->
  calm (val T) P V A J (exact_of s) (val j) -> updateState j T s = Ok s' ->
  let e := flow (val T) (val j) (exact_of s) in
  Rabs (val (pos s') - pos e) <= err_pos u eta P A J /\ Rabs (val (vel s') - vel e) <= err_vel u eta V J
  /\ Rabs (val (acc s') - acc e) <= err_acc u eta A.
Proof.
  intros rnd u eta P V A J T j s s' HR Hu He T1 C H. unfold updateState in H. apply guard_ok in H. destruct H as (H0 & H). injection H as <-.
  apply Rltb_true in H0. exact (one_call rnd u eta HR Hu He T P V A J H0 T1 j s C).
Qed.

Lemma no_drift T ep ev ea s : drift 0 T ep ev ea s s.
Proof.
  unfold drift. cbn [INR]. rewrite !Rminus_eq_0, Rabs_R0.
  split; [|split]; match goal with |- 0 <= ?x => replace x with 0 by field; lra end.
Qed.

(** The trajectory generator, after any calls that do not set its state, of which n are solves *)
Theorem C73_trajectory : forall rnd u eta P V A J (f : fl rnd) cs t t', rounding rnd u eta -> u <= 1/1000 -> eta <= 1 -> 0 < val f <= 1 ->
  tsteps cs t = Ok t' -> Forall (t_steady f) cs -> calm_log (val f) P V A J (t_log cs t) ->
  drift (length (t_log cs t)) (val f) (err_pos u eta P A J) (err_vel u eta V J) (err_acc u eta A)
    (exact_of (t_getState t')) (motion (val f) (jerks (t_log cs t)) (exact_of (t_getState t))).
Proof.
  intros rnd u eta P V A J f cs t t' HR Hu He (F0 & F1) H S C.
  pose proof (traj_drift rnd u eta HR Hu He f P V A J F0 F1 cs t t' 0 _ H S C (no_drift _ _ _ _ _)) as D. rewrite Nat.add_0_r in D. exact D.
Qed.

(** The centre of mass of the humanoid generator, along x and along y *)
Theorem C73_humanoid : forall rnd (TK : Trig (fl rnd)) u eta P V A J (f : fl rnd) cs h h', rounding rnd u eta -> u <= 1/1000 -> eta <= 1 -> 0 < val f <= 1 ->
  hsteps cs h = Ok h' -> Forall (h_steady f) cs ->
  let lx := map fst (h_log cs h) in let ly := map snd (h_log cs h) in
  calm_log (val f) P V A J lx -> calm_log (val f) P V A J ly ->
  let close s r := drift (length (h_log cs h)) (val f) (err_pos u eta P A J) (err_vel u eta V J) (err_acc u eta A) (exact_of s) r in
  close (lsx (hlip h')) (motion (val f) (jerks lx) (exact_of (lsx (hlip h)))) /\ close (lsy (hlip h')) (motion (val f) (jerks ly) (exact_of (lsy (hlip h)))).
Proof.
  intros rnd TK u eta P V A J f cs h h' HR Hu He (F0 & F1) H S lx ly Cx Cy close.
  pose proof (hum_drift rnd u eta HR Hu He f P V A J F0 F1 cs h h' 0 _ _ H S Cx Cy (no_drift _ _ _ _ _) (no_drift _ _ _ _ _)) as D.
  rewrite Nat.add_0_r in D. exact D.
Qed.

(** In single precision: ten seconds with fifty solves a second, within 10 m, 2 m/s, 10 m/s^2 and 200 m/s^3, are off by less than 2 cm, 2 cm/s and 1 mm/s^2. *)
Theorem C73_ten_seconds : forall cs (t t' : traj (fl float32)), let f := num float32 (1/50) in
  tsteps cs t = Ok t' -> Forall (t_steady f) cs -> (length (t_log cs t) <= 500)%nat -> calm_log (val f) 10 2 10 200 (t_log cs t) ->
  let e := motion (val f) (jerks (t_log cs t)) (exact_of (t_getState t)) in
  Rabs (val (pos (t_getState t')) - pos e) < 2/100 /\ Rabs (val (vel (t_getState t')) - vel e) < 2/100 /\ Rabs (val (acc (t_getState t')) - acc e) < 1/1000.
Proof.
  intros cs t t' f H S L C e. destruct C66_case_settings as (_ & R1 & _). destruct bpow_small as (B1 & _ & B3 & _). pose proof (bpow_ge_0 radix2 (-150)) as B0.
  set (u := bpow radix2 (-24)) in *. set (eta := bpow radix2 (-150)) in *.
  assert (U : u = / 16777216) by (rewrite B3; f_equal; ring). assert (E : eta <= / 1000000000000) by lra.
  assert (F : Rabs (val f - 1/50) <= u * (1/50) + eta).
  { destruct R1 as (R1 & _). specialize (R1 (1/50)). rewrite (Rabs_pos_eq (1/50)) in R1 by lra. exact R1. }
  apply Rabs_le_inv in F. assert (F1 : 0 < val f <= 21/1000) by lra.
  pose proof (C73_trajectory float32 u eta 10 2 10 200 f cs t t' R1 ltac:(lra) ltac:(lra) ltac:(lra) H S C) as (D3 & D2 & D1).
  fold e in D1, D2, D3. apply le_INR in L. pose proof (pos_INR (length (t_log cs t))) as L0. set (n := INR (length (t_log cs t))) in *.
  replace (INR 500) with 500 in L by (rewrite INR_IZR_INZ; reflexivity).
  set (ea := err_acc u eta 10) in *. set (ev := err_vel u eta 2 200) in *. set (ep := err_pos u eta 10 10 200) in *.
  assert (A1 : 0 <= ea <= 18/10000000) by (unfold ea, err_acc; lra). assert (A2 : 0 <= ev <= 72/100000000) by (unfold ev, err_vel; lra).
  assert (A3 : 0 <= ep <= 42/10000000) by (unfold ep, err_pos; lra).
  assert (N2 : 0 <= n^2 <= 250000) by nra. assert (N3 : 0 <= n^3 <= 125000000) by nra.
  assert (M : forall a b c d, 0 <= a <= b -> 0 <= c <= d -> 0 <= a * c <= b * d).
  { intros a b c d X Y. split; [apply Rmult_le_pos; lra|apply Rmult_le_compat; lra]. }
  assert (Ff : 0 <= val f <= 2001/100000) by (rewrite U in F; lra).
  assert (Q1 : 0 <= val f ^ 2 <= 2001/100000 * (2001/100000)) by (replace (val f ^ 2) with (val f * val f) by ring; apply M; assumption).
  pose proof (M _ _ _ _ (conj L0 L) A1) as P1. pose proof (M _ _ _ _ (conj L0 L) A2) as P2. pose proof (M _ _ _ _ (conj L0 L) A3) as P3.
  pose proof (M _ _ _ _ (M _ _ _ _ N2 Ff) A1) as P4. pose proof (M _ _ _ _ (M _ _ _ _ N2 Ff) A2) as P5. pose proof (M _ _ _ _ (M _ _ _ _ N3 Q1) A1) as P6.
  replace (n^2 / 2 * val f * ea) with (/ 2 * (n^2 * val f * ea)) in D2 by field.
  replace (n^2 / 2 * val f * ev) with (/ 2 * (n^2 * val f * ev)) in D1 by field.
  replace (n^3 / 6 * val f ^ 2 * ea) with (/ 6 * (n^3 * val f ^ 2 * ea)) in D1 by field.
  cbn [exact_of pos vel acc] in D1, D2, D3. split; [|split]; lra.
Qed.

(** ** A run *)
Local Ltac red1 := cbn [bind guard ubguard Nat.eqb Nat.leb andb negb vlen mv vsub vadd vscale vfill qQ qp qxl qxu qA qbl qbu].
Section Run.
  Context {K : Type} {SK : Scalar K}.
  Hypotheses (L : sltb (s0 : K) s1 = true) (L0 : sltb (s0 : K) s0 = false) (L1 : sltb (s0 : K) (sabs s1) = true).
  (** A solver that always answers to raise every jerk by 1 *)
  Definition plus_one : oracle K := fun _ _ => (fun _ => s1, true).
  Definition small (t : traj K) : Prop :=
    nN (tmod t) = 1%nat /\ tmc t = false /\ tw t = MkTW s0 s0 s0 /\ vlen (tX t) = 1%nat /\ vlen (tdX t) = 1%nat
    /\ vlen (tvelRef t) = 1%nat /\ vlen (tposRef t) = 1%nat
    /\ mrows (tvelH t) = 1%nat /\ mrows (tposH t) = 1%nat
    /\ mrows (dS (nvelD (tmod t))) = 1%nat /\ mrows (dS (nposD (tmod t))) = 1%nat
    /\ mrows (dUT (nvelD (tmod t))) = 1%nat /\ mrows (dUT (nposD (tmod t))) = 1%nat
    /\ snbVar (tsolver t) = 1%nat /\ snbCtr (tsolver t) = 0%nat
    /\ mrows (qQ (tqp t)) = 1%nat /\ mcols (qQ (tqp t)) = 1%nat /\ vlen (qp (tqp t)) = 1%nat
    /\ vlen (qxl (tqp t)) = 1%nat /\ vlen (qxu (tqp t)) = 1%nat /\ mcols (qA (tqp t)) = 1%nat /\ mrows (qA (tqp t)) = 0%nat
    /\ vlen (qbl (tqp t)) = 0%nat /\ vlen (qbu (tqp t)) = 0%nat.
  Lemma pd : exists u, computePosDynamic (s1 : K) s1 1 = Ok (MkDyn (pos_U s1 s1 1) (mtr (pos_U s1 s1 1)) u (omtr u) (pos_S s1 s1 1) (vzero 1)).
  Proof. unfold computePosDynamic. rewrite L. eexists. reflexivity. Qed.
  Lemma vd : exists u, computeVelDynamic (s1 : K) s1 1 = Ok (MkDyn (vel_U s1 s1 1) (mtr (vel_U s1 s1 1)) u (omtr u) (vel_S s1 s1 1) (vzero 1)).
  Proof. unfold computeVelDynamic. rewrite L. eexists. reflexivity. Qed.
  Lemma ad : exists d, computeAccDynamic (s1 : K) s1 1 = Ok d.
  Proof. unfold computeAccDynamic. rewrite L, L1. eexists. reflexivity. Qed.
  Lemma run_start : exists t : traj K, newTraj = Ok t /\ t_getState t = St3 s0 s0 s0 /\ t_getJerk t = s0 /\ small t.
  Proof.
    unfold newTraj, newNoDynDefault, nodyn_auto, nodyn_computeDynamics. cbn [nauto nT nN].
    destruct pd as (u' & ->). destruct vd as (u & ->). destruct ad as (d & ->). cbn [bind].
    unfold t_computeConstantPart. cbn [t_objectives tmod tmc tvelH tposH tjerkH tmotG tw wVel wPos wJerk]. unfold addW. rewrite L0.
    eexists. split. { reflexivity. } repeat split; reflexivity.
  Qed.
  Lemma small_solve f t : sltb s0 f = true -> small t -> exists t', tstep (TSolve plus_one f) t = Ok t' /\ small t' /\ t_getJerk t' = sadd (t_getJerk t) s1.
  Proof.
    intros Lf (H1 & H2 & H3 & H4 & H5 & H6 & H7 & H8 & H9 & H10 & H11 & H12 & H13 & H14 & H15 & H16 & H17 & H18 & H19 & H20 & H21 & H22 & H23 & H24).
    destruct t as [m jH vH pH mG vr pr w mc dX X q s]. cbn [tmod tmc tvelH tposH tjerkH tmotG tw tX tdX tvelRef tposRef tqp tsolver] in *.
    subst mc w. cbn [tstep]. unfold t_solve, t_problem, nbCtr, track_gradient, jerk_gradient, vsubE, vaddE, addG.
    cbn [tmod tmc tvelH tposH tjerkH tmotG tw tX tdX tvelRef tposRef tqp tsolver wVel wPos wJerk].
    repeat (progress (red1; rewrite ?H1, ?H4, ?H6, ?H7, ?H8, ?H9, ?H10, ?H11, ?H12, ?H13, ?L0, ?Lf)).
    unfold solver_solve, dimensionsAreConsistent, plus_one.
    repeat (progress (red1; rewrite ?H14, ?H15, ?H16, ?H17, ?H18, ?H19, ?H20, ?H21, ?H22, ?H23, ?H24, ?H5, ?H4)).
    unfold nodyn_updateState, updateState. repeat (progress (red1; rewrite ?Lf, ?H5, ?H4)).
    eexists. split; [reflexivity|]. split; [|reflexivity].
    cbn [snd]. unfold small. cbn [tmod tmc tvelH tposH tjerkH tmotG tw tX tdX tvelRef tposRef tqp tsolver nodyn_withState nN nvelD nposD vlen vadd qQ qp qxl qxu qA qbl qbu vfill].
    repeat (split; [first [assumption|reflexivity]|]).
    destruct (match smem s with Some _ => true | None => false end && true)%bool; cbn [snbVar snbCtr];
    repeat split; first [assumption | reflexivity | cbn; congruence | idtac]. all: lia.
  Qed.
End Run.

(** A new trajectory generator in single precision, two solves with jerks 1 and 2 and a change of limit between them *)
Example C73_case : exists t t' : traj (fl float32), let f := num float32 (1/50) in let cs := [TSolve plus_one f; TSetAccLimit s1; TSolve plus_one f] in
  newTraj = Ok t /\ tsteps cs t = Ok t' /\ Forall (t_steady f) cs /\ length (t_log cs t) = 2%nat /\ jerks (t_log cs t) = [1; 2]
  /\ calm_log (val f) 10 2 10 200 (t_log cs t).
Proof.
  set (f := num float32 (1/50)). destruct C66_case_settings as (_ & R1 & _). destruct bpow_small as (B1 & _ & B3 & _). pose proof (bpow_ge_0 radix2 (-150)) as B0.
  assert (U : bpow radix2 (-24) = / 16777216) by (rewrite B3; f_equal; ring). assert (E : bpow radix2 (-150) <= / 1000000000000) by lra.
  assert (F : Rabs (val f - 1/50) <= bpow radix2 (-24) * (1/50) + bpow radix2 (-150)).
  { destruct R1 as (R & _). specialize (R (1/50)). rewrite (Rabs_pos_eq (1/50)) in R by lra. exact R. }
  apply Rabs_le_inv in F. assert (F1 : 0 < val f <= 21/1000) by lra.
  assert (L : sltb (s0 : fl float32) s1 = true) by (apply Rltb_true; cbn [val s0 s1 FlScalar]; lra).
  assert (L0 : sltb (s0 : fl float32) s0 = false) by (apply Rltb_false; cbn [val s0 s1 FlScalar]; lra).
  assert (L1 : sltb (s0 : fl float32) (sabs s1) = true).
  { unfold sabs. replace (sltb (s1 : fl float32) s0) with false; [exact L|]. symmetry. apply Rltb_false. cbn [val s0 s1 FlScalar]. lra. }
  assert (Lf : sltb s0 f = true) by (apply Rltb_true; apply F1).
  destruct (run_start L L0 L1) as (t & H0 & HS & HJ & SM). destruct (small_solve L0 f t Lf SM) as (t1 & H1 & SM1 & HJ1).
  assert (H2 : exists t2, tstep (TSetAccLimit s1) t1 = Ok t2 /\ small t2 /\ t_getJerk t2 = t_getJerk t1 /\ t_getState t2 = t_getState t1).
  { cbn [tstep]. unfold t_setAccLimit, nodyn_setAccelerationLimit. replace (sleb (s0 : fl float32) s1) with true by (symmetry; apply Rleb_true; cbn [val s0 s1 FlScalar]; lra).
    eexists. split; [reflexivity|]. split; [exact SM1|]. split; reflexivity. }
  destruct H2 as (t2 & H2 & SM2 & HJ2 & HS2). destruct (small_solve L0 f t2 Lf SM2) as (t3 & H3 & SM3 & HJ3).
  assert (J1 : t_getJerk t1 = Fl 1).
  { rewrite HJ1, HJ. destruct R1 as (_ & _ & _ & Z & _). cbn [sadd s0 s1 FlScalar val]. replace (0 + 1) with (IZR 1) by lra. rewrite (Z 1%Z) by lia. reflexivity. }
  assert (J3 : t_getJerk t3 = Fl 2).
  { rewrite HJ3, HJ2, J1. destruct R1 as (_ & _ & _ & Z & _). cbn [sadd s0 s1 FlScalar val]. replace (1 + 1) with (IZR 2) by lra. rewrite (Z 2%Z) by lia. reflexivity. }
  exists t, t3. cbv zeta. cbn [tsteps t_log]. rewrite H1. cbn [bind]. rewrite H2. cbn [bind]. rewrite H3. cbn [bind jerks map length fst snd].
  split; [exact H0|]. split; [reflexivity|]. split; [repeat constructor|]. split; [reflexivity|]. rewrite J1, J3. split; [reflexivity|].
  assert (G : val f ^ 2 <= 1/1000 /\ 0 <= val f ^ 2) by nra. assert (G3 : val f ^ 3 <= 1/1000 /\ 0 <= val f ^ 3) by nra.
  assert (C1 : calm (val f) 10 2 10 200 (exact_of (t_getState t)) (val (Fl 1 : fl float32))).
  { rewrite HS. unfold calm, exact_of. cbn [pos vel acc val s0 FlScalar]. rewrite Rabs_R0, (Rabs_pos_eq 1) by lra. split; [|split; [|split]]; lra. }
  unfold calm_log. constructor; [exact C1|]. constructor; [|constructor]. cbn [fst snd]. rewrite HS2.
  pose proof (t_moves _ _ _ _ H1) as M. rewrite J1 in M.
  pose proof (one_call float32 _ _ R1 ltac:(lra) ltac:(lra) f 10 2 10 200 (proj1 F1) ltac:(lra) (Fl 1) (t_getState t) C1) as (E1 & E2 & E3).
  rewrite <- M in E1, E2, E3. rewrite HS in E1, E2, E3. unfold flow, exact_of in E1, E2, E3. cbn [pos vel acc val s0 FlScalar] in E1, E2, E3.
  unfold err_pos, err_vel, err_acc in *. apply Rabs_le_inv in E1, E2, E3.
  unfold calm, exact_of. cbn [pos vel acc val]. rewrite (Rabs_pos_eq 2) by lra.
  assert (X1 : Rabs (val (pos (t_getState t1))) <= 1) by (apply Rabs_le; lra).
  assert (X2 : Rabs (val (vel (t_getState t1))) <= 1) by (apply Rabs_le; lra).
  assert (X3 : Rabs (val (acc (t_getState t1))) <= 1) by (apply Rabs_le; lra).
  pose proof (Rabs_pos (val (vel (t_getState t1)))) as Y2. pose proof (Rabs_pos (val (acc (t_getState t1)))) as Y3.
  assert (Rabs (val (vel (t_getState t1))) * val f <= 1 * (21/1000)) by (apply Rmult_le_compat; lra).
  assert (Rabs (val (acc (t_getState t1))) * val f <= 1 * (21/1000)) by (apply Rmult_le_compat; lra).
  assert (Rabs (val (acc (t_getState t1))) * val f^2 <= 1 * (1/1000)) by (apply Rmult_le_compat; lra).
  split; [|split; [|split]]; lra.
Qed.

Print Assumptions C73_one_update.
Print Assumptions C73_trajectory.
Print Assumptions C73_humanoid.
Print Assumptions C73_ten_seconds.
