(** Properties of the QP layer: C16, C17, C18. *)

From Coq Require Import Reals List Lra Lia Arith Bool.
From Verif Require Import Scalar LinAlg LinAlgFacts QPModel QPFacts.
Import ListNotations.
Local Open Scope R_scope.

(** C16.  The factor is at least one; scaled entries that were above epsilon are at least one
    in magnitude; the factor is not larger than needed. *)
Theorem C16_factor_at_least_one : forall m eps,
  0 <= eps -> 1 <= getNormalizationFactor (K:=R) m eps.
Proof. exact getNormalizationFactor_pos. Qed.
Theorem C16_scaled_entries : forall m eps i j,
  0 <= eps -> (i < mrows m)%nat -> (j < mcols m)%nat -> eps < Rabs (mget m i j) ->
  1 <= Rabs (mget (mscale (getNormalizationFactor m eps) m) i j).
Proof.
  intros m eps i j He Hi Hj Hv. cbn [mget mscale]. unfold getNormalizationFactor. rsimpl.
  pose proof (norm_rows_range eps m (mrows m) He) as H.
  pose proof (norm_rows_mono eps m (mrows m) He i j Hi Hj Hv) as H2.
  rewrite Rabs_mult. unfold Rdiv. rewrite Rmult_1_l, Rabs_right.
  2:{ left. apply Rinv_0_lt_compat. lra. }
  apply Rmult_le_reg_l with (norm_rows eps m (mrows m) 1); [lra|]. rewrite <- Rmult_assoc, Rinv_r; lra.
Qed.
Theorem C16_factor_is_tight : forall m eps,
  0 <= eps ->
  getNormalizationFactor m eps = 1
  \/ exists i j, (i < mrows m)%nat /\ (j < mcols m)%nat /\ eps < Rabs (mget m i j)
       /\ getNormalizationFactor m eps * Rabs (mget m i j) = 1.
Proof.
  intros m eps He. unfold getNormalizationFactor. rsimpl.
  destruct (norm_rows_attained eps m (mrows m)) as [E|(i & j & Hi & Hj & Hv & E)].
  - left. rewrite E. field.
  - right. exists i, j. repeat split; try assumption. rewrite E. field. lra.
Qed.
Example C16_case : getNormalizationFactor (MkMat 1 2 (fun _ j => match j with O => 1/4 | _ => 1/100000 end)) (1/10000) = 4.
Proof.
  unfold getNormalizationFactor. cbn [mrows mcols norm_rows norm_row]. unfold norm_step. cbn [mget]. rewrite !sabs_Rabs. rsimpl.
  rewrite !Rabs_right by lra.
  rewrite (proj2 (Rltb_true (1/10000) (1/4))), (proj2 (Rltb_false (1/10000) (1/100000))) by lra. cbn [andb].
  rewrite (proj2 (Rltb_true (1/4) 1)) by lra. field.
Qed.

(** C17.  Normalising changes neither the admissible points nor the minimisers. *)
Theorem C17_normalisation_preserves_solutions : forall m eps x,
  0 <= eps ->
  (qfeasible (normalizeMatrices eps m) x <-> qfeasible m x)
  /\ (qminimiser (normalizeMatrices eps m) x <-> qminimiser m x).
Proof.
  intros m eps x He. unfold normalizeMatrices.
  pose proof (getNormalizationFactor_pos (qQ m) eps He). pose proof (getNormalizationFactor_pos (qA m) eps He).
  split; [apply scale_feasible|apply scale_minimiser]; lra.
Qed.
Example C17_case :
  qminimiser (MkQP (MkMat 1 1 (fun _ _ => 1/2)) (MkVec 1 (fun _ => -1)) (vfill 1 (-10)) (vfill 1 1)
                   (mzero 0 1) (vzero 0) (vzero 0)) (fun _ => 1).
Proof.
  unfold qminimiser, qfeasible, qcost. cbn [qp qQ qxl qxu qA qbl qbu vlen vget mget mrows vfill mzero vzero ssum]. rsimpl.
  split; [split; [intros; lra|intros; lia]|]. intros y (H & _). specialize (H 0%nat ltac:(lia)).
  replace (/ 2 * (0 + 1 * (0 + 1 / 2 * 1)) + (0 + -1 * 1)) with (-3/4) by field.
  replace (/ 2 * (0 + y 0%nat * (0 + 1 / 2 * y 0%nat)) + (0 + -1 * y 0%nat)) with (y 0%nat * y 0%nat / 4 - y 0%nat) by field.
  nra.
Qed.

(** C18.  With a stream the answer is exactly the solver's; without one it is always true,
    whatever the solver says: a failure is never reported. *)
Theorem C18_reported_with_stream : forall K (SK : Scalar K) (o : oracle K) s m it sol warm s' x b,
  solver_solve o s m it sol warm true = Ok (s', x, b) ->
  exists m' y, o m' it = (y, b)
    /\ (forall i, (i < snbVar s)%nat -> vget x i = y i)
    /\ qp m' = qp m /\ qxl m' = qxl m /\ qxu m' = qxu m /\ qbl m' = qbl m /\ qbu m' = qbu m.
Proof.
  intros K SK o s m it sol warm s' x b H. unfold solver_solve in H.
  destruct (dimensionsAreConsistent m (snbVar s) (snbCtr s)); [|discriminate]. cbn [guard bind] in H.
  set (w := (_ && warm)%bool) in H. exists (effective s w m).
  destruct (o (effective s w m) it) as [y success] eqn:E. exists y.
  destruct (Nat.leb (snbVar s) (vlen sol)); [|discriminate]. cbn [ubguard bind] in H.
  assert (Hx : b = success /\ x = MkVec (vlen sol) (fun i => if Nat.ltb i (snbVar s) then y i else vget sol i))
    by (destruct success; cbn in H; injection H as _ <- <-; auto).
  destruct Hx as (-> & ->). split; [reflexivity|]. split.
  - intros i Hi. cbn [vget]. apply Nat.ltb_lt in Hi. rewrite Hi. reflexivity.
  - unfold effective. destruct (smem s) as [[Q A]|]; [|auto 6]. destruct w; auto 6.
Qed.
Theorem C18_never_reported_without_stream : forall K (SK : Scalar K) (o : oracle K) s m it sol warm s' x b,
  solver_solve o s m it sol warm false = Ok (s', x, b) -> b = true.
Proof.
  intros K SK o s m it sol warm s' x b H. unfold solver_solve in H.
  destruct (dimensionsAreConsistent m (snbVar s) (snbCtr s)); [|discriminate]. cbn [guard bind] in H.
  destruct (o _ it) as [y success]. destruct (Nat.leb (snbVar s) (vlen sol)); [|discriminate]. cbn [ubguard bind] in H.
  rewrite andb_false_r in H. injection H as _ _ <-. reflexivity.
Qed.
(** The call returns exactly when all sizes agree with those the solver was made for and the output
    vector is long enough. *)
Theorem C18_returns_iff : forall K (SK : Scalar K) (o : oracle K) s m it sol warm os,
  (exists r, solver_solve o s m it sol warm os = Ok r) <->
  (mrows (qQ m) = snbVar s /\ mcols (qQ m) = snbVar s /\ vlen (qp m) = snbVar s /\ vlen (qxl m) = snbVar s /\ vlen (qxu m) = snbVar s
   /\ mcols (qA m) = snbVar s /\ mrows (qA m) = snbCtr s /\ vlen (qbl m) = snbCtr s /\ vlen (qbu m) = snbCtr s
   /\ (snbVar s <= vlen sol)%nat).
Proof.
  intros K SK o s m it sol warm os. unfold solver_solve. destruct (dimensionsAreConsistent m (snbVar s) (snbCtr s)) eqn:D; cbn [guard bind].
  - unfold dimensionsAreConsistent in D. rewrite !andb_true_iff, !Nat.eqb_eq in D. destruct (o _ it) as [y success]. destruct (Nat.leb_spec (snbVar s) (vlen sol)) as [L|L]; cbn [ubguard bind].
    + split; [intros _; tauto|]. intros _. destruct (negb success && os)%bool; eexists; reflexivity.
    + split; [intros (r & E); discriminate|]. intros Q. exfalso. lia.
  - split; [intros (r & E); discriminate|]. intros (A1 & A2 & A3 & A4 & A5 & A6 & A7 & A8 & A9 & _). exfalso. unfold dimensionsAreConsistent in D.
    rewrite A1, A2, A3, A4, A5, A6, A7, A8, A9, !Nat.eqb_refl in D. discriminate.
Qed.
(** Which problem is solved: the first time, or without hot start, the one given, whose matrices are
    remembered; with a hot start, the vectors given with the matrices remembered before. *)
Theorem C19_posed_problem : forall K (SK : Scalar K) (o : oracle K) s m it sol warm os s' x b,
  solver_solve o s m it sol warm os = Ok (s', x, b) ->
  snbVar s' = snbVar s /\ snbCtr s' = snbCtr s /\ vlen x = vlen sol /\
  match smem s with
  | Some (Q, A) => if warm then (forall i, (i < snbVar s)%nat -> vget x i = fst (o (MkQP Q (qp m) (qxl m) (qxu m) A (qbu m) (qbl m)) it) i) /\ smem s' = Some (Q, A)
                   else (forall i, (i < snbVar s)%nat -> vget x i = fst (o m it) i) /\ smem s' = Some (qQ m, qA m)
  | None => (forall i, (i < snbVar s)%nat -> vget x i = fst (o m it) i) /\ smem s' = Some (qQ m, qA m)
  end.
Proof.
  intros K SK o s m it sol warm os s' x b H. unfold solver_solve in H. apply guard_ok in H. destruct H as (_ & H). unfold effective in H.
  destruct (smem s) as [[Q A]|] eqn:Em; [destruct warm|]; cbn [andb] in H;
  match type of H with context [let '(_, _) := ?c in _] => destruct c as [y success] eqn:E end; apply ubguard_ok in H; destruct H as (_ & H);
  destruct (negb success && os)%bool; injection H as <- <- _; cbn [snbVar snbCtr smem vlen vget fst]; repeat split; try assumption;
  intros i Hi; rewrite (proj2 (Nat.ltb_lt _ _) Hi); reflexivity.
Qed.
Theorem C18_silent_failure_refuted : exists (o : oracle R) s m it sol s' x,
  snd (o m it) = false /\ solver_solve o s m it sol false false = Ok (s', x, true).
Proof.
  exists (fun m _ => (vget (qp m), false)), (newSolver 1 0),
    (MkQP (mid 1) (vzero 1) (vzero 1) (vzero 1) (mzero 0 1) (vzero 0) (vzero 0)), 10%Z, (vzero 1).
  do 2 eexists. split; reflexivity.
Qed.
Example C18_case : exists (o : oracle R) s m s' x,
  solver_solve o s m 5 (vzero 1) true true = Ok (s', x, false).
Proof.
  exists (fun m _ => (vget (qp m), false)), (newSolver 1 0),
    (MkQP (mid 1) (vzero 1) (vzero 1) (vzero 1) (mzero 0 1) (vzero 0) (vzero 0)).
  do 2 eexists. reflexivity.
Qed.

Print Assumptions C16_factor_at_least_one.
Print Assumptions C16_scaled_entries.
Print Assumptions C16_factor_is_tight.
Print Assumptions C17_normalisation_preserves_solutions.
Print Assumptions C18_reported_with_stream.
Print Assumptions C18_never_reported_without_stream.
Print Assumptions C18_returns_iff.
Print Assumptions C19_posed_problem.
Print Assumptions C18_silent_failure_refuted.
