(** Properties C01-C08: preview models, integrator, inverses. *)

From Coq Require Import Reals List Lra Lia Arith.
From Verif Require Import Scalar LinAlg LinAlgFacts ToolsModel ToolsSpec TriFacts ToolsFacts.
Import ListNotations.
Local Open Scope R_scope.

(** A call that passes all its guards. *)
Lemma guard_pass A (b : bool) (k : res A) : b = true -> (do _ <- guard b; k) = k.
Proof. intros ->. reflexivity. Qed.
Ltac pass_guards :=
  repeat (rewrite guard_pass;
    [|rsimpl; rewrite ?sabs_Rabs; first [reflexivity | apply Rltb_true | apply Rleb_true];
      rewrite ?Rabs_right by lra; lra]).

(** C01.  Feeding a jerk sequence to the integrator one sample at a time and asking the
    preview matrices give the same position / velocity / acceleration / jerk at every
    sample, for all sampling periods, horizon lengths, states and jerk sequences. *)
Theorem C01_preview_position : forall S T N d x (X : vec R) i,
  computePosDynamic S T N = Ok d -> (i < N)%nat ->
  exists s, run (schedule S T (vget X) i) x = Ok s /\ predict d (vec_of_st3 x) X i = pos s.
Proof. exact preview_pos. Qed.
Theorem C01_preview_velocity : forall S T N d x (X : vec R) i,
  computeVelDynamic S T N = Ok d -> (i < N)%nat ->
  exists s, run (schedule S T (vget X) i) x = Ok s /\ predict d (vec_of_st3 x) X i = vel s.
Proof. exact preview_vel. Qed.
Theorem C01_preview_acceleration : forall S T N d x (X : vec R) i,
  computeAccDynamic S T N = Ok d -> 0 < S -> (i < N)%nat ->
  exists s, run (schedule S T (vget X) i) x = Ok s /\ predict d (vec_of_st3 x) X i = acc s.
Proof. exact preview_acc. Qed.
Theorem C01_preview_jerk : forall N x (X : vec R) i,
  (i < N)%nat -> predict (computeJerkDynamic N) (vec_of_st3 x) X i = vget X i.
Proof. exact preview_jerk. Qed.

Example C01_case_position : exists d, computePosDynamic (1/20) (1/10) 16 = Ok d.
Proof. unfold computePosDynamic. pass_guards. eexists; reflexivity. Qed.
Example C01_case_velocity : exists d, computeVelDynamic (1/20) (1/10) 16 = Ok d.
Proof. unfold computeVelDynamic. pass_guards. eexists; reflexivity. Qed.
Example C01_case_acceleration : exists d, computeAccDynamic (1/20) (1/10) 16 = Ok d.
Proof. unfold computeAccDynamic. pass_guards. eexists; reflexivity. Qed.

(** C02.  The previewed centre of pressure is m/M (p - h/gz p'' - h gx/gz) of the simulated
    centre of mass. *)
Theorem C02_preview_cop : forall S T N h gx gz m M d x (X : vec R) i,
  computeCopDynamic S T N h gx gz m M = Ok d -> (i < N)%nat ->
  exists s, run (schedule S T (vget X) i) x = Ok s
    /\ predict d (vec_of_st3 x) X i = m / M * (pos s - h / gz * acc s - h * gx / gz).
Proof. exact preview_cop. Qed.
Example C02_case : exists d, computeCopDynamic (1/20) (1/10) 16 (4/5) (1/10) (981/100) 2 5 = Ok d.
Proof. unfold computeCopDynamic. pass_guards. eexists; reflexivity. Qed.

(** C03.  Order 2 (angular) previews are the constant acceleration motion. *)
Theorem C03_preview_angle : forall S T N d x (X : vec R) i,
  computeOrder2PosDynamic S T N = Ok d -> (i < N)%nat ->
  predict d (vec_of_st2 x) X i = ang (sim2 S T x (vget X) i).
Proof. exact preview_ord2pos. Qed.
Theorem C03_preview_angular_velocity : forall S T N d x (X : vec R) i,
  computeOrder2VelDynamic S T N = Ok d -> (i < N)%nat ->
  predict d (vec_of_st2 x) X i = angv (sim2 S T x (vget X) i).
Proof. exact preview_ord2vel. Qed.
Example C03_case : exists d e, computeOrder2PosDynamic (1/20) (1/10) 16 = Ok d
  /\ computeOrder2VelDynamic (1/20) (1/10) 16 = Ok e.
Proof.
  unfold computeOrder2PosDynamic, computeOrder2VelDynamic. pass_guards. do 2 eexists; split; reflexivity.
Qed.

(** C04.  The integrator is the exact flow of p'''=jerk: it composes over durations, and its
    components are successive derivatives with respect to the duration. *)
Theorem C04_flow : forall j a b s, 0 < a -> 0 < b ->
  (do s1 <- updateState j a s; updateState j b s1) = updateState j (a + b) s.
Proof. exact updateState_flow_res. Qed.
Theorem C04_ode : forall j s t,
  derivable_pt_lim (fun d => pos (updateState_raw j d s)) t (vel (updateState_raw j t s))
  /\ derivable_pt_lim (fun d => vel (updateState_raw j d s)) t (acc (updateState_raw j t s))
  /\ derivable_pt_lim (fun d => acc (updateState_raw j d s)) t j.
Proof. exact updateState_ode. Qed.
Theorem C04_initial : forall j s, updateState_raw j 0 s = s.
Proof. exact updateState_zero. Qed.
Theorem C04_invertible : forall j t s, updateState_raw (K:=R) j (- t) (updateState_raw j t s) = s.
Proof. exact updateState_inverse. Qed.
Example C04_case : updateState 6 2 (St3 1 2 3) = Ok (St3 (1+4+6+8) (2+6+12) (3+12)).
Proof. rewrite updateState_ok by lra. unfold updateState_raw. cbn [pos vel acc]. rsimpl. f_equal. f_equal; field. Qed.

(** C05.  Causality: the previewed value at sample i ignores jerks applied after sample i. *)
Definition causal (N : nat) (d : lindyn R) : Prop :=
  forall x (X Y : vec R) i, (i < N)%nat ->
    (forall k, (k <= i)%nat -> vget X k = vget Y k) -> predict d x X i = predict d x Y i.
Theorem C05_causality : forall S T N d,
  (computePosDynamic S T N = Ok d \/ computeVelDynamic S T N = Ok d \/
   computeAccDynamic S T N = Ok d \/ computeOrder2PosDynamic S T N = Ok d \/
   computeOrder2VelDynamic S T N = Ok d \/
   exists h gx gz m M, computeCopDynamic S T N h gx gz m M = Ok d) ->
  causal N d.
Proof.
  intros S T N d [H|[H|[H|[H|[H|(h & gx & gz & m & M & H)]]]]] x X Y i Hi HXY.
  - apply computePosDynamic_inv in H as (_ & _ & _ & E & _). eapply lower_causal; eassumption.
  - apply computeVelDynamic_inv in H as (_ & _ & _ & E & _). eapply lower_causal; eassumption.
  - apply computeAccDynamic_inv in H as (_ & _ & _ & E & _). eapply lower_causal; eassumption.
  - unfold computeOrder2PosDynamic in H. rewrite !guard_ok in H. destruct H as (_ & _ & _ & E).
    injection E as <-. eapply lower_causal; [reflexivity|assumption|assumption].
  - apply computeOrder2VelDynamic_inv in H as (_ & _ & _ & E & _). eapply lower_causal; eassumption.
  - apply computeCopDynamic_inv in H as (_ & _ & _ & _ & _ & _ & _ & E & _). eapply lower_causal; eassumption.
Qed.

(** C06.  The hand written inverse of the acceleration (and order 2 velocity) input matrix is
    the inverse exactly when N = 1 or the first period equals the sampling period. *)
Theorem C06_acc_inverse_iff : forall S T N d V,
  computeAccDynamic S T N = Ok d -> dUinv d = Some V ->
  (is_inverse N (dU d) V <-> N = 1%nat \/ S = T).
Proof.
  intros S T N d V H HV. apply computeAccDynamic_inv in H as (HS & HT & HN & EU & _ & _ & _ & EV).
  rewrite EV in HV. injection HV as <-. rewrite EU. apply acc_inverse_iff; [assumption|lra|assumption].
Qed.
Theorem C06_order2vel_inverse_iff : forall S T N d V,
  computeOrder2VelDynamic S T N = Ok d -> dUinv d = Some V ->
  (is_inverse N (dU d) V <-> N = 1%nat \/ S = T).
Proof.
  intros S T N d V H HV. apply computeOrder2VelDynamic_inv in H as (HS & HT & HN & EU & _ & _ & _ & EV).
  rewrite EV in HV. injection HV as <-. rewrite EU. apply acc_inverse_iff; [assumption|lra|assumption].
Qed.
(** the transposed matrices stored alongside are the transposes *)
Theorem C06_transposes : forall S T N d V,
  computeAccDynamic S T N = Ok d -> dUinv d = Some V ->
  dUT d = mtr (dU d) /\ dUTinv d = Some (mtr V).
Proof.
  intros S T N d V H HV. unfold computeAccDynamic in H. rewrite !guard_ok in H.
  destruct H as (_ & _ & _ & E). injection E as <-. cbn in *. injection HV as <-. auto.
Qed.
Theorem C06_acc_inverse_refuted : exists S T N d V,
  computeAccDynamic S T N = Ok d /\ dUinv d = Some V /\ ~ is_inverse N (dU d) V.
Proof.
  exists (1/20), (1/10), 16%nat.
  assert (H : exists d, computeAccDynamic (1/20) (1/10) 16 = Ok d) by apply C01_case_acceleration.
  destruct H as (d & H). exists d, (acc_Uinv (1/20) (1/10) 16). split; [exact H|].
  pose proof (computeAccDynamic_inv _ _ _ _ H) as (_ & _ & _ & _ & _ & _ & _ & EV).
  split; [exact EV|]. rewrite (C06_acc_inverse_iff _ _ _ _ _ H EV). intros [E|E]; [discriminate|lra].
Qed.
Example C06_case : exists d, computeAccDynamic (1/10) (1/10) 16 = Ok d.
Proof. unfold computeAccDynamic. pass_guards. eexists; reflexivity. Qed.

(** C07.  For every wanted sequence of positions (velocities) there is exactly one jerk
    sequence producing it; for the CoP this holds unless h/gz is S^2/6 or T^2/6 or the mass
    is 0, in which case some non zero jerk sequence has no effect on the CoP. *)
Theorem C07_position_unique_input : forall S T N d,
  computePosDynamic S T N = Ok d ->
  forall y, exists X, realises (dU d) N X y
    /\ forall X', realises (dU d) N X' y -> forall i, (i < N)%nat -> X' i = X i.
Proof.
  intros S T N d H. apply computePosDynamic_inv in H as (HS & HT & _ & -> & _).
  apply unique_input; [reflexivity|apply lower_is_tri|apply pos_diag; assumption].
Qed.
Theorem C07_velocity_unique_input : forall S T N d,
  computeVelDynamic S T N = Ok d ->
  forall y, exists X, realises (dU d) N X y
    /\ forall X', realises (dU d) N X' y -> forall i, (i < N)%nat -> X' i = X i.
Proof.
  intros S T N d H. apply computeVelDynamic_inv in H as (HS & HT & _ & -> & _).
  apply unique_input; [reflexivity|apply lower_is_tri|apply vel_diag; assumption].
Qed.
Definition cop_regular (S T : R) (N : nat) (h gz m : R) : Prop :=
  m <> 0 /\ S*S/6 <> h/gz /\ (N = 1%nat \/ T*T/6 <> h/gz).
Theorem C07_cop_unique_input : forall S T N h gx gz m M d,
  computeCopDynamic S T N h gx gz m M = Ok d -> cop_regular S T N h gz (m/M) ->
  forall y, exists X, realises (dU d) N X y
    /\ forall X', realises (dU d) N X' y -> forall i, (i < N)%nat -> X' i = X i.
Proof.
  intros S T N h gx gz m M d H HR. apply computeCopDynamic_inv in H as (HS & HT & HN & _ & _ & _ & _ & -> & _).
  apply unique_input; [reflexivity|apply lower_is_tri|apply cop_invertible_iff; assumption].
Qed.
Theorem C07_cop_singular : forall S T N h gx gz m M d,
  computeCopDynamic S T N h gx gz m M = Ok d -> ~ cop_regular S T N h gz (m/M) ->
  exists X k, (k < N)%nat /\ X k <> 0 /\ realises (dU d) N X (fun _ => 0).
Proof.
  intros S T N h gx gz m M d H HR. apply computeCopDynamic_inv in H as (HS & HT & HN & _ & _ & _ & _ & -> & _).
  apply cop_singular_kernel; assumption.
Qed.
Example C07_case_regular : cop_regular (1/10) (1/10) 16 (4/5) (981/100) (2/5).
Proof. unfold cop_regular. repeat split; [lra|lra|right; lra]. Qed.
Example C07_case_singular : exists d,
  computeCopDynamic (6/10) (6/10) 4 (6/10) 0 10 1 1 = Ok d /\ ~ cop_regular (6/10) (6/10) 4 (6/10) 10 (1/1).
Proof.
  unfold computeCopDynamic. pass_guards. eexists; split; [reflexivity|].
  intros (_ & H & _). apply H. field.
Qed.

(** C08.  The inverses obtained by LU are the exact inverse with every entry of magnitude
    below 1e-4 replaced by 0; the result is the inverse iff no non-zero entry is that small. *)
Definition truncated_inverse (N : nat) (d : lindyn R) : Prop :=
  exists B V, is_inverse N (dU d) B /\ dUinv d = Some V
    /\ (forall i j, mget V i j = if Rlt_dec (Rabs (mget B i j)) (1/10000) then 0 else mget B i j)
    /\ (is_inverse N (dU d) V <->
        forall i j, (i < N)%nat -> (j < N)%nat -> mget B i j = 0 \/ 1/10000 <= Rabs (mget B i j)).
Theorem C08_position_inverse : forall S T N d,
  computePosDynamic S T N = Ok d -> truncated_inverse N d.
Proof.
  intros S T N d H. apply computePosDynamic_inv in H as (HS & HT & _ & EU & _ & _ & _ & EV).
  unfold truncated_inverse. rewrite EV, EU.
  apply inverseLU_exact; [reflexivity|reflexivity|apply lower_is_tri|apply pos_diag; assumption].
Qed.
Theorem C08_velocity_inverse : forall S T N d,
  computeVelDynamic S T N = Ok d -> truncated_inverse N d.
Proof.
  intros S T N d H. apply computeVelDynamic_inv in H as (HS & HT & _ & EU & _ & _ & _ & EV).
  unfold truncated_inverse. rewrite EV, EU.
  apply inverseLU_exact; [reflexivity|reflexivity|apply lower_is_tri|apply vel_diag; assumption].
Qed.
Theorem C08_angle_inverse : forall S T N d,
  computeOrder2PosDynamic S T N = Ok d -> truncated_inverse N d.
Proof.
  intros S T N d H. unfold computeOrder2PosDynamic in H. rewrite !guard_ok in H.
  destruct H as (HS & HT & _ & E). injection E as <-. rsimpl.
  change (Rltb 0 S = true) in HS. change (Rltb 0 T = true) in HT. rewrite Rltb_true in HS, HT.
  apply inverseLU_exact; [reflexivity|reflexivity|apply lower_is_tri|exact (vel_diag S T N HS HT)].
Qed.
Theorem C08_cop_inverse : forall S T N h gx gz m M d,
  computeCopDynamic S T N h gx gz m M = Ok d ->
  (cop_regular S T N h gz (m/M) -> truncated_inverse N d)
  /\ (dUinv d = None <-> ~ cop_regular S T N h gz (m/M)).
Proof.
  intros S T N h gx gz m M d H.
  apply computeCopDynamic_inv in H as (HS & HT & HN & _ & _ & _ & _ & EU & _ & _ & _ & EV). split.
  - intros HR. unfold truncated_inverse. rewrite EV, EU.
    apply inverseLU_exact; [reflexivity|reflexivity|apply lower_is_tri|apply cop_invertible_iff; assumption].
  - rewrite EV, EU. unfold cop_regular. rewrite (cop_invertible_iff S T N h gz (m/M)) by assumption.
    apply inverseLU_None. reflexivity.
Qed.
(** The truncation is not always harmless: with one sample of 40 s it returns the zero matrix. *)
Theorem C08_truncation_refuted : exists S T N d V,
  computePosDynamic S T N = Ok d /\ dUinv d = Some V /\ mget V 0 0 = 0 /\ ~ is_inverse N (dU d) V.
Proof.
  exists 40, 40, 1%nat.
  assert (H : exists d, computePosDynamic 40 40 1 = Ok d).
  { unfold computePosDynamic. pass_guards. eexists; reflexivity. }
  destruct H as (d & H). exists d.
  destruct (C08_position_inverse _ _ _ _ H) as (B & V & HB & HV & HT & HI).
  exists V. split; [exact H|]. split; [exact HV|].
  pose proof (computePosDynamic_inv _ _ _ _ H) as (_ & _ & _ & EU & _).
  destruct (HB 0%nat 0%nat) as [H1 _]; [lia|lia|]. rewrite EU in H1.
  cbn [mmul pos_U lower mget mcols ssum mid Nat.eqb] in H1. rewrite sofnat_INR in H1. cbn [INR] in H1.
  unfold spow3, spow2, shalf in H1.
  change (@sadd R RScalar) with Rplus in H1. change (@smul R RScalar) with Rmult in H1.
  change (@sdiv R RScalar) with Rdiv in H1. change (@sofZ R RScalar) with IZR in H1.
  change (@s0 R RScalar) with 0 in H1. change (@s1 R RScalar) with 1 in H1.
  assert (EB : mget B 0 0 = 6/64000) by lra.
  split.
  - rewrite HT, EB. destruct (Rlt_dec _ _) as [_|Hn]; [reflexivity|].
    exfalso. apply Hn. rewrite Rabs_right by lra. lra.
  - rewrite HI. intros Hc. destruct (Hc 0%nat 0%nat) as [E|E]; [lia|lia| |].
    + lra.
    + rewrite EB, Rabs_right in E by lra. lra.
Qed.
Example C08_case : exists d, computeCopDynamic (1/10) (1/10) 16 (4/5) 0 (981/100) 2 5 = Ok d.
Proof. unfold computeCopDynamic. pass_guards. eexists; reflexivity. Qed.

Print Assumptions C01_preview_position.
Print Assumptions C01_preview_velocity.
Print Assumptions C01_preview_acceleration.
Print Assumptions C01_preview_jerk.
Print Assumptions C02_preview_cop.
Print Assumptions C03_preview_angle.
Print Assumptions C03_preview_angular_velocity.
Print Assumptions C04_flow.
Print Assumptions C04_ode.
Print Assumptions C05_causality.
Print Assumptions C06_acc_inverse_iff.
Print Assumptions C06_acc_inverse_refuted.
Print Assumptions C07_position_unique_input.
Print Assumptions C07_cop_unique_input.
Print Assumptions C07_cop_singular.
Print Assumptions C08_position_inverse.
Print Assumptions C08_cop_inverse.
Print Assumptions C08_truncation_refuted.
