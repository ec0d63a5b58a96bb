(** Proofs about the constant jerk dynamics (ToolsModel.v). *)

From Coq Require Import Reals Lra Lia List Arith Bool ZArith.
From Verif Require Import Scalar LinAlg LinAlgFacts ToolsModel TriFacts ToolsSpec.
Import ListNotations.
Local Open Scope R_scope.

Lemma run_app l1 l2 x : run (l1 ++ l2) x = do y <- run l1 x; run l2 y.
Proof.
  revert x; induction l1 as [|[j d] l1 IH]; intros x; [reflexivity|].
  cbn [app run]. destruct (updateState j d x); cbn; auto.
Qed.

Lemma updateState_ok j T x : 0 < T -> updateState j T x = Ok (updateState_raw j T x).
Proof.
  intros H. unfold updateState. rsimpl.
  destruct (Rltb_spec 0 T); [reflexivity|contradiction].
Qed.

Lemma schedule_S S T X i : schedule S T X (Datatypes.S i) = schedule S T X i ++ [(X (Datatypes.S i), T)].
Proof.
  unfold schedule. rewrite seq_S, map_app. reflexivity.
Qed.

Lemma run_sim S T X x i : 0 < S -> 0 < T -> run (schedule S T X i) x = Ok (sim S T x X i).
Proof.
  intros HS HT. induction i as [|i IH].
  - cbn [schedule seq map run sim]. rewrite updateState_ok by assumption. reflexivity.
  - rewrite schedule_S, run_app, IH. cbn [bind run]. rewrite updateState_ok by assumption. reflexivity.
Qed.

(** Rows of the triangular matrices. *)
Lemma lower_row N (f : nat -> R) (r : nat -> nat -> R) (X : vec R) i :
  (i < N)%nat ->
  vget (mv (lower N f r) X) i =
  f i * vget X 0 + ssum i (fun k => r i (S k) * vget X (S k)).
Proof.
  intros Hi. unfold mv, lower; cbn [vget mget mrows mcols]. rsimpl.
  rewrite (ssum_trunc N (S i)); [|lia|].
  - rewrite ssum_head. cbn [Nat.eqb]. f_equal.
    apply ssum_ext. intros k Hk.
    replace (Nat.leb (S k) i) with true by (symmetry; apply Nat.leb_le; lia). reflexivity.
  - intros k Hk. destruct k as [|k]; [lia|]. cbn [Nat.eqb].
    replace (Nat.leb (S k) i) with false by (symmetry; apply Nat.leb_gt; lia). ring.
Qed.

Lemma mv3 (m : mat R) (x : st3 R) i :
  mcols m = 3%nat ->
  vget (mv m (vec_of_st3 x)) i = mget m i 0 * pos x + mget m i 1 * vel x + mget m i 2 * acc x.
Proof. intros H. unfold mv. cbn [vget]. rewrite H. cbn. ring. Qed.

Lemma mv2 (m : mat R) (x : st2 R) i :
  mcols m = 2%nat ->
  vget (mv m (vec_of_st2 x)) i = mget m i 0 * ang x + mget m i 1 * angv x.
Proof. intros H. unfold mv. cbn [vget]. rewrite H. cbn. ring. Qed.

(** Closed forms of the simulation. *)
Lemma sim_acc S T x X i :
  acc (sim S T x X i) = acc x + S * X 0%nat + ssum i (fun k => T * X (Datatypes.S k)).
Proof.
  induction i as [|i IH]; cbn [sim].
  - cbn [updateState_raw acc vel pos ssum INR]. rsimpl. ring.
  - unfold updateState_raw. cbn [acc]. rewrite IH, ssum_S. rsimpl. ring.
Qed.

Lemma sim_vel S T x X i :
  vel (sim S T x X i) =
  vel x + (INR i * T + S) * acc x
  + (1/2 * (S*S) + INR i * T * S) * X 0%nat
  + ssum i (fun k => (1/2 * (T*T) + INR (i - Datatypes.S k) * (T*T)) * X (Datatypes.S k)).
Proof.
  induction i as [|i IH]; cbn [sim].
  - cbn [updateState_raw acc vel pos ssum INR]. rsimpl. ring.
  - unfold updateState_raw. cbn [vel]. rewrite IH, sim_acc.
    rewrite ssum_S.
    rewrite (ssum_ext i (fun k => (1/2 * (T*T) + INR (Datatypes.S i - Datatypes.S k) * (T*T)) * X (Datatypes.S k))
                        (fun k => (1/2 * (T*T) + INR (i - Datatypes.S k) * (T*T)) * X (Datatypes.S k)
                                  + T * (T * X (Datatypes.S k)))).
    2:{ intros k Hk. replace (Datatypes.S i - Datatypes.S k)%nat with (Datatypes.S (i - Datatypes.S k)) by lia.
        rewrite S_INR. ring. }
    rewrite !ssum_plus, !ssum_mul_l. rewrite Nat.sub_diag. rewrite S_INR. rsimpl.
    cbn [INR]. ring.
Qed.

Lemma sim_pos S T x X i :
  pos (sim S T x X i) =
  pos x + (INR i * T + S) * vel x
  + (1/2 * (S*S) + INR i * T * S + 1/2 * (INR i * INR i) * (T*T)) * acc x
  + (S*S*S/6 + 1/2 * INR i * T * (S*S) + 1/2 * (INR i * INR i) * S * (T*T)) * X 0%nat
  + ssum i (fun k => T*T*T*(1/6 + 1/2*INR (i - Datatypes.S k)
                            + 1/2*(INR (i - Datatypes.S k)*INR (i - Datatypes.S k)))
                     * X (Datatypes.S k)).
Proof.
  induction i as [|i IH]; cbn [sim].
  - cbn [updateState_raw acc vel pos ssum INR]. rsimpl. field.
  - unfold updateState_raw. cbn [pos]. rewrite IH, sim_acc, sim_vel.
    rewrite ssum_S.
    rewrite (ssum_ext i (fun k => T*T*T*(1/6 + 1/2*INR (Datatypes.S i - Datatypes.S k)
                            + 1/2*(INR (Datatypes.S i - Datatypes.S k)*INR (Datatypes.S i - Datatypes.S k)))
                     * X (Datatypes.S k))
                 (fun k => (T*T*T*(1/6 + 1/2*INR (i - Datatypes.S k)
                            + 1/2*(INR (i - Datatypes.S k)*INR (i - Datatypes.S k)))
                     * X (Datatypes.S k)
                     + T * ((1/2 * (T*T) + INR (i - Datatypes.S k) * (T*T)) * X (Datatypes.S k)))
                     + (1/2*(T*T)) * (T * X (Datatypes.S k)))).
    2:{ intros k Hk. replace (Datatypes.S i - Datatypes.S k)%nat with (Datatypes.S (i - Datatypes.S k)) by lia.
        rewrite S_INR. field. }
    rewrite !ssum_plus, !ssum_mul_l.
    rewrite Nat.sub_diag. rewrite S_INR. rsimpl.
    cbn [INR]. field.
Qed.

(** Predictions. *)
Lemma pos_predict S T N x X i :
  (i < N)%nat ->
  vget (mv (pos_U S T N) X) i + vget (mv (pos_S S T N) (vec_of_st3 x)) i
  = pos (sim S T x (vget X) i).
Proof.
  intros Hi. unfold pos_U. rewrite lower_row by assumption.
  rewrite mv3 by reflexivity. rewrite sim_pos.
  unfold pos_S; cbn [mget].
  erewrite (ssum_ext i _ (fun k => T*T*T*(1/6 + 1/2*INR (i - Datatypes.S k)
                            + 1/2*(INR (i - Datatypes.S k)*INR (i - Datatypes.S k)))
                     * vget X (Datatypes.S k))).
  2:{ intros k Hk. rewrite sofnat_INR. rsimpl. reflexivity. }
  rewrite !sofnat_INR. rsimpl. ring.
Qed.

Lemma vel_predict S T N x X i :
  (i < N)%nat ->
  vget (mv (vel_U S T N) X) i + vget (mv (vel_S S T N) (vec_of_st3 x)) i
  = vel (sim S T x (vget X) i).
Proof.
  intros Hi. unfold vel_U. rewrite lower_row by assumption.
  rewrite mv3 by reflexivity. rewrite sim_vel.
  unfold vel_S; cbn [mget].
  erewrite (ssum_ext i _ (fun k => (1/2 * (T*T) + INR (i - Datatypes.S k) * (T*T)) * vget X (Datatypes.S k))).
  2:{ intros k Hk. rewrite sofnat_INR. rsimpl. reflexivity. }
  rewrite !sofnat_INR. rsimpl. ring.
Qed.

Lemma acc_predict S T N x X i :
  (i < N)%nat ->
  vget (mv (acc_U S T N) X) i
  + vget (mv (MkMat N 3 (fun _ k => match k with 2 => s1 | _ => s0 end)) (vec_of_st3 x)) i
  = acc (sim S T x (vget X) i).
Proof.
  intros Hi. unfold acc_U. rewrite lower_row by assumption.
  rewrite mv3 by reflexivity. rewrite sim_acc. cbn [mget]. rsimpl. ring.
Qed.

Lemma cop_predict S T N h gx gz m x X i :
  (i < N)%nat -> gz <> 0 ->
  vget (mv (cop_U S T N h gz m) X) i + vget (mv (cop_S S T N h gz m) (vec_of_st3 x)) i
  + vget (cop_K N h gx gz m) i
  = m * (pos (sim S T x (vget X) i) - h / gz * acc (sim S T x (vget X) i) - h * gx / gz).
Proof.
  intros Hi Hg. unfold cop_U. rewrite lower_row by assumption.
  rewrite mv3 by reflexivity. rewrite sim_pos, sim_acc.
  unfold cop_S, cop_K, vfill; cbn [mget vget].
  erewrite (ssum_ext i _ (fun k => m * (T*T*T*(1/6 + 1/2*INR (i - Datatypes.S k)
                            + 1/2*(INR (i - Datatypes.S k)*INR (i - Datatypes.S k)))
                     * vget X (Datatypes.S k)) + - m * (h / gz) * (T * vget X (Datatypes.S k)))).
  2:{ intros k Hk. rewrite sofnat_INR. rsimpl. field. assumption. }
  rewrite ssum_plus, !ssum_mul_l.
  rewrite !sofnat_INR. rsimpl. field. assumption.
Qed.

Lemma sim2_angv S T x X i :
  angv (sim2 S T x X i) = angv x + S * X 0%nat + ssum i (fun k => T * X (Datatypes.S k)).
Proof.
  induction i as [|i IH]; cbn [sim2 flow2 angv].
  - cbn [ssum]. rsimpl. ring.
  - rewrite IH, ssum_S. ring.
Qed.

Lemma sim2_ang S T x X i :
  ang (sim2 S T x X i) =
  ang x + (INR i * T + S) * angv x
  + (1/2 * (S*S) + INR i * T * S) * X 0%nat
  + ssum i (fun k => (1/2 * (T*T) + INR (i - Datatypes.S k) * (T*T)) * X (Datatypes.S k)).
Proof.
  induction i as [|i IH]; cbn [sim2 flow2 ang].
  - cbn [ssum INR]. rsimpl. field.
  - rewrite IH, sim2_angv, ssum_S.
    rewrite (ssum_ext i (fun k => (1/2 * (T*T) + INR (Datatypes.S i - Datatypes.S k) * (T*T)) * X (Datatypes.S k))
                        (fun k => (1/2 * (T*T) + INR (i - Datatypes.S k) * (T*T)) * X (Datatypes.S k)
                                  + T * (T * X (Datatypes.S k)))).
    2:{ intros k Hk. replace (Datatypes.S i - Datatypes.S k)%nat with (Datatypes.S (i - Datatypes.S k)) by lia.
        rewrite S_INR. ring. }
    rewrite !ssum_plus, !ssum_mul_l. rewrite Nat.sub_diag. rewrite S_INR.
    cbn [INR]. field.
Qed.

Lemma ord2pos_predict S T N x X i :
  (i < N)%nat ->
  vget (mv (lower N (fun i => sadd (smul shalf (spow2 S)) (smul (smul (sofnat i) T) S))
                    (fun i j => sadd (smul shalf (spow2 T)) (smul (sofnat (i - j)) (spow2 T)))) X) i
  + vget (mv (ord2pos_S S T N) (vec_of_st2 x)) i
  = ang (sim2 S T x (vget X) i).
Proof.
  intros Hi. rewrite lower_row by assumption.
  rewrite mv2 by reflexivity. rewrite sim2_ang.
  unfold ord2pos_S; cbn [mget].
  erewrite (ssum_ext i _ (fun k => (1/2 * (T*T) + INR (i - Datatypes.S k) * (T*T)) * vget X (Datatypes.S k))).
  2:{ intros k Hk. rewrite sofnat_INR. rsimpl. reflexivity. }
  rewrite !sofnat_INR. rsimpl. ring.
Qed.

Lemma ord2vel_predict S T N x X i :
  (i < N)%nat ->
  vget (mv (acc_U S T N) X) i
  + vget (mv (MkMat N 2 (fun _ k => match k with 1 => s1 | _ => s0 end)) (vec_of_st2 x)) i
  = angv (sim2 S T x (vget X) i).
Proof.
  intros Hi. unfold acc_U. rewrite lower_row by assumption.
  rewrite mv2 by reflexivity. rewrite sim2_angv. cbn [mget]. rsimpl. ring.
Qed.

(** The simulation up to sample [i] only reads the jerks 0..i. *)
Lemma sim_causal S T x X Y i :
  (forall k, (k <= i)%nat -> X k = Y k) -> sim S T x X i = sim S T x Y i.
Proof.
  induction i as [|i IH]; intros H; cbn [sim].
  - rewrite H by lia. reflexivity.
  - rewrite IH by (intros; apply H; lia). rewrite (H (Datatypes.S i)) by lia. reflexivity.
Qed.

(** Hand written inverse of the acceleration matrix. *)
Lemma acc_Uinv_entry S T N i j :
  (2 <= i)%nat ->
  mget (acc_Uinv S T N) i j
  = if Nat.eqb i j then 1 / T else if Nat.eqb i (j + 1) then - (1) / T else 0.
Proof.
  intros Hi. destruct i as [|[|i]]; [lia|lia|]. cbn [acc_Uinv mget]. destruct j as [|j]; reflexivity.
Qed.

Lemma acc_Uinv_row S T N i (y : nat -> R) :
  (i < N)%nat ->
  ssum N (fun k => mget (acc_Uinv S T N) i k * y k)
  = match i with
    | O => y 0%nat / S
    | 1%nat => - y 0%nat / S + y 1%nat / T
    | Datatypes.S i' => (y i - y i') / T
    end.
Proof.
  intros Hi. destruct i as [|[|i]].
  - cbn [acc_Uinv mget]. rewrite (ssum_trunc N 1); [|lia|].
    + cbn [ssum]. rsimpl. unfold Rdiv. ring.
    + intros k Hk. destruct k as [|k]; [lia|]. cbn [Nat.eqb Nat.add]. rsimpl. ring.
  - cbn [acc_Uinv mget]. rewrite (ssum_trunc N 2); [|lia|].
    + cbn [ssum Nat.eqb]. rsimpl. unfold Rdiv. ring.
    + intros k Hk. destruct k as [|[|k]]; [lia|lia|]. cbn [Nat.eqb Nat.add]. rsimpl. ring.
  - rewrite (ssum_trunc N (3 + i)); [|lia|].
    + replace (3 + i)%nat with (Datatypes.S (Datatypes.S (Datatypes.S i))) by lia.
      rewrite (ssum_S (Datatypes.S (Datatypes.S i))), (ssum_S (Datatypes.S i)). rewrite ssum_0.
      * rewrite !acc_Uinv_entry by lia. rewrite Nat.eqb_refl.
        replace (Nat.eqb (Datatypes.S (Datatypes.S i)) (Datatypes.S i)) with false by (symmetry; apply Nat.eqb_neq; lia).
        replace (Nat.eqb (Datatypes.S (Datatypes.S i)) (Datatypes.S i + 1)) with true by (symmetry; apply Nat.eqb_eq; lia).
        unfold Rdiv. ring.
      * intros k Hk. rewrite acc_Uinv_entry by lia.
        replace (Nat.eqb (Datatypes.S (Datatypes.S i)) k) with false
          by (symmetry; apply Nat.eqb_neq; lia).
        replace (Nat.eqb (Datatypes.S (Datatypes.S i)) (k + 1)) with false
          by (symmetry; apply Nat.eqb_neq; lia). ring.
    + intros k Hk. rewrite acc_Uinv_entry by lia.
      replace (Nat.eqb (Datatypes.S (Datatypes.S i)) k) with false
          by (symmetry; apply Nat.eqb_neq; lia).
      replace (Nat.eqb (Datatypes.S (Datatypes.S i)) (k + 1)) with false
          by (symmetry; apply Nat.eqb_neq; lia). ring.
Qed.

Lemma acc_U_entry S T N i j :
  mget (acc_U S T N) i j = if Nat.eqb j 0 then S else if Nat.leb j i then T else 0.
Proof. reflexivity. Qed.

(** The product of the stored inverse with the matrix: the identity except for entry (1,0),
    which is S/T - 1. *)
Lemma acc_inv_left_gen S T N i j :
  S <> 0 -> T <> 0 -> (i < N)%nat -> (j < N)%nat ->
  mget (mmul (acc_Uinv S T N) (acc_U S T N)) i j
  = if (Nat.eqb i 1 && Nat.eqb j 0)%bool then S / T - 1 else if Nat.eqb i j then 1 else 0.
Proof.
  intros HS HT Hi Hj. cbn [mmul mget].
  change (mcols (acc_Uinv S T N)) with N. rsimpl.
  rewrite (acc_Uinv_row S T N i (fun k => mget (acc_U S T N) k j)) by assumption.
  destruct i as [|[|i]]; rewrite !acc_U_entry.
  - destruct j as [|j]; cbn [Nat.eqb Nat.leb andb]; field; assumption.
  - destruct j as [|[|j]]; cbn [Nat.eqb Nat.leb andb]; field; auto.
  - cbn [Nat.eqb andb].
    destruct (Nat.eqb_spec j 0) as [->|Hj0].
    + field; assumption.
    + change (match j with
              | 0%nat => false
              | Datatypes.S m' => match m' with 0%nat => false | Datatypes.S m'0 => Nat.eqb i m'0 end
              end) with (Nat.eqb (Datatypes.S (Datatypes.S i)) j).
      destruct (Nat.eqb_spec (Datatypes.S (Datatypes.S i)) j) as [Hij|Hij].
      * replace (Nat.leb j (Datatypes.S (Datatypes.S i))) with true by (symmetry; apply Nat.leb_le; lia).
        replace (Nat.leb j (Datatypes.S i)) with false by (symmetry; apply Nat.leb_gt; lia). field; assumption.
      * destruct (Nat.leb_spec j (Datatypes.S (Datatypes.S i))).
        -- replace (Nat.leb j (Datatypes.S i)) with true by (symmetry; apply Nat.leb_le; lia). field; assumption.
        -- replace (Nat.leb j (Datatypes.S i)) with false by (symmetry; apply Nat.leb_gt; lia). field; assumption.
Qed.

(** ** Statements about the dynamics returned by the API *)

Lemma computePosDynamic_inv S T N d :
  computePosDynamic S T N = Ok d ->
  0 < S /\ 0 < T /\ (0 < N)%nat /\ dU d = pos_U S T N /\ dS d = pos_S S T N /\ dK d = vzero N
  /\ dUT d = mtr (dU d) /\ dUinv d = inverseLU (dU d) EPS.
Proof.
  unfold computePosDynamic. rewrite !guard_ok. rsimpl. rewrite !Rltb_true, Nat.ltb_lt.
  intros (H1 & H2 & H3 & E). injection E as <-. cbn. repeat split; auto.
Qed.

Lemma computeVelDynamic_inv S T N d :
  computeVelDynamic S T N = Ok d ->
  0 < S /\ 0 < T /\ (0 < N)%nat /\ dU d = vel_U S T N /\ dS d = vel_S S T N /\ dK d = vzero N
  /\ dUT d = mtr (dU d) /\ dUinv d = inverseLU (dU d) EPS.
Proof.
  unfold computeVelDynamic. rewrite !guard_ok. rsimpl. rewrite !Rltb_true, Nat.ltb_lt.
  intros (H1 & H2 & H3 & E). injection E as <-. cbn. repeat split; auto.
Qed.

Lemma computeAccDynamic_inv S T N d :
  computeAccDynamic S T N = Ok d ->
  S <> 0 /\ 0 < T /\ (0 < N)%nat /\ dU d = acc_U S T N
  /\ dS d = MkMat N 3 (fun _ k => match k with 2 => s1 | _ => s0 end) /\ dK d = vzero N
  /\ dUT d = mtr (dU d) /\ dUinv d = Some (acc_Uinv S T N).
Proof.
  unfold computeAccDynamic. rewrite !guard_ok. rsimpl. rewrite !Rltb_true, Nat.ltb_lt, sabs_Rabs.
  intros (H1 & H2 & H3 & E). injection E as <-. cbn. repeat split; auto.
  intros ->. rewrite Rabs_R0 in H1. lra.
Qed.

Lemma computeOrder2VelDynamic_inv S T N d :
  computeOrder2VelDynamic S T N = Ok d ->
  S <> 0 /\ 0 < T /\ (0 < N)%nat /\ dU d = acc_U S T N
  /\ dS d = MkMat N 2 (fun _ k => match k with 1 => s1 | _ => s0 end) /\ dK d = vzero N
  /\ dUT d = mtr (dU d) /\ dUinv d = Some (acc_Uinv S T N).
Proof.
  unfold computeOrder2VelDynamic. rewrite !guard_ok. rsimpl. rewrite !Rltb_true, Nat.ltb_lt, sabs_Rabs.
  intros (H1 & H2 & H3 & E). injection E as <-. cbn. repeat split; auto.
  intros ->. rewrite Rabs_R0 in H2. lra.
Qed.

Lemma computeCopDynamic_inv S T N h gx gz m M d :
  computeCopDynamic S T N h gx gz m M = Ok d ->
  0 < S /\ 0 < T /\ (0 < N)%nat /\ 1/10000 < Rabs gz /\ m <= M /\ 1/10000 < M /\ 0 <= m
  /\ dU d = cop_U S T N h gz (m/M) /\ dS d = cop_S S T N h gz (m/M) /\ dK d = cop_K N h gx gz (m/M)
  /\ dUT d = mtr (dU d) /\ dUinv d = inverseLU (dU d) EPS.
Proof.
  unfold computeCopDynamic. rewrite !guard_ok. rsimpl.
  rewrite !Rltb_true, !Rleb_true, Nat.ltb_lt, sabs_Rabs.
  intros (H1 & H2 & H3 & H4 & H5 & H6 & H7 & E). injection E as <-. cbn. repeat split; auto.
Qed.

Lemma gz_ne0 gz : 1/10000 < Rabs gz -> gz <> 0.
Proof. intros H ->. rewrite Rabs_R0 in H. lra. Qed.

Lemma preview_pos S T N d x X i :
  computePosDynamic S T N = Ok d -> (i < N)%nat ->
  exists s, run (schedule S T (vget X) i) x = Ok s /\ predict d (vec_of_st3 x) X i = pos s.
Proof.
  intros Hd Hi. apply computePosDynamic_inv in Hd as (HS & HT & _ & EU & ES & EK & _).
  exists (sim S T x (vget X) i). split; [apply run_sim; assumption|].
  unfold predict. rewrite EU, ES, EK, <- (pos_predict S T N) by assumption. cbn. ring.
Qed.

Lemma preview_vel S T N d x X i :
  computeVelDynamic S T N = Ok d -> (i < N)%nat ->
  exists s, run (schedule S T (vget X) i) x = Ok s /\ predict d (vec_of_st3 x) X i = vel s.
Proof.
  intros Hd Hi. apply computeVelDynamic_inv in Hd as (HS & HT & _ & EU & ES & EK & _).
  exists (sim S T x (vget X) i). split; [apply run_sim; assumption|].
  unfold predict. rewrite EU, ES, EK, <- (vel_predict S T N) by assumption. cbn. ring.
Qed.

Lemma preview_acc S T N d x X i :
  computeAccDynamic S T N = Ok d -> 0 < S -> (i < N)%nat ->
  exists s, run (schedule S T (vget X) i) x = Ok s /\ predict d (vec_of_st3 x) X i = acc s.
Proof.
  intros Hd HS Hi. apply computeAccDynamic_inv in Hd as (_ & HT & _ & EU & ES & EK & _).
  exists (sim S T x (vget X) i). split; [apply run_sim; assumption|].
  unfold predict. rewrite EU, ES, EK, <- (acc_predict S T N) by assumption. cbn [vzero vget]. rsimpl. ring.
Qed.

Lemma preview_jerk N x X i :
  (i < N)%nat -> predict (computeJerkDynamic N) (vec_of_st3 x) X i = vget X i.
Proof.
  intros Hi. unfold predict, computeJerkDynamic, mv, mzero, mid, vzero.
  cbn [dU dS dK vget mget mrows mcols]. rsimpl.
  rewrite (ssum_single N i); [|assumption|].
  - rewrite Nat.eqb_refl. rewrite ssum_0; [ring|]. intros; ring.
  - intros k Hk Hne. replace (Nat.eqb i k) with false by (symmetry; apply Nat.eqb_neq; auto). ring.
Qed.

Lemma preview_cop S T N h gx gz m M d x X i :
  computeCopDynamic S T N h gx gz m M = Ok d -> (i < N)%nat ->
  exists s, run (schedule S T (vget X) i) x = Ok s
    /\ predict d (vec_of_st3 x) X i = m / M * (pos s - h / gz * acc s - h * gx / gz).
Proof.
  intros Hd Hi. apply computeCopDynamic_inv in Hd as (HS & HT & _ & Hg & _ & _ & _ & EU & ES & EK & _).
  exists (sim S T x (vget X) i). split; [apply run_sim; assumption|].
  unfold predict. rewrite EU, ES, EK. apply cop_predict; [assumption|apply gz_ne0; assumption].
Qed.

Lemma preview_ord2pos S T N d x X i :
  computeOrder2PosDynamic S T N = Ok d -> (i < N)%nat ->
  predict d (vec_of_st2 x) X i = ang (sim2 S T x (vget X) i).
Proof.
  unfold computeOrder2PosDynamic. rewrite !guard_ok. intros (_ & _ & _ & E) Hi. injection E as <-.
  unfold predict. cbn [dU dS dK]. rewrite (ord2pos_predict S T N) by assumption. cbn. ring.
Qed.

Lemma preview_ord2vel S T N d x X i :
  computeOrder2VelDynamic S T N = Ok d -> (i < N)%nat ->
  predict d (vec_of_st2 x) X i = angv (sim2 S T x (vget X) i).
Proof.
  intros Hd Hi. apply computeOrder2VelDynamic_inv in Hd as (_ & _ & _ & EU & ES & EK & _).
  unfold predict. rewrite EU, ES, EK, <- (ord2vel_predict S T N) by assumption. cbn [vzero vget]. rsimpl. ring.
Qed.

(** Flow law of the integrator. *)
Lemma updateState_flow j a b s :
  updateState_raw j b (updateState_raw j a s) = updateState_raw j (a + b) s.
Proof.
  destruct s as [p v c]. unfold updateState_raw. cbn [pos vel acc]. rsimpl. f_equal; field.
Qed.

Lemma updateState_flow_res j a b s :
  0 < a -> 0 < b ->
  (do s1 <- updateState j a s; updateState j b s1) = updateState j (a + b) s.
Proof.
  intros Ha Hb. rewrite (updateState_ok j a) by assumption. cbn [bind].
  rewrite !updateState_ok by lra. f_equal. apply updateState_flow.
Qed.

Lemma updateState_inverse j T s :
  updateState_raw (K:=R) j (- T) (updateState_raw j T s) = s.
Proof.
  rewrite updateState_flow. replace (T + - T) with 0 by ring.
  destruct s as [p v c]. unfold updateState_raw. cbn [pos vel acc]. rsimpl. f_equal; field.
Qed.

Lemma updateState_zero j s : updateState_raw (K:=R) j 0 s = s.
Proof.
  destruct s as [p v c]. unfold updateState_raw. cbn [pos vel acc]. rsimpl. f_equal; field.
Qed.

Lemma updateState_ode j s t :
  derivable_pt_lim (fun d => pos (updateState_raw j d s)) t (vel (updateState_raw j t s))
  /\ derivable_pt_lim (fun d => vel (updateState_raw j d s)) t (acc (updateState_raw j t s))
  /\ derivable_pt_lim (fun d => acc (updateState_raw j d s)) t j.
Proof.
  destruct s as [p v c]. unfold updateState_raw. cbn [pos vel acc]. rsimpl.
  repeat split.
  - replace (v + (c * t + 1 / 2 * j * (t * t)))
      with (0 + ((0*t + v*1) + (0*(t*t) + 1/2*c*(1*t+t*1)) + (((0*(t*t*t) + j * ((1*t+t*1)*t + t*t*1)) * 6 - 0 * (j*(t*t*t))) / (6*6)))) by field.
    apply (derivable_pt_lim_plus (fun _ => p) (fun d => v * d + 1/2*c*(d*d) + j*(d*d*d)/6)).
    { apply derivable_pt_lim_const. }
    apply (derivable_pt_lim_plus (fun d => v * d + 1/2*c*(d*d)) (fun d => j*(d*d*d)/6)).
    { apply (derivable_pt_lim_plus (fun d => v * d) (fun d => 1/2*c*(d*d))).
      - apply (derivable_pt_lim_mult (fun _ => v) (fun d => d)); [apply derivable_pt_lim_const|apply derivable_pt_lim_id].
      - apply (derivable_pt_lim_mult (fun _ => 1/2*c) (fun d => d*d)); [apply derivable_pt_lim_const|].
        apply (derivable_pt_lim_mult (fun d => d) (fun d => d)); apply derivable_pt_lim_id. }
    apply (derivable_pt_lim_div (fun d => j * (d*d*d)) (fun _ => 6)).
    + apply (derivable_pt_lim_mult (fun _ => j) (fun d => d*d*d)); [apply derivable_pt_lim_const|].
      apply (derivable_pt_lim_mult (fun d => d*d) (fun d => d)); [|apply derivable_pt_lim_id].
      apply (derivable_pt_lim_mult (fun d => d) (fun d => d)); apply derivable_pt_lim_id.
    + apply derivable_pt_lim_const.
    + lra.
  - replace (c + j * t) with (0 + ((0*t + c*1) + (0*(t*t) + 1/2*j*(1*t+t*1)))) by field.
    apply (derivable_pt_lim_plus (fun _ => v) (fun d => c * d + 1/2*j*(d*d))).
    { apply derivable_pt_lim_const. }
    apply (derivable_pt_lim_plus (fun d => c * d) (fun d => 1/2*j*(d*d))).
    + apply (derivable_pt_lim_mult (fun _ => c) (fun d => d)); [apply derivable_pt_lim_const|apply derivable_pt_lim_id].
    + apply (derivable_pt_lim_mult (fun _ => 1/2*j) (fun d => d*d)); [apply derivable_pt_lim_const|].
      apply (derivable_pt_lim_mult (fun d => d) (fun d => d)); apply derivable_pt_lim_id.
  - cut (derivable_pt_lim (fun d => c + j * d) t (0 + (0*t + j*1))).
    { intros H. replace (0 + (0*t + j*1)) with j in H by ring. exact H. }
    apply (derivable_pt_lim_plus (fun _ => c) (fun d => j * d)).
    { apply derivable_pt_lim_const. }
    apply (derivable_pt_lim_mult (fun _ => j) (fun d => d)); [apply derivable_pt_lim_const|apply derivable_pt_lim_id].
Qed.

(** Causality of every preview. *)
Lemma lower_causal N f r (d : lindyn R) x X Y i :
  dU d = lower N f r -> (i < N)%nat ->
  (forall k, (k <= i)%nat -> vget X k = vget Y k) ->
  predict d x X i = predict d x Y i.
Proof.
  intros E Hi H. unfold predict. rewrite E, !lower_row by assumption.
  rewrite (H 0%nat) by lia. do 3 f_equal. apply ssum_ext. intros k Hk. rewrite H by lia. reflexivity.
Qed.

(** Invertibility *)
Lemma pos_diag S T N : 0 < S -> 0 < T -> diag_ne0 (mget (pos_U S T N)) N.
Proof.
  intros HS HT i Hi. unfold pos_U. rewrite lower_diag.
  destruct (Nat.eqb_spec i 0) as [->|Hne].
  - rewrite sofnat_INR. cbn [INR]. rsimpl. assert (0 < S*S*S) by (repeat apply Rmult_lt_0_compat; assumption).
    lra.
  - rewrite Nat.sub_diag, sofnat_INR. cbn [INR]. rsimpl.
    assert (0 < T*T*T) by (repeat apply Rmult_lt_0_compat; assumption).
    replace (T*T*T*(1/6+1/2*0+1/2*(0*0))) with (T*T*T/6) by field. lra.
Qed.

Lemma vel_diag S T N : 0 < S -> 0 < T -> diag_ne0 (mget (vel_U S T N)) N.
Proof.
  intros HS HT i Hi. unfold vel_U. rewrite lower_diag.
  destruct (Nat.eqb_spec i 0) as [->|Hne].
  - rewrite sofnat_INR. cbn [INR]. rsimpl. assert (0 < S*S) by (repeat apply Rmult_lt_0_compat; assumption).
    lra.
  - rewrite Nat.sub_diag, sofnat_INR. cbn [INR]. rsimpl.
    assert (0 < T*T) by (repeat apply Rmult_lt_0_compat; assumption). lra.
Qed.

Lemma cop_diag_entry S T N h gz m i :
  mget (cop_U S T N h gz m) i i
  = if Nat.eqb i 0 then m * S * (S*S/6 - h/gz) else m * T * (T*T/6 - h/gz).
Proof.
  unfold cop_U. rewrite lower_diag. destruct (Nat.eqb_spec i 0) as [->|Hne].
  - rewrite sofnat_INR. cbn [INR]. rsimpl. unfold Rdiv. ring.
  - rewrite Nat.sub_diag, sofnat_INR. cbn [INR]. rsimpl. unfold Rdiv. ring.
Qed.

Lemma unique_input u N :
  mcols u = N -> lower_tri (mget u) N -> diag_ne0 (mget u) N ->
  forall y, exists X, realises u N X y
    /\ forall X', realises u N X' y -> forall i, (i < N)%nat -> X' i = X i.
Proof.
  intros HC HL HD y. destruct (tri_surj _ _ y HL HD) as (X & HX).
  exists X. unfold realises, mv. cbn [vget]. rewrite HC. split; [exact HX|].
  intros X' HX'. apply (tri_inj (mget u) N); try assumption.
  intros i Hi. rewrite HX by assumption. apply HX'; assumption.
Qed.

Lemma cop_invertible_iff S T N h gz m :
  0 < S -> 0 < T -> (0 < N)%nat ->
  (m <> 0 /\ S*S/6 <> h/gz /\ (N = 1%nat \/ T*T/6 <> h/gz)
   <-> diag_ne0 (mget (cop_U S T N h gz m)) N).
Proof.
  intros HS HT HN. split.
  - intros (Hm & H1 & H2) i Hi. rewrite cop_diag_entry.
    destruct (Nat.eqb_spec i 0) as [->|Hne].
    + apply Rmult_integral_contrapositive_currified; [|lra].
      apply Rmult_integral_contrapositive_currified; [assumption|lra].
    + destruct H2 as [H2|H2]; [lia|].
      apply Rmult_integral_contrapositive_currified; [|lra].
      apply Rmult_integral_contrapositive_currified; [assumption|lra].
  - intros H. pose proof (H 0%nat HN) as H0. rewrite cop_diag_entry in H0. cbn [Nat.eqb] in H0.
    repeat split.
    + intros ->. apply H0. ring.
    + intros E. apply H0. rewrite E. ring.
    + destruct (Nat.eq_dec N 1) as [->|Hne]; [left; reflexivity|right].
      intros E. apply (H 1%nat); [lia|]. rewrite cop_diag_entry. cbn [Nat.eqb]. rewrite E. ring.
Qed.

Lemma cop_singular_kernel S T N h gz m :
  0 < S -> 0 < T -> (0 < N)%nat ->
  ~ (m <> 0 /\ S*S/6 <> h/gz /\ (N = 1%nat \/ T*T/6 <> h/gz)) ->
  exists X k, (k < N)%nat /\ X k <> 0 /\ realises (cop_U S T N h gz m) N X (fun _ => 0).
Proof.
  intros HS HT HN Hn.
  assert (HL : lower_tri (mget (cop_U S T N h gz m)) N) by apply lower_is_tri.
  destruct (Req_dec m 0) as [Hm|Hm].
  { destruct (tri_kernel (mget (cop_U S T N h gz m)) N (N-1)) as (x & H1 & H2); try assumption; [lia| | |].
    - rewrite cop_diag_entry, Hm. destruct (Nat.eqb (N-1) 0); ring.
    - intros i Hi. lia.
    - exists x, (N-1)%nat. split; [lia|]. split; [lra|]. exact H2. }
  destruct (Req_dec (T*T/6) (h/gz)) as [HTE|HTE].
  { destruct (Nat.eq_dec N 1) as [HN1|HN1].
    - destruct (Req_dec (S*S/6) (h/gz)) as [HSE|HSE].
      + destruct (tri_kernel (mget (cop_U S T N h gz m)) N 0) as (x & H1 & H2); try assumption.
        * rewrite cop_diag_entry. cbn [Nat.eqb]. rewrite HSE. ring.
        * intros i Hi. lia.
        * exists x, 0%nat. split; [lia|]. split; [lra|]. exact H2.
      + exfalso. apply Hn. auto.
    - destruct (tri_kernel (mget (cop_U S T N h gz m)) N (N-1)) as (x & H1 & H2); try assumption; [lia| | |].
      + rewrite cop_diag_entry. replace (Nat.eqb (N-1) 0) with false by (symmetry; apply Nat.eqb_neq; lia).
        rewrite HTE. ring.
      + intros i Hi. lia.
      + exists x, (N-1)%nat. split; [lia|]. split; [lra|]. exact H2. }
  destruct (Req_dec (S*S/6) (h/gz)) as [HSE|HSE].
  - destruct (tri_kernel (mget (cop_U S T N h gz m)) N 0) as (x & H1 & H2); try assumption.
    + rewrite cop_diag_entry. cbn [Nat.eqb]. rewrite HSE. ring.
    + intros i Hi. rewrite cop_diag_entry.
      replace (Nat.eqb i 0) with false by (symmetry; apply Nat.eqb_neq; lia).
      apply Rmult_integral_contrapositive_currified; [|lra].
      apply Rmult_integral_contrapositive_currified; [assumption|lra].
    + exists x, 0%nat. split; [lia|]. split; [lra|]. exact H2.
  - exfalso. apply Hn. auto.
Qed.

(** [b] is the two-sided inverse of the N x N matrix [a]. *)
Lemma mmul_assoc_entry N (a b c : nat -> nat -> R) i j :
  ssum N (fun k => ssum N (fun l => a i l * b l k) * c k j)
  = ssum N (fun l => a i l * ssum N (fun k => b l k * c k j)).
Proof.
  rewrite (ssum_ext N _ (fun k => ssum N (fun l => a i l * b l k * c k j))).
  2:{ intros k Hk. rewrite <- ssum_mul_r. reflexivity. }
  rewrite ssum_swap. apply ssum_ext. intros l Hl. rewrite <- ssum_mul_l.
  apply ssum_ext. intros k Hk. ring.
Qed.

Lemma ssum_delta_l N i (f : nat -> R) :
  (i < N)%nat -> ssum N (fun k => (if Nat.eqb i k then 1 else 0) * f k) = f i.
Proof.
  intros Hi. rewrite (ssum_single N i); [rewrite Nat.eqb_refl; ring|assumption|].
  intros k Hk Hne. replace (Nat.eqb i k) with false by (symmetry; apply Nat.eqb_neq; auto). ring.
Qed.

Lemma ssum_delta_r N j (f : nat -> R) :
  (j < N)%nat -> ssum N (fun k => f k * (if Nat.eqb k j then 1 else 0)) = f j.
Proof.
  intros Hi. rewrite (ssum_single N j); [rewrite Nat.eqb_refl; ring|assumption|].
  intros k Hk Hne. replace (Nat.eqb k j) with false by (symmetry; apply Nat.eqb_neq; auto). ring.
Qed.

(** A left inverse and a right inverse coincide. *)
Lemma inverse_unique N (a b c : nat -> nat -> R) :
  (forall i j, (i < N)%nat -> (j < N)%nat -> ssum N (fun k => b i k * a k j) = if Nat.eqb i j then 1 else 0) ->
  (forall i j, (i < N)%nat -> (j < N)%nat -> ssum N (fun k => a i k * c k j) = if Nat.eqb i j then 1 else 0) ->
  forall i j, (i < N)%nat -> (j < N)%nat -> b i j = c i j.
Proof.
  intros HB HC i j Hi Hj.
  transitivity (ssum N (fun l => b i l * ssum N (fun k => a l k * c k j))).
  - rewrite (ssum_ext N _ (fun l => b i l * (if Nat.eqb l j then 1 else 0))).
    + symmetry. apply (ssum_delta_r N j (fun l => b i l)); assumption.
    + intros l Hl. rewrite HC by assumption. reflexivity.
  - rewrite <- mmul_assoc_entry.
    rewrite (ssum_ext N _ (fun k => (if Nat.eqb i k then 1 else 0) * c k j)).
    + apply (ssum_delta_l N i (fun k => c k j)); assumption.
    + intros k Hk. rewrite HB by assumption. reflexivity.
Qed.

Lemma is_inverse_mk N (m : nat -> nat -> R) (b : mat R) :
  mcols b = N -> lower_tri m N -> diag_ne0 m N ->
  (forall i j, (i < N)%nat -> (j < N)%nat ->
     mget (mmul b (MkMat N N m)) i j = if Nat.eqb i j then 1 else 0) ->
  is_inverse N (MkMat N N m) b.
Proof.
  intros HC HL HD HB i j Hi Hj. split; [|exact (HB i j Hi Hj)].
  pose proof (tri_inv_right m N) as HR. unfold mmul in *. cbn [mget mcols mrows] in *.
  rewrite HC in HB.
  rewrite <- (HR i j HL HD Hi Hj). apply ssum_ext. intros k Hk. f_equal.
  apply (inverse_unique N m (mget b) (mget (tri_inv (MkMat N N m)))); try assumption.
  intros; apply HR; assumption.
Qed.

Lemma acc_inverse_iff S T N :
  S <> 0 -> T <> 0 -> (0 < N)%nat ->
  (is_inverse N (acc_U S T N) (acc_Uinv S T N) <-> N = 1%nat \/ S = T).
Proof.
  intros HS HT HN. split.
  - intros H. destruct (Nat.eq_dec N 1) as [->|Hne]; [left; reflexivity|right].
    destruct (H 1%nat 0%nat) as [_ H2]; [lia|lia|].
    rewrite acc_inv_left_gen in H2 by (assumption || lia). cbn [Nat.eqb andb mid mget] in H2.
    change (@s0 R RScalar) with 0 in H2.
    assert (E : S / T = 1) by lra. apply (f_equal (fun z => z * T)) in E.
    unfold Rdiv in E. rewrite Rmult_assoc, Rinv_l, !Rmult_1_r in E by assumption. lra.
  - intros HH. apply is_inverse_mk.
    + reflexivity.
    + exact (lower_is_tri N (fun _ => S) (fun _ _ => T)).
    + intros i Hi. pose proof (lower_diag N (fun _ => S) (fun _ _ => T) i) as E. cbn [lower mget] in E.
      rewrite E. destruct (Nat.eqb i 0); assumption.
    + intros i j Hi Hj. change (MkMat N N _) with (acc_U S T N).
      rewrite acc_inv_left_gen by assumption.
      destruct HH as [-> | ->].
      * replace i with 0%nat by lia. reflexivity.
      * destruct (Nat.eqb_spec i 1) as [->|]; [|reflexivity].
        destruct (Nat.eqb_spec j 0) as [->|]; [|reflexivity]. cbn [andb Nat.eqb]. field. assumption.
Qed.

(** The truncated LU inverse *)
Lemma inverseLU_exact (u : mat R) N eps :
  mrows u = N -> mcols u = N -> lower_tri (mget u) N -> diag_ne0 (mget u) N ->
  exists b v, is_inverse N u b /\ inverseLU u eps = Some v
    /\ (forall i j, mget v i j = if Rlt_dec (Rabs (mget b i j)) eps then 0 else mget b i j)
    /\ (is_inverse N u v <->
        forall i j, (i < N)%nat -> (j < N)%nat -> mget b i j = 0 \/ eps <= Rabs (mget b i j)).
Proof.
  destruct u as [r c m]. cbn [mrows mcols mget]. intros -> -> HL HD.
  exists (tri_inv (MkMat N N m)).
  unfold inverseLU. cbn [mget mrows].
  assert (E : diag_nonzero m N = true) by (apply diag_nonzero_spec; assumption).
  rewrite E.
  assert (HI : is_inverse N (MkMat N N m) (tri_inv (MkMat N N m))).
  { intros i j Hi Hj. split; [apply tri_inv_right|apply tri_inv_left]; assumption. }
  eexists. split; [exact HI|]. split; [reflexivity|].
  assert (EQ : forall i j, mget (MkMat (mrows (tri_inv (MkMat N N m))) (mcols (tri_inv (MkMat N N m)))
      (fun i0 j0 => if (sabs (mget (tri_inv (MkMat N N m)) i0 j0) <? eps)%sc then s0
                    else mget (tri_inv (MkMat N N m)) i0 j0)) i j
    = if Rlt_dec (Rabs (mget (tri_inv (MkMat N N m)) i j)) eps then 0 else mget (tri_inv (MkMat N N m)) i j).
  { intros i j. cbn [mget]. rewrite sabs_Rabs. rsimpl. unfold Rltb. destruct (Rlt_dec _ eps); reflexivity. }
  split; [exact EQ|]. split.
  - intros Hv i j Hi Hj.
    assert (X : mget (MkMat (mrows (tri_inv (MkMat N N m))) (mcols (tri_inv (MkMat N N m)))
      (fun i0 j0 => if (sabs (mget (tri_inv (MkMat N N m)) i0 j0) <? eps)%sc then s0
                    else mget (tri_inv (MkMat N N m)) i0 j0)) i j = mget (tri_inv (MkMat N N m)) i j).
    { apply (inverse_unique N m); try assumption.
      - intros a b Ha Hb. destruct (Hv a b Ha Hb) as [_ H2]. exact H2.
      - intros a b Ha Hb. destruct (HI a b Ha Hb) as [H2 _]. exact H2. }
    rewrite EQ in X. destruct (Rlt_dec _ eps) as [Hl|Hl]; [left; symmetry; exact X|right; lra].
  - intros Hbig.
    assert (EE : forall i j, (i < N)%nat -> (j < N)%nat ->
      mget (MkMat (mrows (tri_inv (MkMat N N m))) (mcols (tri_inv (MkMat N N m)))
      (fun i0 j0 => if (sabs (mget (tri_inv (MkMat N N m)) i0 j0) <? eps)%sc then s0
                    else mget (tri_inv (MkMat N N m)) i0 j0)) i j = mget (tri_inv (MkMat N N m)) i j).
    { intros i j Hi Hj. rewrite EQ. destruct (Rlt_dec _ eps) as [Hl|Hl]; [|reflexivity].
      destruct (Hbig i j Hi Hj) as [H0|H0]; [symmetry; assumption|lra]. }
    intros i j Hi Hj. destruct (HI i j Hi Hj) as [R1 R2]. split.
    + rewrite <- R1. cbn [mmul mget mcols] in EE |- *.
      apply ssum_ext. intros k Hk. f_equal. apply EE; assumption.
    + rewrite <- R2. cbn [mmul mget mcols] in EE |- *.
      apply ssum_ext. intros k Hk. f_equal. apply EE; assumption.
Qed.

Lemma inverseLU_None (u : mat R) N eps :
  mrows u = N -> (inverseLU u eps = None <-> ~ diag_ne0 (mget u) N).
Proof.
  intros <-. unfold inverseLU. rewrite <- diag_nonzero_spec.
  destruct (diag_nonzero (mget u) (mrows u)).
  - split; [discriminate|intros H; exfalso; apply H; reflexivity].
  - split; [intros _ H; discriminate|reflexivity].
Qed.
