(** The conversion of the decision vector into jerks, and the objectives of the humanoid walk
    generator, in terms of sums. *)

From Coq Require Import Reals List ZArith Lra Lia Arith Bool.
From Verif Require Import Scalar LinAlg LinAlgFacts ToolsModel ToolsSpec ToolsFacts TriFacts NoDynModel PolygonModel PolygonFacts
  QPModel QPFacts TrajModel TrajFacts LipModel FootModel ModelsSpec ModelsFacts SupModel SupSpec SupFacts HumModel HumSpec HumAlg HumFacts.
Import ListNotations.
Local Open Scope R_scope.

Section Obj.
Context {TK : Trig R}.

Lemma vread_inv (v : vec R) i x : vread v i = Ok x -> (i < vlen v)%nat /\ x = vget v i.
Proof. unfold vread. intros H. apply guard_ok in H. destruct H as (H & E). injection E as <-. apply Nat.ltb_lt in H. auto. Qed.
Lemma oinv_inv (m : option (mat R)) v : oinv m = Ok v -> m = Some v.
Proof. destruct m; cbn; congruence. Qed.

Lemma id_block N n (x : vec R) i r c : n = (2 * N)%nat -> (i < N)%nat -> (r = 0 \/ r = N)%nat -> (c = 0 \/ c = N)%nat -> vlen x = N ->
  vget (mv (mblock (mtr (mid n)) r c N N) x) i = if Nat.eqb r c then vget x i else 0.
Proof.
  intros -> Hi Hr Hc Hx. cbn [mv mblock mtr mid vget mget mrows mcols]. destruct (Nat.eqb_spec r c) as [->|Hne].
  - rewrite (ssum_single N i); [rewrite Nat.eqb_refl; rsimpl; ring|assumption|]. intros k _ Hk. bools; try (exfalso; lia); rsimpl; ring.
  - apply ssum_0. intros k Hk. bools; try (exfalso; lia); rsimpl; ring.
Qed.
Lemma sel_apply s (x : vec R) i : shapes s -> (i < sN s)%nat ->
  vget (mv (dU (selDyn (ssel s))) x) i = ssum (snb s) (fun k => IZR (mget (selV (ssel s)) i k) * vget x k).
Proof.
  intros [(V1 & V2) _ _ -> _] Hi. cbn [toLinearDynamics dU mv vget mcols mget]. rewrite V2. reflexivity.
Qed.
Lemma sel_col s f i : shapes s -> vget (colTimes (dS (selDyn (ssel s))) f) i = IZR (vget (selV0 (ssel s)) i) * f.
Proof. intros [_ _ _ -> _]. reflexivity. Qed.

(** What the conversion needs and gives *)
Record convert_facts (h : hum R) (X t : vec R) (z : Z) (cx cy : lindyn R) (Vx Vy : mat R) (fx fy : R) : Prop := {
  cv_nb : h_nb (hsup h) = Ok z;
  cv_cx : l_getCopX (hlip h) z = Ok cx; cv_cy : l_getCopY (hlip h) z = Ok cy;
  cv_Vx : dUinv cx = Some Vx; cv_Vy : dUinv cy = Some Vy;
  cv_foot : support_is (hsup h) fx fy;
  cv_len : vlen t = vlen X /\ (2 * lN (hlip h) + 2 * snb (hsup h) <= vlen X)%nat;
  cv_x : forall i, (i < lN (hlip h))%nat -> vget t i = ssum (lN (hlip h)) (fun k => mget Vx i k *
     (vget X k + foot_at (hsup h) fx (dStepX (lN (hlip h)) (vget X)) k - (vget (mv (dS cx) (vec_of_st3 (lsx (hlip h)))) k + vget (dK cx) k)));
  cv_y : forall i, (i < lN (hlip h))%nat -> vget t (lN (hlip h) + i) = ssum (lN (hlip h)) (fun k => mget Vy i k *
     (vget X (lN (hlip h) + k) + foot_at (hsup h) fy (dStepY (lN (hlip h)) (snb (hsup h)) (vget X)) k
      - (vget (mv (dS cy) (vec_of_st3 (lsy (hlip h)))) k + vget (dK cy) k)));
  cv_rest : forall k, (2 * lN (hlip h) <= k)%nat -> vget t k = vget X k }.

Lemma convert_inv h X t : hinv h -> shapes (hsup h) -> h_convert (hlip h) (hsup h) X = Ok t ->
  exists z cx cy Vx Vy fx fy, convert_facts h X t z cx cy Vx Vy fx fy.
Proof.
  intros I Sh H. pose proof (hi_N _ I) as EN. set (N := lN (hlip h)) in *. unfold h_convert in H. fold N in H.
  apply bind_ok in H. destruct H as (z & Hz & H). apply bind_ok in H. destruct H as (cx & Hcx & H). apply bind_ok in H. destruct H as (cy & Hcy & H).
  apply guard_ok in H. destruct H as (HL & H). apply Nat.leb_le in HL.
  apply bind_ok in H. destruct H as (vx & Hvx & H). apply bind_ok in H. destruct H as (fx & Hfx & H).
  apply bind_ok in H. destruct H as (vy & Hvy & H). apply bind_ok in H. destruct H as (fy & Hfy & H).
  apply bind_ok in H. destruct H as (Vx & HVx & H). apply bind_ok in H. destruct H as (Vy & HVy & H). injection H as <-.
  apply oinv_inv in HVx, HVy. apply vread_inv in Hfx, Hfy. destruct Hfx as (L1 & ->), Hfy as (L2 & ->).
  destruct (getCopX_fresh _ _ _ (hi_fresh _ I) Hcx) as (_ & Fx). destruct (getCopY_fresh _ _ _ (hi_fresh _ I) Hcy) as (_ & Fy).
  pose proof (cop_pre_fresh _ _ _ _ Fx) as [_ _ _ _ _ Ix]. pose proof (cop_pre_fresh _ _ _ _ Fy) as [_ _ _ _ _ Iy].
  destruct (Ix _ HVx) as (I1 & I2), (Iy _ HVy) as (I3 & I4). fold N in I1, I2, I3, I4.
  destruct (sh_rot _ Sh) as (_ & ER).
  exists z, cx, cy, Vx, Vy, (vget vx 0), (vget vy 0).
  assert (D : forall k, (k < N)%nat -> (k < sN (hsup h))%nat) by lia.
  set (bx := mv (dS cx) (vec_of_st3 (lsx (hlip h)))). set (by_ := mv (dS cy) (vec_of_st3 (lsy (hlip h)))).
  constructor; auto; fold bx by_; clearbody bx by_.
  - exists vx, vy. repeat split; assumption.
  - intros i Hi. fold N. cbn [vsetseg vget vlen mv]. rewrite I1, I3. bools. rewrite Nat.sub_0_r, I2. apply ssum_ext. intros k Hk. rsimpl. f_equal.
    rewrite ER. 
    cbn [vsub vadd vget]. rewrite !id_block by (rewrite ?EN; auto; fail). rewrite sel_apply, sel_col by auto. unfold foot_at, dStepX. cbn [vseg vget]. bools. rsimpl. change (N + (N + 0))%nat with (2 * N)%nat. change (0 + k)%nat with k. ring.
  - intros i Hi. fold N. cbn [vsetseg vget vlen mv]. rewrite I1, I3. bools. replace (N + i - N)%nat with i by lia. rewrite I4. apply ssum_ext. intros k Hk. rsimpl. f_equal.
    rewrite ER. cbn [vsub vadd vget]. rewrite !id_block by (rewrite ?EN; auto; fail). rewrite sel_apply, sel_col by auto. unfold foot_at, dStepY. cbn [vseg vget]. bools. rsimpl. change (N + (N + 0))%nat with (2 * N)%nat. change (0 + k)%nat with k. ring.
  - intros k Hk. fold N in Hk. cbn [vsetseg vget vlen mv]. rewrite I1, I3. bools. reflexivity.
Qed.

(** The jerks that the decision vector Y stands for, through the stored inverses *)
Definition jerkX (h : hum R) (cx : lindyn R) (Vx : mat R) (fx : R) (Y : nat -> R) (i : nat) : R :=
  ssum (lN (hlip h)) (fun k => mget Vx i k *
     (Y k + foot_at (hsup h) fx (dStepX (lN (hlip h)) Y) k - (vget (mv (dS cx) (vec_of_st3 (lsx (hlip h)))) k + vget (dK cx) k))).
Definition jerkY (h : hum R) (cy : lindyn R) (Vy : mat R) (fy : R) (Y : nat -> R) (i : nat) : R :=
  ssum (lN (hlip h)) (fun k => mget Vy i k *
     (Y (lN (hlip h) + k)%nat + foot_at (hsup h) fy (dStepY (lN (hlip h)) (snb (hsup h)) Y) k
      - (vget (mv (dS cy) (vec_of_st3 (lsy (hlip h)))) k + vget (dK cy) k))).
(** With an exact inverse they are the only jerks giving that CoP *)
Lemma jerkX_cop h z cx Vx fx Y J : hinv h -> l_getCopX (hlip h) z = Ok cx -> dUinv cx = Some Vx -> is_inverse (lN (hlip h)) (dU cx) Vx ->
  (forall i, (i < lN (hlip h))%nat -> J i = jerkX h cx Vx fx Y i)
  <-> (forall i, (i < lN (hlip h))%nat -> cop_x (hlip h) (IZR (z + 1) * lfb (hlip h)) J i = Y i + foot_at (hsup h) fx (dStepX (lN (hlip h)) Y) i).
Proof.
  intros I Hc HV Hi. destruct (getCopX_fresh _ _ _ (hi_fresh _ I) Hc) as (_ & F).
  destruct (cop_pre_fresh _ _ _ _ F) as [(U1 & U2) _ _ _ _ IV]. destruct (IV _ HV) as (V1 & V2). unfold cop_x. split; intros E i Hl.
  - rewrite <- (cop_predicts _ _ _ _ _ _ _ F Hl).
    rewrite (inverse_left (lN (hlip h)) Vx (dU cx)
      (fun k => Y k + foot_at (hsup h) fx (dStepX (lN (hlip h)) Y) k - (vget (mv (dS cx) (vec_of_st3 (lsx (hlip h)))) k + vget (dK cx) k)) J); auto.
    + ring.
    + apply is_inverse_sym. assumption.
    + intros k Hk. symmetry. apply E. assumption.
  - symmetry. unfold jerkX.
    refine (inverse_left (lN (hlip h)) (dU cx) Vx J _ U1 U2 V1 V2 Hi _ i Hl). intros k Hk.
    rewrite <- E by assumption. rewrite <- (cop_predicts _ _ _ _ _ _ _ F Hk). ring.
Qed.
Lemma jerkY_cop h z cy Vy fy Y J : hinv h -> l_getCopY (hlip h) z = Ok cy -> dUinv cy = Some Vy -> is_inverse (lN (hlip h)) (dU cy) Vy ->
  (forall i, (i < lN (hlip h))%nat -> J i = jerkY h cy Vy fy Y i)
  <-> (forall i, (i < lN (hlip h))%nat -> cop_y (hlip h) (IZR (z + 1) * lfb (hlip h)) J i
        = Y (lN (hlip h) + i)%nat + foot_at (hsup h) fy (dStepY (lN (hlip h)) (snb (hsup h)) Y) i).
Proof.
  intros I Hc HV Hi. destruct (getCopY_fresh _ _ _ (hi_fresh _ I) Hc) as (_ & F).
  destruct (cop_pre_fresh _ _ _ _ F) as [(U1 & U2) _ _ _ _ IV]. destruct (IV _ HV) as (V1 & V2). unfold cop_y. split; intros E i Hl.
  - rewrite <- (cop_predicts _ _ _ _ _ _ _ F Hl).
    rewrite (inverse_left (lN (hlip h)) Vy (dU cy)
      (fun k => Y (lN (hlip h) + k)%nat + foot_at (hsup h) fy (dStepY (lN (hlip h)) (snb (hsup h)) Y) k
                - (vget (mv (dS cy) (vec_of_st3 (lsy (hlip h)))) k + vget (dK cy) k)) J); auto.
    + ring.
    + apply is_inverse_sym. assumption.
    + intros k Hk. symmetry. apply E. assumption.
  - symmetry. unfold jerkY.
    refine (inverse_left (lN (hlip h)) (dU cy) Vy J _ U1 U2 V1 V2 Hi _ i Hl). intros k Hk.
    rewrite <- E by assumption. rewrite <- (cop_predicts _ _ _ _ _ _ _ F Hk). ring.
Qed.

(** ** The selection of the CoP and of the steps *)
Section Tmp.
  Variable (s : sup R) (N : nat).
  Hypothesis Sh : shapes s.
  Hypothesis EN : sN s = N.
  Lemma selU_dims : mrows (dU (selDyn (ssel s))) = N /\ mcols (dU (selDyn (ssel s))) = snb s.
  Proof. destruct Sh as [(V1 & V2) _ _ -> _]. cbn [toLinearDynamics dU mrows mcols]. rewrite V1, V2. auto. Qed.
  Lemma selU_get i j : mget (dU (selDyn (ssel s))) i j = IZR (mget (selV (ssel s)) i j).
  Proof. destruct Sh as [_ _ _ -> _]. reflexivity. Qed.
  Lemma selUT_dims : mrows (dUT (selDyn (ssel s))) = snb s /\ mcols (dUT (selDyn (ssel s))) = N.
  Proof. destruct Sh as [(V1 & V2) _ _ -> _]. cbn [toLinearDynamics dUT mrows mcols]. rewrite V1, V2. auto. Qed.
  Lemma selUT_get i j : mget (dUT (selDyn (ssel s))) i j = IZR (mget (selV (ssel s)) j i).
  Proof. destruct Sh as [_ _ _ -> _]. reflexivity. Qed.
  Lemma tmp_T j a : (j < 2 * N + 2 * snb s)%nat -> (a < 2 * N)%nat -> mget (h_tmpT N (snb s) s) j a = mget (h_tmp N (snb s) s) a j.
  Proof.
    intros Hj Ha. destruct (sh_rot _ Sh) as (E1 & E2). destruct selU_dims as (U1 & U2), selUT_dims as (T1 & T2).
    unfold h_tmpT, h_tmp. rewrite E1, E2. cbn [msetblock mget mrows mcols mzero mtr mid]. rewrite U1, U2, T1, T2, EN. rewrite !selU_get, !selUT_get.
    bools; try reflexivity; try (exfalso; lia); try (repeat f_equal; lia).
  Qed.
  Lemma tmp_applyX (Y : nat -> R) a : (a < N)%nat ->
    ssum (2 * N + 2 * snb s) (fun k => mget (h_tmp N (snb s) s) a k * Y k)
    = Y a + ssum (snb s) (fun k => IZR (mget (selV (ssel s)) a k) * dStepX N Y k).
  Proof.
    intros Ha. destruct (sh_rot _ Sh) as (_ & E2). destruct selU_dims as (U1 & U2).
    replace (2 * snb s)%nat with (snb s + snb s)%nat by lia. rewrite ssum_app, (ssum_app (snb s)).
    rewrite (ssum_single (2 * N) a); [|lia|].
    - rewrite (ssum_ext (snb s) _ (fun k => IZR (mget (selV (ssel s)) a k) * dStepX N Y k)).
      + rewrite (ssum_0 (snb s) (fun i => mget _ a (2 * N + (snb s + i))%nat * _)).
        * unfold h_tmp. rewrite E2. cbn [msetblock mget mrows mcols mzero mtr mid]. rewrite U1, U2, EN. bools; try (exfalso; lia); rsimpl; ring.
        * intros k Hk. unfold h_tmp. rewrite E2. cbn [msetblock mget mrows mcols mzero mtr mid]. rewrite U1, U2, EN. bools; rsimpl; ring.
      + intros k Hk. unfold h_tmp. rewrite E2. cbn [msetblock mget mrows mcols mzero mtr mid]. rewrite U1, U2, EN, !selU_get. unfold dStepX. bools.
        rewrite Nat.sub_0_r. replace (2 * N + k - 2 * N)%nat with k by lia. reflexivity.
    - intros k Hk Hne. unfold h_tmp. rewrite E2. cbn [msetblock mget mrows mcols mzero mtr mid]. rewrite U1, U2, EN. bools; try (exfalso; lia); rsimpl; ring.
  Qed.
  Lemma tmp_applyY (Y : nat -> R) a : (a < N)%nat ->
    ssum (2 * N + 2 * snb s) (fun k => mget (h_tmp N (snb s) s) (N + a)%nat k * Y k)
    = Y (N + a)%nat + ssum (snb s) (fun k => IZR (mget (selV (ssel s)) a k) * dStepY N (snb s) Y k).
  Proof.
    intros Ha. destruct (sh_rot _ Sh) as (_ & E2). destruct selU_dims as (U1 & U2).
    replace (2 * snb s)%nat with (snb s + snb s)%nat by lia. rewrite ssum_app, (ssum_app (snb s)).
    rewrite (ssum_single (2 * N) (N + a)); [|lia|].
    - rewrite (ssum_ext (snb s) (fun i => mget _ (N + a)%nat (2 * N + (snb s + i))%nat * _) (fun k => IZR (mget (selV (ssel s)) a k) * dStepY N (snb s) Y k)).
      + rewrite (ssum_0 (snb s) (fun i => mget _ (N + a)%nat (2 * N + i)%nat * _)).
        * unfold h_tmp. rewrite E2. cbn [msetblock mget mrows mcols mzero mtr mid]. rewrite U1, U2, EN. bools; try (exfalso; lia); rsimpl; ring.
        * intros k Hk. unfold h_tmp. rewrite E2. cbn [msetblock mget mrows mcols mzero mtr mid]. rewrite U1, U2, EN. bools; rsimpl; ring.
      + intros k Hk. unfold h_tmp. rewrite E2. cbn [msetblock mget mrows mcols mzero mtr mid]. rewrite U1, U2, EN, !selU_get. unfold dStepY. bools.
        replace (N + a - N)%nat with a by lia. replace (2 * N + (snb s + k) - (2 * N + snb s))%nat with k by lia. rewrite Nat.add_assoc. reflexivity.
    - intros k Hk Hne. unfold h_tmp. rewrite E2. cbn [msetblock mget mrows mcols mzero mtr mid]. rewrite U1, U2, EN. bools; try (exfalso; lia); rsimpl; ring.
  Qed.
End Tmp.

(** ** The objectives *)
(** What the call reads: the index, the two CoP previews, their inverses, the support foot. *)
Record gets (h : hum R) (z : Z) (cx cy : lindyn R) (Vx Vy : mat R) (fx fy : R) : Prop := {
  gt_nb : h_nb (hsup h) = Ok z;
  gt_cx : l_getCopX (hlip h) z = Ok cx; gt_cy : l_getCopY (hlip h) z = Ok cy;
  gt_Vx : dUinv cx = Some Vx; gt_Vy : dUinv cy = Some Vy;
  gt_foot : support_is (hsup h) fx fy }.
Lemma gets_unique h z cx cy Vx Vy fx fy z' cx' cy' Vx' Vy' fx' fy' : gets h z cx cy Vx Vy fx fy -> gets h z' cx' cy' Vx' Vy' fx' fy' ->
  z' = z /\ cx' = cx /\ cy' = cy /\ Vx' = Vx /\ Vy' = Vy /\ fx' = fx /\ fy' = fy.
Proof.
  intros [A B C D E (vx & vy & F1 & F2 & _ & _ & F3 & F4)] [A' B' C' D' E' (vx' & vy' & G1 & G2 & _ & _ & G3 & G4)].
  rewrite A in A'. injection A' as ->. rewrite B in B'. injection B' as ->. rewrite C in C'. injection C' as ->.
  rewrite D in D'. injection D' as ->. rewrite E in E'. injection E' as ->. rewrite F1 in G1. injection G1 as ->. rewrite F2 in G2. injection G2 as ->.
  repeat split; congruence.
Qed.
Lemma convert_gets h X t z cx cy Vx Vy fx fy : convert_facts h X t z cx cy Vx Vy fx fy -> gets h z cx cy Vx Vy fx fy.
Proof. intros [A B C D E F _ _ _ _]. constructor; assumption. Qed.

Section Objective.
  Variables (h : hum R) (z : Z) (cx cy : lindyn R) (Vx Vy : mat R) (fx fy : R).
  Hypothesis I : hinv h.
  Hypothesis Sh : shapes (hsup h).
  Hypothesis G : gets h z cx cy Vx Vy fx fy.
  Let N := lN (hlip h).
  Let M := snb (hsup h).
  Let W := selW (ssel (hsup h)).
  Let n := (2 * N + 2 * M)%nat.

  Lemma Vx_dims : mrows Vx = N /\ mcols Vx = N.
  Proof.
    destruct (getCopX_fresh _ _ _ (hi_fresh _ I) (gt_cx _ _ _ _ _ _ _ _ G)) as (_ & F).
    destruct (cop_pre_fresh _ _ _ _ F) as [_ _ _ _ _ IV]. exact (IV _ (gt_Vx _ _ _ _ _ _ _ _ G)).
  Qed.
  Lemma Vy_dims : mrows Vy = N /\ mcols Vy = N.
  Proof.
    destruct (getCopY_fresh _ _ _ (hi_fresh _ I) (gt_cy _ _ _ _ _ _ _ _ G)) as (_ & F).
    destruct (cop_pre_fresh _ _ _ _ F) as [_ _ _ _ _ IV]. exact (IV _ (gt_Vy _ _ _ _ _ _ _ _ G)).
  Qed.
  Lemma VxT : dUTinv cx = Some (mtr Vx).
  Proof.
    destruct (getCopX_fresh _ _ _ (hi_fresh _ I) (gt_cx _ _ _ _ _ _ _ _ G)) as (_ & F).
    destruct (cop_pre_fresh _ _ _ _ F) as [_ _ _ _ E _]. rewrite E, (gt_Vx _ _ _ _ _ _ _ _ G). reflexivity.
  Qed.
  Lemma VyT : dUTinv cy = Some (mtr Vy).
  Proof.
    destruct (getCopY_fresh _ _ _ (hi_fresh _ I) (gt_cy _ _ _ _ _ _ _ _ G)) as (_ & F).
    destruct (cop_pre_fresh _ _ _ _ F) as [_ _ _ _ E _]. rewrite E, (gt_Vy _ _ _ _ _ _ _ _ G). reflexivity.
  Qed.
  Lemma Wdims : mrows W = N /\ mcols W = N.
  Proof. destruct (sh_W _ Sh) as (A & B & _). rewrite (hi_N _ I) in A, B. auto. Qed.
  Lemma Wdiag a b : a <> b -> mget W a b = 0.
  Proof. destruct (sh_W _ Sh) as (_ & _ & D). apply D. Qed.
  Lemma Nsup : sN (hsup h) = N.
  Proof. exact (hi_N _ I). Qed.
  Lemma copS_len : mrows (dS cx) = N /\ vlen (dK cx) = N /\ mrows (dS cy) = N /\ vlen (dK cy) = N.
  Proof.
    destruct (getCopX_fresh _ _ _ (hi_fresh _ I) (gt_cx _ _ _ _ _ _ _ _ G)) as (_ & Fx).
    destruct (getCopY_fresh _ _ _ (hi_fresh _ I) (gt_cy _ _ _ _ _ _ _ _ G)) as (_ & Fy).
    destruct (cop_pre_fresh _ _ _ _ Fx), (cop_pre_fresh _ _ _ _ Fy). auto.
  Qed.

  (** The gradient: t^T (gx, gy) + H x0 *)
  Lemma grad_entry (H : mat R) (g1 g2 x0 : vec R) j : vlen g1 = N -> vlen g2 = N -> mcols H = n -> (j < n)%nat ->
    vget (vadd (mv (h_tmpT N M (hsup h)) (stack2 N g1 g2)) (mv H x0)) j
    = ssum N (fun a => mget (h_tmp N M (hsup h)) a j * vget g1 a) + ssum N (fun a => mget (h_tmp N M (hsup h)) (N + a)%nat j * vget g2 a)
      + ssum n (fun k => mget H j k * vget x0 k).
  Proof.
    intros L1 L2 HH Hj. cbn [vadd mv vget]. rewrite HH. change (mcols (h_tmpT N M (hsup h))) with (2 * N)%nat. rsimpl. f_equal.
    rewrite ssum_2N. f_equal; apply ssum_ext; intros a Ha; (rewrite (tmp_T (hsup h) N Sh Nsup) by (unfold n, M in Hj; lia));
      destruct (stack2_entry N g1 g2 a L1 L2 Ha) as (Q1 & Q2); rewrite ?Q1, ?Q2; reflexivity.
  Qed.

  (** The least squares of both objectives, given the rows. *)
  Lemma lsq_common (Ax Ay : nat -> nat -> R) (P Q : mat R) (g1 g2 x0 g : vec R) (ex ey : nat -> R) (H : mat R) d :
    mrows P = N /\ mcols P = N -> mrows Q = N /\ mcols Q = N ->
    (forall a b, (a < N)%nat -> (b < N)%nat -> mget P a b = ssum N (fun i => mget W i i * (Ax i a * Ax i b))) ->
    (forall a b, (a < N)%nat -> (b < N)%nat -> mget Q a b = ssum N (fun i => mget W i i * (Ay i a * Ay i b))) ->
    vlen g1 = N -> vlen g2 = N ->
    (forall a, (a < N)%nat -> vget g1 a = ssum N (fun i => Ax i a * (mget W i i * ex i))) ->
    (forall a, (a < N)%nat -> vget g2 a = ssum N (fun i => Ay i a * (mget W i i * ey i))) ->
    H = sandwich (h_tmp N M (hsup h)) (diag2 N P Q) ->
    g = vadd (mv (h_tmpT N M (hsup h)) (stack2 N g1 g2)) (mv H x0) ->
    quad n (mget H) (vget g) d
    = / 2 * ssum N (fun i => mget W i i * ((ssum n (fun k => uX N (h_tmp N M (hsup h)) Ax i k * (vget x0 k + d k)) + ex i) ^ 2
                                          + (ssum n (fun k => uY N (h_tmp N M (hsup h)) Ay i k * (vget x0 k + d k)) + ey i) ^ 2))
    - / 2 * ssum N (fun i => mget W i i * ((ssum n (fun k => uX N (h_tmp N M (hsup h)) Ax i k * vget x0 k) + ex i) ^ 2
                                          + (ssum n (fun k => uY N (h_tmp N M (hsup h)) Ay i k * vget x0 k) + ey i) ^ 2)).
  Proof.
    intros HP HQ EP EQ L1 L2 E1 E2 EH Eg.
    apply (two_quad N n (h_tmp N M (hsup h)) (fun i => mget W i i) Ax Ay P Q eq_refl HP HQ EP EQ (vget x0) d ex ey (vget g) (mget H)).
    - intros j k _ _. rewrite EH. reflexivity.
    - intros j Hj. rewrite Eg, grad_entry; try assumption.
      + f_equal. f_equal; apply ssum_ext; intros a Ha; [rewrite E1 by assumption|rewrite E2 by assumption]; reflexivity.
      + rewrite EH. reflexivity.
  Qed.

  Lemma jerk_obj x0 H g d : h_jerkHessian (hlip h) (hsup h) = Ok H -> h_jerkGradient (hlip h) (hsup h) x0 = Ok g ->
    mrows H = n /\ mcols H = n /\ vlen g = n /\ vlen x0 = n /\
    quad n (mget H) (vget g) d
    = / 2 * ssum N (fun i => mget W i i * (jerkX h cx Vx fx (fun k => vget x0 k + d k) i ^ 2 + jerkY h cy Vy fy (fun k => vget x0 k + d k) i ^ 2))
    - / 2 * ssum N (fun i => mget W i i * (jerkX h cx Vx fx (vget x0) i ^ 2 + jerkY h cy Vy fy (vget x0) i ^ 2)).
  Proof.
    intros HH Hg. pose proof Vx_dims as DX. pose proof Vy_dims as DY. pose proof Wdims as DW. destruct copS_len as (S1 & K1 & S2 & K2).
    destruct (gt_foot _ _ _ _ _ _ _ _ G) as (vx & vy & F1 & F2 & F3 & F4 & F5 & F6).
    unfold h_jerkGradient in Hg. rewrite HH in Hg. unfold h_jerkHessian in HH. rewrite (gt_nb _ _ _ _ _ _ _ _ G) in HH, Hg. cbn [bind] in HH, Hg.
    apply guard_ok in HH. destruct HH as (_ & HH). apply guard_ok in Hg. destruct Hg as (Hlen & Hg). apply Nat.eqb_eq in Hlen.
    rewrite (gt_cx _ _ _ _ _ _ _ _ G), (gt_cy _ _ _ _ _ _ _ _ G) in HH, Hg. cbn [bind] in HH, Hg.
    rewrite (gt_Vx _ _ _ _ _ _ _ _ G), VxT, (gt_Vy _ _ _ _ _ _ _ _ G), VyT in HH, Hg. cbn [oinv bind] in HH, Hg.
    rewrite F1, F2 in Hg. cbn [bind] in Hg. unfold vread in Hg. apply Nat.ltb_lt in F3, F4. rewrite F3, F4 in Hg. cbn [guard bind] in Hg. rewrite F5, F6 in Hg.
    fold N M W in HH, Hg, Hlen. injection HH as HH. injection Hg as Hg.
    split; [rewrite <- HH; reflexivity|]. split; [rewrite <- HH; reflexivity|]. split; [rewrite <- Hg; reflexivity|]. split; [exact Hlen|].
    symmetry in HH, Hg.
    set (c1 := fun b => IZR (vget (selV0 (ssel (hsup h))) b) * fx - (vget (mv (dS cx) (vec_of_st3 (lsx (hlip h)))) b + vget (dK cx) b)).
    set (c2 := fun b => IZR (vget (selV0 (ssel (hsup h))) b) * fy - (vget (mv (dS cy) (vec_of_st3 (lsy (hlip h)))) b + vget (dK cy) b)).
    rewrite (lsq_common (mget Vx) (mget Vy) _ _ _ _ x0 g (fun i => ssum N (fun b => mget Vx i b * c1 b)) (fun i => ssum N (fun b => mget Vy i b * c2 b)) H d) with (9 := HH) (10 := Hg).
    - assert (EX : forall Y i, ssum n (fun k => uX N (h_tmp N M (hsup h)) (mget Vx) i k * Y k) + ssum N (fun b => mget Vx i b * c1 b) = jerkX h cx Vx fx Y i).
      { intros Y i. rewrite uX_apply, <- ssum_plus. unfold jerkX. fold N. apply ssum_ext. intros a Ha.
        unfold n, M. rewrite (tmp_applyX (hsup h) N Sh Nsup) by assumption. unfold c1, foot_at. ring. }
      assert (EY : forall Y i, ssum n (fun k => uY N (h_tmp N M (hsup h)) (mget Vy) i k * Y k) + ssum N (fun b => mget Vy i b * c2 b) = jerkY h cy Vy fy Y i).
      { intros Y i. rewrite uY_apply, <- ssum_plus. unfold jerkY. fold N. apply ssum_ext. intros a Ha.
        unfold n, M. rewrite (tmp_applyY (hsup h) N Sh Nsup) by assumption. unfold c2, foot_at. ring. }
      f_equal; f_equal; apply ssum_ext; intros i _.
      + rewrite (EX (fun k => vget x0 k + d k)), (EY (fun k => vget x0 k + d k)). reflexivity.
      + rewrite EX, EY. reflexivity.
    - destruct DX, DY. split; assumption.
    - destruct DX, DY. split; assumption.
    - intros a b Ha Hb. apply (jerk_P N Vx W); auto. exact Wdiag.
    - intros a b Ha Hb. apply (jerk_P N Vy W); auto. exact Wdiag.
    - cbn [vsub mv vlen mmul mtr mrows]. apply DX.
    - cbn [vsub mv vlen mmul mtr mrows]. apply DY.
    - intros a Ha. cbn [vsub vget]. rewrite !(jerk_g N Vx W) by (auto; exact Wdiag). rsimpl.
      rewrite <- ssum_minus. apply ssum_ext. intros i Hi. rewrite <- Rmult_minus_distr_l, <- Rmult_minus_distr_l, <- ssum_minus. f_equal. f_equal.
      apply ssum_ext. intros b Hb. rewrite (sel_col _ _ _ Sh). cbn [vadd vget]. unfold c1. rsimpl. ring.
    - intros a Ha. cbn [vsub vget]. rewrite !(jerk_g N Vy W) by (auto; exact Wdiag). rsimpl.
      rewrite <- ssum_minus. apply ssum_ext. intros i Hi. rewrite <- Rmult_minus_distr_l, <- Rmult_minus_distr_l, <- ssum_minus. f_equal. f_equal.
      apply ssum_ext. intros b Hb. rewrite (sel_col _ _ _ Sh). cbn [vadd vget]. unfold c2. rsimpl. ring.
  Qed.

  Lemma vel_obj v x0 vr H g d : l_getComVel (hlip h) z = Ok v ->
    h_velHessian (hlip h) (hsup h) = Ok H -> h_velGradient (hlip h) (hsup h) vr x0 = Ok g ->
    mrows H = n /\ mcols H = n /\ vlen g = n /\ vlen x0 = n /\ vlen vr = (2 * N)%nat /\
    let ex Y i := ssum N (fun k => mget (dU v) i k * jerkX h cx Vx fx Y k) + vget (mv (dS v) (vec_of_st3 (lsx (hlip h)))) i - vget vr i in
    let ey Y i := ssum N (fun k => mget (dU v) i k * jerkY h cy Vy fy Y k) + vget (mv (dS v) (vec_of_st3 (lsy (hlip h)))) i - vget vr (N + i)%nat in
    quad n (mget H) (vget g) d
    = / 2 * ssum N (fun i => mget W i i * (ex (fun k => vget x0 k + d k) i ^ 2 + ey (fun k => vget x0 k + d k) i ^ 2))
    - / 2 * ssum N (fun i => mget W i i * (ex (vget x0) i ^ 2 + ey (vget x0) i ^ 2)).
  Proof.
    intros Hv HH Hg. pose proof Vx_dims as DX. pose proof Vy_dims as DY. pose proof Wdims as DW. destruct copS_len as (S1 & K1 & S2 & K2).
    destruct (getVel_fresh _ _ _ (hi_fresh _ I) Hv) as (_ & Fv). destruct (computeVelDynamic_inv _ _ _ _ Fv) as (_ & _ & _ & EU & ES & EK & ET & _).
    assert (DU : mrows (dU v) = N /\ mcols (dU v) = N) by (rewrite EU; split; reflexivity).
    destruct (gt_foot _ _ _ _ _ _ _ _ G) as (vx & vy & F1 & F2 & F3 & F4 & F5 & F6).
    unfold h_velGradient in Hg. rewrite HH in Hg. unfold h_velHessian in HH. rewrite (gt_nb _ _ _ _ _ _ _ _ G) in HH, Hg. cbn [bind] in HH, Hg.
    apply guard_ok in HH. destruct HH as (_ & HH). apply guard_ok in Hg. destruct Hg as (Hvr & Hg). apply guard_ok in Hg. destruct Hg as (Hlen & Hg).
    apply Nat.eqb_eq in Hlen, Hvr. rewrite Nsup in Hlen.
    rewrite (gt_cx _ _ _ _ _ _ _ _ G), (gt_cy _ _ _ _ _ _ _ _ G), Hv in HH, Hg. cbn [bind] in HH, Hg.
    rewrite (gt_Vx _ _ _ _ _ _ _ _ G), VxT, (gt_Vy _ _ _ _ _ _ _ _ G), VyT, ET in HH, Hg. cbn [oinv bind] in HH, Hg.
    rewrite F1, F2 in Hg. cbn [bind] in Hg. unfold vread in Hg. apply Nat.ltb_lt in F3, F4. rewrite F3, F4 in Hg. cbn [guard bind] in Hg. rewrite F5, F6 in Hg.
    fold N M W in HH, Hg, Hlen, Hvr. injection HH as HH. injection Hg as Hg.
    split; [rewrite <- HH; reflexivity|]. split; [rewrite <- HH; reflexivity|]. split; [rewrite <- Hg; reflexivity|]. split; [exact Hlen|]. split; [exact Hvr|].
    symmetry in HH, Hg. cbn zeta.
    set (sx := mv (dS v) (vec_of_st3 (lsx (hlip h)))) in *. set (sy := mv (dS v) (vec_of_st3 (lsy (hlip h)))) in *.
    set (kx := vadd (mv (dS cx) (vec_of_st3 (lsx (hlip h)))) (dK cx)) in *. set (ky := vadd (mv (dS cy) (vec_of_st3 (lsy (hlip h)))) (dK cy)) in *.
    set (ux := UX N Vx (dU v)). set (uy := UX N Vy (dU v)).
    set (e1 := fun i => vget sx i - ssum N (fun b => ux i b * vget kx b) + ssum N (fun b => ux i b * (IZR (vget (selV0 (ssel (hsup h))) b) * fx)) - vget vr i).
    set (e2 := fun i => vget sy i - ssum N (fun b => uy i b * vget ky b) + ssum N (fun b => uy i b * (IZR (vget (selV0 (ssel (hsup h))) b) * fy)) - vget vr (N + i)%nat).
    assert (EUX : forall (V : mat R) (x : vec R) i, mrows V = N /\ mcols V = N -> vget (mv (mmul (dU v) V) x) i = ssum N (fun b => UX N V (dU v) i b * vget x b)).
    { intros V x i (V1 & V2). cbn [mv vget mmul mcols mget]. rewrite V2. destruct DU as (_ & ->). reflexivity. }
    assert (Eex : forall (V : mat R) (f : nat -> R) i, ssum N (fun a => UX N V (dU v) i a * f a) = ssum N (fun k => mget (dU v) i k * ssum N (fun a => mget V k a * f a))).
    { intros V f i. unfold UX. rewrite (ssum_ext N _ (fun a => ssum N (fun k => mget (dU v) i k * (mget V k a * f a)))).
      - rewrite ssum_swap. apply ssum_ext. intros k _. rewrite ssum_mul_l. reflexivity.
      - intros a _. rewrite <- ssum_mul_r. apply ssum_ext. intros; ring. }
    rewrite (lsq_common ux uy _ _ _ _ x0 g e1 e2 H d) with (9 := HH) (10 := Hg).
    - assert (EX : forall Y i, ssum n (fun k => uX N (h_tmp N M (hsup h)) ux i k * Y k) + e1 i
                     = ssum N (fun k => mget (dU v) i k * jerkX h cx Vx fx Y k) + vget sx i - vget vr i).
      { intros Y i. rewrite uX_apply. unfold jerkX. fold N. rewrite <- Eex. fold ux. unfold e1.
        assert (ssum N (fun a => ux i a * ssum n (fun k => mget (h_tmp N M (hsup h)) a k * Y k)) - ssum N (fun b => ux i b * vget kx b)
                + ssum N (fun b => ux i b * (IZR (vget (selV0 (ssel (hsup h))) b) * fx))
                = ssum N (fun a => ux i a * (Y a + foot_at (hsup h) fx (dStepX N Y) a - (vget (mv (dS cx) (vec_of_st3 (lsx (hlip h)))) a + vget (dK cx) a)))) as <-; [|ring].
        rewrite <- ssum_minus, <- ssum_plus. apply ssum_ext. intros a Ha. unfold n, M. rewrite (tmp_applyX (hsup h) N Sh Nsup) by assumption.
        unfold foot_at, kx. cbn [vadd vget]. rsimpl. ring. }
      assert (EY : forall Y i, ssum n (fun k => uY N (h_tmp N M (hsup h)) uy i k * Y k) + e2 i
                     = ssum N (fun k => mget (dU v) i k * jerkY h cy Vy fy Y k) + vget sy i - vget vr (N + i)%nat).
      { intros Y i. rewrite uY_apply. unfold jerkY. fold N. rewrite <- Eex. fold uy. unfold e2.
        assert (ssum N (fun a => uy i a * ssum n (fun k => mget (h_tmp N M (hsup h)) (N + a)%nat k * Y k)) - ssum N (fun b => uy i b * vget ky b)
                + ssum N (fun b => uy i b * (IZR (vget (selV0 (ssel (hsup h))) b) * fy))
                = ssum N (fun a => uy i a * (Y (N + a)%nat + foot_at (hsup h) fy (dStepY N (snb (hsup h)) Y) a - (vget (mv (dS cy) (vec_of_st3 (lsy (hlip h)))) a + vget (dK cy) a)))) as <-; [|ring].
        rewrite <- ssum_minus, <- ssum_plus. apply ssum_ext. intros a Ha. unfold n, M. rewrite (tmp_applyY (hsup h) N Sh Nsup) by assumption.
        unfold foot_at, ky. cbn [vadd vget]. rsimpl. ring. }
      f_equal; f_equal; apply ssum_ext; intros i _.
      + rewrite (EX (fun k => vget x0 k + d k)), (EY (fun k => vget x0 k + d k)). reflexivity.
      + rewrite EX, EY. reflexivity.
    - destruct DX, DY. split; assumption.
    - destruct DX, DY. split; assumption.
    - intros a b Ha Hb. apply (vel_P N Vx (dU v) W); auto. exact Wdiag.
    - intros a b Ha Hb. apply (vel_P N Vy (dU v) W); auto. exact Wdiag.
    - cbn [mv vlen mmul mtr mrows]. apply DX.
    - cbn [mv vlen mmul mtr mrows]. apply DY.
    - intros a Ha. rewrite (vel_g N Vx (dU v) W) by (auto; exact Wdiag). apply ssum_ext. intros i Hi. fold ux. f_equal. f_equal.
      change (vget (vsub ?p ?q) i) with (vget p i - vget q i). change (vget (vadd ?p ?q) i) with (vget p i + vget q i). change (vget (vsub ?p ?q) i) with (vget p i - vget q i).
      rewrite !EUX by assumption. unfold e1, ux. cbn [vseg vget]. f_equal. f_equal. apply ssum_ext. intros b Hb. rewrite (sel_col _ _ _ Sh). reflexivity.
    - intros a Ha. rewrite (vel_g N Vy (dU v) W) by (auto; exact Wdiag). apply ssum_ext. intros i Hi. fold uy. f_equal. f_equal.
      change (vget (vsub ?p ?q) i) with (vget p i - vget q i). change (vget (vadd ?p ?q) i) with (vget p i + vget q i). change (vget (vsub ?p ?q) i) with (vget p i - vget q i).
      rewrite !EUX by assumption. unfold e2, uy. cbn [vseg vget]. f_equal. f_equal. apply ssum_ext. intros b Hb. rewrite (sel_col _ _ _ Sh). reflexivity.
  Qed.

  Lemma cop_obj x0 g d : h_copGradient (hlip h) (hsup h) x0 = Ok g ->
    vlen g = n /\ vlen x0 = n /\
    quad n (mget (h_copHessian (hlip h) (hsup h))) (vget g) d
    = / 2 * ssum (2 * N) (fun i => (vget x0 i + d i) ^ 2) - / 2 * ssum (2 * N) (fun i => vget x0 i ^ 2).
  Proof.
    unfold h_copGradient. intros Hg. apply guard_ok in Hg. destruct Hg as (_ & Hg). apply guard_ok in Hg. destruct Hg as (Hl & Hg).
    apply Nat.eqb_eq in Hl. injection Hg as <-. fold N in Hl. fold M in Hl. split; [reflexivity|]. split; [exact Hl|].
    assert (E : forall x j, (j < n)%nat -> ssum n (fun k => mget (h_copHessian (hlip h) (hsup h)) j k * x k) = if Nat.ltb j (2 * N) then x j else 0).
    { intros x j Hj. unfold h_copHessian. cbn [msetblock mget mrows mcols mzero mid]. fold N M. fold n. rewrite (ssum_single n j); [|assumption|].
      - rewrite Nat.eqb_refl. unfold n in Hj. bools; rsimpl; ring.
      - intros k Hk Hne. unfold n in *. bools; try (exfalso; lia); rsimpl; ring. }
    unfold quad. cbn [mv vget].
    change (mcols (h_copHessian (hlip h) (hsup h))) with n.
    rewrite (ssum_ext n (fun i => d i * ssum n (fun j => mget (h_copHessian (hlip h) (hsup h)) i j * d j)) (fun i => if Nat.ltb i (2 * N) then d i * d i else 0)).
    2:{ intros i Hi. rewrite E by assumption. destruct (Nat.ltb i (2 * N)); ring. }
    rewrite (ssum_ext n (fun i => smul _ _ * d i) (fun i => if Nat.ltb i (2 * N) then vget x0 i * d i else 0)) ||
    rewrite (ssum_ext n (fun i => ssum n _ * d i) (fun i => if Nat.ltb i (2 * N) then vget x0 i * d i else 0)).
    2:{ intros i Hi. rewrite (E (vget x0)) by assumption. destruct (Nat.ltb i (2 * N)); ring. }
    unfold n. rewrite !(ssum_app (2 * N)). rewrite !(ssum_0 (2 * M)) by (intros i Hi; bools; reflexivity).
    rewrite (ssum_ext (2 * N) (fun i => if Nat.ltb i (2 * N) then d i * d i else 0) (fun i => d i * d i)) by (intros i Hi; bools; reflexivity).
    rewrite (ssum_ext (2 * N) (fun i => if Nat.ltb i (2 * N) then vget x0 i * d i else 0) (fun i => vget x0 i * d i)) by (intros i Hi; bools; reflexivity).
    rewrite (ssum_ext (2 * N) (fun i => (vget x0 i + d i) ^ 2) (fun i => vget x0 i ^ 2 + 2 * (vget x0 i * d i) + d i * d i)) by (intros; ring).
    rewrite !ssum_plus, ssum_mul_l. field.
  Qed.
End Objective.
End Obj.
