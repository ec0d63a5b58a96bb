(** The dynamics used by the Zebulon objectives, and the objectives in terms of the motion. *)

From Coq Require Import Reals List ZArith Lra Lia Arith Bool.
From Verif Require Import Scalar LinAlg LinAlgFacts ToolsModel ToolsSpec ToolsFacts TriFacts NoDynModel PolygonModel
  QPModel QPFacts TrajModel TrajFacts LipModel BaseModel ModelsSpec ModelsFacts ZebModel HumAlg ZebAlg ZebSpec ZebFacts.
Import ListNotations.
Local Open Scope R_scope.

(** ** Sums *)
Lemma entries_mmul N (a b : mat R) f g : mrows a = N -> mcols a = N -> mcols b = N ->
  (forall i j k, (i < N)%nat -> (j < N)%nat -> (k < N)%nat -> mget a j i * mget b i k = f i j * g i k) -> entries N (mmul a b) f g.
Proof.
  intros H1 H2 H3 H. unfold entries. cbn [mmul mrows mcols mget]. split; [assumption|]. split; [assumption|].
  intros j k Hj Hk. rewrite H2. apply ssum_ext. intros i Hi. apply H; assumption.
Qed.
Lemma ventries_mv N (a : mat R) (v : vec R) f c : mrows a = N -> mcols a = N ->
  (forall i j, (i < N)%nat -> (j < N)%nat -> mget a j i * vget v i = f i j * c i) -> ventries N (mv a v) f c.
Proof.
  intros H1 H2 H. unfold ventries. cbn [mv vlen vget]. split; [assumption|]. intros j Hj. rewrite H2. apply ssum_ext. intros i Hi. apply H; assumption.
Qed.
Lemma ssum_sub N (f g : nat -> nat -> R) (Y : nat -> R) i :
  ssum N (fun k => (f i k - g i k) * Y k) = ssum N (fun k => f i k * Y k) - ssum N (fun k => g i k * Y k).
Proof. rewrite <- ssum_minus. apply ssum_ext. intros; ring. Qed.
Lemma ssum_neg N (g : nat -> nat -> R) (Y : nat -> R) i :
  ssum N (fun k => - g i k * Y k) = - ssum N (fun k => g i k * Y k).
Proof. rewrite <- ssum_opp. apply ssum_ext. intros; ring. Qed.

(** ** Previews *)
(** d previews f with a first interval S and then intervals T *)
Definition dynF (d : lindyn R) (N : nat) (S T : R) (f : st3 R -> R) : Prop :=
  (mrows (dU d) = N /\ mcols (dU d) = N /\ dUT d = mtr (dU d) /\ mrows (dS d) = N /\ mcols (dS d) = 3%nat /\ vlen (dK d) = N)
  /\ forall x Y i, (i < N)%nat ->
       ssum N (fun k => mget (dU d) i k * Y k) + vget (mv (dS d) (vec_of_st3 x)) i + vget (dK d) i = f (sim S T x Y i).
Lemma dynF_pos S T N d : computePosDynamic S T N = Ok d -> dynF d N S T pos /\ dK d = vzero N.
Proof.
  intros H. apply computePosDynamic_inv in H. destruct H as (_ & _ & _ & EU & ES & EK & ET & _). split; [|assumption].
  split; [rewrite ET, EU, ES, EK; repeat split|]. intros x Y i Hi. rewrite EU, ES, EK. cbn [vzero vget].
  change (@s0 R RScalar) with 0. rewrite Rplus_0_r. exact (pos_predict S T N x (MkVec N Y) i Hi).
Qed.
Lemma dynF_vel S T N d : computeVelDynamic S T N = Ok d -> dynF d N S T vel /\ dK d = vzero N.
Proof.
  intros H. apply computeVelDynamic_inv in H. destruct H as (_ & _ & _ & EU & ES & EK & ET & _). split; [|assumption].
  split; [rewrite ET, EU, ES, EK; repeat split|]. intros x Y i Hi. rewrite EU, ES, EK. cbn [vzero vget].
  change (@s0 R RScalar) with 0. rewrite Rplus_0_r. exact (vel_predict S T N x (MkVec N Y) i Hi).
Qed.
Lemma dynF_acc S T N d : computeAccDynamic S T N = Ok d -> dynF d N S T acc /\ dK d = vzero N.
Proof.
  intros H. apply computeAccDynamic_inv in H. destruct H as (_ & _ & _ & EU & ES & EK & ET & _). split; [|assumption].
  split; [rewrite ET, EU, ES, EK; repeat split|]. intros x Y i Hi. rewrite EU, ES, EK. cbn [vzero vget].
  change (@s0 R RScalar) with 0. rewrite Rplus_0_r. exact (acc_predict S T N x (MkVec N Y) i Hi).
Qed.
Lemma dynF_cop S T N h g0 gz m M d : computeCopDynamic S T N h g0 gz m M = Ok d -> dynF d N S T (cop_of h g0 gz m M).
Proof.
  intros H. apply computeCopDynamic_inv in H. destruct H as (_ & _ & _ & HG & _ & _ & _ & EU & ES & EK & ET & _).
  split; [rewrite ET, EU, ES, EK; repeat split|]. intros x Y i Hi. rewrite EU, ES, EK.
  exact (cop_predict S T N h g0 gz (m/M) x (MkVec N Y) i Hi (gz_ne0 _ HG)).
Qed.

Definition cf (l : lip R) : R := IZR (Int_part ((lT l + 1/10000) / lT l)) * lT l.
Lemma last_tab (l : lip R) n (f : nat -> res (lindyn R)) v : lnb l = Some (Z.of_nat n) -> (0 < n)%nat -> tab f n v ->
  exists d, l_last l v = Ok d /\ f (n - 1)%nat = Ok d.
Proof.
  intros Hnb Hn (HL & HT). destruct (HT (n - 1)%nat) as (d & A1 & A2); [lia|]. exists d. split; [|assumption].
  unfold l_last. rewrite Hnb. replace (Z.leb 1 (Z.of_nat n)) with true by (symmetry; apply Z.leb_le; lia). cbn [ubguard bind].
  replace (Z.to_nat (Z.of_nat n - 1)) with (n - 1)%nat by lia. rewrite A1. reflexivity.
Qed.
Lemma first_ratio T : 0 < T -> 1 <= (T + 1/10000) / T.
Proof. intros H. apply Rmult_le_reg_r with T; [assumption|]. unfold Rdiv at 1. rewrite Rmult_assoc, Rinv_l; lra. Qed.
Lemma first_count T : 0 < T -> (1 <= Int_part ((T + 1/10000) / T))%Z.
Proof. intros H. apply first_ratio in H. set (x := (T + 1/10000) / T) in *. destruct (base_Int_part x) as (A & B). apply Z.lt_pred_le. apply lt_IZR. cbn. lra. Qed.

(** All dynamics read by the objectives *)
Record dyns (l : lip R) (b : base R) : Prop := {
  dy_T : 0 < lT l; dy_N : (0 < lN l)%nat;
  dy_p : exists d, l_last l (lposD l) = Ok d /\ dynF d (lN l) (cf l) (lT l) pos /\ dK d = vzero (lN l);
  dy_v : exists d, l_last l (lvelD l) = Ok d /\ dynF d (lN l) (cf l) (lT l) vel /\ dK d = vzero (lN l);
  dy_a : exists d, l_last l (laccD l) = Ok d /\ dynF d (lN l) (cf l) (lT l) acc /\ dK d = vzero (lN l);
  dy_cx : exists d, l_last l (lcxD l) = Ok d /\ dynF d (lN l) (cf l) (lT l) (cop_of (lh l) (gx (lg l)) (gz (lg l)) (lm l) (lm l + bm b));
  dy_cy : exists d, l_last l (lcyD l) = Ok d /\ dynF d (lN l) (cf l) (lT l) (cop_of (lh l) (gy (lg l)) (gz (lg l)) (lm l) (lm l + bm b));
  dy_bp : dynF (bposD b) (lN l) (lT l) (lT l) pos /\ dK (bposD b) = vzero (lN l);
  dy_bv : dynF (bvelD b) (lN l) (lT l) (lT l) vel /\ dK (bvelD b) = vzero (lN l);
  dy_ba : dynF (baccD b) (lN l) (lT l) (lT l) acc /\ dK (baccD b) = vzero (lN l);
  dy_bx : dynF (bcxD b) (lN l) (lT l) (lT l) (cop_of (bh b) (gx (lg l)) (gz (lg l)) (bm b) (lm l + bm b));
  dy_by : dynF (bcyD b) (lN l) (lT l) (lT l) (cop_of (bh b) (gy (lg l)) (gz (lg l)) (bm b) (lm l + bm b))
}.
Lemma models_dyns l b : models_ok l b -> dyns l b.
Proof.
  intros [(n & F) M2 M3 M4 M5 M6 M7 M8 M9 M10 M11 M12].
  assert (HT : 0 < lT l) by (rewrite <- M7; destruct (computePosDynamic_inv _ _ _ _ (bf_pos _ M4)) as (A & _); exact A).
  destruct F as [F1 F2 F3 F4 F5 F6 F7 F8 F9 F10]. rewrite M3 in F3.
  pose proof (first_count _ HT) as Hc. pose proof (first_ratio _ HT) as Hr.
  rewrite strunc_pos in F3 by lra.
  assert (Hn : (0 < n)%nat) by lia.
  assert (Ef : lfst l (n - 1) = cf l).
  { unfold lfst, cf. rewrite M3, <- F3, <- INR_IZR_INZ. f_equal. rewrite minus_INR by lia. cbn [INR]. ring. }
  destruct M4 as [G1 G2 G3 G4 G5 G6 G7 G8]. rewrite M6, M7, ?M8, ?M9, ?M10 in *.
  constructor; try assumption.
  - destruct (last_tab _ _ _ _ F4 Hn F5) as (d & A & B). rewrite Ef in B. apply dynF_pos in B. eauto.
  - destruct (last_tab _ _ _ _ F4 Hn F6) as (d & A & B). rewrite Ef in B. apply dynF_vel in B. eauto.
  - destruct (last_tab _ _ _ _ F4 Hn F7) as (d & A & B). rewrite Ef in B. apply dynF_acc in B. eauto.
  - destruct (last_tab _ _ _ _ F4 Hn F8) as (d & A & B). rewrite Ef in B. apply dynF_cop in B. eauto.
  - destruct (last_tab _ _ _ _ F4 Hn F9) as (d & A & B). rewrite Ef in B. apply dynF_cop in B. eauto.
  - apply dynF_pos. assumption.
  - apply dynF_vel. assumption.
  - apply dynF_acc. assumption.
  - apply dynF_cop. assumption.
  - apply dynF_cop. assumption.
Qed.

(** ** Centre of pressure *)
Definition half2 (N : nat) (f g : nat -> R) : R := / 2 * (ssum N (fun i => f i ^ 2) + ssum N (fun i => g i ^ 2)).
Lemma half2_ext N f f' g g' : (forall i, (i < N)%nat -> f i = f' i) -> (forall i, (i < N)%nat -> g i = g' i) -> half2 N f g = half2 N f' g'.
Proof. intros A B. unfold half2. f_equal. f_equal; apply ssum_ext; intros i Hi; rewrite ?A, ?B by assumption; reflexivity. Qed.


Ltac shapes := repeat match goal with H : dynF _ _ _ _ _ |- _ => let S := fresh "S" in destruct H as ((? & ? & S & ? & ? & ?) & H) end.
Lemma mv_msub (a b : mat R) (x : vec R) i : mcols b = mcols a -> vget (mv (msub a b) x) i = vget (mv a x) i - vget (mv b x) i.
Proof.
  intros E. cbn [mv msub vget mget mcols]. rewrite E, <- ssum_minus. apply ssum_ext. intros. rsimpl. ring.
Qed.
Ltac rewS := repeat match goal with E : dUT _ = mtr _ |- _ => rewrite E end.
Ltac dims := cbn [mmul mv msub mopp mtr mrows mcols vlen]; assumption.

Lemma cop_quad z H g ref x0 : dyns (zl z) (zb z) -> cop_hessian (zl z) (zb z) = Ok H ->
  cop_gradient (zl z) (zb z) H ref x0 = Ok g -> forall d,
  let N := horizon z in
  quad (4 * N) (mget H) (vget g) d
  = half2 N (fun i => copX z (fun k => vget x0 k + d k) i - vget ref i) (fun i => copY z (fun k => vget x0 k + d k) i - vget ref (N + i)%nat)
    - half2 N (fun i => copX z (vget x0) i - vget ref i) (fun i => copY z (vget x0) i - vget ref (N + i)%nat).
Proof.
  intros D HH HG d N.
  destruct (dy_cx _ _ D) as (cx & Lx & Dx), (dy_cy _ _ D) as (cy & Ly & Dy).
  destruct (dy_bp _ _ D) as (Dp & Kp). pose proof (dy_bx _ _ D) as Bx. pose proof (dy_by _ _ D) as By.
  unfold cop_hessian in HH. apply bind_ok in HH. destruct HH as (_ & _ & HH). rewrite Lx in HH. cbn [bind] in HH. rewrite Ly in HH. cbn [bind] in HH.
  unfold cop_gradient in HG. apply guard_ok in HG. destruct HG as (_ & HG). apply guard_ok in HG. destruct HG as (_ & HG).
  apply bind_ok in HG. destruct HG as (_ & _ & HG). rewrite Lx in HG. cbn [bind] in HG. rewrite Ly in HG. cbn [bind] in HG.
  fold (horizon z) in *. fold N in HH, HG, Dx, Dy, Dp, Bx, By.
  change (sltb EPS (bm (zb z))) with (Rltb (1/10000) (bm (zb z))) in *.
  unfold copX, copY, rel_cop. destruct (Rltb_spec (1/10000) (bm (zb z))) as [Hm|Hm]; destruct (Rlt_dec (1/10000) (bm (zb z))) as [Hm'|Hm']; try contradiction.
  - injection HH as <-. injection HG as <-.
    set (rX := fun i => - vget ref i + (vget (mv (dS cx) (vec_of_st3 (lsx (zl z)))) i + vget (dK cx) i)
                        + (vget (mv (msub (dS (bcxD (zb z))) (dS (bposD (zb z)))) (vec_of_st3 (bsx (zb z)))) i + vget (dK (bcxD (zb z))) i)).
    set (rY := fun i => - vget ref (N + i)%nat + (vget (mv (dS cy) (vec_of_st3 (lsy (zl z)))) i + vget (dK cy) i)
                        + (vget (mv (msub (dS (bcyD (zb z))) (dS (bposD (zb z)))) (vec_of_st3 (bsy (zb z)))) i + vget (dK (bcyD (zb z))) i)).
    set (P := dU (bposD (zb z))).
    set (ux := fun i k => mget (dU (bcxD (zb z))) i k - mget P i k). set (uy := fun i k => mget (dU (bcyD (zb z))) i k - mget P i k).
    shapes.
    assert (EX : forall Y i, (i < N)%nat -> axX N (mget (dU cx)) ux rX Y i
      = cop_of (lh (zl z)) (gx (lg (zl z))) (gz (lg (zl z))) (lm (zl z)) (lm (zl z) + bm (zb z)) (comX z Y i)
        + cop_of (bh (zb z)) (gx (lg (zl z))) (gz (lg (zl z))) (bm (zb z)) (lm (zl z) + bm (zb z)) (baseX z Y i)
        - pos (baseX z Y i) - vget ref i).
    { intros Y i Hi. unfold comX, baseX. rewrite <- (Dx _ _ i Hi), <- (Bx _ _ i Hi), <- (Dp _ _ i Hi).
      unfold axX, rX, ux. rewrite (ssum_sub N _ _ (fun k => Y (2 * N + k)%nat)), mv_msub, Kp by congruence. cbn [vzero vget]. unfold jComX, jBaseX, P, horizon. fold (horizon z). fold N. rsimpl. ring. }
    assert (EY : forall Y i, (i < N)%nat -> axY N (mget (dU cy)) uy rY Y i
      = cop_of (lh (zl z)) (gy (lg (zl z))) (gz (lg (zl z))) (lm (zl z)) (lm (zl z) + bm (zb z)) (comY z Y i)
        + cop_of (bh (zb z)) (gy (lg (zl z))) (gz (lg (zl z))) (bm (zb z)) (lm (zl z) + bm (zb z)) (baseY z Y i)
        - pos (baseY z Y i) - vget ref (N + i)%nat).
    { intros Y i Hi. unfold comY, baseY. rewrite <- (Dy _ _ i Hi), <- (By _ _ i Hi), <- (Dp _ _ i Hi).
      unfold axY, rY, uy. rewrite (ssum_sub N _ _ (fun k => Y (3 * N + k)%nat)), mv_msub, Kp by congruence. cbn [vzero vget]. unfold jComY, jBaseY, P, horizon. fold (horizon z). fold N. rsimpl. ring. }
    rewrite (pair_quad N (mget (dU cx)) (mget (dU cy)) ux uy) with (cx := rX) (cy := rY).
    1:{ f_equal; apply half2_ext; intros i Hi; rewrite ?EX, ?EY by assumption; reflexivity. }
    1-8: rewS; apply entries_mmul; [dims|dims|dims|intros; reflexivity].
    1-4: rewS; apply ventries_mv; [dims|dims|intros; reflexivity].
  - injection HH as <-. injection HG as <-.
    set (rX := fun i => - vget ref i + (vget (mv (dS cx) (vec_of_st3 (lsx (zl z)))) i + vget (dK cx) i)
                        - vget (mv (dS (bposD (zb z))) (vec_of_st3 (bsx (zb z)))) i).
    set (rY := fun i => - vget ref (N + i)%nat + (vget (mv (dS cy) (vec_of_st3 (lsy (zl z)))) i + vget (dK cy) i)
                        - vget (mv (dS (bposD (zb z))) (vec_of_st3 (bsy (zb z)))) i).
    set (P := dU (bposD (zb z))). set (u := fun i k => - mget P i k).
    shapes.
    assert (EX : forall Y i, (i < N)%nat -> axX N (mget (dU cx)) u rX Y i
      = cop_of (lh (zl z)) (gx (lg (zl z))) (gz (lg (zl z))) (lm (zl z)) (lm (zl z) + bm (zb z)) (comX z Y i) + 0
        - pos (baseX z Y i) - vget ref i).
    { intros Y i Hi. unfold comX, baseX. rewrite <- (Dx _ _ i Hi), <- (Dp _ _ i Hi).
      unfold axX, rX, u. rewrite (ssum_neg N _ (fun k => Y (2 * N + k)%nat)), Kp. cbn [vzero vget]. unfold jComX, jBaseX, P, horizon. fold (horizon z). fold N. rsimpl. ring. }
    assert (EY : forall Y i, (i < N)%nat -> axY N (mget (dU cy)) u rY Y i
      = cop_of (lh (zl z)) (gy (lg (zl z))) (gz (lg (zl z))) (lm (zl z)) (lm (zl z) + bm (zb z)) (comY z Y i) + 0
        - pos (baseY z Y i) - vget ref (N + i)%nat).
    { intros Y i Hi. unfold comY, baseY. rewrite <- (Dy _ _ i Hi), <- (Dp _ _ i Hi).
      unfold axY, rY, u. rewrite (ssum_neg N _ (fun k => Y (3 * N + k)%nat)), Kp. cbn [vzero vget]. unfold jComY, jBaseY, P, horizon. fold (horizon z). fold N. rsimpl. ring. }
    rewrite (pair_quad N (mget (dU cx)) (mget (dU cy)) u u) with (cx := rX) (cy := rY).
    1:{ f_equal; apply half2_ext; intros i Hi; rewrite ?EX, ?EY by assumption; reflexivity. }
    1-8: rewS; apply entries_mmul; [dims|dims|dims|intros; unfold u, P; cbn [mget mtr mopp]; rsimpl; ring].
    1-4: rewS; apply ventries_mv; [dims|dims|intros; unfold u, P, rX, rY; cbn [mget mtr mopp vget vadd vsub vopp vseg]; rewrite ?Nat.add_0_l; rsimpl; ring].
Qed.

Lemma com_quad z H g ref shift grav x0 : dyns (zl z) (zb z) -> com_hessian (zl z) (zb z) = Ok H ->
  com_gradient (zl z) (zb z) H ref shift grav x0 = Ok g -> forall d,
  let N := horizon z in
  quad (4 * N) (mget H) (vget g) d
  = half2 N (fun i => relX z (fun k => vget x0 k + d k) i - vget shift i) (fun i => relY z (fun k => vget x0 k + d k) i - vget shift (N + i)%nat)
    - half2 N (fun i => relX z (vget x0) i - vget shift i) (fun i => relY z (vget x0) i - vget shift (N + i)%nat).
Proof.
  intros D HH HG d N.
  destruct (dy_p _ _ D) as (c & L & Dc & Kc), (dy_bp _ _ D) as (Dp & Kp).
  unfold com_hessian in HH. apply bind_ok in HH. destruct HH as (_ & _ & HH). rewrite L in HH. cbn [bind] in HH.
  unfold com_gradient in HG. do 4 (apply guard_ok in HG; destruct HG as (_ & HG)).
  apply bind_ok in HG. destruct HG as (_ & _ & HG). rewrite L in HG. cbn [bind] in HG.
  fold (horizon z) in *. fold N in HH, HG, Dc, Dp, Kp, Kc.
  injection HH as <-. injection HG as <-.
  set (rX := fun i => - vget shift i + vget (mv (dS c) (vec_of_st3 (lsx (zl z)))) i - vget (mv (dS (bposD (zb z))) (vec_of_st3 (bsx (zb z)))) i).
  set (rY := fun i => - vget shift (N + i)%nat + vget (mv (dS c) (vec_of_st3 (lsy (zl z)))) i - vget (mv (dS (bposD (zb z))) (vec_of_st3 (bsy (zb z)))) i).
  set (P := dU (bposD (zb z))). set (u := fun i k => - mget P i k).
  shapes.
  assert (EX : forall Y i, (i < N)%nat -> axX N (mget (dU c)) u rX Y i = relX z Y i - vget shift i).
  { intros Y i Hi. unfold relX, comX, baseX. rewrite <- (Dc _ _ i Hi), <- (Dp _ _ i Hi).
    unfold axX, rX, u. rewrite (ssum_neg N _ (fun k => Y (2 * N + k)%nat)), Kp, Kc. cbn [vzero vget]. unfold jComX, jBaseX, P, horizon. fold (horizon z). fold N. rsimpl. ring. }
  assert (EY : forall Y i, (i < N)%nat -> axY N (mget (dU c)) u rY Y i = relY z Y i - vget shift (N + i)%nat).
  { intros Y i Hi. unfold relY, comY, baseY. rewrite <- (Dc _ _ i Hi), <- (Dp _ _ i Hi).
    unfold axY, rY, u. rewrite (ssum_neg N _ (fun k => Y (3 * N + k)%nat)), Kp, Kc. cbn [vzero vget]. unfold jComY, jBaseY, P, horizon. fold (horizon z). fold N. rsimpl. ring. }
  rewrite (pair_quad N (mget (dU c)) (mget (dU c)) u u) with (cx := rX) (cy := rY).
  1:{ f_equal; apply half2_ext; intros i Hi; rewrite ?EX, ?EY by assumption; reflexivity. }
  1-8: rewS; apply entries_mmul; [dims|dims|dims|intros; unfold u, P; cbn [mget mtr mopp]; rsimpl; ring].
  1-4: rewS; apply ventries_mv; [dims|dims|intros; unfold u, P, rX, rY; cbn [mget mtr mopp vget vadd vsub vopp vseg]; rewrite ?Nat.add_0_l; rsimpl; ring].
Qed.

(** ** Tracking of the base *)
Lemma btrack_quad N T (d : lindyn R) (f : st3 R -> R) b ref B g : dynF d N T T f -> dK d = vzero N -> bN b = N ->
  btrack_gradient b d (btrack_hessian N d) ref B = Ok g -> forall D,
  quad (2 * N) (mget (btrack_hessian N d)) (vget g) D
  = half2 N (fun i => f (sim T T (bsx b) (fun k => vget B k + D k) i) - vget ref i)
            (fun i => f (sim T T (bsy b) (fun k => vget B (N + k)%nat + D (N + k)%nat) i) - vget ref (N + i)%nat)
    - half2 N (fun i => f (sim T T (bsx b) (vget B) i) - vget ref i)
              (fun i => f (sim T T (bsy b) (fun k => vget B (N + k)%nat) i) - vget ref (N + i)%nat).
Proof.
  intros F K EN HG D. unfold btrack_gradient in HG. do 2 (apply guard_ok in HG; destruct HG as (_ & HG)). rewrite EN in HG. injection HG as <-.
  shapes. set (u := mget (dU d)).
  set (vx := fun i k => if Nat.ltb k N then u i k else 0). set (vy := fun i k => if Nat.ltb k N then 0 else u i (k - N)%nat).
  set (cx := fun i => vget (mv (dS d) (vec_of_st3 (bsx b))) i - vget ref i).
  set (cy := fun i => vget (mv (dS d) (vec_of_st3 (bsy b))) i - vget ref (N + i)%nat).
  assert (AX : forall i Y, ssum (2 * N) (fun k => vx i k * Y k) = ssum N (fun k => u i k * Y k)).
  { intros i Y. rewrite ssum_2N. rewrite (ssum_0 N (fun k => vx i (N + k)%nat * _)).
    - rewrite Rplus_0_r. apply ssum_ext. intros k Hk. unfold vx. bools; reflexivity.
    - intros k Hk. unfold vx. bools; ring. }
  assert (AY : forall i Y, ssum (2 * N) (fun k => vy i k * Y k) = ssum N (fun k => u i k * Y (N + k)%nat)).
  { intros i Y. rewrite ssum_2N. rewrite (ssum_0 N (fun k => vy i k * _)).
    - rewrite Rplus_0_l. apply ssum_ext. intros k Hk. unfold vy. bools. do 2 f_equal. lia.
    - intros k Hk. unfold vy. bools; ring. }
  assert (HH : forall j k, (j < 2 * N)%nat -> (k < 2 * N)%nat -> mget (btrack_hessian N d) j k = ssum N (fun i => vx i j * vx i k) + ssum N (fun i => vy i j * vy i k)).
  { intros j k Hj Hk. unfold btrack_hessian, vx, vy. cbn [msetblock mget mmul mzero mtr mrows mcols]. rewrite S. cbn [mget mtr mrows mcols].
    rewrite H, H0. fold u.
    bools; rewrite ?Nat.sub_0_r;
      repeat match goal with
             | |- context [ssum N (fun i => 0 * @?f i)] => rewrite (ssum_0 N (fun i => 0 * f i)) by (intros; ring)
             | |- context [ssum N (fun i => @?f i * 0)] => rewrite (ssum_0 N (fun i => f i * 0)) by (intros; ring)
             end; rsimpl; try ring; exfalso; lia. }
  rewrite (quad_ext (2 * N) _ (fun j k => ssum N (fun i => vx i j * vx i k) + 1 * ssum N (fun i => vy i j * vy i k)) _
    (fun j => ssum N (fun i => vx i j * (ssum (2 * N) (fun k => vx i k * vget B k) + cx i))
            + 1 * ssum N (fun i => vy i j * (ssum (2 * N) (fun k => vy i k * vget B k) + cy i))) D D).
  - rewrite quad_add, !quad_lsq. unfold half2.
    rewrite (ssum_ext N (fun i => (ssum (2 * N) (fun k => vx i k * (vget B k + D k)) + cx i) ^ 2)
      (fun i => (f (sim T T (bsx b) (fun k => vget B k + D k) i) - vget ref i) ^ 2)).
    2:{ intros i Hi. rewrite (AX i (fun k => vget B k + D k)), <- (F _ _ i Hi), K. cbn [vzero vget]. unfold cx, u. rsimpl. ring. }
    rewrite (ssum_ext N (fun i => (ssum (2 * N) (fun k => vx i k * vget B k) + cx i) ^ 2)
      (fun i => (f (sim T T (bsx b) (vget B) i) - vget ref i) ^ 2)).
    2:{ intros i Hi. rewrite (AX i (vget B)), <- (F _ _ i Hi), K. cbn [vzero vget]. unfold cx, u. rsimpl. ring. }
    rewrite (ssum_ext N (fun i => (ssum (2 * N) (fun k => vy i k * (vget B k + D k)) + cy i) ^ 2)
      (fun i => (f (sim T T (bsy b) (fun k => vget B (N + k)%nat + D (N + k)%nat) i) - vget ref (N + i)%nat) ^ 2)).
    2:{ intros i Hi. rewrite (AY i (fun k => vget B k + D k)), <- (F _ _ i Hi), K. cbn [vzero vget]. unfold cy, u. rsimpl. ring. }
    rewrite (ssum_ext N (fun i => (ssum (2 * N) (fun k => vy i k * vget B k) + cy i) ^ 2)
      (fun i => (f (sim T T (bsy b) (fun k => vget B (N + k)%nat) i) - vget ref (N + i)%nat) ^ 2)).
    2:{ intros i Hi. rewrite (AY i (vget B)), <- (F _ _ i Hi), K. cbn [vzero vget]. unfold cy, u. rsimpl. ring. }
    ring.
  - intros j k Hj Hk. rewrite HH by assumption. ring.
  - intros j Hj. rewrite <- !lsq_grad.
    assert (E : vget (mv (btrack_hessian N d) B) j = ssum (2 * N) (fun k => ssum N (fun i => vx i j * vx i k) * vget B k) + ssum (2 * N) (fun k => ssum N (fun i => vy i j * vy i k) * vget B k)).
    { cbn [mv vget]. change (mcols (btrack_hessian N d)) with (2 * N)%nat. rewrite <- ssum_plus. apply ssum_ext. intros k Hk. rewrite HH by assumption. rsimpl. ring. }
    set (m := mv (btrack_hessian N d) B) in *. cbn [vaddseg vget]. rewrite E.
    assert (L : forall v, vlen (mv (dUT d) v) = N) by (intros; cbn [mv vlen]; rewrite S; exact H0). rewrite !L.
    assert (EX : forall v j, vget (mv (dUT d) v) j = ssum N (fun i => u i j * vget v i)).
    { intros v j'. cbn [mv vget]. rewrite S. cbn [mtr mget mcols]. rewrite H. reflexivity. }
    rewrite !EX. clearbody m. clear E. unfold vx, vy. cbn [vsub vget vseg].
    bools; rewrite ?Nat.sub_0_r, ?Nat.add_0_l; try (exfalso; lia);
      repeat match goal with
             | |- context [ssum N (fun i => 0 * @?f i)] => rewrite (ssum_0 N (fun i => 0 * f i)) by (intros; ring)
             end; unfold cx, cy; cbn [Nat.add]; rsimpl; try ring.
  - reflexivity.
Qed.
Lemma embed_quad N (H : nat -> nat -> R) (g d : nat -> R) :
  quad (4 * N) (fun j k => if (Nat.leb (2 * N) j && Nat.leb (2 * N) k)%bool then H (j - 2 * N)%nat (k - 2 * N)%nat else 0)
               (fun j => if Nat.leb (2 * N) j then g (j - 2 * N)%nat else 0) d
  = quad (2 * N) H g (fun k => d (2 * N + k)%nat).
Proof.
  unfold quad. replace (4 * N)%nat with (2 * N + 2 * N)%nat by lia. set (M := (2 * N)%nat).
  rewrite !(ssum_app M M). rewrite (ssum_0 M), (ssum_0 M (fun i => (if Nat.leb M i then _ else _) * _)).
  - rewrite !Rplus_0_l. f_equal.
    + f_equal. apply ssum_ext. intros i Hi. f_equal. rewrite (ssum_app M M), (ssum_0 M).
      * rewrite Rplus_0_l. apply ssum_ext. intros k Hk. bools. do 2 f_equal; lia.
      * intros k Hk. bools; ring.
    + apply ssum_ext. intros i Hi. bools. do 2 f_equal; lia.
  - intros i Hi. bools; ring.
  - intros i Hi. rewrite ssum_0; [ring|]. intros k Hk. bools; ring.
Qed.
Lemma addWblock_addGseg N w g p p' : vlen p = (4 * N)%nat -> addGseg (K:=R) N w g p = Ok p' ->
  vlen p' = (4 * N)%nat
  /\ forall H Q d, mrows H = (2 * N)%nat -> mcols H = (2 * N)%nat ->
       quad (4 * N) (mget (addWblock N w H Q)) (vget p') d
       = quad (4 * N) (mget Q) (vget p) d + Rmax 0 w * quad (2 * N) (mget H) (vget g) (fun k => d (2 * N + k)%nat).
Proof.
  intros HN E. split; [rewrite (addGseg_len _ _ _ _ _ E); assumption|]. intros H Q d HR HC.
  unfold addGseg in E. unfold addWblock. rsimpl. destruct (Rltb_spec 0 w) as [Hw|Hw].
  - apply guard_ok in E. destruct E as (L1 & E). apply guard_ok in E. destruct E as (L2 & E). injection E as <-.
    apply Nat.eqb_eq in L1. rewrite Rmax_right by lra. rewrite <- embed_quad, <- quad_add. apply quad_ext.
    + intros i j Hi Hj. cbn [maddblock mscale mget mrows mcols]. rewrite HR, HC. bools; rsimpl; try ring; exfalso; lia.
    + intros i Hi. cbn [vaddseg vscale vget vlen]. rewrite L1. replace (N + (N + 0))%nat with (2 * N)%nat by lia. bools; rsimpl; try ring; exfalso; lia.
    + reflexivity.
  - injection E as <-. rewrite Rmax_left by lra. ring.
Qed.
