(** The Zebulon walk generator placed elsewhere (C74). *)

From Coq Require Import Reals List ZArith Lra Lia Arith Bool FunctionalExtensionality.
From Verif Require Import Scalar LinAlg LinAlgFacts ToolsModel ToolsSpec ToolsFacts NoDynModel PolygonModel QPModel QPFacts
  TrajModel TrajFacts LipModel BaseModel ModelsSpec ModelsFacts ZebModel ZebSpec HullFacts HumAlg ZebAlg ZebFacts ShiftSpec ZebShiftSpec.
Import ListNotations.
Local Open Scope R_scope.

(** ** The columns that multiply the position *)
Record like (d : lindyn R) (N : nat) (c : R) : Prop := {
  lk_r : mrows (dS d) = N; lk_c : mcols (dS d) = 3%nat; lk_0 : forall i, mget (dS d) i 0%nat = c;
  lk_Ur : mrows (dU d) = N; lk_Uc : mcols (dU d) = N; lk_T : dUT d = mtr (dU d); lk_K : vlen (dK d) = N }.
Lemma pos_like S T N d : computePosDynamic S T N = Ok d -> like d N 1.
Proof. unfold computePosDynamic. intros H. binds H. injection H as <-. constructor; reflexivity. Qed.
Lemma vel_like S T N d : computeVelDynamic S T N = Ok d -> like d N 0.
Proof. unfold computeVelDynamic. intros H. binds H. injection H as <-. constructor; reflexivity. Qed.
Lemma acc_like S T N d : computeAccDynamic S T N = Ok d -> like d N 0.
Proof. unfold computeAccDynamic. intros H. binds H. injection H as <-. constructor; reflexivity. Qed.
Lemma cop_like S T N h g0 g m M d : computeCopDynamic S T N h g0 g m M = Ok d -> like d N (m / M).
Proof. unfold computeCopDynamic. intros H. binds H. injection H as <-. constructor; reflexivity. Qed.
Lemma last_like (f : nat -> res (lindyn R)) n ds (l : lip R) d c N :
  (forall i x, f i = Ok x -> like x N c) -> tab f n ds -> lnb l = Some (Z.of_nat n) -> l_last l ds = Ok d -> like d N c.
Proof.
  intros F (H1 & H2) E H. unfold l_last in H. rewrite E in H. apply ubguard_ok in H. destruct H as (U & H). apply Z.leb_le in U.
  destruct (nth_error ds _) as [x|] eqn:Ex; [|discriminate]. injection H as <-.
  destruct (H2 (Z.to_nat (Z.of_nat n - 1))) as (y & A & B); [lia|]. rewrite Ex in A || rewrite Ex in B.
  first [injection A as -> ; exact (F _ _ B) | injection B as ->; exact (F _ _ A)].
Qed.
Lemma mv_carried (D : mat R) a s i : mcols D = 3%nat -> vget (mv D (vec_of_st3 (carried a s))) i = vget (mv D (vec_of_st3 s)) i + mget D i 0%nat * a.
Proof. intros E. unfold mv, vec_of_st3, carried. cbn [vget]. rewrite E. unfold ssum. cbn [pos vel acc]. rsimpl. ring. Qed.
Lemma mv_same (D : mat R) x y : (forall i, (i < mcols D)%nat -> vget x i = vget y i) -> mv D x = mv D y.
Proof. intros H. unfold mv. f_equal. apply functional_extensionality. intros i. apply ssum_ext. intros j L. rewrite (H j L). reflexivity. Qed.
Lemma mv_same_rows (D : mat R) x y : (forall i, vget (mv D x) i = vget (mv D y) i) -> mv D x = mv D y.
Proof. intros H. unfold mv in *. f_equal. apply functional_extensionality. exact H. Qed.

(** ** The parts of the problem *)
Ltac fields := cbn [l_setStates b_setStates lauto lN lT lfb lnb lsx lsy lsz lsyaw lh lg lm lM lposD lvelD laccD lcxD lcyD ljerkD
  bauto bN bT bsx bsy bsroll bspitch bsyaw bh bg bm bM bvelLim baccLim bjerkLim btcx btcy bposD bvelD baccD bjerkD bcxD bcyD btaD btvD bcopPoly bcomPoly].
Section Parts.
  Variables (l : lip R) (u : base R) (a c : R).
  Hypothesis OK : models_ok l u.
  Let l' := l_setStates l (carried a (lsx l)) (carried c (lsy l)) (lsyaw l).
  Let u' := b_setStates u (carried a (bsx u)) (carried c (bsy u)) (bsroll u) (bspitch u) (bsyaw u).

  Lemma last_same ds : l_last l' ds = l_last l ds. Proof. reflexivity. Qed.
  Lemma agree_same : agree l' u' = agree l u. Proof. reflexivity. Qed.
  Lemma P_like : like (bposD u) (bN u) 1. Proof. exact (pos_like _ _ _ _ (bf_pos _ (mo_b _ _ OK))). Qed.
  Lemma V_like : like (bvelD u) (bN u) 0. Proof. exact (vel_like _ _ _ _ (bf_vel _ (mo_b _ _ OK))). Qed.
  Lemma A_like : like (baccD u) (bN u) 0. Proof. exact (acc_like _ _ _ _ (bf_acc _ (mo_b _ _ OK))). Qed.
  Lemma BX_like : like (bcxD u) (bN u) (bm u / bM u). Proof. exact (cop_like _ _ _ _ _ _ _ _ _ (bf_cx _ (mo_b _ _ OK))). Qed.
  Lemma BY_like : like (bcyD u) (bN u) (bm u / bM u). Proof. exact (cop_like _ _ _ _ _ _ _ _ _ (bf_cy _ (mo_b _ _ OK))). Qed.
  Lemma lp_like d : l_last l (lposD l) = Ok d -> like d (bN u) 1.
  Proof. destruct (mo_l _ _ OK) as (n & F). rewrite (mo_N _ _ OK). apply (last_like _ _ _ _ _ _ _ (fun i x => pos_like _ _ _ _) (lf_pos _ _ F) (lf_nb _ _ F)). Qed.
  Lemma lv_like d : l_last l (lvelD l) = Ok d -> like d (bN u) 0.
  Proof. destruct (mo_l _ _ OK) as (n & F). rewrite (mo_N _ _ OK). apply (last_like _ _ _ _ _ _ _ (fun i x => vel_like _ _ _ _) (lf_vel _ _ F) (lf_nb _ _ F)). Qed.
  Lemma la_like d : l_last l (laccD l) = Ok d -> like d (bN u) 0.
  Proof. destruct (mo_l _ _ OK) as (n & F). rewrite (mo_N _ _ OK). apply (last_like _ _ _ _ _ _ _ (fun i x => acc_like _ _ _ _) (lf_acc _ _ F) (lf_nb _ _ F)). Qed.
  Lemma lcx_like d : l_last l (lcxD l) = Ok d -> like d (bN u) (lm l / lM l).
  Proof. destruct (mo_l _ _ OK) as (n & F). rewrite (mo_N _ _ OK). apply (last_like _ _ _ _ _ _ _ (fun i x => cop_like _ _ _ _ _ _ _ _ _) (lf_cx _ _ F) (lf_nb _ _ F)). Qed.
  Lemma lcy_like d : l_last l (lcyD l) = Ok d -> like d (bN u) (lm l / lM l).
  Proof. destruct (mo_l _ _ OK) as (n & F). rewrite (mo_N _ _ OK). apply (last_like _ _ _ _ _ _ _ (fun i x => cop_like _ _ _ _ _ _ _ _ _) (lf_cy _ _ F) (lf_nb _ _ F)). Qed.
  Lemma total_pos : 0 < bM u.
  Proof.
    pose proof (bf_cx _ (mo_b _ _ OK)) as H. unfold computeCopDynamic in H. binds H. rsimpl. apply Rltb_true in H5. lra.
  Qed.

  (** A preview that does not look at the position. *)
  Lemma mv_flat d N x s : like d N 0 -> mv (dS d) (vec_of_st3 (carried x s)) = mv (dS d) (vec_of_st3 s).
  Proof. intros L. apply mv_same_rows. intros i. rewrite mv_carried by apply L. rewrite (lk_0 _ _ _ L). ring. Qed.

  Lemma vel_part H ref x : btrack_gradient u' (bvelD u) H ref x = btrack_gradient u (bvelD u) H ref x.
  Proof. unfold btrack_gradient, u'. fields. rewrite !(mv_flat _ _ _ _ V_like). reflexivity. Qed.
  Lemma pos_part H ref x : btrack_gradient u' (bposD u) H (carried_ref a c ref) x = btrack_gradient u (bposD u) H ref x.
  Proof.
    unfold btrack_gradient, u'. fields. change (vlen (carried_ref a c ref)) with (vlen ref).
    destruct (Nat.eqb (vlen ref) (vlen x)); [|reflexivity]. cbn [guard bind]. destruct (Nat.eqb (vlen ref) (bN u * 2)) eqn:E; [|reflexivity].
    cbn [bind guard]. apply Nat.eqb_eq in E. assert (D : Nat.div2 (vlen ref) = bN u) by (rewrite E, Nat.mul_comm; apply Nat.div2_double).
    assert (W : mcols (dUT (bposD u)) = bN u) by (rewrite (lk_T _ _ _ P_like); apply P_like).
    do 2 f_equal; [f_equal|]; (apply mv_same; intros i Li; rewrite W in Li; unfold vsub; cbn [vget]; rewrite mv_carried by apply P_like;
      rewrite (lk_0 _ _ _ P_like); unfold vseg, carried_ref; cbn [vget]; rewrite D).
    - rewrite (proj2 (Nat.ltb_lt (0 + i) (bN u))) by lia. rsimpl. ring.
    - rewrite (proj2 (Nat.ltb_ge (bN u + i) (bN u))) by lia. rsimpl. ring.
  Qed.

  Lemma shares : lm l / lM l + bm u / bM u = 1.
  Proof. pose proof total_pos as T. rewrite (mo_M _ _ OK) in *. rewrite (mo_m _ _ OK) in *. field. lra. Qed.
  Lemma whole : bm u = 0 -> lm l / lM l = 1.
  Proof. intros E. pose proof shares as W. rewrite E in W. unfold Rdiv in W at 2. lra. Qed.

  (** Sums in which the positions cancel. *)
  Lemma cancel (D E : mat R) x s t i : mcols D = 3%nat -> mcols E = 3%nat -> mget D i 0%nat = mget E i 0%nat ->
    vget (mv D (vec_of_st3 (carried x s))) i - vget (mv E (vec_of_st3 (carried x t))) i = vget (mv D (vec_of_st3 s)) i - vget (mv E (vec_of_st3 t)) i.
  Proof. intros H1 H2 H3. rewrite !mv_carried by assumption. rewrite H3. ring. Qed.
  Lemma cancel_sum (D E : mat R) x s t i : mcols D = 3%nat -> mcols E = 3%nat -> mget D i 0%nat + mget E i 0%nat = 0 ->
    vget (mv D (vec_of_st3 (carried x s))) i + vget (mv E (vec_of_st3 (carried x t))) i = vget (mv D (vec_of_st3 s)) i + vget (mv E (vec_of_st3 t)) i.
  Proof. intros H1 H2 H3. rewrite !mv_carried by assumption. replace (mget E i 0%nat) with (- mget D i 0%nat) by lra. ring. Qed.

  Hypothesis counted : bm u = 0 \/ 1/10000 < bm u.
  Lemma cop_part H ref x : cop_gradient l' u' H ref x = cop_gradient l u H ref x.
  Proof.
    unfold cop_gradient. rewrite agree_same, !last_same. unfold l', u'. fields.
    destruct (Nat.eqb (vlen ref * 2) (vlen x)); [|reflexivity]. cbn [guard bind]. destruct (Nat.eqb (vlen ref) (bN u * 2)); [|reflexivity].
    cbn [bind guard]. destruct (agree l u); cbn [bind]; try reflexivity.
    destruct (l_last l (lcxD l)) as [cx| | | |] eqn:Ex; cbn [bind]; try reflexivity.
    destruct (l_last l (lcyD l)) as [cy| | | |] eqn:Ey; cbn [bind]; try reflexivity.
    pose proof (lcx_like _ Ex) as LX. pose proof (lcy_like _ Ey) as LY. pose proof P_like as LP. pose proof BX_like as BX. pose proof BY_like as BY. pose proof shares as W.
    destruct (sltb EPS (bm u)) eqn:Eb.
    - assert (EX : forall r k : vec R, vadd (vadd r (vadd (mv (dS cx) (vec_of_st3 (carried a (lsx l)))) (dK cx))) (vadd (mv (msub (dS (bcxD u)) (dS (bposD u))) (vec_of_st3 (carried a (bsx u)))) k)
        = vadd (vadd r (vadd (mv (dS cx) (vec_of_st3 (lsx l))) (dK cx))) (vadd (mv (msub (dS (bcxD u)) (dS (bposD u))) (vec_of_st3 (bsx u))) k)).
      { intros. unfold vadd. cbn [vlen vget]. f_equal. apply functional_extensionality. intros i. rsimpl.
        pose proof (cancel_sum (dS cx) (msub (dS (bcxD u)) (dS (bposD u))) a (lsx l) (bsx u) i (lk_c _ _ _ LX) (lk_c _ _ _ BX)) as Q.
        cbn [msub mget] in Q. rsimpl. rewrite (lk_0 _ _ _ LX), (lk_0 _ _ _ BX), (lk_0 _ _ _ LP) in Q. specialize (Q ltac:(lra)). lra. }
      assert (EY : forall r k : vec R, vadd (vadd r (vadd (mv (dS cy) (vec_of_st3 (carried c (lsy l)))) (dK cy))) (vadd (mv (msub (dS (bcyD u)) (dS (bposD u))) (vec_of_st3 (carried c (bsy u)))) k)
        = vadd (vadd r (vadd (mv (dS cy) (vec_of_st3 (lsy l))) (dK cy))) (vadd (mv (msub (dS (bcyD u)) (dS (bposD u))) (vec_of_st3 (bsy u))) k)).
      { intros. unfold vadd. cbn [vlen vget]. f_equal. apply functional_extensionality. intros i. rsimpl.
        pose proof (cancel_sum (dS cy) (msub (dS (bcyD u)) (dS (bposD u))) c (lsy l) (bsy u) i (lk_c _ _ _ LY) (lk_c _ _ _ BY)) as Q.
        cbn [msub mget] in Q. rsimpl. rewrite (lk_0 _ _ _ LY), (lk_0 _ _ _ BY), (lk_0 _ _ _ LP) in Q. specialize (Q ltac:(lra)). lra. }
      rewrite EX, EY. reflexivity.
    - assert (Z : bm u = 0) by (rsimpl; apply Rltb_false in Eb; destruct counted; lra). apply whole in Z. rewrite Z in LX, LY.
      assert (CX : forall i, vget (mv (dS cx) (vec_of_st3 (carried a (lsx l)))) i - vget (mv (dS (bposD u)) (vec_of_st3 (carried a (bsx u)))) i
        = vget (mv (dS cx) (vec_of_st3 (lsx l))) i - vget (mv (dS (bposD u)) (vec_of_st3 (bsx u))) i)
        by (intros i; apply cancel; [apply LX|apply LP|rewrite (lk_0 _ _ _ LX), (lk_0 _ _ _ LP); reflexivity]).
      assert (CY : forall i, vget (mv (dS cy) (vec_of_st3 (carried c (lsy l)))) i - vget (mv (dS (bposD u)) (vec_of_st3 (carried c (bsy u)))) i
        = vget (mv (dS cy) (vec_of_st3 (lsy l))) i - vget (mv (dS (bposD u)) (vec_of_st3 (bsy u))) i)
        by (intros i; apply cancel; [apply LY|apply LP|rewrite (lk_0 _ _ _ LY), (lk_0 _ _ _ LP); reflexivity]).
      f_equal. f_equal; apply mv_same; intros i _; unfold vsub, vadd; cbn [vget]; specialize (CX i); specialize (CY i); rsimpl; lra.
  Qed.
  Lemma com_part H ref sh gr x : com_gradient l' u' H ref sh gr x = com_gradient l u H ref sh gr x.
  Proof.
    unfold com_gradient. rewrite agree_same, !last_same. unfold l', u'. fields.
    destruct (Nat.eqb (vlen sh) (vlen ref)); [|reflexivity]. cbn [guard bind]. destruct (Nat.eqb (vlen sh) (vlen gr)); [|reflexivity]. cbn [guard bind].
    destruct (Nat.eqb (vlen ref * 2) (vlen x)); [|reflexivity]. cbn [guard bind]. destruct (Nat.eqb (vlen ref) (bN u * 2)); [|reflexivity].
    cbn [bind guard]. destruct (agree l u); cbn [bind]; try reflexivity.
    destruct (l_last l (lposD l)) as [d| | | |] eqn:Ed; cbn [bind]; try reflexivity.
    pose proof (lp_like _ Ed) as LD. pose proof P_like as LP.
    assert (CX : forall x s t i, vget (mv (dS d) (vec_of_st3 (carried x s))) i - vget (mv (dS (bposD u)) (vec_of_st3 (carried x t))) i
        = vget (mv (dS d) (vec_of_st3 s)) i - vget (mv (dS (bposD u)) (vec_of_st3 t)) i)
      by (intros; apply cancel; [apply LD|apply LP|rewrite (lk_0 _ _ _ LD), (lk_0 _ _ _ LP); reflexivity]).
    f_equal. f_equal; apply mv_same; intros i _; unfold vsub, vadd; cbn [vget]; pose proof (CX a (lsx l) (bsx u) i); pose proof (CX c (lsy l) (bsy u) i); rsimpl; lra.
  Qed.
  Lemma copc_part k x : copc_function l' u' k x = copc_function l u k x.
  Proof.
    unfold copc_function. rewrite agree_same, !last_same. unfold l', u'. fields.
    destruct (Nat.eqb (bN u * 4) (vlen x)); [|reflexivity]. cbn [guard bind].
    destruct (agree l u); cbn [bind]; try reflexivity.
    destruct (l_last l (lcxD l)) as [cx| | | |] eqn:Ex; cbn [bind]; try reflexivity.
    destruct (l_last l (lcyD l)) as [cy| | | |] eqn:Ey; cbn [bind]; try reflexivity.
    pose proof (lcx_like _ Ex) as LX. pose proof (lcy_like _ Ey) as LY. pose proof P_like as LP. pose proof BX_like as BX. pose proof BY_like as BY. pose proof shares as W.
    do 2 f_equal. destruct (sltb EPS (bm u)) eqn:Eb.
    - do 2 f_equal; [f_equal|]; unfold vadd; cbn [vlen vget]; f_equal; apply functional_extensionality; intros i; rsimpl.
      + pose proof (cancel_sum (dS cx) (msub (dS (bcxD u)) (dS (bposD u))) a (lsx l) (bsx u) i (lk_c _ _ _ LX) (lk_c _ _ _ BX)) as Q.
        cbn [msub mget] in Q. rsimpl. rewrite (lk_0 _ _ _ LX), (lk_0 _ _ _ BX), (lk_0 _ _ _ LP) in Q. specialize (Q ltac:(lra)). lra.
      + pose proof (cancel_sum (dS cy) (msub (dS (bcyD u)) (dS (bposD u))) c (lsy l) (bsy u) i (lk_c _ _ _ LY) (lk_c _ _ _ BY)) as Q.
        cbn [msub mget] in Q. rsimpl. rewrite (lk_0 _ _ _ LY), (lk_0 _ _ _ BY), (lk_0 _ _ _ LP) in Q. specialize (Q ltac:(lra)). lra.
    - assert (Z : bm u = 0) by (rsimpl; apply Rltb_false in Eb; destruct counted; lra). apply whole in Z. rewrite Z in LX, LY.
      do 2 f_equal; [f_equal|]; unfold vsub, vadd; cbn [vlen vget]; f_equal; apply functional_extensionality; intros i; rsimpl.
      + pose proof (cancel (dS cx) (dS (bposD u)) a (lsx l) (bsx u) i (lk_c _ _ _ LX) (lk_c _ _ _ LP)) as Q.
        rewrite (lk_0 _ _ _ LX), (lk_0 _ _ _ LP) in Q. specialize (Q eq_refl). lra.
      + pose proof (cancel (dS cy) (dS (bposD u)) c (lsy l) (bsy u) i (lk_c _ _ _ LY) (lk_c _ _ _ LP)) as Q.
        rewrite (lk_0 _ _ _ LY), (lk_0 _ _ _ LP) in Q. specialize (Q eq_refl). lra.
  Qed.
  Lemma comc_part k x : comc_function l' u' k x = comc_function l u k x.
  Proof.
    unfold comc_function. rewrite agree_same, !last_same. unfold l', u'. fields.
    destruct (Nat.eqb (bN u * 4) (vlen x)); [|reflexivity]. cbn [guard bind].
    destruct (agree l u); cbn [bind]; try reflexivity.
    destruct (l_last l (lposD l)) as [d| | | |] eqn:Ed; cbn [bind]; try reflexivity.
    pose proof (lp_like _ Ed) as LD. pose proof P_like as LP.
    do 4 f_equal; [f_equal|]; unfold vsub; cbn [vlen vget]; f_equal; apply functional_extensionality; intros i; rsimpl;
      apply cancel; [apply LD|apply LP| |apply LD|apply LP|]; rewrite (lk_0 _ _ _ LD), (lk_0 _ _ _ LP); reflexivity.
  Qed.
  Lemma bmot_part G x v w : bmotion_function u' G x v w = bmotion_function u G x v w.
  Proof. unfold bmotion_function, u'. fields. rewrite !(mv_flat _ _ _ _ V_like), !(mv_flat _ _ _ _ A_like). reflexivity. Qed.
  Lemma tmot_part {CR : SinCos R} G x : tmotion_function l' u' G x = tmotion_function l u G x.
  Proof.
    unfold tmotion_function. rewrite agree_same, !last_same. unfold l', u'. fields.
    destruct (Nat.eqb (bN u * 4) (vlen x)); [|reflexivity]. cbn [guard bind].
    destruct (agree l u); cbn [bind]; try reflexivity.
    destruct (l_last l (lvelD l)) as [d| | | |] eqn:Ed; cbn [bind]; try reflexivity.
    rewrite !(mv_flat _ _ _ _ V_like), !(mv_flat _ _ _ _ (lv_like _ Ed)). reflexivity.
  Qed.
  (** The tilt objectives. *)
  Definition level (t : tilt R) : Prop :=
    mcols (tCS t) = 3%nat /\ mcols (tBS t) = 3%nat /\ forall i, mget (tCS t) i 0%nat + mget (tBS t) i 0%nat = 0.
  Lemma tilt_part t x : (forall t', t = Some t' -> level t') -> tilt_gradient l' u' t x = tilt_gradient l u t x.
  Proof.
    intros L. unfold tilt_gradient. rewrite agree_same. unfold l', u'. fields.
    destruct (Nat.eqb (bN u * 4) (vlen x)); [|reflexivity]. cbn [guard bind].
    destruct (agree l u); cbn [bind]; try reflexivity. f_equal. destruct t as [t|]; [|reflexivity].
    destruct (L t eq_refl) as (C1 & C2 & C3). cbn [option_map]. f_equal.
    f_equal; apply mv_same; intros i _; unfold vadd; cbn [vget]; rsimpl; do 2 f_equal; apply cancel_sum; auto.
  Qed.
  Lemma build_level hb uInv psi cp ca x y : like cp (bN u) 1 -> like ca (bN u) 0 -> level (tilt_build l (withH u hb) uInv psi cp ca x y).
  Proof.
    intros L1 L2. unfold level, tilt_build. cbn [tCS tBS mmul madd msub mscale mcols mget]. unfold withH, b_setPar. fields.
    split; [apply L2|]. split; [apply A_like|]. intros i. rewrite <- ssum_plus. apply ssum_0. intros j _. rsimpl.
    rewrite (lk_0 _ _ _ L1), (lk_0 _ _ _ L2), (lk_0 _ _ _ P_like), (lk_0 _ _ _ A_like). ring.
  Qed.
  Lemma tilt_level hb t : tilt_constant l (withH u hb) = Ok (Some t) -> level t.
  Proof.
    unfold tilt_constant. intros H. binds H. destruct (dUinv (btaD (withH u hb))); [|discriminate].
    destruct (inverseLU _ _); [|discriminate]. injection H as <-. apply build_level; [eapply lp_like|eapply la_like]; eassumption.
  Qed.
  Lemma tiltvel_level hb t : tiltvel_constant l (withH u hb) = Ok (Some t) -> level t.
  Proof.
    unfold tiltvel_constant. intros H. binds H. destruct (dUinv (btaD (withH u hb))); [|discriminate]. destruct (dUinv (btvD (withH u hb))); [|discriminate].
    destruct (inverseLU _ _); [|discriminate]. injection H as <-. apply build_level; [eapply lp_like|eapply la_like]; eassumption.
  Qed.
End Parts.

(** ** The problem *)
Section Problem.
  Context {CR : SinCos R} {TR : Trig R}.
  Lemma problem_same a c z gh gs : oinv z gh gs -> base_counted z -> z_problem (elsewhere a c z) = z_problem z.
  Proof.
    intros O B. pose proof (oi_m _ _ _ O) as M. pose proof (oi_o _ _ _ O) as Ob. unfold base_counted in B.
    assert (L1 : forall t, otilt (zo z) = Some t -> level t) by (intros t E; pose proof (oo_tilt _ _ _ _ Ob) as T; rewrite E in T; exact (tilt_level _ _ M _ _ T)).
    assert (L2 : forall t, otiltV (zo z) = Some t -> level t) by (intros t E; pose proof (oo_tiltV _ _ _ _ Ob) as T; rewrite E in T; exact (tiltvel_level _ _ M _ _ T)).
    unfold z_problem, z_M1, z_M2, z_M3, z_M4, elsewhere, bmotion_inf, bmotion_sup.
    cbn [zl zb zo zr zw zc zdX zX zqp zsol zfo zfc rvel rpos rcop rcom rshift rgrav].
    rewrite (cop_part _ _ a c M B), (com_part _ _ a c M), (copc_part _ _ a c M B), (comc_part _ _ a c M), (tmot_part _ _ a c M),
      (tilt_part _ _ a c _ _ L1), (tilt_part _ _ a c _ _ L2), !(bmot_part _ _ a c M). fields.
    rewrite (vel_part _ _ a c M), (pos_part _ _ a c M). reflexivity.
  Qed.
End Problem.

(** ** The calls *)
Lemma map_bind A B C (f : B -> C) (r : res A) (g : A -> res B) : outcome_map f (bind r g) = bind r (fun x => outcome_map f (g x)).
Proof. destruct r; reflexivity. Qed.
Lemma bind_map A B C (f : A -> B) (r : res A) (g : B -> res C) : bind (outcome_map f r) g = bind r (fun x => g (f x)).
Proof. destruct r; reflexivity. Qed.
Lemma bind_same A B (r : res A) (g h : A -> res B) : (forall x, r = Ok x -> g x = h x) -> bind r g = bind r h.
Proof. intros H. destruct r; try reflexivity. apply H; reflexivity. Qed.
Definition commutes {A} (e : A -> A) (F : A -> res A) : Prop := forall z, F (e z) = outcome_map e (F z).
Lemma commutes_bind A (e : A -> A) F G : commutes e F -> commutes e G -> commutes e (fun z => bind (F z) G).
Proof. intros HF HG z. rewrite HF, bind_map, map_bind. apply bind_same. intros x _. apply HG. Qed.
Lemma commutes_bind1 A (e : A -> A) (F G : A -> res A) z : commutes e F -> commutes e G -> bind (F (e z)) G = outcome_map e (bind (F z) G).
Proof. intros HF HG. apply (commutes_bind _ e F G HF HG z). Qed.
(** Both sides start with the same computation. *)
Ltac same_start := match goal with |- bind ?r _ = outcome_map _ (bind ?r' _) => change r with r'; destruct r'; cbn [bind]; try reflexivity end.

Section Calls.
  Context {CR : SinCos R} {TR : Trig R}.
  Variables a c : R.
  Let el (l : lip R) : lip R := l_setStates l (carried a (lsx l)) (carried c (lsy l)) (lsyaw l).
  Let eb (u : base R) : base R := b_setStates u (carried a (bsx u)) (carried c (bsy u)) (bsroll u) (bspitch u) (bsyaw u).
  Let ez : zeb R -> zeb R := elsewhere a c.

  Lemma com_compute : commutes el l_computeDynamics.
  Proof. intros l. unfold l_computeDynamics. repeat same_start. Qed.
  Lemma com_auto : commutes el l_auto.
  Proof. intros l. unfold l_auto. change (lauto (el l)) with (lauto l). destruct (lauto l); [apply com_compute|reflexivity]. Qed.
  Lemma com_autoCop : commutes el l_autoCop.
  Proof. intros l. unfold l_autoCop. change (lauto (el l)) with (lauto l). destruct (lauto l); [|reflexivity]. repeat same_start. Qed.
  Lemma com_bcompute : commutes eb b_computeDynamics.
  Proof. intros u. unfold b_computeDynamics. repeat same_start. Qed.
  Lemma com_bauto : commutes eb b_auto.
  Proof. intros u. unfold b_auto. change (bauto (eb u)) with (bauto u). destruct (bauto u); [apply com_bcompute|reflexivity]. Qed.
  Lemma com_bautoCop : commutes eb b_autoCop.
  Proof. intros u. unfold b_autoCop. change (bauto (eb u)) with (bauto u). destruct (bauto u); [|reflexivity]. repeat same_start. Qed.
  Ltac by_auto := repeat same_start; match goal with |- ?F ?x = outcome_map ?e (?F ?y) => change x with (e y) end; first [apply com_auto|apply com_autoCop|apply com_bauto|apply com_bautoCop].
  Lemma com_lN n : commutes el (l_setNbSamples n). Proof. intros l. unfold l_setNbSamples. by_auto. Qed.
  Lemma com_lT T : commutes el (l_setSamplingPeriod T). Proof. intros l. unfold l_setSamplingPeriod. by_auto. Qed.
  Lemma com_lg g : commutes el (l_setGravity g). Proof. intros l. unfold l_setGravity. by_auto. Qed.
  Lemma com_lh h : commutes el (l_setComHeight h). Proof. intros l. unfold l_setComHeight. by_auto. Qed.
  Lemma com_lm m : commutes el (l_setMass m). Proof. intros l. unfold l_setMass. by_auto. Qed.
  Lemma com_lM m : commutes el (l_setTotalMass m). Proof. intros l. unfold l_setTotalMass. by_auto. Qed.
  Lemma com_bN n : commutes eb (b_setNbSamples n). Proof. intros l. unfold b_setNbSamples. by_auto. Qed.
  Lemma com_bT T : commutes eb (b_setSamplingPeriod T). Proof. intros l. unfold b_setSamplingPeriod. by_auto. Qed.
  Lemma com_bg g : commutes eb (b_setGravity g). Proof. intros l. unfold b_setGravity. by_auto. Qed.
  Lemma com_bh h : commutes eb (b_setComHeight h). Proof. intros l. unfold b_setComHeight. by_auto. Qed.
  Lemma com_bm m : commutes eb (b_setMass m). Proof. intros l. unfold b_setMass. by_auto. Qed.
  Lemma com_bM m : commutes eb (b_setTotalMass m). Proof. intros l. unfold b_setTotalMass. by_auto. Qed.

  Lemma com_vel : commutes ez z_vel. Proof. intros z. reflexivity. Qed.
  Lemma com_pos : commutes ez z_pos. Proof. intros z. reflexivity. Qed.
  Lemma com_jerk : commutes ez z_jerk. Proof. intros z. unfold z_jerk. repeat same_start. Qed.
  Lemma com_tilt : commutes ez z_tilt. Proof. intros z. unfold z_tilt. repeat same_start. Qed.
  Lemma com_tiltV : commutes ez z_tiltV. Proof. intros z. unfold z_tiltV. repeat same_start. Qed.
  Lemma com_cop : commutes ez z_cop. Proof. intros z. unfold z_cop. repeat same_start. Qed.
  Lemma com_com : commutes ez z_com. Proof. intros z. unfold z_com. repeat same_start. Qed.
  Lemma com_copC : commutes ez z_copC. Proof. intros z. unfold z_copC. repeat same_start. Qed.
  Lemma com_comC : commutes ez z_comC. Proof. intros z. unfold z_comC. repeat same_start. Qed.
  Lemma com_motion : commutes ez z_motion. Proof. intros z. reflexivity. Qed.
  Lemma com_tmotion : commutes ez z_tmotion. Proof. intros z. unfold z_tmotion. repeat same_start. Qed.
  Lemma com_gravity : commutes ez z_gravity. Proof. intros z. unfold z_gravity. repeat same_start. Qed.
  Lemma com_contact : commutes ez z_contact. Proof. intros z. unfold z_contact. repeat same_start. Qed.
  Lemma com_zcompute : commutes ez z_compute. Proof. intros z. unfold z_compute. repeat same_start. Qed.

  (** A chain of updates, each of which commutes. *)
  Ltac chain_com := repeat (apply commutes_bind1; [first [apply com_vel|apply com_pos|apply com_jerk|apply com_tilt|apply com_tiltV|apply com_cop|apply com_com
      |apply com_copC|apply com_comC|apply com_motion|apply com_tmotion|apply com_gravity]|intros ?]); apply com_zcompute.
  (** Both models change, then the updates. *)
  Ltac model C := rewrite (C : commutes _ _), bind_map, map_bind; apply bind_same; intros ? _.
  Ltac start x := match goal with |- bind (?F ?y) ?G = _ => change y with (ez x) end.

  Lemma com_setN n : commutes ez (z_setNbSamples n).
  Proof.
    intros z. unfold z_setNbSamples. same_start. change (zl (ez z)) with (el (zl z)). change (zb (ez z)) with (eb (zb z)).
    rewrite (com_lN n), bind_map, map_bind. apply bind_same. intros l _. rewrite (com_bN n), bind_map, map_bind. apply bind_same. intros u _. cbv zeta.
    match goal with |- bind (z_jerk ?y) _ = outcome_map _ (bind (z_jerk ?x) _) => change y with (ez x) end. chain_com.
  Qed.
  Lemma com_setT T : commutes ez (z_setSamplingPeriod T).
  Proof.
    intros z. unfold z_setSamplingPeriod. same_start. change (zl (ez z)) with (el (zl z)). change (zb (ez z)) with (eb (zb z)).
    rewrite (com_lT T), bind_map, map_bind. apply bind_same. intros l _. rewrite (com_bT T), bind_map, map_bind. apply bind_same. intros u _. cbv zeta.
    match goal with |- bind (z_copC ?y) _ = outcome_map _ (bind (z_copC ?x) _) => change y with (ez x) end. chain_com.
  Qed.
  Lemma com_setG g : commutes ez (z_setGravity g).
  Proof.
    intros z. unfold z_setGravity. same_start. change (zl (ez z)) with (el (zl z)). change (zb (ez z)) with (eb (zb z)).
    rewrite (com_lg g), bind_map, map_bind. apply bind_same. intros l _. rewrite (com_bg g), bind_map, map_bind. apply bind_same. intros u _. cbv zeta.
    match goal with |- bind (z_copC ?y) _ = outcome_map _ (bind (z_copC ?x) _) => change y with (ez x) end. chain_com.
  Qed.
  Lemma com_setCopPolygon p : commutes ez (z_setBaseCopConvexPolygon p).
  Proof.
    intros z. unfold z_setBaseCopConvexPolygon. same_start. unfold b_setCopSupportConvexPolygon. destruct (Nat.leb 3 (length (pverts p))); [|reflexivity]. cbn [guard bind].
    match goal with |- bind (z_copC ?y) _ = outcome_map _ (bind (z_copC ?x) _) => change y with (ez x) end. chain_com.
  Qed.
  Lemma com_setComPolygon p : commutes ez (z_setBaseComConvexPolygon p).
  Proof.
    intros z. unfold z_setBaseComConvexPolygon. same_start. unfold b_setComSupportConvexPolygon. destruct (Nat.leb 3 (length (pverts p))); [|reflexivity]. cbn [guard bind].
    match goal with |- bind (z_comC ?y) _ = outcome_map _ (bind (z_comC ?x) _) => change y with (ez x) end. chain_com.
  Qed.
  Lemma com_setBodyHeight h : commutes ez (z_setComBodyHeight h).
  Proof.
    intros z. unfold z_setComBodyHeight. change (zl (ez z)) with (el (zl z)).
    rewrite (com_lh h), bind_map, map_bind. apply bind_same. intros l _. cbv zeta.
    match goal with |- bind (z_copC ?y) _ = outcome_map _ (bind (z_copC ?x) _) => change y with (ez x) end. chain_com.
  Qed.
  Lemma com_setBaseHeight h : commutes ez (z_setComBaseHeight h).
  Proof.
    intros z. unfold z_setComBaseHeight. change (zb (ez z)) with (eb (zb z)).
    rewrite (com_bh h), bind_map, map_bind. apply bind_same. intros u _. cbv zeta.
    match goal with |- bind (z_copC ?y) _ = outcome_map _ (bind (z_copC ?x) _) => change y with (ez x) end. chain_com.
  Qed.
  Lemma com_setBodyMass m : commutes ez (z_setBodyMass m).
  Proof.
    intros z. unfold z_setBodyMass. cbv zeta. change (bm (zb (ez z))) with (bm (zb z)). change (zl (ez z)) with (el (zl z)). change (zb (ez z)) with (eb (zb z)).
    rewrite com_lM, bind_map, map_bind. apply bind_same. intros l1 _. rewrite com_bM, bind_map, map_bind. apply bind_same. intros u _.
    rewrite com_lm, bind_map, map_bind. apply bind_same. intros l _. cbv zeta.
    match goal with |- bind (z_copC ?y) _ = outcome_map _ (bind (z_copC ?x) _) => change y with (ez x) end. chain_com.
  Qed.
  Lemma com_setBaseMass m : commutes ez (z_setBaseMass m).
  Proof.
    intros z. unfold z_setBaseMass. cbv zeta. change (lm (zl (ez z))) with (lm (zl z)). change (zl (ez z)) with (el (zl z)). change (zb (ez z)) with (eb (zb z)).
    rewrite com_lM, bind_map, map_bind. apply bind_same. intros l _. rewrite com_bM, bind_map, map_bind. apply bind_same. intros u1 _.
    rewrite com_bm, bind_map, map_bind. apply bind_same. intros u _. cbv zeta.
    match goal with |- bind (z_copC ?y) _ = outcome_map _ (bind (z_copC ?x) _) => change y with (ez x) end. chain_com.
  Qed.
  Lemma ref_half i n : (i < n)%nat -> forall v : vec R, vlen v = (2 * n)%nat -> vget (carried_ref a c v) i = vget v i + a.
  Proof. intros L v E. unfold carried_ref. cbn [vget]. rewrite E, Nat.div2_double, (proj2 (Nat.ltb_lt _ _) L). reflexivity. Qed.
  Lemma ref_sub (v w : vec R) : vlen v = vlen w -> vsub (carried_ref a c v) (carried_ref a c w) = vsub v w.
  Proof.
    intros E. unfold vsub, carried_ref. cbn [vlen vget]. f_equal. apply functional_extensionality. intros i. rewrite E. rsimpl. ring.
  Qed.
  Lemma com_refs pc ac pb ab z : z_setComAndCopRef (carried_ref a c pc) ac (carried_ref a c pb) ab (ez z) = outcome_map ez (z_setComAndCopRef pc ac pb ab z).
  Proof.
    unfold z_setComAndCopRef. change (vlen (carried_ref a c pc)) with (vlen pc). change (vlen (carried_ref a c pb)) with (vlen pb).
    change (lN (zl (ez z))) with (lN (zl z)). cbv zeta.
    destruct (Nat.eqb (vlen pc) (2 * lN (zl z))) eqn:E1; [|reflexivity]. destruct (Nat.eqb (vlen pb) (2 * lN (zl z))) eqn:E2; [|reflexivity]. cbn [guard bind].
    destruct (Nat.eqb (vlen ac) (2 * lN (zl z))); [|reflexivity]. destruct (Nat.eqb (vlen ab) (2 * lN (zl z))); [|reflexivity]. cbn [guard bind].
    apply Nat.eqb_eq in E1, E2. rewrite ref_sub by congruence.
    assert (K : z_setComRef (vsub pc pb) (ez z) = outcome_map ez (z_setComRef (vsub pc pb) z)) by (unfold z_setComRef; repeat same_start).
    rewrite K, bind_map, map_bind. apply bind_same. intros y _.
    assert (C : cop_ref_in_world (zl (ez y)) (zb (ez y)) (carried_ref a c pc) ac (carried_ref a c pb) ab = cop_ref_in_world (zl y) (zb y) pc ac pb ab).
    { unfold cop_ref_in_world. change (vlen (carried_ref a c pc)) with (vlen pc). change (vlen (carried_ref a c pb)) with (vlen pb).
      change (lN (zl (ez y))) with (lN (zl y)). change (agree (zl (ez y)) (zb (ez y))) with (agree (zl y) (zb y)). cbv zeta.
      change (bm (zb (ez y))) with (bm (zb y)). change (lm (zl (ez y))) with (lm (zl y)). change (bh (zb (ez y))) with (bh (zb y)). change (lh (zl (ez y))) with (lh (zl y)). change (lg (zl (ez y))) with (lg (zl y)).
      repeat (apply bind_same; intros ? ?). do 2 f_equal. apply functional_extensionality. intros i. unfold carried_ref. cbn [vget]. rewrite E1, E2.
      rsimpl. set (w := if (i <? Nat.div2 (2 * lN (zl z)))%nat then a else c). clearbody w. field.
      destruct (Rltb _ _) eqn:F in H4; [|discriminate]. apply Rltb_true in F. rewrite sabs_Rabs in F.
      split; intros E; rewrite E in F; rewrite ?Rmult_0_r, ?Rmult_0_l, Rabs_R0 in F; lra. }
    rewrite C, map_bind. apply bind_same. intros v _. reflexivity.
  Qed.
  Lemma st3_carried x v : st3_of_vec (carried_vec x v) = outcome_map (carried x) (st3_of_vec v).
  Proof. unfold st3_of_vec. change (vlen (carried_vec x v)) with (vlen v). destruct (Nat.eqb (vlen v) 3); reflexivity. Qed.
  Lemma update_carried x j f s : updateState j f (carried x s) = outcome_map (carried x) (updateState j f s).
  Proof.
    unfold updateState. destruct (sltb s0 f); [|reflexivity]. cbn [guard bind outcome_map]. f_equal. unfold updateState_raw, carried. cbn [pos vel acc]. f_equal. rsimpl. ring.
  Qed.
  Lemma com_lupdX j f : commutes el (l_updateStateX j f).
  Proof. intros l. unfold l_updateStateX. change (lsx (el l)) with (carried a (lsx l)). rewrite update_carried, bind_map, map_bind. reflexivity. Qed.
  Lemma com_lupdY j f : commutes el (l_updateStateY j f).
  Proof. intros l. unfold l_updateStateY. change (lsy (el l)) with (carried c (lsy l)). rewrite update_carried, bind_map, map_bind. reflexivity. Qed.
  Lemma com_bupdX j f : commutes eb (b_updateStateX j f).
  Proof. intros l. unfold b_updateStateX. change (bsx (eb l)) with (carried a (bsx l)). rewrite update_carried, bind_map, map_bind. reflexivity. Qed.
  Lemma com_bupdY j f : commutes eb (b_updateStateY j f).
  Proof. intros l. unfold b_updateStateY. change (bsy (eb l)) with (carried c (bsy l)). rewrite update_carried, bind_map, map_bind. reflexivity. Qed.

  Lemma solve_elsewhere o f z gh gs : oinv z gh gs -> base_counted z ->
    z_solve o f (ez z) = outcome_map (fun r => (fst r, ez (snd r))) (z_solve o f z).
  Proof.
    intros O B. unfold z_solve. rewrite (problem_same a c z gh gs O B). rewrite map_bind. apply bind_same. intros q _.
    rewrite map_bind. apply bind_same. intros ? _. change (zsol (ez z)) with (zsol z). change (zdX (ez z)) with (zdX z). change (zX (ez z)) with (zX z).
    rewrite map_bind. apply bind_same. intros ((s & dX) & found) _. rewrite map_bind. apply bind_same. intros X _.
    change (zl (ez z)) with (el (zl z)). change (zb (ez z)) with (eb (zb z)). change (lN (el (zl z))) with (lN (zl z)). cbv zeta.
    rewrite com_lupdX, bind_map, map_bind. apply bind_same. intros l1 _. rewrite com_lupdY, bind_map, map_bind. apply bind_same. intros l _.
    rewrite com_bupdX, bind_map, map_bind. apply bind_same. intros u1 _. rewrite com_bupdY, bind_map, map_bind. apply bind_same. intros u _. reflexivity.
  Qed.

  Lemma step_elsewhere k z gh gs : oinv z gh gs -> base_counted z -> zstep (elsewhere_call a c k) (ez z) = outcome_map ez (zstep k z).
  Proof.
    intros O B. destruct k; cbn [elsewhere_call zstep];
      try (unfold z_onBase; cbn [bstep]; unfold b_setVelocityLimit, b_setAccelerationLimit, b_setJerkLimit; match goal with |- context [guard ?g] => destruct g end; reflexivity).
    - apply com_setN.
    - apply com_setT.
    - apply com_setG.
    - apply com_setCopPolygon.
    - apply com_setComPolygon.
    - unfold z_setBaseCopHull. rewrite map_bind. apply bind_same. intros q _. apply com_setCopPolygon.
    - unfold z_setBaseComHull. rewrite map_bind. apply bind_same. intros q _. apply com_setComPolygon.
    - apply com_setBodyHeight.
    - apply com_setBaseHeight.
    - apply com_setBodyMass.
    - apply com_setBaseMass.
    - unfold z_setVelRef. repeat same_start.
    - unfold z_setPosRef. change (vlen (carried_ref a c v)) with (vlen v). repeat same_start.
    - unfold z_setCopRef. repeat same_start.
    - unfold z_setComRef. repeat same_start.
    - apply com_refs.
    - unfold z_onBase. cbn [bstep]. unfold b_setStateX. rewrite st3_carried. destruct (st3_of_vec v); reflexivity.
    - unfold z_onBase. cbn [bstep]. unfold b_setStateY. rewrite st3_carried. destruct (st3_of_vec v); reflexivity.
    - unfold z_onBase. cbn [bstep]. unfold b_setStateRoll. destruct (st3_of_vec v); reflexivity.
    - unfold z_onBase. cbn [bstep]. unfold b_setStatePitch. destruct (st3_of_vec v); reflexivity.
    - unfold z_setBaseStateYaw, b_setStateYaw. destruct (st3_of_vec v); cbn [bind]; try reflexivity.
      match goal with |- bind (z_tmotion ?y) _ = outcome_map _ (bind (z_tmotion ?x) _) => change y with (ez x) end. chain_com.
    - unfold z_onLip. cbn [lstep]. unfold l_setStateX. rewrite st3_carried. destruct (st3_of_vec v); reflexivity.
    - unfold z_onLip. cbn [lstep]. unfold l_setStateY. rewrite st3_carried. destruct (st3_of_vec v); reflexivity.
    - unfold z_setTiltContactPointX, b_setTiltContactPointX. cbn [bind]. match goal with |- z_contact ?y = outcome_map _ (z_contact ?x) => change y with (ez x) end. apply com_contact.
    - unfold z_setTiltContactPointY, b_setTiltContactPointY. cbn [bind]. match goal with |- z_contact ?y = outcome_map _ (z_contact ?x) => change y with (ez x) end. apply com_contact.
    - unfold z_setWeightings. repeat same_start; match goal with |- z_compute ?y = outcome_map _ (z_compute ?x) => change y with (ez x) end; apply com_zcompute.
    - unfold z_setConfig. match goal with |- z_compute ?y = outcome_map _ (z_compute ?x) => change y with (ez x) end; apply com_zcompute.
    - rewrite (solve_elsewhere _ _ _ _ _ O B), bind_map, map_bind. apply bind_same. intros (? & ?) _. reflexivity.
  Qed.
End Calls.
