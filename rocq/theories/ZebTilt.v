(** The tilt objectives of Zebulon: the code solves the tilt equation by inverting matrices; the
    result is the step by step solution. *)

From Coq Require Import Reals List ZArith Lra Lia Arith Bool.
From Verif Require Import Scalar LinAlg LinAlgFacts ToolsModel ToolsSpec ToolsFacts TriFacts NoDynModel PolygonModel
  QPModel QPFacts TrajModel TrajFacts LipModel BaseModel ModelsSpec ModelsFacts ZebModel HumAlg ZebAlg ZebSpec ZebFacts ZebObj.
Import ListNotations.
Local Open Scope R_scope.

Section Op.
  Variable N : nat.
  Definition ap (A : nat -> nat -> R) (x : nat -> R) (i : nat) : R := ssum N (fun k => A i k * x k).
  Lemma ap_ext A x y i : (forall k, (k < N)%nat -> x k = y k) -> ap A x i = ap A y i.
  Proof. intros H. apply ssum_ext. intros k Hk. rewrite H by assumption. reflexivity. Qed.
  Lemma ap_lin A x y a b i : ap A (fun k => a * x k + b * y k) i = a * ap A x i + b * ap A y i.
  Proof. unfold ap. rewrite <- !ssum_mul_l, <- ssum_plus. apply ssum_ext. intros; ring. Qed.
  Lemma ap_mmul (a b : mat R) x i : mcols a = N -> ap (mget (mmul a b)) x i = ap (mget a) (ap (mget b) x) i.
  Proof.
    intros H. unfold ap. cbn [mmul mget]. rewrite H.
    rewrite (ssum_ext N _ (fun k => ssum N (fun j => mget a i j * mget b j k * x k))).
    2:{ intros k _. rewrite <- ssum_mul_r. reflexivity. }
    rewrite ssum_swap. apply ssum_ext. intros j _. rewrite <- ssum_mul_l. apply ssum_ext. intros; rsimpl; ring.
  Qed.
  Lemma mv_mmul (a b : mat R) x i : mcols a = N -> vget (mv (mmul a b) x) i = ap (mget a) (fun j => vget (mv b x) j) i.
  Proof.
    intros H. unfold ap. cbn [mmul mv vget mget mcols]. rewrite H.
    rewrite (ssum_ext (mcols b) _ (fun k => ssum N (fun j => mget a i j * mget b j k * vget x k))).
    2:{ intros k _. rewrite <- ssum_mul_r. reflexivity. }
    rewrite ssum_swap. apply ssum_ext. intros j _. rewrite <- ssum_mul_l. apply ssum_ext. intros; rsimpl; ring.
  Qed.
  Lemma inv_ap (a b : mat R) : mcols a = N -> mcols b = N -> is_inverse N a b ->
    forall x i, (i < N)%nat -> ap (mget a) (ap (mget b) x) i = x i /\ ap (mget b) (ap (mget a) x) i = x i.
  Proof.
    intros Ha Hb HI x i Hi. rewrite <- !ap_mmul by assumption. unfold ap. split.
    - rewrite (ssum_ext N _ (fun k => (if Nat.eqb i k then 1 else 0) * x k)); [apply ssum_delta_l; assumption|].
      intros k Hk. destruct (HI i k Hi Hk) as (-> & _). reflexivity.
    - rewrite (ssum_ext N _ (fun k => (if Nat.eqb i k then 1 else 0) * x k)); [apply ssum_delta_l; assumption|].
      intros k Hk. destruct (HI i k Hi Hk) as (_ & ->). reflexivity.
  Qed.

  (** ** The step by step solution *)
  Section Run.
    Variables (a1 a6 T : R) (x0 : st2 R) (rhs : nat -> R).
    Definition tilt_u (i : nat) : R :=
      let y := match i with O => x0 | S i' => tilt_run a1 a6 T x0 rhs i' end in
      (rhs i - a1 * (ang y + angv y * T)) / (a1 * (T ^ 2 / 2) - a6).
    Lemma tilt_run_sim i : tilt_run a1 a6 T x0 rhs i = sim2 T T x0 tilt_u i.
    Proof. induction i as [|i IH]; [reflexivity|]. cbn [sim2]. rewrite <- IH. reflexivity. Qed.
    Lemma tilt_run_eq i : a1 * (T ^ 2 / 2) - a6 <> 0 -> a1 * ang (tilt_run a1 a6 T x0 rhs i) - a6 * tilt_u i = rhs i.
    Proof.
      intros H. set (y := match i with O => x0 | S i' => tilt_run a1 a6 T x0 rhs i' end).
      assert (E : tilt_run a1 a6 T x0 rhs i = flow2 (tilt_u i) T y) by (destruct i; reflexivity).
      rewrite E. cbn [flow2 ang]. unfold tilt_u. fold y. field. intros E0. apply H. lra.
    Qed.

    Variables (P Pinv : nat -> nat -> R) (s : nat -> R).
    Hypothesis HP : forall u i, (i < N)%nat -> ap P u i + s i = ang (sim2 T T x0 u i).
    Hypothesis PI : forall x i, (i < N)%nat -> ap P (ap Pinv x) i = x i /\ ap Pinv (ap P x) i = x i.
    Hypothesis den : a1 * (T ^ 2 / 2) - a6 <> 0.
    Let theta (k : nat) : R := ang (tilt_run a1 a6 T x0 rhs k).
    Let r (k : nat) : R := rhs k - a6 * ap Pinv s k.
    Lemma Pinv_theta i : (i < N)%nat -> ap Pinv theta i = tilt_u i + ap Pinv s i.
    Proof.
      intros Hi. rewrite (ap_ext Pinv theta (fun k => 1 * ap P tilt_u k + 1 * s k)).
      - rewrite ap_lin. destruct (PI tilt_u i Hi) as (_ & ->). ring.
      - intros k Hk. unfold theta. rewrite tilt_run_sim, <- HP by assumption. ring.
    Qed.
    Lemma U_theta i : (i < N)%nat -> a1 * theta i - a6 * ap Pinv theta i = r i.
    Proof. intros Hi. rewrite Pinv_theta by assumption. unfold r. rewrite <- (tilt_run_eq i den). fold (theta i). ring. Qed.
    Lemma tilt_angle uInv : (forall x i, (i < N)%nat -> ap uInv (fun k => a1 * x k - a6 * ap Pinv x k) i = x i) ->
      forall i, (i < N)%nat -> ap uInv r i = theta i.
    Proof.
      intros HU i Hi. rewrite <- (HU theta i Hi). apply ap_ext. intros k Hk. symmetry. apply U_theta. assumption.
    Qed.

    Variables (V Vinv : nat -> nat -> R) (sv : nat -> R).
    Hypothesis HV : forall u i, (i < N)%nat -> ap V u i + sv i = angv (sim2 T T x0 u i).
    Hypothesis VI : forall x i, (i < N)%nat -> ap Vinv (ap V x) i = x i.
    Hypothesis PV : forall x i, (i < N)%nat -> ap P (ap V x) i = ap V (ap P x) i.
    Lemma Pinv_V x i : (i < N)%nat -> ap Pinv (ap V x) i = ap V (ap Pinv x) i.
    Proof.
      intros Hi. destruct (PI (ap V (ap Pinv x)) i Hi) as (_ & <-). apply ap_ext. intros k Hk.
      rewrite PV by assumption. apply ap_ext. intros j Hj. destruct (PI x j Hj) as (-> & _). reflexivity.
    Qed.
    Lemma tilt_velocity uInv :
      (forall x i, (i < N)%nat -> ap uInv (fun k => a1 * ap P (ap Vinv x) k - a6 * ap P (ap Vinv (ap Pinv x)) k) i = x i) ->
      forall i, (i < N)%nat -> ap uInv r i - ap V (ap Pinv s) i + sv i = angv (tilt_run a1 a6 T x0 rhs i).
    Proof.
      intros HU. set (w := ap V (ap Pinv theta)).
      assert (Hw : forall i, (i < N)%nat -> a1 * ap P (ap Vinv w) i - a6 * ap P (ap Vinv (ap Pinv w)) i = r i).
      { intros i Hi.
        rewrite (ap_ext P (ap Vinv w) (ap Pinv theta)) by (intros k Hk; unfold w; apply VI; assumption).
        rewrite (ap_ext P (ap Vinv (ap Pinv w)) (ap Pinv (ap Pinv theta))).
        - rewrite (proj1 (PI theta i Hi)), (proj1 (PI (ap Pinv theta) i Hi)). apply U_theta. assumption.
        - intros k Hk. rewrite (ap_ext Vinv (ap Pinv w) (ap V (ap Pinv (ap Pinv theta)))).
          + apply VI. assumption.
          + intros j Hj. unfold w. apply Pinv_V. assumption. }
      intros i Hi. assert (E : ap uInv r i = w i).
      { rewrite <- (HU w i Hi). apply ap_ext. intros k Hk. symmetry. apply Hw. assumption. }
      rewrite E, tilt_run_sim, <- HV by assumption. unfold w.
      rewrite (ap_ext V (ap Pinv theta) (fun k => 1 * tilt_u k + 1 * ap Pinv s k)).
      - rewrite ap_lin. ring.
      - intros k Hk. rewrite Pinv_theta by assumption. ring.
    Qed.
  End Run.
End Op.

(** ** The matrices of the angles and of the angular velocities *)
Lemma order2pos_inv T N d : computeOrder2PosDynamic T T N = Ok d ->
  0 < T /\ (0 < N)%nat /\ mrows (dU d) = N /\ mcols (dU d) = N /\ mrows (dS d) = N /\ mcols (dS d) = 2%nat
  /\ (forall i, mget (dU d) i (N - 1)%nat = if Nat.leb (N - 1) i then (1/2 + INR (i - (N - 1))) * (T * T) else 0)
  /\ (forall x u i, (i < N)%nat -> ap N (mget (dU d)) u i + vget (mv (dS d) (vec_of_st2 x)) i = ang (sim2 T T x u i)).
Proof.
  unfold computeOrder2PosDynamic. rewrite !guard_ok. rsimpl. rewrite Rltb_true, Nat.ltb_lt. intros (H1 & _ & H2 & E). injection E as <-.
  cbn [dU dS mrows mcols lower]. split; [assumption|]. split; [assumption|]. do 4 (split; [reflexivity|]). split.
  - intros i. cbn [mget lower]. destruct (Nat.eqb_spec (N - 1) 0) as [E|E].
    + rewrite E. cbn [Nat.leb]. rewrite Nat.sub_0_r. rsimpl. unfold shalf. rsimpl. rewrite <- ?INR_IZR_INZ. field.
    + destruct (Nat.leb_spec (N - 1) i); [|reflexivity]. rsimpl. unfold shalf. rsimpl. rewrite <- ?INR_IZR_INZ. field.
  - intros x u i Hi. etransitivity; [|exact (ord2pos_predict T T N x (MkVec N u) i Hi)]. reflexivity.
Qed.
Lemma order2vel_inv T N d : computeOrder2VelDynamic T T N = Ok d ->
  0 < T /\ (0 < N)%nat /\ mrows (dU d) = N /\ mcols (dU d) = N /\ mrows (dS d) = N /\ mcols (dS d) = 2%nat
  /\ (forall x u i, (i < N)%nat -> ap N (mget (dU d)) u i + vget (mv (dS d) (vec_of_st2 x)) i = angv (sim2 T T x u i))
  /\ exists Vinv, dUinv d = Some Vinv /\ mrows Vinv = N /\ mcols Vinv = N /\ is_inverse N (dU d) Vinv.
Proof.
  intros E. apply computeOrder2VelDynamic_inv in E. destruct E as (H1 & H2 & H3 & EU & ES & EK & ET & EI).
  rewrite EU, ES, EI. do 2 (split; [assumption|]). do 4 (split; [reflexivity|]). split.
  - intros x u i Hi. etransitivity; [|exact (ord2vel_predict T T N x (MkVec N u) i Hi)]. reflexivity.
  - eexists. split; [reflexivity|]. do 2 (split; [reflexivity|]). apply acc_inverse_iff; auto.
Qed.

Definition still : st2 R := St2 0 0.
Lemma still_mv (m : mat R) i : mcols m = 2%nat -> vget (mv m (vec_of_st2 still)) i = 0.
Proof. intros H. rewrite mv2 by assumption. cbn [still ang angv]. ring. Qed.

(** Angles are angular velocities integrated with the trapezoidal rule *)
Section Commute.
  Variables (N : nat) (T : R) (P V : nat -> nat -> R).
  Hypothesis HP : forall u i, (i < N)%nat -> ap N P u i = ang (sim2 T T still u i).
  Hypothesis HV : forall u i, (i < N)%nat -> ap N V u i = angv (sim2 T T still u i).
  Lemma angv_S u i : angv (sim2 T T still u (S i)) = angv (sim2 T T still u i) + T * u (S i).
  Proof. cbn [sim2 flow2 angv]. ring. Qed.
  Lemma P_trapezoid u i : (i < N)%nat -> ap N P u i = ap N V (ap N V u) i - T / 2 * ap N V u i.
  Proof.
    induction i as [|i IH]; intros Hi.
    - rewrite HP, !HV by assumption. cbn [sim2 flow2 ang angv still]. rewrite HV by assumption. cbn [sim2 flow2 ang angv still]. field.
    - specialize (IH ltac:(lia)). rewrite HP, !HV in IH by lia. rewrite HP, !HV by assumption. rewrite !angv_S.
      rewrite HV by assumption. rewrite angv_S.
      cbn [sim2 flow2 ang]. rewrite IH. field.
  Qed.
  Lemma PV_comm u i : (i < N)%nat -> ap N P (ap N V u) i = ap N V (ap N P u) i.
  Proof.
    intros Hi. rewrite P_trapezoid by assumption.
    rewrite (ap_ext N V (ap N P u) (fun k => 1 * ap N V (ap N V u) k + (- (T / 2)) * ap N V u k)).
    - rewrite ap_lin. ring.
    - intros k Hk. rewrite P_trapezoid by assumption. ring.
  Qed.
End Commute.

(** If the map from angles to right hand sides is injective, each step of the tilt equation has one solution *)
Lemma injective_den N T (P Pinv : nat -> nat -> R) a1 a6 : 0 < T -> (0 < N)%nat ->
  (forall i, P i (N - 1)%nat = if Nat.leb (N - 1) i then (1/2 + INR (i - (N - 1))) * (T * T) else 0) ->
  (forall x i, (i < N)%nat -> ap N Pinv (ap N P x) i = x i) ->
  (forall x, (forall k, (k < N)%nat -> a1 * x k - a6 * ap N Pinv x k = 0) -> forall i, (i < N)%nat -> x i = 0) ->
  a1 * (T ^ 2 / 2) - a6 <> 0.
Proof.
  intros HT HN HP HI Inj E0.
  set (e := fun k => if Nat.eqb k (N - 1) then 1 else 0).
  assert (HPe : forall i, (i < N)%nat -> ap N P e i = T ^ 2 / 2 * e i).
  { intros i Hi. unfold ap, e.
    rewrite (ssum_ext N _ (fun k => (if Nat.eqb (N - 1) k then 1 else 0) * P i k)).
    2:{ intros k Hk. rewrite (Nat.eqb_sym (N - 1)). ring. }
    rewrite ssum_delta_l by lia. rewrite HP. destruct (Nat.eqb_spec i (N - 1)) as [->|Hne].
    - rewrite Nat.leb_refl, Nat.sub_diag. cbn [INR]. field.
    - destruct (Nat.leb_spec (N - 1) i); [lia|]. ring. }
  assert (HPi : forall i, (i < N)%nat -> T ^ 2 / 2 * ap N Pinv e i = e i).
  { intros i Hi. rewrite <- (HI e i Hi). rewrite (ap_ext N Pinv (ap N P e) (fun k => T ^ 2 / 2 * e k + 0 * e k)).
    - rewrite ap_lin. ring.
    - intros k Hk. rewrite HPe by assumption. ring. }
  assert (HT2 : T ^ 2 / 2 <> 0) by (pose proof (pow_lt T 2 HT); lra).
  assert (Z : e (N - 1)%nat = 0).
  { apply Inj; [|lia]. intros k Hk. apply (Rmult_eq_reg_l (T ^ 2 / 2)); [|assumption].
    replace (T ^ 2 / 2 * (a1 * e k - a6 * ap N Pinv e k)) with (a1 * (T ^ 2 / 2) * e k - a6 * (T ^ 2 / 2 * ap N Pinv e k)) by ring.
    rewrite HPi by assumption. replace (a1 * (T ^ 2 / 2)) with a6 by lra. ring. }
  unfold e in Z. rewrite Nat.eqb_refl in Z. lra.
Qed.
Lemma ap_zero N A x i : (forall k, (k < N)%nat -> x k = 0) -> ap N A x i = 0.
Proof. intros H. apply ssum_0. intros k Hk. rewrite H by assumption. ring. Qed.
Lemma ap_U N a1 a6 (Pinv : mat R) x i : (i < N)%nat ->
  ap N (mget (msub (mscale a1 (mid N)) (mscale a6 Pinv))) x i = a1 * x i - a6 * ap N (mget Pinv) x i.
Proof.
  intros Hi. unfold ap. cbn [msub mscale mid mget].
  rewrite (ssum_ext N _ (fun k => a1 * ((if Nat.eqb i k then 1 else 0) * x k) + (- a6) * (mget Pinv i k * x k))).
  - rewrite ssum_plus, !ssum_mul_l, ssum_delta_l by assumption. ring.
  - intros k Hk. rsimpl. destruct (Nat.eqb i k); ring.
Qed.
Lemma ap_mscale N c (a : mat R) x i : ap N (mget (mscale c a)) x i = c * ap N (mget a) x i.
Proof. unfold ap. cbn [mscale mget]. rewrite <- ssum_mul_l. apply ssum_ext. intros. rsimpl. ring. Qed.
Lemma ap_msub N (a b : mat R) x i : ap N (mget (msub a b)) x i = ap N (mget a) x i - ap N (mget b) x i.
Proof. unfold ap. cbn [msub mget]. rewrite <- ssum_minus. apply ssum_ext. intros. rsimpl. ring. Qed.
Lemma ap_madd N (a b : mat R) x i : ap N (mget (madd a b)) x i = ap N (mget a) x i + ap N (mget b) x i.
Proof. unfold ap. cbn [madd mget]. rewrite <- ssum_plus. apply ssum_ext. intros. rsimpl. ring. Qed.
Lemma ap_mopp N (a : mat R) x i : ap N (mget (mopp a)) x i = - ap N (mget a) x i.
Proof. unfold ap. cbn [mopp mget]. rewrite <- (Rmult_1_l (ssum N (fun k => mget a i k * x k))), <- Ropp_mult_distr_l_reverse, <- ssum_mul_l. apply ssum_ext. intros. rsimpl. ring. Qed.

(** ** The two objectives *)
Section Objective.
  Variables (z : zeb R) (gh : R).
  Let N := horizon z.
  Hypothesis M : models_ok (zl z) (zb z).
  Lemma base_tilt : computeOrder2PosDynamic (lT (zl z)) (lT (zl z)) N = Ok (btaD (zb z))
    /\ computeOrder2VelDynamic (lT (zl z)) (lT (zl z)) N = Ok (btvD (zb z)).
  Proof. pose proof (mo_b _ _ M) as F. pose proof (bf_ta _ F) as A. pose proof (bf_tv _ F) as B. rewrite (mo_N _ _ M), (mo_T _ _ M) in *. split; assumption. Qed.

  Lemma inverse_dims (a v : mat R) e : inverseLU a e = Some v -> mrows v = mrows a /\ mcols v = mcols a.
  Proof. unfold inverseLU. destruct (diag_nonzero _ _); [|discriminate]. intros E. injection E as <-. split; reflexivity. Qed.

  Lemma tilt_build_quad uInv psiS cp ca dbx dby g x0 (fx fy : (nat -> R) -> nat -> R) :
    mrows uInv = N -> mcols uInv = N ->
    dynF cp N (cf (zl z)) (lT (zl z)) pos -> dK cp = vzero N -> dynF ca N (cf (zl z)) (lT (zl z)) acc -> dK ca = vzero N ->
    tilt_gradient (zl z) (zb z) (Some (tilt_build (zl z) (withH (zb z) gh) uInv psiS cp ca dbx dby)) x0 = Ok (Some g) ->
    (forall Y i, (i < N)%nat -> ap N (mget uInv) (fun k => tilt_rhs z gh dbx (comX z Y k) (baseX z Y k)) i
       + vget (mv psiS (vec_of_st2 (st2_of3 (bsroll (zb z))))) i = fx Y i) ->
    (forall Y i, (i < N)%nat -> ap N (mget uInv) (fun k => tilt_rhs z gh dby (comY z Y k) (baseY z Y k)) i
       + vget (mv psiS (vec_of_st2 (st2_of3 (bspitch (zb z))))) i = fy Y i) ->
    forall d,
    quad (4 * N) (mget (tH (tilt_build (zl z) (withH (zb z) gh) uInv psiS cp ca dbx dby))) (vget g) d
    = half2 N (fx (fun k => vget x0 k + d k)) (fy (fun k => vget x0 k + d k)) - half2 N (fx (vget x0)) (fy (vget x0)).
  Proof.
    intros Ru Cu Dp Kp Da Ka HG HX HY d. pose proof (models_dyns _ _ M) as D.
    destruct (dy_bp _ _ D) as (Bp & Kbp), (dy_ba _ _ D) as (Ba & Kba).
    unfold tilt_gradient in HG. apply guard_ok in HG. destruct HG as (_ & HG). apply bind_ok in HG. destruct HG as (_ & _ & HG).
    cbn [option_map] in HG. injection HG as <-.
    unfold tilt_build. cbn [tH tCU tCS tBU tBS tPsiS tPsiKx tPsiKy tuInv].
    change (bN (withH (zb z) gh)) with (bN (zb z)). change (bh (withH (zb z) gh)) with gh.
    change (bm (withH (zb z) gh)) with (bm (zb z)). change (baccD (withH (zb z) gh)) with (baccD (zb z)). change (bposD (withH (zb z) gh)) with (bposD (zb z)).
    rewrite (mo_N _ _ M). fold (horizon z) in *. fold N in Bp, Kbp, Ba, Kba. fold N.
    set (A5 := smul (bm (zb z)) gh). set (A2 := smul (lm (zl z)) GRAVITY_NORM). set (A4 := smul (lm (zl z)) (lh (zl z))).
    set (CU := mmul uInv (madd (mscale (sopp A5) (dU ca)) (mscale A2 (dU cp)))).
    set (BU := mmul uInv (msub (mscale (sopp A4) (dU (baccD (zb z)))) (mscale A2 (dU (bposD (zb z)))))).
    set (CS := mmul uInv (madd (mscale (sopp A5) (dS ca)) (mscale A2 (dS cp)))).
    set (BS := mmul uInv (msub (mscale (sopp A4) (dS (baccD (zb z)))) (mscale A2 (dS (bposD (zb z)))))).
    set (kx := fun i => vget (mv CS (vec_of_st3 (lsx (zl z)))) i + vget (mv BS (vec_of_st3 (bsx (zb z)))) i
                        + vget (mv psiS (vec_of_st2 (st2_of3 (bsroll (zb z))))) i + vget (tilt_K (withH (zb z) gh) uInv dbx) i).
    set (ky := fun i => vget (mv CS (vec_of_st3 (lsy (zl z)))) i + vget (mv BS (vec_of_st3 (bsy (zb z)))) i
                        + vget (mv psiS (vec_of_st2 (st2_of3 (bspitch (zb z))))) i + vget (tilt_K (withH (zb z) gh) uInv dby) i).
    shapes.
    assert (EC : forall x Y i, ssum N (fun k => mget CU i k * Y k) + vget (mv CS (vec_of_st3 x)) i
      = ap N (mget uInv) (fun j => - A5 * (ssum N (fun k => mget (dU ca) j k * Y k) + vget (mv (dS ca) (vec_of_st3 x)) j)
                                   + A2 * (ssum N (fun k => mget (dU cp) j k * Y k) + vget (mv (dS cp) (vec_of_st3 x)) j)) i).
    { intros x Y i. fold (ap N (mget CU) Y i). unfold CU, CS. rewrite ap_mmul, (mv_mmul N) by assumption.
      rewrite <- (Rmult_1_l (ap N (mget uInv) (ap N _ _) i)), <- (Rmult_1_l (ap N (mget uInv) (fun j => vget _ j) i)), <- ap_lin.
      apply ap_ext. intros k Hk. rewrite ap_madd, !ap_mscale. cbn [mv madd mscale vget mget mcols].
      match goal with E1 : mcols (dS ca) = 3%nat, E2 : mcols (dS cp) = 3%nat |- _ => rewrite E1, E2 end. unfold ap. cbn [ssum]. rsimpl. ring. }
    assert (EB : forall x Y i, ssum N (fun k => mget BU i k * Y k) + vget (mv BS (vec_of_st3 x)) i
      = ap N (mget uInv) (fun j => - A4 * (ssum N (fun k => mget (dU (baccD (zb z))) j k * Y k) + vget (mv (dS (baccD (zb z))) (vec_of_st3 x)) j)
                                   + - A2 * (ssum N (fun k => mget (dU (bposD (zb z))) j k * Y k) + vget (mv (dS (bposD (zb z))) (vec_of_st3 x)) j)) i).
    { intros x Y i. fold (ap N (mget BU) Y i). unfold BU, BS. rewrite ap_mmul, (mv_mmul N) by assumption.
      rewrite <- (Rmult_1_l (ap N (mget uInv) (ap N _ _) i)), <- (Rmult_1_l (ap N (mget uInv) (fun j => vget _ j) i)), <- ap_lin.
      apply ap_ext. intros k Hk. rewrite ap_msub, !ap_mscale. cbn [mv msub mscale vget mget mcols].
      match goal with E1 : mcols (dS (baccD (zb z))) = 3%nat, E2 : mcols (dS (bposD (zb z))) = 3%nat |- _ => rewrite E1, E2 end. unfold ap. cbn [ssum]. rsimpl. ring. }
    assert (EK : forall db i, vget (tilt_K (withH (zb z) gh) uInv db) i = ap N (mget uInv) (fun _ => - (bm (zb z) * (981/100) * db)) i).
    { intros db i. unfold tilt_K, ap. cbn [mv mopp vget mget mcols]. rewrite Cu. apply ssum_ext. intros k Hk. cbn [vfill vget]. change (bm (withH (zb z) gh)) with (bm (zb z)).
      unfold GRAVITY_NORM. rsimpl. field. }
    assert (A2E : A2 = lm (zl z) * (981/100)) by (unfold A2, GRAVITY_NORM; rsimpl; reflexivity).
    assert (EX : forall Y i, (i < N)%nat -> axX N (mget CU) (mget BU) kx Y i = fx Y i).
    { intros Y i Hi. rewrite <- HX by assumption. unfold axX, kx.
      transitivity ((ssum N (fun k => mget CU i k * Y k) + vget (mv CS (vec_of_st3 (lsx (zl z)))) i)
        + (ssum N (fun k => mget BU i k * Y (2 * N + k)%nat) + vget (mv BS (vec_of_st3 (bsx (zb z)))) i)
        + vget (tilt_K (withH (zb z) gh) uInv dbx) i + vget (mv psiS (vec_of_st2 (st2_of3 (bsroll (zb z))))) i); [ring|].
      f_equal. rewrite EC, (EB _ (fun k => Y (2 * N + k)%nat)), EK.
      unfold ap. rewrite <- !ssum_plus. apply ssum_ext. intros k Hk. unfold tilt_rhs, comX, baseX, com_first, period, jComX, jBaseX.
      fold (cf (zl z)). fold N. rewrite <- (Dp _ _ k Hk), <- (Da _ _ k Hk), <- (Bp _ _ k Hk), <- (Ba _ _ k Hk).
      rewrite Kp, Ka, Kbp, Kba. cbn [vzero vget]. rewrite A2E. unfold A4, A5. rsimpl. ring. }
    assert (EY : forall Y i, (i < N)%nat -> axY N (mget CU) (mget BU) ky Y i = fy Y i).
    { intros Y i Hi. rewrite <- HY by assumption. unfold axY, ky.
      transitivity ((ssum N (fun k => mget CU i k * Y (N + k)%nat) + vget (mv CS (vec_of_st3 (lsy (zl z)))) i)
        + (ssum N (fun k => mget BU i k * Y (3 * N + k)%nat) + vget (mv BS (vec_of_st3 (bsy (zb z)))) i)
        + vget (tilt_K (withH (zb z) gh) uInv dby) i + vget (mv psiS (vec_of_st2 (st2_of3 (bspitch (zb z))))) i); [ring|].
      f_equal. rewrite (EC _ (fun k => Y (N + k)%nat)), (EB _ (fun k => Y (3 * N + k)%nat)), EK.
      unfold ap. rewrite <- !ssum_plus. apply ssum_ext. intros k Hk. unfold tilt_rhs, comY, baseY, com_first, period, jComY, jBaseY.
      fold (cf (zl z)). fold N. rewrite <- (Dp _ _ k Hk), <- (Da _ _ k Hk), <- (Bp _ _ k Hk), <- (Ba _ _ k Hk).
      rewrite Kp, Ka, Kbp, Kba. cbn [vzero vget]. rewrite A2E. unfold A4, A5. rsimpl. ring. }
    rewrite (pair_quad N (mget CU) (mget CU) (mget BU) (mget BU)) with (cx := kx) (cy := ky).
    1:{ f_equal; apply half2_ext; intros i Hi; rewrite ?EX, ?EY by assumption; reflexivity. }
    1-8: apply entries_mmul; [unfold CU, BU; cbn [mmul madd msub mscale mtr mrows mcols]; assumption..|intros; reflexivity].
    1-4: apply ventries_mv; [unfold CU, BU; cbn [mmul madd msub mscale mtr mrows mcols]; assumption..|intros; reflexivity].
  Qed.
  Lemma ok_some {A : Type} (a b : A) : Ok (Some a) = Ok (Some b) -> b = a.
  Proof. congruence. Qed.
  Lemma A6_eq : tilt_A6 (zl z) (withH (zb z) gh) = tilt_a6 z gh.
  Proof. unfold tilt_A6, tilt_a6. change (bh (withH (zb z) gh)) with gh. change (bm (withH (zb z) gh)) with (bm (zb z)). rsimpl. ring. Qed.
  Lemma mv_scale c (a : mat R) x i : vget (mv (mscale c a) x) i = c * vget (mv a x) i.
  Proof. cbn [mv mscale vget mget mcols]. rewrite <- ssum_mul_l. apply ssum_ext. intros. rsimpl. ring. Qed.
  Lemma mv_opp (a : mat R) x i : vget (mv (mopp a) x) i = - vget (mv a x) i.
  Proof. cbn [mv mopp vget mget mcols]. rewrite <- ssum_opp. apply ssum_ext. intros. rsimpl. ring. Qed.
  Lemma mv_add (a b : mat R) x i : mcols b = mcols a -> vget (mv (madd a b) x) i = vget (mv a x) i + vget (mv b x) i.
  Proof. intros E. cbn [mv madd vget mget mcols]. rewrite E, <- ssum_plus. apply ssum_ext. intros. rsimpl. ring. Qed.

  Definition tilt_values (X : nat -> R) (f : st2 R -> R) : (nat -> R) * (nat -> R) :=
    (fun i => f (rollAt z gh X i), fun i => f (pitchAt z gh X i)).
  Lemma Pinv_dims Pinv : dUinv (btaD (zb z)) = Some Pinv -> mrows Pinv = N /\ mcols Pinv = N.
  Proof.
    destruct base_tilt as (B & _). unfold computeOrder2PosDynamic in B. rewrite !guard_ok in B. destruct B as (_ & _ & _ & B). injection B as E.
    rewrite <- E. cbn [dUinv]. intros H. apply inverse_dims in H. destruct H as (-> & ->). split; reflexivity.
  Qed.
  Lemma contacts dbx dby : b_getTiltContactPointX (withH (zb z) gh) = Ok dbx -> b_getTiltContactPointY (withH (zb z) gh) = Ok dby ->
    contactX z = dbx /\ contactY z = dby.
  Proof.
    unfold b_getTiltContactPointX, b_getTiltContactPointY, contactX, contactY.
    change (btcx (withH (zb z) gh)) with (btcx (zb z)). change (btcy (withH (zb z) gh)) with (btcy (zb z)).
    destruct (btcx (zb z)), (btcy (zb z)); intros E1 E2; try discriminate. injection E1 as <-. injection E2 as <-. split; reflexivity.
  Qed.

  Lemma tilt_quad t g x0 : tilt_constant (zl z) (withH (zb z) gh) = Ok (otilt (zo z)) -> otilt (zo z) = Some t -> tilt_inverses z gh ->
    tilt_gradient (zl z) (zb z) (otilt (zo z)) x0 = Ok (Some g) -> forall d,
    quad (4 * N) (mget (tH t)) (vget g) d
    = half2 N (fun i => ang (rollAt z gh (fun k => vget x0 k + d k) i)) (fun i => ang (pitchAt z gh (fun k => vget x0 k + d k) i))
      - half2 N (fun i => ang (rollAt z gh (vget x0) i)) (fun i => ang (pitchAt z gh (vget x0) i)).
  Proof.
    intros HT Et (Pinv & t' & EP & Et' & IP & IU) HG d. rewrite Et in Et'. injection Et' as <-. rewrite Et in HT, HG.
    pose proof (models_dyns _ _ M) as D. destruct base_tilt as (BA & BV). apply order2pos_inv in BA. fold N in IP, IU.
    destruct BA as (T0 & N0 & R1 & R2 & R3 & R4 & PL & HP). destruct (Pinv_dims _ EP) as (R5 & R6).
    unfold tilt_constant in HT. apply bind_ok in HT. destruct HT as (_ & _ & HT).
    apply bind_ok in HT. destruct HT as (dbx & Ex & HT). apply bind_ok in HT. destruct HT as (dby & Ey & HT).
    apply bind_ok in HT. destruct HT as (cp & Ecp & HT). apply bind_ok in HT. destruct HT as (ca & Eca & HT).
    change (btaD (withH (zb z) gh)) with (btaD (zb z)) in HT. rewrite EP in HT.
    destruct (inverseLU _ _) as [uInv|] eqn:EU; [|discriminate]. apply ok_some in HT. subst t.
    apply inverse_dims in EU. cbn [msub mscale mid mrows mcols] in EU. change (bN (withH (zb z) gh)) with (bN (zb z)) in EU. rewrite (mo_N _ _ M) in EU.
    destruct EU as (U1 & U2). fold (horizon z) in U1, U2. fold N in U1, U2.
    destruct (contacts _ _ Ex Ey) as (Cx & Cy).
    destruct (dy_p _ _ D) as (cp' & Ecp' & Dp & Kp), (dy_a _ _ D) as (ca' & Eca' & Da & Ka).
    rewrite Ecp in Ecp'. injection Ecp' as <-. rewrite Eca in Eca'. injection Eca' as <-.
    fold (horizon z) in Dp, Kp, Da, Ka. fold N in Dp, Kp, Da, Ka.
    cbn [tuInv tilt_build] in IU.
    pose proof (inv_ap N _ _ R2 R6 IP) as PI.
    assert (UI : forall x i, (i < N)%nat -> ap N (mget uInv) (fun k => tilt_a1 z gh * x k - tilt_a6 z gh * ap N (mget Pinv) x k) i = x i).
    { intros x i Hi. destruct (inv_ap N (msub (mscale (tilt_a1 z gh) (mid N)) (mscale (tilt_a6 z gh) Pinv)) uInv ltac:(reflexivity) U2 IU x i Hi) as (_ & <-).
      apply ap_ext. intros k Hk. rewrite ap_U by assumption. symmetry. f_equal. }
    assert (den : tilt_a1 z gh * (lT (zl z) ^ 2 / 2) - tilt_a6 z gh <> 0).
    { apply (injective_den N (lT (zl z)) (mget (dU (btaD (zb z)))) (mget Pinv)); try assumption.
      - intros x i Hi. apply PI. assumption.
      - intros x Hx i Hi. rewrite <- (UI x i Hi). apply ap_zero. assumption. }
    apply (tilt_build_quad _ _ _ _ _ _ _ _ (fun X i => ang (rollAt z gh X i)) (fun X i => ang (pitchAt z gh X i)) U1 U2 Dp Kp Da Ka HG).
    - intros Y i Hi. unfold rollAt. rewrite Cx.
      rewrite <- (tilt_angle N _ _ _ _ _ (mget (dU (btaD (zb z)))) (mget Pinv) (fun k => vget (mv (dS (btaD (zb z))) (vec_of_st2 (st2_of3 (bsroll (zb z))))) k)
        (fun u i Hi => HP _ u i Hi) PI den (mget uInv) UI i Hi).
      rewrite (mv_mmul N) by exact U2. rewrite A6_eq.
      rewrite <- (Rmult_1_l (ap N (mget uInv) _ i)). 
      unfold ap at 1 2 3. rewrite <- ssum_mul_l, <- ssum_plus. apply ssum_ext. intros k Hk.
      rewrite (mv_mmul N) by exact R6. rewrite ap_mopp. cbn [mscale mget]. rsimpl. ring.
    - intros Y i Hi. unfold pitchAt. rewrite Cy.
      rewrite <- (tilt_angle N _ _ _ _ _ (mget (dU (btaD (zb z)))) (mget Pinv) (fun k => vget (mv (dS (btaD (zb z))) (vec_of_st2 (st2_of3 (bspitch (zb z))))) k)
        (fun u i Hi => HP _ u i Hi) PI den (mget uInv) UI i Hi).
      rewrite (mv_mmul N) by exact U2. rewrite A6_eq.
      rewrite <- (Rmult_1_l (ap N (mget uInv) _ i)). 
      unfold ap at 1 2 3. rewrite <- ssum_mul_l, <- ssum_plus. apply ssum_ext. intros k Hk.
      rewrite (mv_mmul N) by exact R6. rewrite ap_mopp. cbn [mscale mget]. rsimpl. ring.
  Qed.

  Lemma tiltV_quad t g x0 : tiltvel_constant (zl z) (withH (zb z) gh) = Ok (otiltV (zo z)) -> otiltV (zo z) = Some t -> tiltvel_inverses z gh ->
    tilt_gradient (zl z) (zb z) (otiltV (zo z)) x0 = Ok (Some g) -> forall d,
    quad (4 * N) (mget (tH t)) (vget g) d
    = half2 N (fun i => angv (rollAt z gh (fun k => vget x0 k + d k) i)) (fun i => angv (pitchAt z gh (fun k => vget x0 k + d k) i))
      - half2 N (fun i => angv (rollAt z gh (vget x0) i)) (fun i => angv (pitchAt z gh (vget x0) i)).
  Proof.
    intros HT Et (Pinv & Vinv & t' & EP & EV & Et' & IP & IU) HG d. rewrite Et in Et'. injection Et' as <-. rewrite Et in HT, HG.
    pose proof (models_dyns _ _ M) as D. destruct base_tilt as (BA & BV). apply order2pos_inv in BA. apply order2vel_inv in BV. fold N in IP, IU.
    destruct BA as (T0 & N0 & R1 & R2 & R3 & R4 & PL & HP). destruct (Pinv_dims _ EP) as (R5 & R6).
    destruct BV as (_ & _ & Q1 & Q2 & Q3 & Q4 & HV & Vinv' & EV' & Q5 & Q6 & IV). rewrite EV in EV'. injection EV' as <-.
    unfold tiltvel_constant in HT. apply bind_ok in HT. destruct HT as (_ & _ & HT).
    apply bind_ok in HT. destruct HT as (dbx & Ex & HT). apply bind_ok in HT. destruct HT as (dby & Ey & HT).
    apply bind_ok in HT. destruct HT as (cp & Ecp & HT). apply bind_ok in HT. destruct HT as (ca & Eca & HT).
    change (btaD (withH (zb z) gh)) with (btaD (zb z)) in HT. change (btvD (withH (zb z) gh)) with (btvD (zb z)) in HT. rewrite EP, EV in HT.
    destruct (inverseLU _ _) as [uInv|] eqn:EU; [|discriminate]. apply ok_some in HT. subst t.
    apply inverse_dims in EU. cbn [msub mscale mmul mrows mcols] in EU. rewrite R1, Q6 in EU.
    destruct EU as (U1 & U2).
    destruct (contacts _ _ Ex Ey) as (Cx & Cy).
    destruct (dy_p _ _ D) as (cp' & Ecp' & Dp & Kp), (dy_a _ _ D) as (ca' & Eca' & Da & Ka).
    rewrite Ecp in Ecp'. injection Ecp' as <-. rewrite Eca in Eca'. injection Eca' as <-.
    fold (horizon z) in Dp, Kp, Da, Ka. fold N in Dp, Kp, Da, Ka.
    cbn [tuInv tilt_build] in IU.
    set (P := mget (dU (btaD (zb z)))) in *. set (V := mget (dU (btvD (zb z)))) in *.
    pose proof (inv_ap N _ _ R2 R6 IP) as PI. fold P in PI.
    assert (VI : forall x i, (i < N)%nat -> ap N (mget Vinv) (ap N V x) i = x i).
    { intros x i Hi. apply (inv_ap N _ _ Q2 Q6 IV). assumption. }
    assert (UI : forall x i, (i < N)%nat -> ap N (mget uInv) (fun k => tilt_a1 z gh * ap N P (ap N (mget Vinv) x) k - tilt_a6 z gh * ap N P (ap N (mget Vinv) (ap N (mget Pinv) x)) k) i = x i).
    { intros x i Hi.
      destruct (inv_ap N (msub (mmul (mscale (tilt_a1 z gh) (dU (btaD (zb z)))) Vinv)
                          (mmul (mmul (mscale (tilt_a6 z gh) (dU (btaD (zb z)))) Vinv) Pinv)) uInv Q6 U2 IU x i Hi) as (_ & <-).
      apply ap_ext. intros k Hk. rewrite ap_msub, (ap_mmul N (mmul _ _)), !(ap_mmul N (mscale _ _)), !ap_mscale by assumption. reflexivity. }
    assert (PV : forall x i, (i < N)%nat -> ap N P (ap N V x) i = ap N V (ap N P x) i).
    { apply (PV_comm N (lT (zl z))).
      - intros u i Hi. rewrite <- HP by assumption. rewrite still_mv by assumption. fold P. ring.
      - intros u i Hi. rewrite <- HV by assumption. rewrite still_mv by assumption. fold V. ring. }
    assert (den : tilt_a1 z gh * (lT (zl z) ^ 2 / 2) - tilt_a6 z gh <> 0).
    { apply (injective_den N (lT (zl z)) P (mget Pinv)); try assumption.
      - intros x i Hi. apply PI. assumption.
      - intros x Hx i Hi. rewrite <- (UI x i Hi). apply ap_zero. intros k Hk.
        transitivity (ap N P (ap N (mget Vinv) (fun j => tilt_a1 z gh * x j + (- tilt_a6 z gh) * ap N (mget Pinv) x j)) k).
        + rewrite (ap_ext N P (ap N (mget Vinv) (fun j => tilt_a1 z gh * x j + - tilt_a6 z gh * ap N (mget Pinv) x j)) (fun j => tilt_a1 z gh * ap N (mget Vinv) x j + (- tilt_a6 z gh) * ap N (mget Vinv) (ap N (mget Pinv) x) j)).
          * rewrite ap_lin. ring.
          * intros j _. apply ap_lin.
        + apply ap_zero. intros j Hj. apply ap_zero. intros q Hq. rewrite <- (Hx q Hq). ring. }
    assert (PS : forall x i, (i < N)%nat ->
      vget (mv (madd (msub (mmul (mscale (tilt_A6 (zl z) (withH (zb z) gh)) uInv) (mmul (mopp Pinv) (dS (btaD (zb z))))) (mmul (mmul (dU (btvD (zb z))) Pinv) (dS (btaD (zb z))))) (dS (btvD (zb z)))) (vec_of_st2 x)) i
      = ap N (mget uInv) (fun k => - tilt_a6 z gh * ap N (mget Pinv) (fun j => vget (mv (dS (btaD (zb z))) (vec_of_st2 x)) j) k) i
        - ap N V (ap N (mget Pinv) (fun j => vget (mv (dS (btaD (zb z))) (vec_of_st2 x)) j)) i + vget (mv (dS (btvD (zb z))) (vec_of_st2 x)) i).
    { intros x i Hi. rewrite mv_add by (cbn [msub mmul mcols]; congruence). rewrite mv_msub by reflexivity. f_equal. f_equal.
      - rewrite (mv_mmul N) by exact U2. rewrite A6_eq, ap_mscale.
        unfold ap at 1 2. rewrite <- ssum_mul_l. apply ssum_ext. intros k Hk. rewrite (mv_mmul N) by exact R6. rewrite ap_mopp. ring.
      - rewrite (mv_mmul N) by exact R6. rewrite (ap_mmul N) by exact Q2. reflexivity. }
    apply (tilt_build_quad _ _ _ _ _ _ _ _ (fun X i => angv (rollAt z gh X i)) (fun X i => angv (pitchAt z gh X i)) U1 U2 Dp Kp Da Ka HG).
    - intros Y i Hi. unfold rollAt. rewrite Cx.
      rewrite <- (tilt_velocity N _ _ _ _ _ P (mget Pinv) (fun k => vget (mv (dS (btaD (zb z))) (vec_of_st2 (st2_of3 (bsroll (zb z))))) k)
        (fun u i Hi => HP _ u i Hi) PI den V (mget Vinv) (fun k => vget (mv (dS (btvD (zb z))) (vec_of_st2 (st2_of3 (bsroll (zb z))))) k)
        (fun u i Hi => HV _ u i Hi) VI PV (mget uInv) UI i Hi).
      rewrite PS by assumption. unfold Rminus. rewrite <- !Rplus_assoc. f_equal. f_equal.
      unfold ap at 1 2 4. rewrite <- ssum_plus. apply ssum_ext. intros k Hk. ring.
    - intros Y i Hi. unfold pitchAt. rewrite Cy.
      rewrite <- (tilt_velocity N _ _ _ _ _ P (mget Pinv) (fun k => vget (mv (dS (btaD (zb z))) (vec_of_st2 (st2_of3 (bspitch (zb z))))) k)
        (fun u i Hi => HP _ u i Hi) PI den V (mget Vinv) (fun k => vget (mv (dS (btvD (zb z))) (vec_of_st2 (st2_of3 (bspitch (zb z))))) k)
        (fun u i Hi => HV _ u i Hi) VI PV (mget uInv) UI i Hi).
      rewrite PS by assumption. unfold Rminus. rewrite <- !Rplus_assoc. f_equal. f_equal.
      unfold ap at 1 2 4. rewrite <- ssum_plus. apply ssum_ext. intros k Hk. ring.
  Qed.
End Objective.
