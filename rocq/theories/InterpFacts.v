(** Facts about the spline interpolation. *)

From Coq Require Import Reals List Lra Lia.
From Verif Require Import Scalar LinAlg LinAlgFacts ToolsModel InterpModel.
Import ListNotations.
Local Open Scope R_scope.

(** Specification: three cubics in normalised time x = t/T, pieces [0,1/3], [1/3,2/3], [2/3,1]. *)
Definition cubic (c : vec4 R) (x : R) : R := c0 c * x^3 + c1 c * x^2 + c2 c * x + c3 c.
Definition cubic' (c : vec4 R) (x : R) : R := 3 * c0 c * x^2 + 2 * c1 c * x + c2 c.
Definition cubic'' (c : vec4 R) (x : R) : R := 6 * c0 c * x + 2 * c1 c.

(** Value, velocity and acceleration of a normalised cubic at normalised time x. *)
Definition cstate (c : vec4 R) (T x : R) : st3 R :=
  St3 (cubic c x) (cubic' c x / T) (cubic'' c x / T^2).

(** The defining equations of the spline: end states and C2 junctions. *)
Definition is_spline (i f : st3 R) (T : R) (A B C : vec4 R) : Prop :=
  cstate A T 0 = i /\ cstate A T (1/3) = cstate B T (1/3)
  /\ cstate B T (2/3) = cstate C T (2/3) /\ cstate C T 1 = f.

Lemma cstate_eq_iff c d T x y :
  T <> 0 ->
  (cstate c T x = cstate d T y <->
   cubic c x = cubic d y /\ cubic' c x = cubic' d y /\ cubic'' c x = cubic'' d y).
Proof.
  intros HT. unfold cstate. split.
  - intros H. injection H as H1 H2 H3. split; [assumption|].
    assert (HTT : T^2 <> 0) by (apply pow_nonzero; assumption).
    split.
    + apply (f_equal (fun z => z * T)) in H2. unfold Rdiv in H2.
      rewrite !Rmult_assoc, Rinv_l, !Rmult_1_r in H2 by assumption. exact H2.
    + apply (f_equal (fun z => z * T^2)) in H3. unfold Rdiv in H3.
      rewrite !Rmult_assoc, Rinv_l, !Rmult_1_r in H3 by assumption. exact H3.
  - intros (-> & -> & ->). reflexivity.
Qed.

Lemma cstate_eq_st c T x (s : st3 R) :
  T <> 0 ->
  (cstate c T x = s <-> cubic c x = pos s /\ cubic' c x = T * vel s /\ cubic'' c x = T * T * acc s).
Proof.
  intros HT. destruct s as [p v a]. unfold cstate. cbn [pos vel acc]. split.
  - intros H. injection H as <- <- <-. split; [reflexivity|]. split; field; assumption.
  - intros (-> & -> & ->). f_equal; field; assumption.
Qed.

Ltac unfold_factors :=
  unfold computeFactors, rhs, ldot, aInvNorm, frac;
  cbn [nth combine fold_left fst snd f_a f_b f_c c0 c1 c2 c3];
  rsimpl_goal.

Lemma factors_are_spline i f T :
  T <> 0 ->
  is_spline i f T (f_a (computeFactors i f T)) (f_b (computeFactors i f T)) (f_c (computeFactors i f T)).
Proof.
  intros HT. unfold is_spline. rewrite !cstate_eq_iff, !cstate_eq_st by assumption.
  unfold cubic, cubic', cubic''. unfold_factors.
  repeat split; field.
Qed.

Lemma spline_unique i f T A B C :
  T <> 0 -> is_spline i f T A B C -> computeFactors i f T = MkFac A B C.
Proof.
  intros HT. destruct i as [p v a], f as [q w b].
  destruct A as [a0 a1 a2 a3], B as [b0 b1 b2 b3], C as [d0 d1 d2 d3].
  unfold is_spline. rewrite !cstate_eq_iff, !cstate_eq_st by assumption.
  unfold cubic, cubic', cubic''. cbn [c0 c1 c2 c3 pos vel acc].
  unfold_factors. cbn [pos vel acc].
  replace (- (T * T * a) / 18) with (- (T * T * a / 18)) by field.
  replace (- (T * T * a) / 3) with (- (T * T * a / 3)) by field.
  set (V := T * v). set (A := T * T * a). set (W := T * w). set (B := T * T * b).
  clearbody V A W B. clear HT.
  intros ((H1 & H2 & H3) & (H4 & H5 & H6) & (H7 & H8 & H9) & (H10 & H11 & H12)).
  ring_simplify in H1. ring_simplify in H2. ring_simplify in H3. subst a3 a2.
  assert (a1 = A / 2) by lra. subst a1. clear H3.
  f_equal; f_equal; lra.
Qed.

(** Derivative of a cubic in real time. *)
Lemma cubic_deriv c T t :
  T <> 0 -> derivable_pt_lim (fun t => cubic c (t / T)) t (cubic' c (t / T) / T).
Proof.
  intros HT.
  assert (HD : derivable_pt_lim (fun t => t / T) t (/ T)).
  { replace (/ T) with (1 * / T + t * 0) by ring.
    apply (derivable_pt_lim_mult (fun t => t) (fun _ => / T)).
    - apply derivable_pt_lim_id.
    - apply derivable_pt_lim_const. }
  assert (HC : forall x, derivable_pt_lim (cubic c) x (cubic' c x)).
  { intros x. unfold cubic, cubic'.
    replace (3 * c0 c * x ^ 2 + 2 * c1 c * x + c2 c)
      with (((0 * x^3 + c0 c * (INR 3 * x^2)) + (0 * x^2 + c1 c * (INR 2 * x^1)) + (0 * x + c2 c * 1)) + 0)
      by (cbn [INR]; ring).
    apply (derivable_pt_lim_plus (fun x => c0 c * x^3 + c1 c * x^2 + c2 c * x) (fun _ => c3 c)).
    2:{ apply derivable_pt_lim_const. }
    apply (derivable_pt_lim_plus (fun x => c0 c * x^3 + c1 c * x^2) (fun x => c2 c * x)).
    - apply (derivable_pt_lim_plus (fun x => c0 c * x^3) (fun x => c1 c * x^2)).
      + apply (derivable_pt_lim_mult (fun _ => c0 c) (fun x => x^3)); [apply derivable_pt_lim_const|apply derivable_pt_lim_pow].
      + apply (derivable_pt_lim_mult (fun _ => c1 c) (fun x => x^2)); [apply derivable_pt_lim_const|apply derivable_pt_lim_pow].
    - apply (derivable_pt_lim_mult (fun _ => c2 c) (fun x => x)); [apply derivable_pt_lim_const|apply derivable_pt_lim_id]. }
  exact (derivable_pt_lim_comp (fun t => t / T) (cubic c) t (/ T) (cubic' c (t / T)) HD (HC (t / T))).
Qed.

(** The coefficients of the derivative, as a cubic. *)
Definition dcoef (c : vec4 R) : vec4 R := V4 0 (3 * c0 c) (2 * c1 c) (c2 c).
Lemma cubic_dcoef c x : cubic (dcoef c) x = cubic' c x.
Proof. unfold cubic, cubic', dcoef. cbn [c0 c1 c2 c3]. ring. Qed.
Lemma cubic'_dcoef c x : cubic' (dcoef c) x = cubic'' c x.
Proof. unfold cubic', cubic'', dcoef. cbn [c0 c1 c2 c3]. ring. Qed.

Lemma deriv_scal (f : R -> R) (k l x : R) :
  derivable_pt_lim f x l -> derivable_pt_lim (fun t => f t / k) x (l / k).
Proof.
  intros H. replace (l / k) with (l * / k + f x * 0) by (unfold Rdiv; ring).
  apply (derivable_pt_lim_mult f (fun _ => / k)); [assumption|apply derivable_pt_lim_const].
Qed.

Lemma cubic'_deriv c T t :
  T <> 0 -> derivable_pt_lim (fun t => cubic' c (t / T) / T) t (cubic'' c (t / T) / T^2).
Proof.
  intros HT. replace (cubic'' c (t/T) / T^2) with (cubic' (dcoef c) (t/T) / T / T).
  2:{ rewrite cubic'_dcoef. field. assumption. }
  apply deriv_scal.
  pose proof (cubic_deriv (dcoef c) T t HT) as H.
  intros eps Heps. destruct (H eps Heps) as (del & Hd). exists del. intros h Hh Hl.
  rewrite <- (cubic_dcoef c ((t+h)/T)), <- (cubic_dcoef c (t/T)). apply Hd; assumption.
Qed.

Lemma cubic''_cont c T t : continuity_pt (fun t => cubic'' c (t / T) / T^2) t.
Proof.
  apply derivable_continuous_pt. exists (6 * c0 c / T / T^2).
  apply deriv_scal. unfold cubic''.
  replace (6 * c0 c / T) with ((0 * (t/T) + 6 * c0 c * (1 * /T + t * 0)) + 0) by (unfold Rdiv; ring).
  apply (derivable_pt_lim_plus (fun t => 6 * c0 c * (t/T)) (fun _ => 2 * c1 c)).
  2:{ apply derivable_pt_lim_const. }
  apply (derivable_pt_lim_mult (fun _ => 6 * c0 c) (fun t => t/T)); [apply derivable_pt_lim_const|].
  apply (derivable_pt_lim_mult (fun t => t) (fun _ => /T)); [apply derivable_pt_lim_id|apply derivable_pt_lim_const].
Qed.

(** Gluing: a function equal to [f] up to [a] and to [g] after it. *)
Definition glue (a : R) (f g : R -> R) (t : R) : R := if Rle_dec t a then f t else g t.

Lemma glue_deriv a f g t l m :
  f a = g a ->
  (t <= a -> derivable_pt_lim f t l) -> (a <= t -> derivable_pt_lim g t m) ->
  (t = a -> l = m) ->
  derivable_pt_lim (glue a f g) t (if Rle_dec t a then l else m).
Proof.
  intros Hfg Hf Hg Hlm eps Heps.
  destruct (Rtotal_order t a) as [Hlt|[Heq|Hgt]].
  - destruct (Rle_dec t a) as [_|Hn]; [|lra].
    destruct (Hf (Rlt_le _ _ Hlt) eps Heps) as (del & Hd).
    assert (Hpos : 0 < Rmin del (a - t)) by (apply Rmin_glb_lt; [apply cond_pos|lra]).
    exists (mkposreal _ Hpos). cbn [pos]. intros h Hh Hl.
    change (Rabs h < Rmin del (a - t)) in Hl.
    assert (Hl1 : Rabs h < del) by (eapply Rlt_le_trans; [exact Hl|apply Rmin_l]).
    assert (Hl2 : Rabs h < a - t) by (eapply Rlt_le_trans; [exact Hl|apply Rmin_r]).
    pose proof (Rle_abs h). unfold glue.
    destruct (Rle_dec (t + h) a) as [_|Hn]; [|lra].
    destruct (Rle_dec t a) as [_|Hn]; [|lra]. apply Hd; assumption.
  - subst t. destruct (Rle_dec a a) as [_|Hn]; [|lra].
    destruct (Hf (Rle_refl a) eps Heps) as (d1 & Hd1).
    destruct (Hg (Rle_refl a) eps Heps) as (d2 & Hd2).
    assert (Hpos : 0 < Rmin d1 d2) by (apply Rmin_glb_lt; apply cond_pos).
    exists (mkposreal _ Hpos). intros h Hh Hl. change (Rabs h < Rmin d1 d2) in Hl.
    assert (Hl1 : Rabs h < d1) by (eapply Rlt_le_trans; [exact Hl|apply Rmin_l]).
    assert (Hl2 : Rabs h < d2) by (eapply Rlt_le_trans; [exact Hl|apply Rmin_r]).
    unfold glue. destruct (Rle_dec a a) as [_|Hn]; [|lra].
    destruct (Rle_dec (a + h) a) as [_|_].
    + apply Hd1; assumption.
    + rewrite Hfg, (Hlm eq_refl). apply Hd2; assumption.
  - destruct (Rle_dec t a) as [Hn|_]; [lra|].
    destruct (Hg (Rlt_le _ _ Hgt) eps Heps) as (del & Hd).
    assert (Hpos : 0 < Rmin del (t - a)) by (apply Rmin_glb_lt; [apply cond_pos|lra]).
    exists (mkposreal _ Hpos). intros h Hh Hl.
    change (Rabs h < Rmin del (t - a)) in Hl.
    assert (Hl1 : Rabs h < del) by (eapply Rlt_le_trans; [exact Hl|apply Rmin_l]).
    assert (Hl2 : Rabs h < t - a) by (eapply Rlt_le_trans; [exact Hl|apply Rmin_r]).
    assert (- h <= Rabs h) by (rewrite <- Rabs_Ropp; apply Rle_abs). unfold glue.
    destruct (Rle_dec (t + h) a) as [Hn|_]; [lra|].
    destruct (Rle_dec t a) as [Hn|_]; [lra|]. apply Hd; assumption.
Qed.

Lemma glue_cont a f g t :
  f a = g a -> (t <= a -> continuity_pt f t) -> (a <= t -> continuity_pt g t) ->
  continuity_pt (glue a f g) t.
Proof.
  intros Hfg Hf Hg eps Heps.
  destruct (Rtotal_order t a) as [Hlt|[Heq|Hgt]].
  - destruct (Hf (Rlt_le _ _ Hlt) eps Heps) as (del & Hdp & Hd).
    exists (Rmin del (a - t)). split; [apply Rmin_glb_lt; lra|].
    intros x (Hx & Hl). cbn in Hl. unfold R_dist in Hl.
    assert (Hl1 : Rabs (x - t) < del) by (eapply Rlt_le_trans; [exact Hl|apply Rmin_l]).
    assert (Hl2 : Rabs (x - t) < a - t) by (eapply Rlt_le_trans; [exact Hl|apply Rmin_r]).
    pose proof (Rle_abs (x - t)). unfold glue.
    destruct (Rle_dec x a) as [_|Hn]; [|lra].
    destruct (Rle_dec t a) as [_|Hn]; [|lra]. apply Hd. split; assumption.
  - subst t. destruct (Hf (Rle_refl a) eps Heps) as (d1 & Hp1 & Hd1).
    destruct (Hg (Rle_refl a) eps Heps) as (d2 & Hp2 & Hd2).
    exists (Rmin d1 d2). split; [apply Rmin_glb_lt; lra|].
    intros x (Hx & Hl). cbn in Hl. unfold R_dist in Hl.
    assert (Hl1 : Rabs (x - a) < d1) by (eapply Rlt_le_trans; [exact Hl|apply Rmin_l]).
    assert (Hl2 : Rabs (x - a) < d2) by (eapply Rlt_le_trans; [exact Hl|apply Rmin_r]).
    unfold glue. destruct (Rle_dec a a) as [_|Hn]; [|lra].
    destruct (Rle_dec x a) as [_|_].
    + apply Hd1. split; assumption.
    + rewrite Hfg. apply Hd2. split; assumption.
  - destruct (Hg (Rlt_le _ _ Hgt) eps Heps) as (del & Hdp & Hd).
    exists (Rmin del (t - a)). split; [apply Rmin_glb_lt; lra|].
    intros x (Hx & Hl). cbn in Hl. unfold R_dist in Hl.
    assert (Hl1 : Rabs (x - t) < del) by (eapply Rlt_le_trans; [exact Hl|apply Rmin_l]).
    assert (Hl2 : Rabs (x - t) < t - a) by (eapply Rlt_le_trans; [exact Hl|apply Rmin_r]).
    assert (- (x - t) <= Rabs (x - t)) by (rewrite <- Rabs_Ropp; apply Rle_abs). unfold glue.
    destruct (Rle_dec x a) as [Hn|_]; [lra|].
    destruct (Rle_dec t a) as [Hn|_]; [lra|]. apply Hd. split; assumption.
Qed.

Lemma poly_cubic c x : polynomValue c x = cubic c x.
Proof. unfold polynomValue, cubic. rsimpl. ring. Qed.
Lemma dpoly_cubic c x : dPolynomValue c x = cubic' c x.
Proof. unfold dPolynomValue, cubic'. rsimpl. ring. Qed.
Lemma ddpoly_cubic c x : ddPolynomValue c x = cubic'' c x.
Proof. unfold ddPolynomValue, cubic''. rsimpl. ring. Qed.

Lemma interp_cstate i f T t :
  interp_raw i f T t = cstate (selectFactors (computeFactors i f T) t T) T (t / T).
Proof.
  unfold interp_raw. rewrite poly_cubic, dpoly_cubic, ddpoly_cubic. rsimpl.
  unfold cstate. cbn [pow]. rewrite Rmult_1_r. reflexivity.
Qed.

Lemma select_glue {A} (g : vec4 R -> A) F T t :
  g (selectFactors F t T)
  = if Rle_dec t (T/3) then g (f_a F) else if Rle_dec t (2*T/3) then g (f_b F) else g (f_c F).
Proof.
  unfold selectFactors. rsimpl. unfold Rleb.
  destruct (Rle_dec t (T/3)); [reflexivity|]. destruct (Rle_dec t (2*T/3)); reflexivity.
Qed.

Lemma interp_start i f T : 0 < T -> interp_raw i f T 0 = i.
Proof.
  intros HT. rewrite interp_cstate. rewrite (select_glue (fun c => cstate c T (0/T))).
  destruct (Rle_dec 0 (T/3)) as [_|Hn]; [|lra].
  replace (0 / T) with 0 by (field; lra).
  destruct (factors_are_spline i f T) as (H & _); [lra|exact H].
Qed.

Lemma interp_end i f T : 0 < T -> interp_raw i f T T = f.
Proof.
  intros HT. rewrite interp_cstate. rewrite (select_glue (fun c => cstate c T (T/T))).
  destruct (Rle_dec T (T/3)) as [Hn|_]; [lra|].
  destruct (Rle_dec T (2*T/3)) as [Hn|_]; [lra|].
  replace (T / T) with 1 by (field; lra).
  destruct (factors_are_spline i f T) as (_ & _ & _ & H); [lra|exact H].
Qed.

Section Smooth.
  Variables (i f : st3 R) (T : R).
  Hypothesis HT : 0 < T.
  Let F := computeFactors i f T.

  Lemma T0 : T <> 0. Proof. lra. Qed.

  Lemma junction1 : cstate (f_a F) T (T/3/T) = cstate (f_b F) T (T/3/T).
  Proof.
    replace (T/3/T) with (1/3) by (field; lra).
    destruct (factors_are_spline i f T T0) as (_ & H & _). exact H.
  Qed.
  Lemma junction2 : cstate (f_b F) T (2*T/3/T) = cstate (f_c F) T (2*T/3/T).
  Proof.
    replace (2*T/3/T) with (2/3) by (field; lra).
    destruct (factors_are_spline i f T T0) as (_ & _ & H & _). exact H.
  Qed.

  (** A component of the interpolated state as two glued functions. *)
  Lemma interp_glue (g : st3 R -> R) t :
    g (interp_raw i f T t)
    = glue (T/3) (fun t => g (cstate (f_a F) T (t/T)))
        (glue (2*T/3) (fun t => g (cstate (f_b F) T (t/T))) (fun t => g (cstate (f_c F) T (t/T)))) t.
  Proof.
    rewrite interp_cstate. unfold glue.
    rewrite (select_glue (fun c => g (cstate c T (t/T)))). reflexivity.
  Qed.

  Lemma glue2_deriv (g dg : st3 R -> R) :
    (forall c t, derivable_pt_lim (fun t => g (cstate c T (t/T))) t (dg (cstate c T (t/T)))) ->
    forall t, derivable_pt_lim (fun t => g (interp_raw i f T t)) t (dg (interp_raw i f T t)).
  Proof.
    intros HD t.
    assert (E : derivable_pt_lim
      (glue (T/3) (fun t => g (cstate (f_a F) T (t/T)))
        (glue (2*T/3) (fun t => g (cstate (f_b F) T (t/T))) (fun t => g (cstate (f_c F) T (t/T))))) t
      (if Rle_dec t (T/3) then dg (cstate (f_a F) T (t/T))
       else if Rle_dec t (2*T/3) then dg (cstate (f_b F) T (t/T)) else dg (cstate (f_c F) T (t/T)))).
    { apply glue_deriv.
      - unfold glue. destruct (Rle_dec (T/3) (2*T/3)) as [_|Hn]; [|lra]. rewrite junction1. reflexivity.
      - intros _. apply HD.
      - intros _. apply glue_deriv.
        + rewrite junction2. reflexivity.
        + intros _. apply HD.
        + intros _. apply HD.
        + intros ->. rewrite junction2. reflexivity.
      - intros ->. destruct (Rle_dec (T/3) (2*T/3)) as [_|Hn]; [|lra]. rewrite junction1. reflexivity. }
    rewrite interp_glue. unfold glue at 1.
    assert (E2 : glue (2*T/3) (fun t => dg (cstate (f_b F) T (t/T))) (fun t => dg (cstate (f_c F) T (t/T))) t
      = if Rle_dec t (2*T/3) then dg (cstate (f_b F) T (t/T)) else dg (cstate (f_c F) T (t/T))) by reflexivity.
    rewrite E2. clear E2.
    intros eps Heps. destruct (E eps Heps) as (del & Hd). exists del. intros h Hh Hl.
    rewrite !interp_glue. apply Hd; assumption.
  Qed.

  Lemma interp_pos_deriv t :
    derivable_pt_lim (fun t => pos (interp_raw i f T t)) t (vel (interp_raw i f T t)).
  Proof.
    apply (glue2_deriv (@pos R) (@vel R)). intros c u. cbn [cstate pos vel]. apply cubic_deriv, T0.
  Qed.
  Lemma interp_vel_deriv t :
    derivable_pt_lim (fun t => vel (interp_raw i f T t)) t (acc (interp_raw i f T t)).
  Proof.
    apply (glue2_deriv (@vel R) (@acc R)). intros c u. cbn [cstate vel acc]. apply cubic'_deriv, T0.
  Qed.
  Lemma interp_acc_cont t : continuity_pt (fun t => acc (interp_raw i f T t)) t.
  Proof.
    assert (E : continuity_pt
      (glue (T/3) (fun t => acc (cstate (f_a F) T (t/T)))
        (glue (2*T/3) (fun t => acc (cstate (f_b F) T (t/T))) (fun t => acc (cstate (f_c F) T (t/T))))) t).
    { apply glue_cont.
      - unfold glue. destruct (Rle_dec (T/3) (2*T/3)) as [_|Hn]; [|lra]. rewrite junction1. reflexivity.
      - intros _. cbn [cstate acc]. apply cubic''_cont.
      - intros _. apply glue_cont.
        + rewrite junction2. reflexivity.
        + intros _. cbn [cstate acc]. apply cubic''_cont.
        + intros _. cbn [cstate acc]. apply cubic''_cont. }
    intros eps Heps. destruct (E eps Heps) as (del & Hdp & Hd). exists del. split; [assumption|].
    intros x Hx. rewrite !interp_glue. apply Hd; assumption.
  Qed.
End Smooth.

Lemma interpolateTrajectory_ok (i f : st3 R) T t :
  T <> 0 -> interpolateTrajectory i f T t = Ok (interp_raw i f T t).
Proof.
  intros HT. unfold interpolateTrajectory. rsimpl.
  replace (Reqb T 0) with false by (symmetry; apply Reqb_false; assumption). reflexivity.
Qed.

Lemma interpolateTrajectory_inv (i f : st3 R) T t s :
  interpolateTrajectory i f T t = Ok s -> T <> 0 /\ s = interp_raw i f T t.
Proof.
  unfold interpolateTrajectory. rsimpl. destruct (Reqb_spec T 0); cbn; [discriminate|].
  intros E. injection E as <-. auto.
Qed.

(** A sequence of re-plannings (target, horizon, time step). *)
Fixpoint replan (cmds : list (st3 R * R * R)) (s : st3 R) : res (st3 R) :=
  match cmds with
  | [] => Ok s
  | (obj, T, t) :: l => do s' <- interpolateTrajectory s obj T t; replan l s'
  end.

Lemma replan_app a b s : replan (a ++ b) s = (do s' <- replan a s; replan b s').
Proof.
  revert s. induction a as [|[[o T] t] a IH]; intros s; [reflexivity|].
  cbn [replan app]. destruct (interpolateTrajectory s o T t); cbn [bind]; auto.
Qed.

Lemma replan_lands pre obj T s r :
  0 < T -> replan (pre ++ [(obj, T, T)]) s = Ok r -> r = obj.
Proof.
  intros HT. rewrite replan_app. intros H. apply bind_ok in H as (s' & _ & H).
  cbn [replan] in H. apply bind_ok in H as (r' & H1 & H2). injection H2 as <-.
  apply interpolateTrajectory_inv in H1 as (_ & ->). apply interp_end; assumption.
Qed.

Lemma replan_ok cmds s :
  Forall (fun c => let '(_, T, _) := c in T <> 0) cmds -> exists r, replan cmds s = Ok r.
Proof.
  revert s. induction cmds as [|[[o T] t] l IH]; intros s H; [exists s; reflexivity|].
  inversion H; subst. cbn [replan]. rewrite interpolateTrajectory_ok by assumption. cbn [bind]. auto.
Qed.

(** Rest to rest motions do not overshoot. *)
Lemma interp_rest_between p q T t :
  0 < T -> p <= q -> 0 <= t <= T ->
  let s := interp_raw (St3 p 0 0) (St3 q 0 0) T t in
  p <= pos s <= q /\ 0 <= vel s.
Proof.
  intros HT Hpq Ht s.
  assert (Ex : exists x, t / T = x /\ t = x * T /\ 0 <= x <= 1).
  { exists (t / T). split; [reflexivity|]. split; [field; lra|]. split.
    - apply Rmult_le_reg_r with T; [assumption|]. replace (t / T * T) with t by (field; lra). lra.
    - apply Rmult_le_reg_r with T; [assumption|]. replace (t / T * T) with t by (field; lra). lra. }
  destruct Ex as (x & Ex & Et & Hx).
  assert (HV : forall c, 0 <= cubic' c x -> 0 <= cubic' c x / T).
  { intros c Hc. apply Rmult_le_pos; [assumption|]. left. apply Rinv_0_lt_compat. assumption. }
  assert (HS1 : t <= T / 3 <-> x <= 1/3).
  { subst t. split; intros H; nra. }
  assert (HS2 : t <= 2 * T / 3 <-> x <= 2/3).
  { subst t. split; intros H; nra. }
  unfold s. clear s. rewrite interp_cstate, Ex.
  rewrite (select_glue (fun c => cstate c T x)).
  destruct (Rle_dec t (T/3)) as [H1|H1].
  - rewrite HS1 in H1. cbn [cstate pos vel]. split; [|apply HV];
      unfold cubic, cubic'; unfold_factors; cbn [pos vel acc].
    + assert (0 <= x*x*x <= 1/27) by nra.
      match goal with |- p <= ?e <= q => replace e with (p + (q-p)*(9/2*(x*x*x))) by field end.
      assert (0 <= (q-p)*(9/2*(x*x*x)) <= (q-p)*1); [|lra].
      split; [apply Rmult_le_pos; lra|apply Rmult_le_compat_l; lra].
    + match goal with |- 0 <= ?e => replace e with (27/2*(q-p)*(x*x)) by field end. nra.
  - rewrite HS1 in H1. destruct (Rle_dec t (2*T/3)) as [H2|H2]; rewrite HS2 in H2.
    + cbn [cstate pos vel]. split; [|apply HV];
        unfold cubic, cubic'; unfold_factors; cbn [pos vel acc].
      * set (d := q - p). assert (Hd : 0 <= d) by (unfold d; lra).
        match goal with |- p <= ?e <= q =>
          replace e with (p + d*(-9*(x*x*x) + 27/2*(x*x) - 9/2*x + 1/2)) by (unfold d; field) end.
        assert (0 <= -9*(x*x*x) + 27/2*(x*x) - 9/2*x + 1/2 <= 1).
        { set (y := x - 1/2). assert (-1/6 <= y <= 1/6) by (unfold y; lra).
          replace (-9*(x*x*x) + 27/2*(x*x) - 9/2*x + 1/2) with (1/2 + y*(9/4 - 9*(y*y))) by (unfold y; field).
          assert (0 <= y*y <= 1/36) by nra. nra. }
        replace q with (p + d) by (unfold d; ring). nra.
      * match goal with |- 0 <= ?e => replace e with ((q-p)*(27*(x*(1-x)) - 9/2)) by field end.
        assert (2/9 <= x*(1-x)) by nra. nra.
    + cbn [cstate pos vel]. split; [|apply HV];
        unfold cubic, cubic'; unfold_factors; cbn [pos vel acc].
      * set (y := 1 - x). assert (0 <= y <= 1/3) by (unfold y; lra).
        assert (0 <= y*y*y <= 1/27) by nra.
        match goal with |- p <= ?e <= q => replace e with (q - (q-p)*(9/2*(y*y*y))) by (unfold y; field) end.
        assert (0 <= (q-p)*(9/2*(y*y*y)) <= (q-p)*1); [|lra].
        split; [apply Rmult_le_pos; lra|apply Rmult_le_compat_l; lra].
      * match goal with |- 0 <= ?e => replace e with (27/2*(q-p)*((1-x)*(1-x))) by field end.
        apply Rmult_le_pos; [lra|nra].
Qed.
