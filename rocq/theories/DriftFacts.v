(** Proofs for C73: the error of one update of the state in rounded arithmetic, and its accumulation. *)

From Coq Require Import Reals List ZArith Arith Bool Lra Lia Psatz.
From Verif Require Import Scalar LinAlg LinAlgFacts ModelsFacts ToolsModel NoDynModel QPModel TrajModel PolygonModel LipModel FootModel SupModel HumModel RoundModel RoundSpec DriftSpec.
Import ListNotations.
Local Open Scope R_scope.

Section One.
  Variables (rnd : R -> R) (u eta : R).
  Hypotheses (HR : rounding rnd u eta) (Hu : u <= 1/1000) (He : eta <= 1).

  (** x approximates y, which is at most m, up to k*u*m + c*eta. *)
  Definition ap (x y m k c : R) : Prop := 0 <= k /\ 0 <= c /\ Rabs y <= m /\ Rabs (x - y) <= k * u * m + eta * c.

  Lemma u0 : 0 <= u. Proof. apply HR. Qed.
  Lemma eta0 : 0 <= eta. Proof. apply HR. Qed.
  Lemma ap_exact y : ap y y (Rabs y) 0 0.
  Proof. unfold ap. replace (y - y) with 0 by ring. rewrite Rabs_R0. split; [lra|]. split; [lra|]. split; lra. Qed.
  Lemma ap_m x y m k c : ap x y m k c -> 0 <= m.
  Proof. intros (_ & _ & A & _). pose proof (Rabs_pos y). lra. Qed.
  Lemma ap_abs x y m k c : ap x y m k c -> Rabs x <= m + (k * u * m + eta * c).
  Proof.
    intros (_ & _ & A & B). replace x with (y + (x - y)) by ring. pose proof (Rabs_triang y (x - y)). lra.
  Qed.
  Lemma ap_weak x y m k c m' k' c' : ap x y m k c -> m <= m' -> k <= k' -> c <= c' -> ap x y m' k' c'.
  Proof.
    intros H Hm Hk Hc. pose proof (ap_m _ _ _ _ _ H) as M. destruct H as (A & B & C & D). pose proof u0. pose proof eta0.
    unfold ap. split; [lra|]. split; [lra|]. split; [lra|].
    assert (k * (u * m) <= k' * (u * m')).
    { apply Rmult_le_compat; try lra. - apply Rmult_le_pos; lra. - apply Rmult_le_compat_l; lra. }
    assert (eta * c <= eta * c') by (apply Rmult_le_compat_l; lra). lra.
  Qed.
  Lemma ap_rnd x y m k c : ap x y m k c -> ap (rnd x) y m (k * (1001/1000) + 1) (c * (1001/1000) + 1).
  Proof.
    intros H. pose proof (ap_m _ _ _ _ _ H) as M. pose proof (ap_abs _ _ _ _ _ H) as X. destruct H as (A & B & C & D).
    pose proof u0 as U. pose proof eta0 as E. destruct HR as (R1 & _). specialize (R1 x).
    unfold ap. split; [lra|]. split; [lra|]. split; [exact C|].
    replace (rnd x - y) with ((rnd x - x) + (x - y)) by ring. pose proof (Rabs_triang (rnd x - x) (x - y)).
    assert (u * Rabs x <= u * (m + (k * u * m + eta * c))) by (apply Rmult_le_compat_l; lra).
    assert (u * (k * u * m) <= 1/1000 * (k * u * m)) by (apply Rmult_le_compat_r; [|lra]; repeat apply Rmult_le_pos; lra).
    assert (u * (eta * c) <= 1/1000 * (eta * c)) by (apply Rmult_le_compat_r; [|lra]; repeat apply Rmult_le_pos; lra).
    lra.
  Qed.
  Lemma ap_add x y m k c x' y' m' k' c' : ap x y m k c -> ap x' y' m' k' c' -> k' <= k -> ap (x + x') (y + y') (m + m') k (c + c').
  Proof.
    intros H H' L. apply ap_weak with (m' := m') (k' := k) (c' := c') in H'; try lra. destruct H as (A & B & C & D), H' as (A' & B' & C' & D').
    unfold ap. split; [lra|]. split; [lra|]. split.
    - pose proof (Rabs_triang y y'). lra.
    - replace (x + x' - (y + y')) with ((x - y) + (x' - y')) by ring. pose proof (Rabs_triang (x - y) (x' - y')). lra.
  Qed.
  Lemma ap_add' x y m k c x' y' m' k' c' : ap x y m k c -> ap x' y' m' k' c' -> k <= k' -> ap (x + x') (y + y') (m + m') k' (c + c').
  Proof.
    intros H H' L. apply ap_weak with (m' := m) (k' := k') (c' := c) in H; try lra. apply ap_add with (k' := k'); auto; lra.
  Qed.
  Lemma ap_mul x y m k c x' y' m' k' c' : ap x y m k c -> ap x' y' m' k' c' ->
    ap (x * x') (y * y') (m * m') (k + k' + k * k' / 1000) (c * m' * (1 + k' / 1000) + c' * m * (1 + k / 1000) + c * c').
  Proof.
    intros H H'. pose proof (ap_m _ _ _ _ _ H) as M. pose proof (ap_m _ _ _ _ _ H') as M'.
    destruct H as (A & B & C & D), H' as (A' & B' & C' & D'). pose proof u0 as U. pose proof eta0 as E.
    unfold ap.
    assert (P1 : 0 <= k * k') by (apply Rmult_le_pos; lra). assert (P2 : 0 <= c * m') by (apply Rmult_le_pos; lra).
    assert (P3 : 0 <= c' * m) by (apply Rmult_le_pos; lra). assert (P4 : 0 <= c * c') by (apply Rmult_le_pos; lra).
    assert (P5 : 0 <= m * m') by (apply Rmult_le_pos; lra).
    assert (Q1 : 0 <= c * m' * (1 + k' / 1000)) by (apply Rmult_le_pos; lra).
    assert (Q2 : 0 <= c' * m * (1 + k / 1000)) by (apply Rmult_le_pos; lra).
    split; [lra|]. split; [lra|]. split; [rewrite Rabs_mult; apply Rmult_le_compat; try apply Rabs_pos; lra|].
    replace (x * x' - y * y') with ((x - y) * y' + (y * (x' - y') + (x - y) * (x' - y'))) by ring.
    set (d := k * u * m + eta * c) in *. set (d' := k' * u * m' + eta * c') in *.
    pose proof (Rabs_triang ((x - y) * y') (y * (x' - y') + (x - y) * (x' - y'))).
    pose proof (Rabs_triang (y * (x' - y')) ((x - y) * (x' - y'))).
    assert (T1 : Rabs ((x - y) * y') <= d * m') by (rewrite Rabs_mult; apply Rmult_le_compat; try apply Rabs_pos; lra).
    assert (T2 : Rabs (y * (x' - y')) <= m * d') by (rewrite Rabs_mult; apply Rmult_le_compat; try apply Rabs_pos; lra).
    assert (T3 : Rabs ((x - y) * (x' - y')) <= d * d') by (rewrite Rabs_mult; apply Rmult_le_compat; try apply Rabs_pos; lra).
    assert (X1 : u * (k * k' * u * (m * m')) <= 1/1000 * (k * k' * u * (m * m'))).
    { apply Rmult_le_compat_r; [|lra]. repeat apply Rmult_le_pos; lra. }
    assert (X2 : u * (k * m * eta * c') <= 1/1000 * (k * m * eta * c')).
    { apply Rmult_le_compat_r; [|lra]. repeat apply Rmult_le_pos; lra. }
    assert (X3 : u * (k' * m' * eta * c) <= 1/1000 * (k' * m' * eta * c)).
    { apply Rmult_le_compat_r; [|lra]. repeat apply Rmult_le_pos; lra. }
    assert (X4 : eta * (eta * c * c') <= 1 * (eta * c * c')).
    { apply Rmult_le_compat_r; [|lra]. repeat apply Rmult_le_pos; lra. }
    assert (d * m' + (m * d' + d * d') <= (k + k' + k * k' / 1000) * u * (m * m')
            + eta * (c * m' * (1 + k' / 1000) + c' * m * (1 + k / 1000) + c * c')).
    { unfold d, d'. lra. }
    lra.
  Qed.
  Lemma ap_div6 x y m k c : ap x y m k c -> ap (x / 6) (y / 6) (m / 6) k (c / 6).
  Proof.
    intros (A & B & C & D). unfold ap. split; [lra|]. split; [lra|].
    assert (I : Rabs (/ 6) = / 6) by (apply Rabs_pos_eq; lra).
    split.
    - unfold Rdiv. rewrite Rabs_mult, I. lra.
    - replace (x / 6 - y / 6) with ((x - y) * / 6) by field. rewrite Rabs_mult, I. lra.
  Qed.

  Lemma shalf_val : val (shalf : fl rnd) = 1/2.
  Proof.
    destruct HR as (_ & _ & _ & Z & H). change (rnd (1 / rnd (IZR 2)) = 1/2). rewrite (Z 2%Z) by lia. exact H.
  Qed.
  Lemma six_val : val (sofZ 6 : fl rnd) = 6.
  Proof. destruct HR as (_ & _ & _ & Z & _). apply (Z 6%Z). lia. Qed.

  (** One update of the state *)
  Variables (T j : fl rnd) (s : st3 (fl rnd)).
  Hypotheses (T0 : 0 < val T) (T1 : val T <= 1).
  Let t := val T.
  Lemma Tap : ap t t t 0 0.
  Proof. pose proof (ap_exact t) as H. rewrite Rabs_pos_eq in H by (unfold t; lra). exact H. Qed.
  Lemma T2ap : ap (rnd (t * t)) (t^2) (t^2) 1 1.
  Proof.
    pose proof (ap_rnd _ _ _ _ _ (ap_mul _ _ _ _ _ _ _ _ _ _ Tap Tap)) as H. replace (t^2) with (t * t) by ring.
    eapply ap_weak; [exact H|..]; lra.
  Qed.
  Lemma half_ap x : ap (rnd (1/2 * x)) (x / 2) (Rabs x / 2) 1 1.
  Proof.
    pose proof (ap_rnd _ _ _ _ _ (ap_exact (1/2 * x))) as H. rewrite Rabs_mult, (Rabs_pos_eq (1/2)) in H by lra.
    replace (x / 2) with (1/2 * x) by field. eapply ap_weak; [exact H|..]; lra.
  Qed.
  Lemma t_sq : t^2 <= 1 /\ 0 <= t^2 /\ 0 <= t^3 <= 1.
  Proof. unfold t. assert (0 <= val T ^ 2) by nra. assert (val T ^ 2 <= 1) by nra. split; [|split]; auto. split; nra. Qed.
  Lemma half_T2 x : ap (rnd (rnd (1/2 * x) * rnd (t * t))) (x * t^2 / 2) (Rabs x * t^2 / 2) (3005/1000) (4 + Rabs x).
  Proof.
    pose proof (ap_rnd _ _ _ _ _ (ap_mul _ _ _ _ _ _ _ _ _ _ (half_ap x) T2ap)) as H. destruct t_sq as (A & B & _).
    replace (x * t^2 / 2) with (x / 2 * t^2) by field. replace (Rabs x * t^2 / 2) with (Rabs x / 2 * t^2) by field.
    pose proof (Rabs_pos x). eapply ap_weak; [exact H|..]; lra.
  Qed.
  Lemma T3ap : ap (rnd (rnd (t * t) * t)) (t^3) (t^3) (2002/1000) (2002/1000).
  Proof.
    pose proof (ap_rnd _ _ _ _ _ (ap_mul _ _ _ _ _ _ _ _ _ _ T2ap Tap)) as H. replace (t^3) with (t^2 * t) by ring.
    assert (t <= 1) by exact T1. eapply ap_weak; [exact H|..]; lra.
  Qed.
  Lemma j_T3 : ap (rnd (rnd (val j * rnd (rnd (t * t) * t)) / 6)) (val j * t^3 / 6) (Rabs (val j) * t^3 / 6) (4009/1000) (2 + Rabs (val j)).
  Proof.
    pose proof (ap_rnd _ _ _ _ _ (ap_div6 _ _ _ _ _ (ap_rnd _ _ _ _ _ (ap_mul _ _ _ _ _ _ _ _ _ _ (ap_exact (val j)) T3ap)))) as H.
    pose proof (Rabs_pos (val j)). destruct t_sq as (_ & _ & B). eapply ap_weak; [exact H|..]; lra.
  Qed.
  Lemma x_T x : ap (rnd (x * t)) (x * t) (Rabs x * t) 1 1.
  Proof. pose proof (ap_rnd _ _ _ _ _ (ap_mul _ _ _ _ _ _ _ _ _ _ (ap_exact x) Tap)) as H. eapply ap_weak; [exact H|..]; lra. Qed.

  Let r := exact_of (updateState_raw j T s).
  Let e := flow t (val j) (exact_of s).
  Let p := val (pos s). Let v := val (vel s). Let a := val (acc s). Let jj := val j.
  Lemma one_acc : Rabs (acc r - acc e) <= err_acc u eta (Rabs a + Rabs jj * t).
  Proof.
    pose proof (ap_rnd _ _ _ _ _ (ap_add' _ _ _ _ _ _ _ _ _ _ (ap_exact a) (x_T jj) ltac:(lra))) as H.
    apply ap_weak with (m' := Rabs a + Rabs jj * t) (k' := 3) (c' := 3) in H; try lra. destruct H as (_ & _ & _ & H).
    unfold err_acc. replace (3 * eta) with (eta * 3) by ring. exact H.
  Qed.
  Lemma one_vel : Rabs (vel r - vel e) <= err_vel u eta (Rabs v + Rabs a * t + Rabs jj * t^2 / 2) (Rabs jj).
  Proof.
    pose proof (ap_rnd _ _ _ _ _ (ap_add' _ _ _ _ _ _ _ _ _ _ (x_T a) (half_T2 jj) ltac:(lra))) as H0.
    pose proof (ap_rnd _ _ _ _ _ (ap_add' _ _ _ _ _ _ _ _ _ _ (ap_exact v) H0 ltac:(lra))) as H.
    pose proof (Rabs_pos jj).
    apply ap_weak with (m' := Rabs v + Rabs a * t + Rabs jj * t^2 / 2) (k' := 6) (c' := 10 + 2 * Rabs jj) in H; try lra.
    destruct H as (_ & _ & _ & H).
    unfold err_vel. unfold r, e, flow, exact_of, updateState_raw. cbn [vel pos acc sadd smul FlScalar val spow2].
    rewrite shalf_val. fold t v a jj.
    replace (v + a * t + jj * t^2 / 2) with (v + (a * t + jj * t^2 / 2)) by ring. exact H.
  Qed.
  Lemma one_pos : Rabs (pos r - pos e) <= err_pos u eta (Rabs p + Rabs v * t + Rabs a * t^2 / 2 + Rabs jj * t^3 / 6) (Rabs a) (Rabs jj).
  Proof.
    pose proof (ap_rnd _ _ _ _ _ (ap_add' _ _ _ _ _ _ _ _ _ _ (x_T v) (half_T2 a) ltac:(lra))) as H.
    pose proof (ap_rnd _ _ _ _ _ (ap_add' _ _ _ _ _ _ _ _ _ _ H j_T3 ltac:(lra))) as H1.
    pose proof (ap_rnd _ _ _ _ _ (ap_add' _ _ _ _ _ _ _ _ _ _ (ap_exact p) H1 ltac:(lra))) as H2.
    pose proof (Rabs_pos jj). pose proof (Rabs_pos a). fold jj in H2.
    apply ap_weak with (m' := Rabs p + Rabs v * t + Rabs a * t^2 / 2 + Rabs jj * t^3 / 6) (k' := 7) (c' := 16 + 2 * Rabs a + 2 * Rabs jj) in H2; try lra.
    destruct H2 as (_ & _ & _ & H2).
    unfold err_pos. unfold r, e, flow, exact_of, updateState_raw. cbn [vel pos acc sadd smul sdiv FlScalar val spow2 spow3].
    rewrite shalf_val, six_val. fold t p v a jj.
    replace (p + v * t + a * t^2 / 2 + jj * t^3 / 6) with (p + (v * t + a * t^2 / 2 + jj * t^3 / 6)) by ring. exact H2.
  Qed.
End One.

(** ** The state of the generators, in any arithmetic *)
Section State.
  Context {K : Type} {SK : Scalar K} {TK : Trig K}.
  Lemma t_const_mod t t' : t_computeConstantPart t = Ok t' -> tmod t' = tmod t.
  Proof. unfold t_computeConstantPart. intros H. binds H. injection H as <-. reflexivity. Qed.
  Lemma nodyn_auto_state m m' : nodyn_auto m = Ok m' -> nstate m' = nstate m.
  Proof.
    unfold nodyn_auto, nodyn_computeDynamics. destruct (nauto m); intros H; [binds H|]; injection H as <-; reflexivity.
  Qed.
  (** No call but a solve and setState changes the state. *)
  Lemma t_keeps c t t' : tstep c t = Ok t' -> match c with TSolve _ _ | TSetState _ => True | _ => t_getState t' = t_getState t end.
  Proof.
    unfold t_getState. destruct c; cbn [tstep]; intros H; try exact Logic.I.
    - unfold t_setNbSamples, nodyn_setNbSamples in H. apply guard_ok in H. destruct H as (_ & H). apply bind_ok in H. destruct H as (m & Hm & H).
      apply guard_ok in Hm. destruct Hm as (_ & Hm). apply nodyn_auto_state in Hm. apply t_const_mod in H. rewrite H. exact Hm.
    - unfold t_setSamplingPeriod, nodyn_setSamplingPeriod in H. apply guard_ok in H. destruct H as (_ & H). apply bind_ok in H. destruct H as (m & Hm & H).
      apply guard_ok in Hm. destruct Hm as (_ & Hm). apply nodyn_auto_state in Hm. apply t_const_mod in H. rewrite H. exact Hm.
    - unfold t_setVelRef in H. binds H. injection H as <-. reflexivity.
    - unfold t_setPosRef in H. binds H. injection H as <-. reflexivity.
    - unfold t_setVelLimit, nodyn_setVelocityLimit in H. apply bind_ok in H. destruct H as (m & Hm & H). binds Hm. injection Hm as <-. injection H as <-. reflexivity.
    - unfold t_setAccLimit, nodyn_setAccelerationLimit in H. apply bind_ok in H. destruct H as (m & Hm & H). binds Hm. injection Hm as <-. injection H as <-. reflexivity.
    - unfold t_setJerkLimit, nodyn_setJerkLimit in H. apply bind_ok in H. destruct H as (m & Hm & H). binds Hm. injection Hm as <-. injection H as <-. reflexivity.
    - unfold t_setWeightings in H. binds H. apply t_const_mod in H. rewrite H. reflexivity.
    - apply t_const_mod in H. rewrite H. reflexivity.
  Qed.
  Lemma update_raw j f (x y : st3 K) : updateState j f x = Ok y -> y = updateState_raw j f x.
  Proof. unfold updateState. intros H. binds H. injection H as <-. reflexivity. Qed.
  Lemma t_moves o f t t' : tstep (TSolve o f) t = Ok t' -> t_getState t' = updateState_raw (t_getJerk t') f (t_getState t).
  Proof.
    cbn [tstep]. intros H. apply bind_ok in H. destruct H as (r & H & E). injection E as <-. unfold t_solve in H.
    apply bind_ok in H. destruct H as (q & _ & H). apply guard_ok in H. destruct H as (_ & H).
    apply bind_ok in H. destruct H as (((sv & dX) & fd) & _ & H). apply bind_ok in H. destruct H as (X & _ & H).
    apply bind_ok in H. destruct H as (m & Hm & H). injection H as <-. unfold nodyn_updateState in Hm. apply bind_ok in Hm.
    destruct Hm as (x & Hx & Hm). injection Hm as <-. apply update_raw in Hx. exact Hx.
  Qed.

  Lemma l_auto_states (l l' : lip K) : l_auto l = Ok l' -> lsx l' = lsx l /\ lsy l' = lsy l.
  Proof.
    unfold l_auto, l_computeDynamics. destruct (lauto l); intros H; [binds H|]; injection H as <-; split; reflexivity.
  Qed.
  Lemma l_autoCop_states (l l' : lip K) : l_autoCop l = Ok l' -> lsx l' = lsx l /\ lsy l' = lsy l.
  Proof.
    unfold l_autoCop. destruct (lauto l); intros H; [binds H|]; injection H as <-; split; reflexivity.
  Qed.
  Lemma l_fb_states f (l l' : lip K) : l_setFeedbackPeriod f l = Ok l' -> lsx l' = lsx l /\ lsy l' = lsy l.
  Proof. unfold l_setFeedbackPeriod. intros H. binds H. apply l_auto_states in H. exact H. Qed.
  Definition same_com (h h' : hum K) : Prop := lsx (hlip h') = lsx (hlip h) /\ lsy (hlip h') = lsy (hlip h).
  Lemma h_keeps c h h' : hstep c h = Ok h' -> match c with HSolve _ _ | HSetComX _ | HSetComY _ => True | _ => same_com h h' end.
  Proof.
    unfold same_com. destruct c; cbn [hstep]; intros H; try exact Logic.I; try (injection H as <-; split; reflexivity).
    - unfold h_setNbSamples, l_setNbSamples in H. apply guard_ok in H. destruct H as (_ & H). apply bind_ok in H. destruct H as (l & Hl & H).
      apply guard_ok in Hl. destruct Hl as (_ & Hl). apply l_auto_states in Hl. apply bind_ok in H. destruct H as (s & _ & H). injection H as <-. exact Hl.
    - unfold h_setSamplingPeriod, l_setSamplingPeriod in H. apply guard_ok in H. destruct H as (_ & H). apply bind_ok in H. destruct H as (l & Hl & H).
      apply guard_ok in Hl. destruct Hl as (_ & Hl). apply l_auto_states in Hl. apply bind_ok in H. destruct H as (s & _ & H). injection H as <-. exact Hl.
    - unfold h_setStepPeriod in H. apply guard_ok in H. destruct H as (_ & H). apply guard_ok in H. destruct H as (_ & H).
      apply bind_ok in H. destruct H as (s & _ & H). injection H as <-. split; reflexivity.
    - unfold h_setInitialDoubleSupportLength in H. apply bind_ok in H. destruct H as (s & _ & H). injection H as <-. split; reflexivity.
    - unfold h_setVelRef in H. apply guard_ok in H. destruct H as (_ & H). injection H as <-. split; reflexivity.
    - unfold h_setFootStateX in H. apply guard_ok in H. destruct H as (_ & H). apply bind_ok in H. destruct H as (s & _ & H). injection H as <-. split; reflexivity.
    - unfold h_setFootStateY in H. apply guard_ok in H. destruct H as (_ & H). apply bind_ok in H. destruct H as (s & _ & H). injection H as <-. split; reflexivity.
    - unfold h_setFootStateZ in H. apply guard_ok in H. destruct H as (_ & H). apply bind_ok in H. destruct H as (s & _ & H). injection H as <-. split; reflexivity.
    - unfold h_setComStateZ in H. do 3 (apply guard_ok in H; destruct H as (_ & H)). apply bind_ok in H. destruct H as (l & Hl & H). injection H as <-.
      apply l_autoCop_states in Hl. exact Hl.
    - unfold h_setWeightings in H. do 3 (apply guard_ok in H; destruct H as (_ & H)). injection H as <-. split; reflexivity.
    - unfold h_setMove in H. apply bind_ok in H. destruct H as (ds & _ & H). injection H as <-. split; reflexivity.
  Qed.
  Lemma h_prepare_com f h h' : h_prepare f h = Ok h' -> same_com h h'.
  Proof.
    unfold h_prepare, h_updateModels, same_com. intros H. apply bind_ok in H. destruct H as (h1 & H1 & H).
    apply bind_ok in H1. destruct H1 as ((s & X) & _ & H1). apply bind_ok in H1. destruct H1 as (l & Hl & H1).
    do 2 (apply guard_ok in H1; destruct H1 as (_ & H1)). injection H1 as <-. apply bind_ok in H. destruct H as (c & _ & H).
    assert (E : lsx l = lsx (hlip h) /\ lsy l = lsy (hlip h)).
    { destruct (sltb _ _) in Hl; [apply l_fb_states in Hl; exact Hl|]. injection Hl as <-. split; reflexivity. }
    unfold h_firstFill in H. cbn [hfirst hlip] in H. destruct (hfirst h).
    - apply bind_ok in H. destruct H as (lx & _ & H). apply bind_ok in H. destruct H as (ly & _ & H).
      apply guard_ok in H. destruct H as (_ & H). injection H as <-. exact E.
    - injection H as <-. exact E.
  Qed.
  Lemma h_moves o f h h' : hstep (HSolve o f) h = Ok h' ->
    lsx (hlip h') = updateState_raw (vget (htX h') 0) f (lsx (hlip h))
    /\ lsy (hlip h') = updateState_raw (vget (htX h') (lN (hlip h'))) f (lsy (hlip h)).
  Proof.
    cbn [hstep]. intros H. apply bind_ok in H. destruct H as (r & H & E). injection E as <-. unfold h_solve in H.
    apply bind_ok in H. destruct H as (h1 & H1 & H). apply h_prepare_com in H1. destruct H1 as (<- & <-).
    apply bind_ok in H. destruct H as (q & _ & H). unfold h_finish in H. apply bind_ok in H. destruct H as (e & _ & H).
    apply bind_ok in H. destruct H as (((sv & dX) & fd) & _ & H). apply bind_ok in H. destruct H as (X & _ & H).
    apply bind_ok in H. destruct H as (t & _ & H). apply bind_ok in H. destruct H as (l1 & H1 & H).
    apply bind_ok in H. destruct H as (l2 & H2 & H). apply bind_ok in H. destruct H as (s & _ & H). injection H as <-. cbn [snd hlip htX].
    unfold l_updateStateX in H1. apply bind_ok in H1. destruct H1 as (x & Hx & H1). injection H1 as <-.
    unfold l_updateStateY in H2. apply bind_ok in H2. destruct H2 as (y & Hy & H2). injection H2 as <-.
    apply update_raw in Hx. apply update_raw in Hy. split; [exact Hx|exact Hy].
  Qed.
End State.

(** ** Accumulation *)
Section Many.
  Variables (rnd : R -> R) (u eta : R).
  Hypotheses (HR : rounding rnd u eta) (Hu : u <= 1/1000) (He : eta <= 1).
  Variables (T : fl rnd) (P V A J : R).
  Hypotheses (T0 : 0 < val T) (T1 : val T <= 1).
  Let ep := err_pos u eta P A J. Let ev := err_vel u eta V J. Let ea := err_acc u eta A.

  Lemma one_call j s : calm (val T) P V A J (exact_of s) (val j) ->
    let r := exact_of (updateState_raw j T s) in let e := flow (val T) (val j) (exact_of s) in
    Rabs (pos r - pos e) <= ep /\ Rabs (vel r - vel e) <= ev /\ Rabs (acc r - acc e) <= ea.
  Proof.
    intros (C1 & C2 & C3 & C4). cbv zeta. unfold exact_of in C1, C2, C3. cbn [pos vel acc] in C1, C2, C3.
    pose proof (one_pos rnd u eta HR Hu He T j s T0 T1) as E1. pose proof (one_vel rnd u eta HR Hu He T j s T0 T1) as E2.
    pose proof (one_acc rnd u eta HR Hu He T j s T0) as E3.
    assert (U : 0 <= u) by apply HR. assert (E0 : 0 <= eta) by apply HR.
    pose proof (Rmult_le_pos _ _ (Rabs_pos (val j)) (Rlt_le _ _ T0)) as Q.
    assert (HA : Rabs (val (acc s)) <= A) by lra.
    split; [|split]; (eapply Rle_trans; [eassumption|]).
    - unfold ep, err_pos. apply Rplus_le_compat; [apply Rmult_le_compat_l; [lra|exact C1]|apply Rmult_le_compat_l; lra].
    - unfold ev, err_vel. apply Rplus_le_compat; [apply Rmult_le_compat_l; [lra|exact C2]|apply Rmult_le_compat_l; lra].
    - unfold ea, err_acc. apply Rplus_le_compat; [apply Rmult_le_compat_l; [lra|exact C3]|lra].
  Qed.

  Lemma drift_step n s r j : calm (val T) P V A J (exact_of s) (val j) -> drift n (val T) ep ev ea (exact_of s) r ->
    drift (S n) (val T) ep ev ea (exact_of (updateState_raw j T s)) (flow (val T) (val j) r).
  Proof.
    intros C D. pose proof (one_call j s C) as (E1 & E2 & E3). unfold drift in *. rewrite S_INR. destruct D as (D3 & D2 & D1).
    set (x := exact_of (updateState_raw j T s)) in *. set (y := exact_of s) in *. set (t := val T) in *. set (k := val j) in *.
    pose proof (pos_INR n) as Hn. set (m := INR n) in *.
    assert (Pa : 0 <= ea) by (pose proof (Rabs_pos (acc x - acc (flow t k y))); lra).
    assert (Pv : 0 <= ev) by (pose proof (Rabs_pos (vel x - vel (flow t k y))); lra).
    unfold flow in *. cbn [pos vel acc] in *.
    split; [|split].
    - replace (acc x - (acc r + k * t)) with ((acc x - (acc y + k * t)) + (acc y - acc r)) by ring.
      pose proof (Rabs_triang (acc x - (acc y + k * t)) (acc y - acc r)). lra.
    - replace (vel x - (vel r + acc r * t + k * t^2 / 2)) with
        ((vel x - (vel y + acc y * t + k * t^2 / 2)) + ((vel y - vel r) + (acc y - acc r) * t)) by ring.
      pose proof (Rabs_triang (vel x - (vel y + acc y * t + k * t^2 / 2)) ((vel y - vel r) + (acc y - acc r) * t)).
      pose proof (Rabs_triang (vel y - vel r) ((acc y - acc r) * t)).
      rewrite (Rabs_mult _ t), (Rabs_pos_eq t) in H0 by (lra).
      assert (Rabs (acc y - acc r) * t <= m * ea * t) by (apply Rmult_le_compat_r; [lra|exact D3]).
      assert (0 <= 1/2 * (t * ea)) by (repeat apply Rmult_le_pos; lra).
      replace ((m + 1) * ev + (m + 1)^2 / 2 * t * ea) with (m * ev + m^2 / 2 * t * ea + m * ea * t + ev + 1/2 * (t * ea)) by field. lra.
    - replace (pos x - (pos r + vel r * t + acc r * t^2 / 2 + k * t^3 / 6)) with
        ((pos x - (pos y + vel y * t + acc y * t^2 / 2 + k * t^3 / 6)) + ((pos y - pos r) + ((vel y - vel r) * t + (acc y - acc r) * (t^2 / 2)))) by field.
      pose proof (Rabs_triang (pos x - (pos y + vel y * t + acc y * t^2 / 2 + k * t^3 / 6)) ((pos y - pos r) + ((vel y - vel r) * t + (acc y - acc r) * (t^2 / 2)))).
      pose proof (Rabs_triang (pos y - pos r) ((vel y - vel r) * t + (acc y - acc r) * (t^2 / 2))).
      pose proof (Rabs_triang ((vel y - vel r) * t) ((acc y - acc r) * (t^2 / 2))) as H1.
      assert (Ht : 0 <= t) by (lra). assert (Ht2 : 0 <= t^2 / 2) by nra.
      rewrite !Rabs_mult, (Rabs_pos_eq t), (Rabs_pos_eq (t^2 / 2)) in H1 by assumption.
      assert (Rabs (vel y - vel r) * t <= (m * ev + m^2 / 2 * t * ea) * t) by (apply Rmult_le_compat_r; assumption).
      assert (Rabs (acc y - acc r) * (t^2 / 2) <= m * ea * (t^2 / 2)) by (apply Rmult_le_compat_r; assumption).
      assert (0 <= 1/2 * (t * ev)) by (repeat apply Rmult_le_pos; lra).
      assert (0 <= 1/6 * (t * (t * ea))) by (repeat apply Rmult_le_pos; lra).
      replace ((m + 1) * ep + (m + 1)^2 / 2 * t * ev + (m + 1)^3 / 6 * t^2 * ea) with
        (m * ep + m^2 / 2 * t * ev + m^3 / 6 * t^2 * ea + (m * ev + m^2 / 2 * t * ea) * t + m * ea * (t^2 / 2) + ep + 1/2 * (t * ev) + 1/6 * (t * (t * ea))) by field.
      lra.
  Qed.

  (** ** The trajectory generator *)
  Lemma traj_drift cs : forall t t' n r, tsteps cs t = Ok t' -> Forall (t_steady T) cs -> calm_log (val T) P V A J (t_log cs t) ->
    drift n (val T) ep ev ea (exact_of (t_getState t)) r ->
    drift (length (t_log cs t) + n) (val T) ep ev ea (exact_of (t_getState t')) (motion (val T) (jerks (t_log cs t)) r).
  Proof.
    induction cs as [|c cs IH]; intros t t' n r H S C D.
    - injection H as <-. exact D.
    - cbn [tsteps] in H. apply bind_ok in H. destruct H as (t1 & H1 & H). inversion S as [|? ? S1 S2]; subst.
      cbn [t_log] in *. rewrite H1 in *.
      pose proof (t_keeps _ _ _ H1) as K.
      destruct c as [| | | | | | |x| | |o f]; try (apply (IH t1 t' n r H S2 C); rewrite K; exact D).
      { destruct S1. }
      cbn [t_steady] in S1. subst f. cbn [length jerks map motion fold_left fst snd] in *. inversion C as [|? ? C1 C2]; subst. cbn [fst snd] in C1.
      replace (Datatypes.S (length (t_log cs t1)) + n)%nat with (length (t_log cs t1) + Datatypes.S n)%nat by lia.
      apply (IH t1 t' (Datatypes.S n)); auto.
      rewrite (t_moves _ _ _ _ H1). apply drift_step; assumption.
  Qed.

  (** ** The humanoid generator *)
  Context {TK : Trig (fl rnd)}.
  Lemma hum_drift cs : forall h h' n rx ry, hsteps cs h = Ok h' -> Forall (h_steady T) cs ->
    calm_log (val T) P V A J (map fst (h_log cs h)) -> calm_log (val T) P V A J (map snd (h_log cs h)) ->
    drift n (val T) ep ev ea (exact_of (lsx (hlip h))) rx -> drift n (val T) ep ev ea (exact_of (lsy (hlip h))) ry ->
    drift (length (h_log cs h) + n) (val T) ep ev ea (exact_of (lsx (hlip h'))) (motion (val T) (jerks (map fst (h_log cs h))) rx)
    /\ drift (length (h_log cs h) + n) (val T) ep ev ea (exact_of (lsy (hlip h'))) (motion (val T) (jerks (map snd (h_log cs h))) ry).
  Proof.
    induction cs as [|c cs IH]; intros h h' n rx ry H S Cx Cy Dx Dy.
    - injection H as <-. split; assumption.
    - cbn [hsteps] in H. apply bind_ok in H. destruct H as (h1 & H1 & H). inversion S as [|? ? S1 S2]; subst.
      cbn [h_log] in *. rewrite H1 in *. pose proof (h_keeps _ _ _ H1) as K. pose proof (h_moves) as M.
      destruct c; try (destruct S1; fail); try (destruct K as (Kx & Ky); apply (IH h1 h' n rx ry H S2 Cx Cy); [rewrite Kx|rewrite Ky]; assumption).
      cbn [h_steady] in S1. subst fb. specialize (M _ _ _ _ H1). destruct M as (Mx & My).
      cbn [length jerks map motion fold_left fst snd] in *. inversion Cx as [|? ? Cx1 Cx2]; subst. inversion Cy as [|? ? Cy1 Cy2]; subst.
      cbn [fst snd] in Cx1, Cy1.
      replace (Datatypes.S (length (h_log cs h1)) + n)%nat with (length (h_log cs h1) + Datatypes.S n)%nat by lia.
      apply (IH h1 h' (Datatypes.S n)); auto.
      + rewrite Mx. apply drift_step; assumption.
      + rewrite My. apply drift_step; assumption.
  Qed.
End Many.
