(** The calls of the model of a foot: when each call returns, what it changes, and on which curve an update moves the foot (C65). *)

From Coq Require Import Reals List ZArith Arith Bool Lra Lia.
From Verif Require Import Scalar LinAlg LinAlgFacts ToolsModel InterpModel InterpFacts PropInterp PolygonModel FootModel.
Import ListNotations.
Local Open Scope R_scope.

(** ** Specification *)
(** A motion of one coordinate: a position [p] that is twice continuously differentiable with derivatives [v] and [w], starts in the state
    [a], is in the state [z] at time [T], and is a cubic polynomial of the time on each third of the duration. *)
Definition poly (k : R * R * R * R) (t : R) : R := let '(k3, k2, k1, k0) := k in k3 * t^3 + k2 * t^2 + k1 * t + k0.
Definition motion (a z : st3 R) (T : R) (p v w : R -> R) : Prop :=
  (forall t, derivable_pt_lim p t (v t)) /\ (forall t, derivable_pt_lim v t (w t)) /\ (forall t, continuity_pt w t)
  /\ St3 (p 0) (v 0) (w 0) = a /\ St3 (p T) (v T) (w T) = z
  /\ exists A B C, (forall t, t <= T / 3 -> p t = poly A t) /\ (forall t, T / 3 <= t <= 2 * T / 3 -> p t = poly B t)
       /\ (forall t, 2 * T / 3 <= t -> p t = poly C t).
(** The state of a foot along one coordinate is a vector of three entries: position, velocity and acceleration. *)
Definition entries (x : vec R) : st3 R := St3 (vget x 0) (vget x 1) (vget x 2).
Definition moved (x : vec R) (obj : st3 R) (T t : R) (x' : vec R) : Prop :=
  vlen x' = 3%nat /\ (0 < T -> exists p v w, motion (entries x) obj T p v w /\ entries x' = St3 (p t) (v t) (w t)).

(** What a user reads from a foot; the contact flags are the subject of C50. *)
Record fview : Type := MkFV {
  fv_N : nat; fv_T : R; fv_x : vec R; fv_y : vec R; fv_z : vec R; fv_yaw : vec R; fv_height : R; fv_kin : polygon R; fv_cop : polygon R }.
Definition fv (f : foot R) : fview := MkFV (fN f) (fT f) (fsx f) (fsy f) (fsz f) (fsyaw f) (fmaxHeight f) (fkin f) (fcop f).
Definition faccepts (u : fview) (c : fcall R) : Prop :=
  match c with
  | FSetNbSamples n => (0 < n)%nat
  | FSetSamplingPeriod T => 0 < T
  | FUpdateStateX _ T _ => vlen (fv_x u) = 3%nat /\ T <> 0
  | FUpdateStateY _ T _ => vlen (fv_y u) = 3%nat /\ T <> 0
  | FUpdateStateZ _ T _ => vlen (fv_z u) = 3%nat /\ T <> 0
  | _ => True
  end.
Definition feffect (c : fcall R) (u u' : fview) : Prop :=
  let '(MkFV N T x y z a h k p) := u in
  match c with
  | FSetNbSamples n => u' = MkFV n T x y z a h k p
  | FSetSamplingPeriod T' => u' = MkFV N T' x y z a h k p
  | FSetMaxHeight h' => u' = MkFV N T x y z a h' k p
  | FSetKinematicPolygon k' => u' = MkFV N T x y z a h k' p
  | FSetCopPolygon p' => u' = MkFV N T x y z a h k p'
  | FSetStateX x' => u' = MkFV N T x' y z a h k p
  | FSetStateY y' => u' = MkFV N T x y' z a h k p
  | FSetStateZ z' => u' = MkFV N T x y z' a h k p
  | FSetStateYaw a' => u' = MkFV N T x y z a' h k p
  | FUpdateStateX obj D t => exists x', u' = MkFV N T x' y z a h k p /\ moved x obj D t x'
  | FUpdateStateY obj D t => exists y', u' = MkFV N T x y' z a h k p /\ moved y obj D t y'
  | FUpdateStateZ obj D t => exists z', u' = MkFV N T x y z' a h k p /\ moved z obj D t z'
  end.

(** ** The curve *)
Lemma same_slope f g lo hi x l m : lo < hi -> lo <= x <= hi -> (forall t, lo <= t <= hi -> f t = g t) ->
  derivable_pt_lim f x l -> derivable_pt_lim g x m -> l = m.
Proof.
  intros L Hx E Hf Hg. destruct (Req_dec l m) as [Q|Q]; [exact Q|exfalso].
  pose (e := Rabs (l - m) / 2). assert (He : 0 < e) by (unfold e; assert (0 < Rabs (l - m)) by (apply Rabs_pos_lt; lra); lra).
  destruct (Hf e He) as ((d1 & D1) & F), (Hg e He) as ((d2 & D2) & G). cbn [pos] in F, G.
  pose (d := Rmin (Rmin d1 d2) (hi - lo) / 2).
  assert (Hd : 0 < d /\ d < d1 /\ d < d2 /\ 2 * d <= hi - lo).
  { unfold d. assert (0 < Rmin (Rmin d1 d2) (hi - lo)) by (repeat apply Rmin_glb_lt; cbn in *; lra).
    pose proof (Rmin_l (Rmin d1 d2) (hi - lo)). pose proof (Rmin_r (Rmin d1 d2) (hi - lo)). pose proof (Rmin_l d1 d2). pose proof (Rmin_r d1 d2). lra. }
  assert (exists h, h <> 0 /\ Rabs h = d /\ lo <= x + h <= hi) as (h & H0 & Ha & Hh).
  { destruct (Rle_dec (lo + d) x).
    - exists (- d). rewrite Rabs_Ropp, Rabs_pos_eq by lra. repeat split; lra.
    - exists d. rewrite Rabs_pos_eq by lra. repeat split; lra. }
  specialize (F h H0). specialize (G h H0). cbn in F, G. rewrite Ha in F, G. specialize (F ltac:(lra)). specialize (G ltac:(lra)).
  rewrite <- !E in G by lra. set (q := (f (x + h) - f x) / h) in *.
  assert (Rabs (l - m) <= Rabs (q - l) + Rabs (q - m)).
  { replace (l - m) with (- (q - l) + (q - m)) by ring. rewrite <- (Rabs_Ropp (q - l)). apply Rabs_triang. }
  unfold e in *. lra.
Qed.
(** The coefficients in the normalised time. *)
Definition norm4 (T : R) (k : R * R * R * R) : vec4 R := let '(k3, k2, k1, k0) := k in V4 (k3 * T^3) (k2 * T^2) (k1 * T) k0.
Lemma poly_cubic_norm k T t : T <> 0 -> poly k t = cubic (norm4 T k) (t / T).
Proof. intros H. destruct k as (((k3 & k2) & k1) & k0). unfold poly, cubic, norm4. cbn [c0 c1 c2 c3]. field. exact H. Qed.
Lemma piece_state T p v w k lo hi t : T <> 0 -> (forall t, derivable_pt_lim p t (v t)) -> (forall t, derivable_pt_lim v t (w t)) ->
  lo < hi -> (forall t, lo <= t <= hi -> p t = poly k t) -> lo <= t <= hi -> St3 (p t) (v t) (w t) = cstate (norm4 T k) T (t / T).
Proof.
  intros HT P V L E Ht. unfold cstate.
  assert (Ev : forall t, lo <= t <= hi -> v t = cubic' (norm4 T k) (t / T) / T).
  { intros x Hx. apply (same_slope p (fun t => cubic (norm4 T k) (t / T)) lo hi x); try assumption; [|apply P|apply cubic_deriv; exact HT].
    intros y Hy. rewrite E by exact Hy. apply poly_cubic_norm. exact HT. }
  rewrite E by exact Ht. rewrite (poly_cubic_norm k T) by exact HT. rewrite Ev by exact Ht.
  f_equal. apply (same_slope v (fun t => cubic' (norm4 T k) (t / T) / T) lo hi t); try assumption; [apply V|apply cubic'_deriv; exact HT].
Qed.
Lemma motion_is_interp a z T p v w : 0 < T -> motion a z T p v w -> forall t, St3 (p t) (v t) (w t) = interp_raw a z T t.
Proof.
  intros HT (P & V & _ & Ha & Hz & A & B & C & EA & EB & EC).
  assert (T0 : T <> 0) by lra.
  assert (SA : forall t, t <= T / 3 -> St3 (p t) (v t) (w t) = cstate (norm4 T A) T (t / T)).
  { intros t Ht. apply (piece_state T p v w A (t - 1) t); try assumption; try lra. intros s Hs. apply EA. lra. }
  assert (SB : forall t, T / 3 <= t <= 2 * T / 3 -> St3 (p t) (v t) (w t) = cstate (norm4 T B) T (t / T)).
  { intros t Ht. apply (piece_state T p v w B (T / 3) (2 * T / 3)); try assumption; lra. }
  assert (SC : forall t, 2 * T / 3 <= t -> St3 (p t) (v t) (w t) = cstate (norm4 T C) T (t / T)).
  { intros t Ht. apply (piece_state T p v w C t (t + 1)); try assumption; try lra. intros s Hs. apply EC. lra. }
  assert (S : is_spline a z T (norm4 T A) (norm4 T B) (norm4 T C)).
  { unfold is_spline. rewrite <- Ha, <- Hz. repeat split.
    - rewrite SA by lra. f_equal. field. exact T0.
    - replace (1 / 3) with (T / 3 / T) by (field; exact T0). rewrite <- SA, <- SB by lra. reflexivity.
    - replace (2 / 3) with (2 * T / 3 / T) by (field; exact T0). rewrite <- SB, <- SC by lra. reflexivity.
    - rewrite SC by lra. f_equal. field. exact T0. }
  apply spline_unique in S; [|exact T0]. intros t. rewrite interp_cstate. rewrite S. rewrite (select_glue (fun c => cstate c T (t / T))). cbn [f_a f_b f_c].
  destruct (Rle_dec t (T/3)); [apply SA; lra|]. destruct (Rle_dec t (2*T/3)); [apply SB|apply SC]; lra.
Qed.
Definition pieceof (T : R) (c : vec4 R) : R * R * R * R := (c0 c / T^3, c1 c / T^2, c2 c / T, c3 c).
Lemma piece_poly T c t : T <> 0 -> cubic c (t / T) = poly (pieceof T c) t.
Proof. intros H. unfold poly, pieceof, cubic. field. exact H. Qed.
Lemma interp_is_motion a z T : 0 < T -> motion a z T (fun t => pos (interp_raw a z T t)) (fun t => vel (interp_raw a z T t)) (fun t => acc (interp_raw a z T t)).
Proof.
  intros HT. assert (T0 : T <> 0) by lra. destruct (factors_are_spline a z T T0) as (_ & S1 & S2 & _). set (F := computeFactors a z T) in *.
  assert (E : forall t, pos (interp_raw a z T t) = cubic (selectFactors F t T) (t / T)) by (intros t; rewrite interp_cstate; reflexivity).
  assert (E' : forall t, pos (interp_raw a z T t) = if Rle_dec t (T/3) then cubic (f_a F) (t / T) else if Rle_dec t (2*T/3) then cubic (f_b F) (t / T) else cubic (f_c F) (t / T))
    by (intros t; rewrite E; apply (select_glue (fun c => cubic c (t / T)))).
  split; [intros t; apply C10_twice_differentiable; exact HT|]. split; [intros t; apply C10_twice_differentiable; exact HT|]. split; [intros t; apply C10_twice_differentiable; exact HT|].
  split; [rewrite interp_start by exact HT; destruct a; reflexivity|]. split; [rewrite interp_end by exact HT; destruct z; reflexivity|].
  exists (pieceof T (f_a F)), (pieceof T (f_b F)), (pieceof T (f_c F)).
  injection S1 as S1 _ _. injection S2 as S2 _ _.
  split; [|split]; intros t Ht; rewrite E', <- piece_poly by exact T0.
  - destruct (Rle_dec t (T/3)); [reflexivity|lra].
  - destruct (Rle_dec t (T/3)).
    + replace t with (T / 3) by lra. replace (T / 3 / T) with (1 / 3) by (field; exact T0). exact S1.
    + destruct (Rle_dec t (2*T/3)); [reflexivity|lra].
  - destruct (Rle_dec t (T/3)); [lra|]. destruct (Rle_dec t (2*T/3)); [|reflexivity].
    replace t with (2 * T / 3) by lra. replace (2 * T / 3 / T) with (2 / 3) by (field; exact T0). exact S2.
Qed.

Lemma guard_pass A (b : bool) (k : res A) : b = true -> (do _ <- guard b; k) = k.
Proof. intros ->. reflexivity. Qed.

(** ** C65 *)
(** Between two states there is exactly one such motion. *)
Theorem C65_one_motion : forall a z T, 0 < T ->
  (exists p v w, motion a z T p v w)
  /\ forall p v w p' v' w', motion a z T p v w -> motion a z T p' v' w' -> forall t, p t = p' t /\ v t = v' t /\ w t = w' t.
Proof.
  intros a z T HT. split; [do 3 eexists; apply interp_is_motion; exact HT|].
  intros p v w p' v' w' H H' t. pose proof (motion_is_interp _ _ _ _ _ _ HT H t) as E. rewrite <- (motion_is_interp _ _ _ _ _ _ HT H' t) in E.
  injection E as E1 E2 E3. repeat split; assumption.
Qed.
(** The constructor accepts a positive number of samples and a positive period. *)
Theorem C65_constructor : forall n T,
  (is_ok (newFoot (K:=R) n T) <-> (0 < n)%nat /\ 0 < T)
  /\ forall f, newFoot n T = Ok f -> fv f = MkFV n T (vzero 3) (vzero 3) (vzero 3) (vzero 3) 0 emptyPolygon emptyPolygon.
Proof.
  intros n T. unfold newFoot. split.
  - split.
    + intros (f & H). apply guard_ok in H. destruct H as (H1 & H). apply guard_ok in H. destruct H as (H2 & _). apply Nat.ltb_lt in H2. apply Rltb_true in H1. split; assumption.
    + intros (H1 & H2). eexists. rewrite guard_pass by (apply Rltb_true; exact H2). rewrite (proj2 (Nat.ltb_lt 0 n) H1). reflexivity.
  - intros f H. apply guard_ok in H. destruct H as (_ & H). apply guard_ok in H. destruct H as (_ & H). injection H as <-. reflexivity.
Qed.
Lemma interpolateVec_ok (x : vec R) obj T t : is_ok (interpolateVec x obj T t) <-> vlen x = 3%nat /\ T <> 0.
Proof.
  unfold interpolateVec. split.
  - intros (y & H). apply guard_ok in H. destruct H as (H1 & H). apply Nat.eqb_eq in H1. apply bind_ok in H. destruct H as (s & Hs & _). apply interpolateTrajectory_inv in Hs. destruct Hs as (Hs & _). split; assumption.
  - intros (-> & HT). cbn [Nat.eqb guard bind]. rewrite interpolateTrajectory_ok by exact HT. eexists. reflexivity.
Qed.
Lemma interpolateVec_moved (x : vec R) obj T t y : interpolateVec x obj T t = Ok y -> moved x obj T t y.
Proof.
  unfold interpolateVec. intros H. apply guard_ok in H. destruct H as (H1 & H). apply Nat.eqb_eq in H1. apply bind_ok in H. destruct H as (s & Hs & H). injection H as <-.
  apply interpolateTrajectory_inv in Hs. destruct Hs as (T0 & ->). split; [exact H1|]. intros HT. do 3 eexists. split; [apply interp_is_motion; exact HT|]. reflexivity.
Qed.
(** When a call returns. *)
Theorem C65_call_returns_iff : forall f c, is_ok (fstep (K:=R) c f) <-> faccepts (fv f) c.
Proof.
  intros f c. destruct c; cbn [fstep faccepts fv fv_x fv_y fv_z]; try (split; [intros _; exact Logic.I|intros _; eexists; reflexivity]).
  - unfold f_setNbSamples. split; [intros (g & H); apply guard_ok in H; destruct H as (H & _); apply Nat.ltb_lt; exact H|].
    intros H. rewrite (proj2 (Nat.ltb_lt 0 n) H). eexists. reflexivity.
  - unfold f_setSamplingPeriod. split; [intros (g & H); apply guard_ok in H; destruct H as (H & _); apply Rltb_true; exact H|].
    intros H. rewrite guard_pass by (apply Rltb_true; exact H). eexists. reflexivity.
  - rewrite <- interpolateVec_ok with (obj := obj) (t := t). unfold f_updateStateX. destruct (interpolateVec (fsx f) obj T t); cbn [bind]; split; intros (g & H); try discriminate; eexists; reflexivity.
  - rewrite <- interpolateVec_ok with (obj := obj) (t := t). unfold f_updateStateY. destruct (interpolateVec (fsy f) obj T t); cbn [bind]; split; intros (g & H); try discriminate; eexists; reflexivity.
  - rewrite <- interpolateVec_ok with (obj := obj) (t := t). unfold f_updateStateZ. destruct (interpolateVec (fsz f) obj T t); cbn [bind]; split; intros (g & H); try discriminate; eexists; reflexivity.
Qed.
(** What a call that returns changes, and nothing else. *)
Theorem C65_call_effect : forall f c f', fstep (K:=R) c f = Ok f' -> feffect c (fv f) (fv f').
Proof.
  intros f c f' H. destruct c; cbn [fstep feffect fv] in H |- *; try (injection H as <-; reflexivity).
  - unfold f_setNbSamples in H. apply guard_ok in H. destruct H as (_ & H). injection H as <-. reflexivity.
  - unfold f_setSamplingPeriod in H. apply guard_ok in H. destruct H as (_ & H). injection H as <-. reflexivity.
  - unfold f_updateStateX in H. apply bind_ok in H. destruct H as (y & Hy & H). injection H as <-. exists y. split; [reflexivity|apply interpolateVec_moved; exact Hy].
  - unfold f_updateStateY in H. apply bind_ok in H. destruct H as (y & Hy & H). injection H as <-. exists y. split; [reflexivity|apply interpolateVec_moved; exact Hy].
  - unfold f_updateStateZ in H. apply bind_ok in H. destruct H as (y & Hy & H). injection H as <-. exists y. split; [reflexivity|apply interpolateVec_moved; exact Hy].
Qed.
(** In every history in which the states given have three entries, the updates with a non zero duration are never refused. *)
Definition three_entries (c : fcall R) : Prop := match c with FSetStateX v | FSetStateY v | FSetStateZ v => vlen v = 3%nat | _ => True end.
Theorem C65_updates_always_accepted : forall n T f0 cs f, newFoot (K:=R) n T = Ok f0 -> fsteps cs f0 = Ok f -> Forall three_entries cs ->
  forall obj D t, D <> 0 -> is_ok (fstep (FUpdateStateX obj D t) f) /\ is_ok (fstep (FUpdateStateY obj D t) f) /\ is_ok (fstep (FUpdateStateZ obj D t) f).
Proof.
  intros n T f0 cs f H0 H HF obj D t HD.
  assert (S0 : vlen (fsx f0) = 3%nat /\ vlen (fsy f0) = 3%nat /\ vlen (fsz f0) = 3%nat).
  { apply C65_constructor in H0. injection H0 as _ _ -> -> -> _ _ _ _. repeat split. }
  assert (S1 : vlen (fsx f) = 3%nat /\ vlen (fsy f) = 3%nat /\ vlen (fsz f) = 3%nat).
  { clear H0 HD. revert f0 H S0. induction cs as [|c cs IH]; intros f0 H S0; cbn [fsteps] in H; [injection H as <-; exact S0|].
    apply bind_ok in H. destruct H as (f1 & H1 & H). inversion HF as [|? ? Hc HF']; subst. apply (IH HF' f1 H).
    apply C65_call_effect in H1. destruct S0 as (A & B & C).
    destruct c; cbn [feffect fv three_entries] in H1, Hc; try (injection H1 as _ _ -> -> -> _ _ _ _; repeat split; assumption);
      destruct H1 as (y & E & M & _); injection E as _ _ -> -> -> _ _ _ _; repeat split; assumption. }
  destruct S1 as (A & B & C). rewrite !C65_call_returns_iff. cbn [faccepts fv fv_x fv_y fv_z]. repeat split; assumption.
Qed.
(** A state with the wrong number of entries is accepted, and only the next update stops the program. *)
Theorem C65_wrong_size_refuted : exists f0 f, newFoot (K:=R) 1 1 = Ok f0 /\ fstep (FSetStateX (vzero 2)) f0 = Ok f
  /\ forall obj t, fstep (FUpdateStateX obj 1 t) f = Abort.
Proof.
  eexists _, _. split; [unfold newFoot; rewrite guard_pass by (apply Rltb_true; exact Rlt_0_1); reflexivity|]. split; [reflexivity|]. intros obj t. reflexivity.
Qed.
(** A foot lifted in two updates, the second of which lands where it was asked to land. *)
Example C65_case : exists f0 f1 f2, newFoot (K:=R) 5 (1/10) = Ok f0 /\ fstep (FUpdateStateX (St3 1 0 0) (8/10) (1/10)) f0 = Ok f1
  /\ fstep (FUpdateStateX (St3 2 0 0) (7/10) (7/10)) f1 = Ok f2 /\ entries (fsx f2) = St3 2 0 0 /\ fsy f2 = fsy f0.
Proof.
  assert (H0 : is_ok (newFoot (K:=R) 5 (1/10))) by (apply C65_constructor; split; [lia|lra]). destruct H0 as (f0 & H0). exists f0.
  destruct (C65_updates_always_accepted 5 (1/10) f0 [] f0 H0 eq_refl (Forall_nil _) (St3 1 0 0) (8/10) (1/10)) as ((f1 & H1) & _); [lra|]. exists f1.
  destruct (C65_updates_always_accepted 5 (1/10) f0 [FUpdateStateX (St3 1 0 0) (8/10) (1/10)] f1 H0 ltac:(cbn [fsteps]; rewrite H1; reflexivity) ltac:(repeat constructor) (St3 2 0 0) (7/10) (7/10)) as ((f2 & H2) & _); [lra|]. exists f2.
  split; [exact H0|]. split; [exact H1|]. split; [exact H2|].
  pose proof (C65_call_effect _ _ _ H1) as E1. pose proof (C65_call_effect _ _ _ H2) as E2. cbn [feffect fv] in E1, E2.
  destruct E1 as (x1 & E1 & _), E2 as (x2 & E2 & _ & M). destruct M as (p & v & w & M & E); [lra|]. injection E1 as _ _ _ Ey _ _ _ _ _. injection E2 as _ _ Ex Ey2 _ _ _ _ _.
  split; [|congruence]. destruct M as (_ & _ & _ & _ & Z & _). rewrite Ex, E. exact Z.
Qed.

Print Assumptions C65_one_motion. Print Assumptions C65_constructor. Print Assumptions C65_call_returns_iff. Print Assumptions C65_call_effect.
Print Assumptions C65_updates_always_accepted. Print Assumptions C65_wrong_size_refuted. Print Assumptions C65_case.
