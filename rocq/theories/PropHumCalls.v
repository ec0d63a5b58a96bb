(** The calls of the humanoid walk generator: when each setter returns and what each call changes (C63). *)

From Coq Require Import Reals List ZArith Arith Bool Lra Lia.
From Verif Require Import Scalar LinAlg LinAlgFacts ToolsModel InterpModel NoDynModel PolygonModel QPModel TrajModel LipModel FootModel
  ModelsSpec ModelsFacts SupModel SupSpec SupFacts SupTime PropGait PropSupCalls HumModel HumSpec HumFacts PropHumRun.
From Verif Require ZebCalls.
Import ListNotations.
Local Open Scope R_scope.

Section Calls.
Context {TK : Trig R}.

(** ** Specification *)
(** What a user sees of the generator: the feet and the plan of the supports, the centre of mass, the velocity reference, the
    weights, which constraints are active, whether a walk is asked for, whether the next solve starts from the
    present CoP, and the decision vector with its last change. *)
Record hview : Type := MkHView {
  u_feet : sview; u_com : lobs; u_ref : vec R; u_w : hweights R; u_cop : bool; u_steps : bool;
  u_move : bool; u_restart : bool; u_X : vec R; u_dX : vec R }.
Definition hsees (h : hum R) (u : hview) : Prop :=
  sees (hsup h) (u_feet u) /\ lobs_of (hlip h) = u_com u /\ hvelRef h = u_ref u /\ hw h = u_w u /\ hcopC h = u_cop u /\ hfeetC h = u_steps u
  /\ hmove h = u_move u /\ hfirst h = u_restart u /\ hX h = u_X u /\ hdX h = u_dX u.

(** The setters that are accepted. *)
Definition haccepts (u : hview) (c : hcall R) : Prop :=
  match c with
  | HSetNbSamples n => (0 < n)%nat
  | HSetSamplingPeriod T => 0 < T
  | HSetStepPeriod p => 0 < p /\ vw_T (u_feet u) - EPS < p /\ (single_support (u_feet u) -> 0 < vw_remains (u_feet u) + (p - vw_step (u_feet u)))
  | HSetDSLength L => single_support (u_feet u) \/ vw_DS (u_feet u) - EPS <= L \/ - EPS < vw_remains (u_feet u) + (L - vw_DS (u_feet u))
  | HSetVelRef r => vlen r = (2 * vw_N (u_feet u))%nat
  | HSetFootX _ v | HSetFootY _ v | HSetFootZ _ v | HSetComX v | HSetComY v => vlen v = 3%nat
  | HSetComZ v => vlen v = 3%nat /\ vget v 1 = 0 /\ vget v 2 = 0
  | HSetWeightings _ => 0 <= wVelT (u_w u) /\ 0 <= wCopC (u_w u) /\ 0 <= wJerkM (u_w u)
  | _ => True
  end.

(** Everything but the feet, the centre of mass and the decision vector. *)
Definition same_settings (u u' : hview) : Prop :=
  u_ref u' = u_ref u /\ u_w u' = u_w u /\ u_cop u' = u_cop u /\ u_steps u' = u_steps u /\ u_move u' = u_move u.
Definition same_motion (u u' : hview) : Prop := u_restart u' = u_restart u /\ u_X u' = u_X u /\ u_dX u' = u_dX u.
Definition feet_only (c : scall R) (u u' : hview) : Prop :=
  effect c (u_feet u) (u_feet u') /\ u_com u' = u_com u /\ same_settings u u' /\ same_motion u u'.
Definition com_only (c : lcall R) (u u' : hview) : Prop :=
  u_feet u' = u_feet u /\ u_com u' = lobs_step (u_com u) c /\ same_settings u u' /\ same_motion u u'.
(** What each call does. *)
Definition heffect (c : hcall R) (u u' : hview) : Prop :=
  match c with
  | HSetNbSamples n => effect (SSetNbSamples n) (u_feet u) (u_feet u') /\ u_com u' = lobs_step (u_com u) (LSetNbSamples n)
      /\ same_settings u u' /\ u_restart u' = u_restart u
      /\ u_X u' = vzero (2 * n + 2 * vw_nb (u_feet u)) /\ u_dX u' = vzero (2 * n + 2 * vw_nb (u_feet u))
  | HSetSamplingPeriod T => effect (SSetSamplingPeriod T) (u_feet u) (u_feet u') /\ u_com u' = lobs_step (u_com u) (LSetSamplingPeriod T)
      /\ same_settings u u' /\ same_motion u u'
  | HSetStepPeriod p => feet_only (SSetStepPeriod p) u u'
  | HSetDSLength L => feet_only (SSetDSLength L) u u'
  | HSetKin d p => feet_only (SSetKin d p) u u'
  | HSetCop d p => feet_only (SSetCop d p) u u'
  | HSetMaxHeight d z => feet_only (SSetMaxHeight d z) u u'
  | HSetFootX d v => feet_only (SSetFootX d v) u u'
  | HSetFootY d v => feet_only (SSetFootY d v) u u'
  | HSetFootZ d v => feet_only (SSetFootZ d v) u u'
  | HSetVelRef r => u' = MkHView (u_feet u) (u_com u) r (u_w u) (u_cop u) (u_steps u) (u_move u) (u_restart u) (u_X u) (u_dX u)
  | HSetComX v => com_only (LSetStateX v) u u'
  | HSetComY v => com_only (LSetStateY v) u u'
  | HSetComZ v => com_only (LSetComHeight (vget v 0)) u u'
  | HSetWeightings w => u' = MkHView (u_feet u) (u_com u) (u_ref u) w (u_cop u) (u_steps u) (u_move u) (u_restart u) (u_X u) (u_dX u)
  | HSetConfig c f => u' = MkHView (u_feet u) (u_com u) (u_ref u) (u_w u) c f (u_move u) (u_restart u) (u_X u) (u_dX u)
  | HSetMove b => effect (SSetMove b) (u_feet u) (u_feet u') /\ u_com u' = u_com u
      /\ u_ref u' = u_ref u /\ u_w u' = u_w u /\ u_cop u' = u_cop u /\ u_steps u' = u_steps u /\ u_move u' = b
      /\ u_X u' = u_X u /\ u_dX u' = u_dX u
      /\ (single_support (u_feet u) -> u_restart u' = u_restart u) /\ (~ single_support (u_feet u) -> u_restart u' = true)
  | HSolve _ fb => same_settings u u' /\ u_restart u' = false /\ 0 < fb
      /\ (exists v1 v2 w1, effect (SUpdateTimeline v1 fb) (u_feet u) w1 /\ effect (SUpdateFeet v2 fb) w1 (u_feet u'))
      /\ (exists jx jy f, u_com u' = lobs_step (lobs_step (lobs_step (u_com u) (LSetFeedbackPeriod f)) (LUpdateStateX jx fb)) (LUpdateStateY jy fb)
            /\ (EPS < Rabs (fb - ofb (u_com u)) -> f = fb) /\ (Rabs (fb - ofb (u_com u)) <= EPS -> f = ofb (u_com u)))
      /\ vlen (u_dX u') = vlen (u_X u')
  end.

(** ** The two models inside the generator *)
Lemma ssteps_app (a b : list (scall R)) : forall s s1, ssteps a s = Ok s1 -> ssteps (a ++ b) s = ssteps b s1.
Proof.
  induction a as [|c a IH]; intros s s1 E; cbn [ssteps app] in *; [injection E as ->; reflexivity|]. apply bind_ok in E. destruct E as (s' & -> & E). cbn [bind]. apply IH. exact E.
Qed.
Lemma lsteps_app (a b : list (lcall R)) : forall s s1, lsteps a s = Ok s1 -> lsteps (a ++ b) s = lsteps b s1.
Proof.
  induction a as [|c a IH]; intros s s1 E; cbn [lsteps app] in *; [injection E as ->; reflexivity|]. apply bind_ok in E. destruct E as (s' & -> & E). cbn [bind]. apply IH. exact E.
Qed.
(** The calls that the generator makes on the model of the centre of mass. *)
Definition com_call (c : lcall R) : Prop :=
  match c with LSetGravity _ | LSetMass _ | LSetTotalMass _ | LSetStateYaw _ | LUpdateStateYaw _ _ | LComputeDynamics => False | LSetFeedbackPeriod f => 0 < f | _ => True end.
Lemma models_step c h h' : hstep c h = Ok h' -> exists sc lc, ssteps sc (hsup h) = Ok (hsup h') /\ lsteps lc (hlip h) = Ok (hlip h') /\ Forall com_call lc.
Proof.
  intros E. destruct c; cbn [hstep] in E.
  - unfold h_setNbSamples in E. apply guard_ok in E. destruct E as (_ & E). apply bind_ok in E. destruct E as (l & Hl & E). apply bind_ok in E. destruct E as (s & Hs & E). injection E as <-.
    exists [SSetNbSamples n], [LSetNbSamples n]. cbn [ssteps lsteps sstep_call lstep h_computeConstantPart hsup hlip]. rewrite Hl, Hs. repeat constructor.
  - unfold h_setSamplingPeriod in E. apply guard_ok in E. destruct E as (_ & E). apply bind_ok in E. destruct E as (l & Hl & E). apply bind_ok in E. destruct E as (s & Hs & E). injection E as <-.
    exists [SSetSamplingPeriod T], [LSetSamplingPeriod T]. cbn [ssteps lsteps sstep_call lstep hsup hlip]. rewrite Hl, Hs. repeat constructor.
  - unfold h_setStepPeriod in E. apply guard_ok in E. destruct E as (_ & E). apply guard_ok in E. destruct E as (_ & E). apply bind_ok in E. destruct E as (s & Hs & E). injection E as <-.
    exists [SSetStepPeriod p], []. cbn [ssteps lsteps sstep_call]. rewrite Hs. repeat constructor.
  - unfold h_setInitialDoubleSupportLength in E. apply bind_ok in E. destruct E as (s & Hs & E). injection E as <-.
    exists [SSetDSLength L], []. cbn [ssteps lsteps sstep_call]. rewrite Hs. repeat constructor.
  - injection E as <-. exists [SSetKin d p], []. repeat constructor.
  - injection E as <-. exists [SSetCop d p], []. repeat constructor.
  - injection E as <-. exists [SSetMaxHeight d z], []. repeat constructor.
  - unfold h_setVelRef in E. apply guard_ok in E. destruct E as (_ & E). injection E as <-. exists [], []. repeat constructor.
  - unfold h_setFootStateX in E. apply guard_ok in E. destruct E as (_ & E). apply bind_ok in E. destruct E as (s & Hs & E). injection E as <-.
    exists [SSetFootX d v], []. cbn [ssteps lsteps sstep_call]. rewrite Hs. repeat constructor.
  - unfold h_setFootStateY in E. apply guard_ok in E. destruct E as (_ & E). apply bind_ok in E. destruct E as (s & Hs & E). injection E as <-.
    exists [SSetFootY d v], []. cbn [ssteps lsteps sstep_call]. rewrite Hs. repeat constructor.
  - unfold h_setFootStateZ in E. apply guard_ok in E. destruct E as (_ & E). apply bind_ok in E. destruct E as (s & Hs & E). injection E as <-.
    exists [SSetFootZ d v], []. cbn [ssteps lsteps sstep_call]. rewrite Hs. repeat constructor.
  - unfold h_setComStateX in E. apply guard_ok in E. destruct E as (_ & E). apply bind_ok in E. destruct E as (l & Hl & E). injection E as <-.
    exists [], [LSetStateX v]. cbn [ssteps lsteps lstep]. rewrite Hl. repeat constructor.
  - unfold h_setComStateY in E. apply guard_ok in E. destruct E as (_ & E). apply bind_ok in E. destruct E as (l & Hl & E). injection E as <-.
    exists [], [LSetStateY v]. cbn [ssteps lsteps lstep]. rewrite Hl. repeat constructor.
  - unfold h_setComStateZ in E. do 3 (apply guard_ok in E; destruct E as (_ & E)). apply bind_ok in E. destruct E as (l & Hl & E). injection E as <-.
    exists [], [LSetComHeight (vget v 0)]. cbn [ssteps lsteps lstep]. rewrite Hl. repeat constructor.
  - unfold h_setWeightings in E. do 3 (apply guard_ok in E; destruct E as (_ & E)). injection E as <-. exists [], []. repeat constructor.
  - injection E as <-. exists [], []. repeat constructor.
  - unfold h_setMove in E. apply bind_ok in E. destruct E as (b' & _ & E). injection E as <-. exists [SSetMove b], []. repeat constructor.
  - apply bind_ok in E. destruct E as ((found & h1) & E & E'). injection E' as <-. unfold h_solve in E. apply bind_ok in E. destruct E as (hp & Hp & E). apply bind_ok in E. destruct E as ((q & idx) & _ & E).
    cbn [fst snd] in E. apply finish_cases in E. destruct E as (dX & X & t & l1 & l2 & s & _ & _ & _ & _ & E1 & E2 & E3 & _ & ER). cbn [snd] in ER. subst h1.
    destruct (h_prepare_cases _ _ _ Hp) as (s1 & X1 & l & Hu & Hl & Hfb & _ & F1 & F2 & _). rewrite F1 in E3. rewrite F2 in E1. cbn [hsup hlip].
    exists [SUpdateTimeline (hX h) fb; SUpdateFeet (vseg t (2 * lN (hlip hp)) (2 * snb s1)) fb].
    exists ((if Rltb EPS (Rabs (fb - lfb (hlip h))) then [LSetFeedbackPeriod fb] else []) ++ [LUpdateStateX (vget t 0) fb; LUpdateStateY (vget t (lN (hlip hp))) fb]).
    cbn [ssteps sstep_call]. rewrite Hu. cbn [bind fst]. rewrite E3. split; [reflexivity|]. split.
    + destruct (Rltb EPS (Rabs (fb - lfb (hlip h)))); cbn [app lsteps lstep].
      * rewrite Hl. cbn [bind]. rewrite E1. cbn [bind]. rewrite E2. reflexivity.
      * injection Hl as ->. rewrite E1. cbn [bind]. rewrite E2. reflexivity.
    + destruct (Rltb EPS (Rabs (fb - lfb (hlip h)))); repeat constructor; exact Hfb.
Qed.
(** The feet of every generator were reached by calls of the feet supervisor, and its centre of mass by calls of
    its model: what is proved of these holds inside the generator. *)
Theorem C63_models_histories : forall h, reached h ->
  reachable (hsup h) /\ exists l0 calls, newLipDefault = Ok l0 /\ lsteps calls l0 = Ok (hlip h) /\ Forall com_call calls.
Proof.
  intros h H. induction H as [h E|c h h' _ IH E|t h _ IH].
  - unfold newHum in E. apply bind_ok in E. destruct E as (s & Hs & E). apply bind_ok in E. destruct E as (l & Hl & E). injection E as <-. cbn [h_computeConstantPart hsup hlip]. split.
    + exists 1%nat, 1, s, []. split; [exact Hs|reflexivity].
    + exists l, []. repeat split; [exact Hl|constructor].
  - destruct IH as ((N & T & s0 & cs & A & B) & l0 & ls & C & D & F). destruct (models_step c h h' E) as (sc & lc & Es & El & Fl). split.
    + exists N, T, s0, (cs ++ sc). split; [exact A|]. rewrite (ssteps_app _ _ _ _ B). exact Es.
    + exists l0, (ls ++ lc). split; [exact C|]. split; [rewrite (lsteps_app _ _ _ _ D); exact El|apply Forall_app; split; assumption].
  - exact IH.
Qed.
(** The parameters of the centre of mass stay valid. *)
Definition com_valid (o : lobs) : Prop := 0 < oT o /\ 0 < ofb o /\ (0 < oN o)%nat /\ og o = GRAVITY /\ om o = 1 /\ oM o = 1.
Lemma com_valid_steps ls : forall l l', lauto l = true -> (exists n, lip_fresh l n) -> com_valid (lobs_of l) -> Forall com_call ls -> lsteps ls l = Ok l' -> com_valid (lobs_of l').
Proof.
  induction ls as [|c ls IH]; intros l l' Ha Hf V F E; cbn [lsteps] in E; [injection E as <-; exact V|].
  apply bind_ok in E. destruct E as (l1 & E1 & E). inversion F as [|? ? Hc Fr]; subst. destruct (lstep_inv c l l1 Hf Ha E1) as (A & B & D).
  apply (IH l1 l' B A); [|exact Fr|exact E]. rewrite D. destruct (lobs_of l) as [N T fb hh g m M x y z w]. destruct V as (V1 & V2 & V3 & V4 & V5 & V6). cbn [oT ofb oN og om oM] in *.
  destruct c; cbn [com_call] in Hc; try contradiction; unfold com_valid; cbn [lobs_step oT ofb oN og om oM]; try tauto.
  - cbn [lstep] in E1. unfold l_setNbSamples in E1. apply guard_ok in E1. destruct E1 as (E1 & _). apply Nat.ltb_lt in E1. tauto.
  - cbn [lstep] in E1. unfold l_setSamplingPeriod in E1. apply guard_ok in E1. destruct E1 as (E1 & _). apply Rltb_true in E1. tauto.
Qed.
Lemma reached_valid h : reached h -> com_valid (lobs_of (hlip h)).
Proof.
  intros H. destruct (C63_models_histories h H) as (_ & l0 & ls & E0 & E & F). unfold newLipDefault in E0. destruct (newLip_fresh _ _ _ E0) as (Fr & O & A).
  apply (com_valid_steps ls l0 (hlip h) A Fr); [|exact F|exact E]. rewrite O. unfold lobs0, com_valid. cbn [oT ofb oN og om oM]. rsimpl. repeat split; try lra; try lia; reflexivity.
Qed.
Lemma gravity_valid T N : 0 < T -> (0 < N)%nat -> valid_params T N GRAVITY 1 1.
Proof. intros H1 H2. unfold valid_params, GRAVITY. cbn [gz]. unfold GRAVITY_NORM. rsimpl. rewrite Rabs_right by lra. repeat split; try lra; assumption. Qed.

Lemma com_setters h : reached h ->
  (forall n, is_ok (l_setNbSamples n (hlip h)) <-> (0 < n)%nat) /\ (forall T, is_ok (l_setSamplingPeriod T (hlip h)) <-> 0 < T)
  /\ (forall z, is_ok (l_setComHeight z (hlip h))).
Proof.
  intros H. pose proof (reached_inv h H) as I. pose proof (hi_auto _ I) as Ha. destruct (hi_fresh _ I) as (k & F). destruct (reached_valid h H) as (V1 & V2 & V3 & V4 & V5 & V6).
  cbn [lobs_of oT ofb oN og om oM] in *. split; [|split].
  - intros n. unfold l_setNbSamples. rewrite guard_is_ok, Nat.ltb_lt. split; [tauto|]. intros L. split; [exact L|]. unfold l_auto. cbn [l_setPar lauto]. rewrite Ha.
    edestruct l_compute_returns as (l & E & _); [| |exists l; exact E]; cbn [l_setPar lfb lT lN lg lm lM]; [assumption|rewrite V4, V5, V6; apply gravity_valid; assumption].
  - intros T. unfold l_setSamplingPeriod. rewrite guard_is_ok. change (sltb s0 T) with (Rltb 0 T). rewrite Rltb_true. split; [tauto|]. intros L. split; [exact L|]. unfold l_auto. cbn [l_setPar lauto]. rewrite Ha.
    edestruct l_compute_returns as (l & E & _); [| |exists l; exact E]; cbn [l_setPar lfb lT lN lg lm lM]; [assumption|rewrite V4, V5, V6; apply gravity_valid; assumption].
  - intros z. unfold l_setComHeight. rewrite (l_autoCop_is_ok _ k); [|exact Ha|exact (lf_nb _ _ F)]. intros _. cbn [l_setPar lfb lT lN lg lm lM]. split; [assumption|rewrite V4, V5, V6; apply gravity_valid; assumption].
Qed.
Lemma hview_exists h : reached h -> exists u, hsees h u.
Proof.
  intros H. destruct (view_exists (hsup h) (proj1 (C63_models_histories h H))) as (w & V).
  exists (MkHView w (lobs_of (hlip h)) (hvelRef h) (hw h) (hcopC h) (hfeetC h) (hmove h) (hfirst h) (hX h) (hdX h)). unfold hsees. cbn. auto 12.
Qed.
Lemma st3_of_vec_ok (v : vec R) : (exists x, st3_of_vec v = Ok x) <-> vlen v = 3%nat.
Proof.
  unfold st3_of_vec. destruct (Nat.eqb_spec (vlen v) 3) as [L|L]; cbn [guard bind]; split; intros H; try assumption; try contradiction; [eexists; reflexivity|destruct H; discriminate].
Qed.
Lemma exists_bind A B (r : res A) (f : A -> B) : (exists b, (do a <- r; Ok (f a)) = Ok b) <-> (exists a, r = Ok a).
Proof. split; [intros (b & E); apply bind_ok in E; destruct E as (a & E & _); eauto|intros (a & ->); eexists; reflexivity]. Qed.
Lemma exists_guard A (b : bool) (r : res A) : (exists x, (do _ <- guard b; r) = Ok x) <-> b = true /\ exists x, r = Ok x.
Proof. split; [intros (x & E); apply guard_ok in E; destruct E; eauto|intros (-> & H); exact H]. Qed.

(** In every state that any history of calls reaches, a setter returns exactly when it is accepted. *)
Theorem C63_call_returns_iff : forall h u c, reached h -> hsees h u -> (forall o fb, c <> HSolve o fb) ->
  ((exists h', hstep c h = Ok h') <-> haccepts u c).
Proof.
  intros h u c H V Hc. pose proof (proj1 (C63_models_histories h H)) as Hr. pose proof V as (VS & VC & VR & VW & _). destruct (com_setters h H) as (S1 & S2 & S3).
  assert (Q : forall sc, (forall v fb, sc <> SUpdateTimeline v fb) -> ((exists s', sstep_call sc (hsup h) = Ok s') <-> accepts (u_feet u) sc)) by (intros sc; apply C61_call_returns_iff; assumption).
  destruct c; cbn [hstep haccepts]; try (split; [intros _; exact Logic.I|intros _; eexists; reflexivity]).
  - unfold h_setNbSamples. rewrite exists_guard, Nat.ltb_lt. split; [tauto|]. intros L. split; [exact L|]. destruct (proj2 (S1 n) L) as (l & ->). cbn [bind].
    destruct (proj2 (Q (SSetNbSamples n) ltac:(discriminate)) L) as (s & Es). cbn [sstep_call] in Es. rewrite Es. eexists. reflexivity.
  - unfold h_setSamplingPeriod. rewrite exists_guard. change (sleb s0 T) with (Rleb 0 T). rewrite Rleb_true. split.
    + intros (_ & h' & E). apply bind_ok in E. destruct E as (l & E & _). apply S2. exists l. exact E.
    + intros L. split; [lra|]. destruct (proj2 (S2 T) L) as (l & ->). cbn [bind]. destruct (proj2 (Q (SSetSamplingPeriod T) ltac:(discriminate)) L) as (s & Es). cbn [sstep_call] in Es. rewrite Es. eexists. reflexivity.
  - unfold h_setStepPeriod. rewrite !exists_guard, exists_bind. pose proof (Q (SSetStepPeriod p) ltac:(discriminate)) as Qs. cbn [sstep_call accepts] in Qs. rewrite Qs.
    change (sltb s0 p) with (Rltb 0 p). change (sltb s0 (sadd (ssub p (sT (hsup h))) EPS)) with (Rltb 0 (p - sT (hsup h) + EPS)). rewrite !Rltb_true.
    destruct VS as (_ & -> & _). split; intros (A & B & C); repeat split; try tauto; try lra.
  - unfold h_setInitialDoubleSupportLength. rewrite exists_bind. exact (Q (SSetDSLength L) ltac:(discriminate)).
  - unfold h_setVelRef. rewrite exists_guard, Nat.eqb_eq, <- (hi_N _ (reached_inv h H)). destruct VS as (-> & _). split; [tauto|]. intros E. split; [exact E|eexists; reflexivity].
  - unfold h_setFootStateX. rewrite exists_guard, exists_bind, Nat.eqb_eq. pose proof (Q (SSetFootX d v) ltac:(discriminate)) as Qs. cbn [sstep_call accepts] in Qs. rewrite Qs. tauto.
  - unfold h_setFootStateY. rewrite exists_guard, exists_bind, Nat.eqb_eq. pose proof (Q (SSetFootY d v) ltac:(discriminate)) as Qs. cbn [sstep_call accepts] in Qs. rewrite Qs. tauto.
  - unfold h_setFootStateZ. rewrite exists_guard, exists_bind, Nat.eqb_eq. pose proof (Q (SSetFootZ d v) ltac:(discriminate)) as Qs. cbn [sstep_call accepts] in Qs. rewrite Qs. tauto.
  - unfold h_setComStateX, l_setStateX. rewrite exists_guard, !exists_bind, st3_of_vec_ok, Nat.eqb_eq. tauto.
  - unfold h_setComStateY, l_setStateY. rewrite exists_guard, !exists_bind, st3_of_vec_ok, Nat.eqb_eq. tauto.
  - unfold h_setComStateZ. rewrite !exists_guard, exists_bind, Nat.eqb_eq. change (seqb (vget v 1) s0) with (Reqb (vget v 1) 0). change (seqb (vget v 2) s0) with (Reqb (vget v 2) 0). rewrite !Reqb_true.
    pose proof (S3 (vget v 0)) as (l & El). split; [tauto|]. intros (A & B & C). repeat split; try assumption. exists l. exact El.
  - unfold h_setWeightings. rewrite !exists_guard, <- VW. change (sleb s0) with (Rleb 0). rewrite !Rleb_true. split; [tauto|]. intros (A & B & C). repeat split; try assumption. eexists. reflexivity.
  - unfold h_setMove. rewrite exists_bind. split; [intros _; exact Logic.I|]. intros _. destruct (in_DS (hsup h) (u_feet u) VS) as (x & E & _). exists x. exact E.
  - exfalso. eapply Hc. reflexivity.
Qed.

Lemma sees_inj s w w' : sees s w -> sees s w' -> w = w'.
Proof.
  intros (A1 & A2 & A3 & A4 & A5 & A6 & A7 & A8 & A9 & A10 & A11) (B1 & B2 & B3 & B4 & B5 & B6 & B7 & B8 & B9 & B10 & B11). destruct w, w'. cbn in *. rewrite A9 in B9. injection B9 as -> ->. congruence.
Qed.
Lemma hview_eq u u' : u_feet u = u_feet u' -> u_com u = u_com u' -> u_ref u = u_ref u' -> u_w u = u_w u' -> u_cop u = u_cop u' -> u_steps u = u_steps u' -> u_move u = u_move u'
  -> u_restart u = u_restart u' -> u_X u = u_X u' -> u_dX u = u_dX u' -> u = u'.
Proof. destruct u, u'. cbn. congruence. Qed.
Lemma sees_effect h sc s' w' : reached h -> sstep_call sc (hsup h) = Ok s' -> sees s' w' -> forall w, sees (hsup h) w -> effect sc w w'.
Proof.
  intros H E V' w V. destruct (C61_call_effect _ w sc s' (proj1 (C63_models_histories h H)) V E) as (w2 & V2 & F). rewrite (sees_inj _ _ _ V' V2). exact F.
Qed.
(** ... and every call changes what [heffect] says, and nothing else that a user sees. *)
Theorem C63_call_effect : forall h u c h', reached h -> hsees h u -> hstep c h = Ok h' -> exists u', hsees h' u' /\ heffect c u u'.
Proof.
  intros h u c h' H V E. pose proof (reached_inv h H) as I.
  destruct (hview_exists h' (reached_call c h h' H E)) as (u' & V'). exists u'. split; [exact V'|].
  pose proof V as (VS & V2 & V3 & V4 & V5 & V6 & V7 & V8 & V9 & V10). pose proof V' as (WS & W2 & W3 & W4 & W5 & W6 & W7 & W8 & W9 & W10).
  assert (Q : forall sc, sstep_call sc (hsup h) = Ok (hsup h') -> effect sc (u_feet u) (u_feet u')) by (intros sc Es; exact (sees_effect h sc _ _ H Es WS _ VS)).
  assert (L : forall lc, lstep lc (hlip h) = Ok (hlip h') -> u_com u' = lobs_step (u_com u) lc) by (intros lc El; rewrite <- W2, <- V2; apply (lstep_inv lc _ _ (hi_fresh _ I) (hi_auto _ I) El)).
  assert (FO : forall sc s', sstep_call sc (hsup h) = Ok s' -> h' = h_setSup h s' -> feet_only sc u u').
  { intros sc s' Es ->. split; [apply Q; exact Es|]. cbn [h_setSup h_setModels hlip hvelRef hw hcopC hfeetC hmove hfirst hX hdX] in *. unfold same_settings, same_motion. repeat split; congruence. }
  assert (CO : forall lc l', lstep lc (hlip h) = Ok l' -> h' = h_setLip h l' -> com_only lc u u').
  { intros lc l' El ->. split; [symmetry; exact (sees_inj _ _ _ VS WS)|]. split; [apply L; exact El|]. cbn [h_setLip h_setModels hsup hvelRef hw hcopC hfeetC hmove hfirst hX hdX] in *. unfold same_settings, same_motion. repeat split; congruence. }
  destruct c; cbn [hstep heffect] in E |- *.
  - unfold h_setNbSamples in E. apply guard_ok in E. destruct E as (_ & E). apply bind_ok in E. destruct E as (l & Hl & E). apply bind_ok in E. destruct E as (s & Hs & E). injection E as <-.
    cbn [h_computeConstantPart hsup hlip hvelRef hw hcopC hfeetC hmove hfirst hX hdX] in *.
    assert (EN : lN l = n) by (pose proof (proj2 (proj2 (lstep_inv (LSetNbSamples n) _ _ (hi_fresh _ I) (hi_auto _ I) Hl))) as O; injection O as O1 O2 O3 O4 O5 O6 O7 _ _ _ _; exact O1).
    assert (EM : sN s = n /\ snb s = snb (hsup h)) by (unfold s_setNbSamples, f_setNbSamples in Hs; binds Hs; injection Hs as <-; split; reflexivity). destruct EM as (EM & EB).
    destruct VS as (_ & _ & _ & _ & _ & _ & _ & _ & _ & _ & EV). split; [apply Q; exact Hs|]. split; [apply L; exact Hl|]. split; [unfold same_settings; repeat split; congruence|]. split; [congruence|].
    rewrite EN, EB, EV in W10. rewrite EM, EB, EV in W9. split; [symmetry; exact W9|symmetry; exact W10].
  - unfold h_setSamplingPeriod in E. apply guard_ok in E. destruct E as (_ & E). apply bind_ok in E. destruct E as (l & Hl & E). apply bind_ok in E. destruct E as (s & Hs & E). injection E as <-.
    cbn [hsup hlip hvelRef hw hcopC hfeetC hmove hfirst hX hdX] in *. split; [apply Q; exact Hs|]. split; [apply L; exact Hl|]. unfold same_settings, same_motion. repeat split; congruence.
  - unfold h_setStepPeriod in E. apply guard_ok in E. destruct E as (_ & E). apply guard_ok in E. destruct E as (_ & E). apply bind_ok in E. destruct E as (s & Hs & E). injection E as E. exact (FO (SSetStepPeriod p) s Hs (eq_sym E)).
  - unfold h_setInitialDoubleSupportLength in E. apply bind_ok in E. destruct E as (s & Hs & E). injection E as E. exact (FO (SSetDSLength L0) s Hs (eq_sym E)).
  - injection E as E. exact (FO (SSetKin d p) _ eq_refl (eq_sym E)).
  - injection E as E. exact (FO (SSetCop d p) _ eq_refl (eq_sym E)).
  - injection E as E. exact (FO (SSetMaxHeight d z) _ eq_refl (eq_sym E)).
  - unfold h_setVelRef in E. apply guard_ok in E. destruct E as (_ & E). injection E as <-. cbn [hsup hlip hvelRef hw hcopC hfeetC hmove hfirst hX hdX] in *. apply (hview_eq u'); cbn [u_feet u_com u_ref u_w u_cop u_steps u_move u_restart u_X u_dX]; [exact (sees_inj _ _ _ WS VS)|congruence..].
  - unfold h_setFootStateX in E. apply guard_ok in E. destruct E as (_ & E). apply bind_ok in E. destruct E as (s & Hs & E). injection E as E. exact (FO (SSetFootX d v) s Hs (eq_sym E)).
  - unfold h_setFootStateY in E. apply guard_ok in E. destruct E as (_ & E). apply bind_ok in E. destruct E as (s & Hs & E). injection E as E. exact (FO (SSetFootY d v) s Hs (eq_sym E)).
  - unfold h_setFootStateZ in E. apply guard_ok in E. destruct E as (_ & E). apply bind_ok in E. destruct E as (s & Hs & E). injection E as E. exact (FO (SSetFootZ d v) s Hs (eq_sym E)).
  - unfold h_setComStateX in E. apply guard_ok in E. destruct E as (_ & E). apply bind_ok in E. destruct E as (l & Hl & E). injection E as E. exact (CO (LSetStateX v) l Hl (eq_sym E)).
  - unfold h_setComStateY in E. apply guard_ok in E. destruct E as (_ & E). apply bind_ok in E. destruct E as (l & Hl & E). injection E as E. exact (CO (LSetStateY v) l Hl (eq_sym E)).
  - unfold h_setComStateZ in E. do 3 (apply guard_ok in E; destruct E as (_ & E)). apply bind_ok in E. destruct E as (l & Hl & E). injection E as E. exact (CO (LSetComHeight (vget v 0)) l Hl (eq_sym E)).
  - unfold h_setWeightings in E. do 3 (apply guard_ok in E; destruct E as (_ & E)). injection E as <-. cbn [hsup hlip hvelRef hw hcopC hfeetC hmove hfirst hX hdX] in *. apply (hview_eq u'); cbn [u_feet u_com u_ref u_w u_cop u_steps u_move u_restart u_X u_dX]; [exact (sees_inj _ _ _ WS VS)|congruence..].
  - injection E as <-. cbn [h_setConfig h_computeConstantPart hsup hlip hvelRef hw hcopC hfeetC hmove hfirst hX hdX] in *. apply (hview_eq u'); cbn [u_feet u_com u_ref u_w u_cop u_steps u_move u_restart u_X u_dX]; [exact (sees_inj _ _ _ WS VS)|congruence..].
  - unfold h_setMove in E. apply bind_ok in E. destruct E as (ds & Ed & E). injection E as <-. cbn [hsup hlip hvelRef hw hcopC hfeetC hmove hfirst hX hdX] in *.
    destruct (in_DS (hsup h) (u_feet u) VS) as (x & Ex & Hx). assert (Exd : x = ds) by (unfold s_isInDS, s_front in *; cbn [s_setMove stl] in Ed; rewrite Ed in Ex; injection Ex as ->; reflexivity). subst x.
    split; [apply Q; reflexivity|]. do 8 (split; [congruence|]). split.
    + intros S. apply Hx in S. rewrite S in W8. congruence.
    + intros S. destruct ds; [congruence|]. exfalso. apply S, Hx. reflexivity.
  - apply bind_ok in E. destruct E as ((found & h1) & E & E'). injection E' as <-. unfold h_solve in E. apply bind_ok in E. destruct E as (hp & Hp & E). apply bind_ok in E. destruct E as ((q & idx) & _ & E).
    cbn [fst snd] in E. apply finish_cases in E. destruct E as (dX & X & t & l1 & l2 & s & L1 & L2 & _ & _ & E1 & E2 & E3 & _ & ER). cbn [snd] in ER. subst h1.
    destruct (h_prepare_cases _ _ _ Hp) as (s1 & X1 & l & Hu & Hl & Hfb & _ & F1 & F2 & F3 & _ & _ & _ & F4 & F5 & F6 & _ & _ & F7 & _ & _ & _ & F8).
    cbn [hsup hlip hvelRef hw hcopC hfeetC hmove hfirst hX hdX] in *. rewrite F1 in E3. rewrite F2 in E1.
    assert (FF : hfirst hp = false).
    { unfold h_prepare, h_updateModels in Hp. apply bind_ok in Hp. destruct Hp as (h2 & _ & Hp). apply bind_ok in Hp. destruct Hp as (c & _ & Hp). unfold h_firstFill in Hp. destruct (hfirst h2) eqn:Ef.
      - apply bind_ok in Hp. destruct Hp as (? & _ & Hp). apply bind_ok in Hp. destruct Hp as (? & _ & Hp). apply guard_ok in Hp. destruct Hp as (_ & Hp). injection Hp as <-. reflexivity.
      - injection Hp as <-. exact Ef. }
    split; [unfold same_settings; repeat split; congruence|]. split; [congruence|]. split; [exact Hfb|]. split; [|split; [|congruence]].
    + exists (hX h). exists (vseg t (2 * lN (hlip hp)) (2 * snb s1)).
      assert (Es1 : sstep_call (SUpdateTimeline (hX h) fb) (hsup h) = Ok s1) by (cbn [sstep_call]; rewrite Hu; reflexivity).
      pose proof (proj1 (C63_models_histories h H)) as Hr. destruct (C61_call_effect _ _ _ _ Hr VS Es1) as (w1 & Vw & Ew). exists w1. split; [exact Ew|].
      assert (Hr1 : reachable s1) by (destruct Hr as (N & T & s0 & cs & A & B); exists N, T, s0, (cs ++ [SUpdateTimeline (hX h) fb]); split; [exact A|]; rewrite (ssteps_app _ _ _ _ B); cbn [ssteps]; rewrite Es1; reflexivity).
      destruct (C61_call_effect _ _ (SUpdateFeet (vseg t (2 * lN (hlip hp)) (2 * snb s1)) fb) s Hr1 Vw E3) as (w2 & Vw2 & Ew2). rewrite (sees_inj _ _ _ WS Vw2). exact Ew2.
    + exists (vget t 0), (vget t (lN (hlip hp))), (lfb l).
      assert (A : (exists n, lip_fresh l n) /\ lauto l = true /\ lobs_of l = lobs_step (lobs_of (hlip h)) (LSetFeedbackPeriod (lfb l))
                 /\ (EPS < Rabs (fb - lfb (hlip h)) -> lfb l = fb) /\ (Rabs (fb - lfb (hlip h)) <= EPS -> lfb l = lfb (hlip h))).
      { destruct (Rltb_spec EPS (Rabs (fb - lfb (hlip h)))) as [D|D].
        - destruct (lstep_inv (LSetFeedbackPeriod fb) _ _ (hi_fresh _ I) (hi_auto _ I) Hl) as (A & B & O). assert (Ef : lfb l = fb) by (injection O; intros; assumption). rewrite Ef. split; [exact A|]. split; [exact B|]. split; [exact O|]. split; [auto|lra].
        - injection Hl as <-. split; [exact (hi_fresh _ I)|]. split; [exact (hi_auto _ I)|]. split; [reflexivity|]. split; [lra|auto]. }
      destruct A as (A1 & A2 & A3 & A4 & A5). destruct (lstep_inv (LUpdateStateX (vget t 0) fb) l l1 A1 A2 E1) as (B1 & B2 & B3). destruct (lstep_inv (LUpdateStateY (vget t (lN (hlip hp))) fb) l1 l2 B1 B2 E2) as (_ & _ & C3).
      rewrite <- V2. cbn [lobs_of ofb]. split; [|split; assumption]. rewrite <- W2, C3, B3, A3. reflexivity.
Qed.

(** Changing the number of samples leaves the velocity reference as it was: as long as its length is not twice the
    number of samples and velocities are tracked, no solve returns. *)
Theorem C63_reference_of_other_length : forall h o fb, reached h -> 0 < wVelT (hw h) -> vlen (hvelRef h) <> (2 * sN (hsup h))%nat ->
  forall r, h_solve o fb h <> Ok r.
Proof.
  intros h o fb H Hw Hl r E. pose proof (reached_inv h H) as I. unfold h_solve in E. apply bind_ok in E. destruct E as (hp & Hp & E). apply bind_ok in E. destruct E as (q & Hq & _).
  destruct (h_prepare_cases _ _ _ Hp) as (s1 & X1 & l & Hu & Hll & _ & _ & _ & F2 & F3 & _ & _ & _ & F4 & _). destruct (fb_inv _ _ _ (hi_fresh _ I) (hi_auto _ I) Hll) as (_ & _ & EN).
  unfold h_problem in Hq. apply bind_ok in Hq. destruct Hq as ((nc & nf) & _ & Hq). apply bind_ok in Hq. destruct Hq as (e & _ & Hq). apply bind_ok in Hq. destruct Hq as (q1 & Hq & _).
  unfold addObj in Hq. rewrite F4 in Hq. change (sltb s0 (wVelT (hw h))) with (Rltb 0 (wVelT (hw h))) in Hq. rewrite (proj2 (Rltb_true _ _) Hw) in Hq.
  apply bind_ok in Hq. destruct Hq as (H1 & _ & Hq). apply guard_ok in Hq. destruct Hq as (_ & Hq). apply bind_ok in Hq. destruct Hq as (g & Hg & _).
  unfold h_velGradient in Hg. apply guard_ok in Hg. destruct Hg as (Hg & _). apply Nat.eqb_eq in Hg. rewrite F2, F3, EN, <- (hi_N _ I) in Hg. contradiction.
Qed.
Theorem C63_resize_refuted : forall n h0 w, (2 <= n)%nat -> newHum = Ok h0 -> 0 < wVelT w ->
  exists h, hsteps [HSetWeightings w; HSetNbSamples n] h0 = Ok h /\ forall o fb h', hstep (HSolve o fb) h <> Ok h'.
Proof.
  intros n h0 w Hn H0 Hw. pose proof (reached_new h0 H0) as R0. destruct (new_case TK) as (k & Ek & _ & _ & _ & _ & EV & _). rewrite H0 in Ek. injection Ek as <-.
  assert (W0 : hw h0 = MkHW 0 0 0) by (unfold newHum in H0; apply bind_ok in H0; destruct H0 as (? & _ & H0); apply bind_ok in H0; destruct H0 as (? & _ & H0); injection H0 as <-; reflexivity).
  destruct (hview_exists h0 R0) as (u0 & V0).
  assert (A0 : haccepts u0 (HSetWeightings w)) by (destruct V0 as (_ & _ & _ & EW & _); cbn [haccepts]; rewrite <- EW, W0; cbn [wVelT wCopC wJerkM]; lra).
  destruct (proj2 (C63_call_returns_iff h0 u0 (HSetWeightings w) R0 V0 ltac:(discriminate)) A0) as (h1 & E1). pose proof (reached_call _ _ _ R0 E1) as R1.
  destruct (C63_call_effect _ _ _ _ R0 V0 E1) as (u1 & V1 & F1). cbn [heffect] in F1.
  assert (A1 : haccepts u1 (HSetNbSamples n)) by (cbn [haccepts]; lia).
  destruct (proj2 (C63_call_returns_iff h1 u1 (HSetNbSamples n) R1 V1 ltac:(discriminate)) A1) as (h2 & E2). pose proof (reached_call _ _ _ R1 E2) as R2.
  destruct (C63_call_effect _ _ _ _ R1 V1 E2) as (u2 & V2 & F2). cbn [heffect] in F2. destruct F2 as ((G1 & _) & _ & (G2 & G3 & _) & _).
  exists h2. split; [cbn [hsteps]; rewrite E1; cbn [bind]; rewrite E2; reflexivity|]. intros o fb h' E. cbn [hstep] in E. apply bind_ok in E. destruct E as (r & E & _).
  apply (C63_reference_of_other_length h2 o fb R2) in E; [exact E| |].
  - destruct V2 as (_ & _ & _ & -> & _). rewrite G3, F1. exact Hw.
  - destruct V2 as ((-> & _) & _ & -> & _). rewrite G1, G2, F1. cbn [u_ref]. destruct V0 as (_ & _ & <- & _). rewrite EV. lia.
Qed.
End Calls.

(** ** Concrete case *)
(** A new generator, one sample of 1 s: steps of 3 s are accepted, steps of half a second are not; a velocity
    reference must have two entries. *)
Example C63_case : forall TK : Trig R, exists (h : hum R) u, newHum = Ok h /\ hsees h u
  /\ haccepts u (HSetStepPeriod 3) /\ ~ haccepts u (HSetStepPeriod (1/2)) /\ haccepts u (HSetVelRef (vzero 2)) /\ ~ haccepts u (HSetVelRef (vzero 4))
  /\ haccepts u (HSetDSLength (1/2)) /\ ~ haccepts u (HSetDSLength (-1)) /\ haccepts u (HSetComZ (MkVec 3 (fun i => match i with O => 2 | _ => 0 end))) /\ ~ haccepts u (HSetComZ (vfill 3 1)).
Proof.
  intros TK. destruct (new_case TK) as (h & E & EN & ET & Es & Ed & _). destruct (hview_exists h (reached_new h E)) as (u & V). exists h, u. split; [exact E|]. split; [exact V|].
  assert (F : phType (vw_now (u_feet u)) = DS /\ vw_remains (u_feet u) = 2).
  { destruct V as ((_ & _ & _ & _ & _ & _ & _ & _ & A & B & _) & _). clear - E A B. unfold newHum in E. apply bind_ok in E. destruct E as (s & Hs & E). apply bind_ok in E. destruct E as (l & _ & E). injection E as <-.
    cbn [h_computeConstantPart hsup] in *. unfold newSupDefault, newSup in Hs. binds Hs. injection Hs as <-. cbn in A, B. injection A as <- _. rewrite <- B. rsimpl. split; [reflexivity|lra]. }
  destruct F as (F1 & F2). destruct V as ((V1 & V2 & _ & V4 & V5 & _) & _). unfold haccepts, single_support. rewrite F1, F2, <- V1, <- V2, <- V4, <- V5, EN, ET, Es, Ed. unfold EPS. rsimpl. cbn [vlen vzero vfill vget].
  repeat split; try lra; try lia; try contradiction; try congruence; try (intros; intuition (try lra; try lia; try congruence)).
Qed.
Print Assumptions C63_models_histories.
Print Assumptions C63_call_returns_iff.
Print Assumptions C63_call_effect.
Print Assumptions C63_reference_of_other_length.
Print Assumptions C63_resize_refuted.
