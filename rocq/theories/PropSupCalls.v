(** The calls of the feet supervisor: when each returns, what it changes (C61), and what its queries
    answer (C62). *)

From Coq Require Import Reals List ZArith QArith Arith Bool Lra Lia.
From Verif Require Import Scalar LinAlg LinAlgFacts ToolsModel InterpModel PolygonModel FootModel LipModel ModelsFacts
  SupModel SupSpec SupFacts SupTime SupWalk PropTools PropSup PropGait PropSteps PropSupCases.
Import ListNotations.
Local Open Scope R_scope.

Section Calls.
Context {TK : Trig R}.

(** ** Specification *)
(** What a user sees of the supervisor: the configuration, the feet, and the plan, which is made of the
    phase in progress, the phases planned after it, the time that remains before the end of the phase in progress
    and the number of steps planned. *)
Record sview : Type := MkView {
  vw_N : nat; vw_T : R; vw_fb : R; vw_step : R; vw_DS : R; vw_move : bool;
  vw_left : foot R; vw_right : foot R;
  vw_now : phase R; vw_next : list (phase R); vw_remains : R; vw_nb : nat }.
Definition sees (s : sup R) (w : sview) : Prop :=
  sN s = vw_N w /\ sT s = vw_T w /\ sfb s = vw_fb w /\ sstep s = vw_step w /\ sDS s = vw_DS w /\ smove s = vw_move w
  /\ sleft s = vw_left w /\ sright s = vw_right w /\ cbl (stl s) = vw_now w :: vw_next w /\ sttnp s = vw_remains w /\ snb s = vw_nb w.
Definition single_support (w : sview) : Prop := phType (vw_now w) <> DS.
(** The flying foot is in the air: the opening sampling period of the step is over. *)
Definition flying (w : sview) : Prop := single_support w /\ vw_remains w < phDur (vw_now w) - vw_T w + EPS.
(** The calls that are accepted. *)
Definition accepts (w : sview) (c : scall R) : Prop :=
  match c with
  | SSetNbSamples n => (0 < n)%nat
  | SSetSamplingPeriod T => 0 < T
  | SSetStepPeriod p => 0 < p /\ (single_support w -> 0 < vw_remains w + (p - vw_step w))
  | SSetDSLength L => single_support w \/ vw_DS w - EPS <= L \/ - EPS < vw_remains w + (L - vw_DS w)
  | SSetFootX _ v | SSetFootY _ v | SSetFootZ _ v => vlen v = 3%nat
  | SUpdateFeet v _ => flying w -> (vw_nb w < vlen v)%nat /\ vw_remains w <> 0
  | _ => True
  end.
(** The phase in progress made longer by d: the time already spent in it is the same. *)
Definition longer (d : R) (w : sview) : phase R := MkPhase (phType (vw_now w)) (phDur (vw_now w) + d).
(** The fields of a foot. *)
Definition foot_is (f : foot R) n T x y z h k c : Prop :=
  fN f = n /\ fT f = T /\ fsx f = x /\ fsy f = y /\ fsz f = z /\ fmaxHeight f = h /\ fkin f = k /\ fcop f = c.
Definition foot_n n (f g : foot R) := foot_is g n (fT f) (fsx f) (fsy f) (fsz f) (fmaxHeight f) (fkin f) (fcop f).
Definition foot_T T (f g : foot R) := foot_is g (fN f) T (fsx f) (fsy f) (fsz f) (fmaxHeight f) (fkin f) (fcop f).
(** Everything but the feet. *)
Definition same_but_feet (w w' : sview) : Prop :=
  vw_N w' = vw_N w /\ vw_T w' = vw_T w /\ vw_fb w' = vw_fb w /\ vw_step w' = vw_step w /\ vw_DS w' = vw_DS w /\ vw_move w' = vw_move w
  /\ vw_now w' = vw_now w /\ vw_next w' = vw_next w /\ vw_remains w' = vw_remains w /\ vw_nb w' = vw_nb w.
Definition same_configuration (w w' : sview) : Prop :=
  vw_N w' = vw_N w /\ vw_T w' = vw_T w /\ vw_step w' = vw_step w /\ vw_DS w' = vw_DS w /\ vw_move w' = vw_move w.
Definition one_foot (d : side) (P : foot R -> foot R -> Prop) (w w' : sview) : Prop :=
  same_but_feet w w' /\ match d with
    | SLeft => P (vw_left w) (vw_left w') /\ vw_right w' = vw_right w
    | SRight => P (vw_right w) (vw_right w') /\ vw_left w' = vw_left w end.
(** What each call does. *)
Definition effect (c : scall R) (w w' : sview) : Prop :=
  match c with
  | SSetNbSamples n => vw_N w' = n /\ vw_T w' = vw_T w /\ vw_fb w' = vw_fb w /\ vw_step w' = vw_step w /\ vw_DS w' = vw_DS w
      /\ vw_move w' = vw_move w /\ vw_now w' = vw_now w /\ vw_next w' = vw_next w /\ vw_remains w' = vw_remains w /\ vw_nb w' = vw_nb w
      /\ foot_n n (vw_left w) (vw_left w') /\ foot_n n (vw_right w) (vw_right w')
  | SSetSamplingPeriod T => vw_N w' = vw_N w /\ vw_T w' = T /\ vw_fb w' = T /\ vw_step w' = vw_step w /\ vw_DS w' = vw_DS w
      /\ vw_move w' = vw_move w /\ vw_now w' = vw_now w /\ vw_next w' = vw_next w /\ vw_remains w' = vw_remains w /\ vw_nb w' = vw_nb w
      /\ foot_T T (vw_left w) (vw_left w') /\ foot_T T (vw_right w) (vw_right w')
  | SSetStepPeriod p => let d := p - vw_step w in
      vw_N w' = vw_N w /\ vw_T w' = vw_T w /\ vw_fb w' = vw_fb w /\ vw_step w' = p /\ vw_DS w' = vw_DS w /\ vw_move w' = vw_move w
      /\ vw_left w' = vw_left w /\ vw_right w' = vw_right w /\ vw_next w' = vw_next w /\ vw_nb w' = vw_nb w
      /\ (single_support w -> vw_now w' = longer d w /\ vw_remains w' = vw_remains w + d)
      /\ (~ single_support w -> vw_now w' = vw_now w /\ vw_remains w' = vw_remains w)
  | SSetDSLength L => let d := L - vw_DS w in
      vw_N w' = vw_N w /\ vw_T w' = vw_T w /\ vw_fb w' = vw_fb w /\ vw_step w' = vw_step w /\ vw_DS w' = L /\ vw_move w' = vw_move w
      /\ vw_left w' = vw_left w /\ vw_right w' = vw_right w /\ vw_next w' = vw_next w /\ vw_nb w' = vw_nb w
      /\ (single_support w -> vw_now w' = vw_now w /\ vw_remains w' = vw_remains w)
      /\ (~ single_support w -> vw_now w' = longer d w /\ vw_remains w' = vw_remains w + d)
  | SSetMove b => vw_N w' = vw_N w /\ vw_T w' = vw_T w /\ vw_fb w' = vw_fb w /\ vw_step w' = vw_step w /\ vw_DS w' = vw_DS w /\ vw_move w' = b
      /\ vw_left w' = vw_left w /\ vw_right w' = vw_right w /\ vw_now w' = vw_now w /\ vw_next w' = vw_next w
      /\ vw_remains w' = vw_remains w /\ vw_nb w' = vw_nb w
  | SSetKin d p => one_foot d (fun f g => foot_is g (fN f) (fT f) (fsx f) (fsy f) (fsz f) (fmaxHeight f) p (fcop f)) w w'
  | SSetCop d p => one_foot d (fun f g => foot_is g (fN f) (fT f) (fsx f) (fsy f) (fsz f) (fmaxHeight f) (fkin f) p) w w'
  | SSetMaxHeight d h => one_foot d (fun f g => foot_is g (fN f) (fT f) (fsx f) (fsy f) (fsz f) h (fkin f) (fcop f)) w w'
  | SSetFootX d v => one_foot d (fun f g => foot_is g (fN f) (fT f) v (fsy f) (fsz f) (fmaxHeight f) (fkin f) (fcop f)) w w'
  | SSetFootY d v => one_foot d (fun f g => foot_is g (fN f) (fT f) (fsx f) v (fsz f) (fmaxHeight f) (fkin f) (fcop f)) w w'
  | SSetFootZ d v => one_foot d (fun f g => foot_is g (fN f) (fT f) (fsx f) (fsy f) v (fmaxHeight f) (fkin f) (fcop f)) w w'
  | SUpdateTimeline _ fb =>
      same_configuration w w' /\ vw_fb w' = fb /\ vw_left w' = vw_left w /\ vw_right w' = vw_right w
      /\ (EPS <= vw_remains w -> vw_now w' = vw_now w /\ vw_remains w' = vw_remains w)
      /\ (vw_remains w < EPS -> exists r, vw_next w = vw_now w' :: r /\ vw_remains w' = phDur (vw_now w'))
      /\ (forall p, In p (vw_next w') -> phDur p = match phType p with DS => vw_DS w | _ => vw_step w end)
  | SUpdateFeet v fb =>
      same_configuration w w' /\ vw_fb w' = vw_fb w /\ vw_now w' = vw_now w /\ vw_next w' = vw_next w /\ vw_nb w' = vw_nb w
      /\ vw_remains w' = vw_remains w - fb
      /\ (~ (flying w /\ phType (vw_now w) = RightSS) -> vw_left w' = vw_left w)
      /\ (~ (flying w /\ phType (vw_now w) = LeftSS) -> vw_right w' = vw_right w)
  end.

(** ** Proofs *)
Definition foot_sized (f : foot R) : Prop := vlen (fsx f) = 3%nat /\ vlen (fsy f) = 3%nat /\ vlen (fsz f) = 3%nat.
Definition feet_sized (s : sup R) : Prop := foot_sized (sleft s) /\ foot_sized (sright s).

Lemma interpolateVec_iff (v : vec R) obj T t : vlen v = 3%nat ->
  (T <> 0 -> exists w, interpolateVec v obj T t = Ok w /\ vlen w = 3%nat) /\ (T = 0 -> interpolateVec v obj T t = Nan).
Proof.
  intros Hv. split; [apply interpolateVec_ok; exact Hv|]. intros ->. unfold interpolateVec, interpolateTrajectory. rewrite Hv. cbn [Nat.eqb guard bind].
  change (seqb 0 s0) with (Reqb 0 0). destruct (Reqb_spec 0 0) as [_|E]; [reflexivity|contradiction].
Qed.
Lemma flyTo_sized (f : foot R) x y z T Tz fb : foot_sized f -> T <> 0 -> Tz <> 0 -> exists f', flyTo f x y z T Tz fb = Ok f' /\ foot_sized f'.
Proof.
  intros (H1 & H2 & H3) HT HTz. unfold flyTo, f_updateStateX, f_updateStateY, f_updateStateZ.
  destruct (interpolateVec_ok (fsx f) (St3 x s0 s0) T fb H1 HT) as (wx & -> & Lx). cbn [bind f_setStateX f_setStates fsy].
  destruct (interpolateVec_ok (fsy f) (St3 y s0 s0) T fb H2 HT) as (wy & -> & Ly). cbn [bind f_setStateX f_setStateY f_setStates fsz].
  destruct (interpolateVec_ok (fsz f) (St3 z s0 s0) Tz fb H3 HTz) as (wz & -> & Lz). cbn [bind].
  eexists. split; [reflexivity|]. cbn. unfold foot_sized. cbn. auto.
Qed.
Lemma flyTo_nan (f : foot R) x y z Tz fb : foot_sized f -> flyTo f x y z 0 Tz fb = Nan.
Proof. intros (H1 & _). unfold flyTo, f_updateStateX. rewrite (proj2 (interpolateVec_iff (fsx f) (St3 x s0 s0) 0 fb H1) eq_refl). reflexivity. Qed.

(** The update of the feet, exactly. *)
Lemma feet_exact v fb s f : cb_at (stl s) 0 = Ok f -> feet_sized s ->
  let fly := phType f <> DS /\ sttnp s < phDur f - sT s + EPS in
  let good := fly -> (snb s < vlen v)%nat /\ sttnp s <> 0 in
  (good -> exists s', s_updateFeetStates v fb s = Ok s' /\ feet_sized s' /\ same_plan s s' /\ sttnp s' = sttnp s - fb
     /\ (~ (fly /\ phType f = RightSS) -> sleft s' = sleft s) /\ (~ (fly /\ phType f = LeftSS) -> sright s' = sright s))
  /\ (~ good -> forall s', s_updateFeetStates v fb s <> Ok s').
Proof.
  intros Hf (HL & HR) fly good. assert (HE : 0 < EPS) by (rsimpl; lra). unfold s_updateFeetStates, s_front. rewrite Hf. cbn [bind].
  change (sltb (sttnp s) (sadd (ssub (phDur f) (sT s)) EPS)) with (Rltb (sttnp s) (phDur f - sT s + EPS)).
  change (sltb (sttnp s) (sadd (smul (ssub (phDur f) (sT s)) shalf) EPS)) with (Rltb (sttnp s) ((phDur f - sT s) * shalf + EPS)).
  assert (Hc : (negb (is_DS (phType f)) && Rltb (sttnp s) (phDur f - sT s + EPS))%bool = true <-> fly).
  { unfold fly. rewrite Bool.andb_true_iff, Rltb_true. destruct (phType f); cbn [is_DS negb]; intuition congruence. }
  destruct (negb (is_DS (phType f)) && Rltb (sttnp s) (phDur f - sT s + EPS))%bool.
  2: { assert (Hn : ~ fly) by (intros H; apply Hc in H; discriminate). split.
       - intros _. eexists. split; [reflexivity|]. split; [split; assumption|]. split; [unfold same_plan; cbn; repeat split|]. cbn. auto.
       - intros H. exfalso. apply H. intros A. contradiction. }
  assert (Hy : fly) by (apply Hc; reflexivity). clear Hc. unfold vread. split.
  - intros G. destruct (G Hy) as (Hlen & Hne). destruct (Nat.ltb_spec 0 (vlen v)); [|lia]. destruct (Nat.ltb_spec (snb s) (vlen v)); [|lia]. cbn [guard bind].
    assert (Hgo : forall g, foot_sized g -> exists g', (if Rltb (sttnp s) ((phDur f - sT s) * shalf + EPS) then flyTo g (vget v 0) (vget v (snb s)) s0 (sttnp s) (sttnp s) fb
                  else flyTo g (vget v 0) (vget v (snb s)) (fmaxHeight g) (sttnp s) (ssub (sttnp s) (smul (ssub (phDur f) (sT s)) shalf)) fb) = Ok g' /\ foot_sized g').
    { intros g Hg. destruct (Rltb_spec (sttnp s) ((phDur f - sT s) * shalf + EPS)) as [L2|L2].
      - apply flyTo_sized; assumption.
      - apply flyTo_sized; [assumption|assumption|]. change (ssub (sttnp s) (smul (ssub (phDur f) (sT s)) shalf)) with (sttnp s - (phDur f - sT s) * shalf). lra. }
    destruct (phType f) eqn:Et; [destruct Hy; contradiction| |].
    + destruct (Hgo (sright s) HR) as (g' & -> & G'). cbn [bind]. eexists. split; [reflexivity|]. split; [split; assumption|].
      split; [unfold same_plan; cbn; repeat split|]. split; [reflexivity|]. cbn. split; [auto|]. intros H'. exfalso. apply H'. auto.
    + destruct (Hgo (sleft s) HL) as (g' & -> & G'). cbn [bind]. eexists. split; [reflexivity|]. split; [split; assumption|].
      split; [unfold same_plan; cbn; repeat split|]. split; [reflexivity|]. cbn. split; [|auto]. intros H'. exfalso. apply H'. auto.
  - intros Hb s' H. apply Hb. intros _. apply bind_ok in H. destruct H as (x & Hx & H). apply bind_ok in H. destruct H as (y & Hyy & H).
    apply guard_ok in Hyy. destruct Hyy as (Hl & _). apply Nat.ltb_lt in Hl. split; [exact Hl|]. intros E. rewrite E in H.
    destruct (phType f); [discriminate| |]; apply bind_ok in H; destruct H as (g & Hg & _);
      match type of Hg with (if ?c then _ else _) = _ => destruct c end; rewrite flyTo_nan in Hg by assumption; discriminate.
Qed.

Lemma sized_step c s s' : full s -> types s <> [] -> feet_sized s -> sstep_call c s = Ok s' -> feet_sized s'.
Proof.
  intros Hfull Hne (HL & HR) H. destruct c; cbn [sstep_call] in H.
  - unfold s_setNbSamples, f_setNbSamples in H. binds H. injection H as <-. cbn.
    repeat match goal with E : (do _ <- guard _; Ok _) = Ok _ |- _ => apply guard_ok in E; destruct E as (_ & E); injection E as <- end. split; assumption.
  - unfold s_setSamplingPeriod, f_setSamplingPeriod in H. binds H. injection H as <-. cbn.
    repeat match goal with E : (do _ <- guard _; Ok _) = Ok _ |- _ => apply guard_ok in E; destruct E as (_ & E); injection E as <- end. split; assumption.
  - unfold s_setStepPeriod in H. apply guard_ok in H. destruct H as (_ & H). apply bind_ok in H. destruct H as (ds & _ & H). destruct ds; [injection H as <-; split; assumption|].
    apply guard_ok in H. destruct H as (_ & H). apply bind_ok in H. destruct H as (f & _ & H). apply bind_ok in H. destruct H as (t & _ & H). injection H as <-. split; assumption.
  - unfold s_setInitialDoubleSupportLength in H. apply bind_ok in H. destruct H as (ds & _ & H). destruct ds; [|injection H as <-; split; assumption].
    apply bind_ok in H. destruct H as (u & _ & H). apply bind_ok in H. destruct H as (f & _ & H). apply bind_ok in H. destruct H as (t & _ & H). injection H as <-. split; assumption.
  - injection H as <-. split; assumption.
  - injection H as <-. destruct d; split; assumption.
  - injection H as <-. destruct d; split; assumption.
  - injection H as <-. destruct d; split; assumption.
  - unfold s_setFootStateX in H. apply guard_ok in H. destruct H as (L & H). apply Nat.eqb_eq in L. injection H as <-.
    destruct HL as (L1 & L2 & L3), HR as (R1 & R2 & R3). destruct d; repeat split; cbn; assumption.
  - unfold s_setFootStateY in H. apply guard_ok in H. destruct H as (L & H). apply Nat.eqb_eq in L. injection H as <-.
    destruct HL as (L1 & L2 & L3), HR as (R1 & R2 & R3). destruct d; repeat split; cbn; assumption.
  - unfold s_setFootStateZ in H. apply guard_ok in H. destruct H as (L & H). apply Nat.eqb_eq in L. injection H as <-.
    destruct HL as (L1 & L2 & L3), HR as (R1 & R2 & R3). destruct d; repeat split; cbn; assumption.
  - apply bind_ok in H. destruct H as ((s1 & v1) & H & E). injection E as <-. cbn [fst].
    destruct (update_shape _ _ _ _ _ Hfull H) as (f & i & _ & _ & _ & _ & _ & _ & El & Er & _). unfold feet_sized. rewrite El, Er. split; assumption.
  - destruct (cbl (stl s)) as [|f r] eqn:Ec; [unfold types in Hne; rewrite Ec in Hne; contradiction|].
    assert (Hf : cb_at (stl s) 0 = Ok f) by (unfold cb_at; rewrite Ec; reflexivity).
    destruct (feet_exact v fb s f Hf (conj HL HR)) as (A & B). cbn zeta in A, B.
    assert (D : (phType f <> DS /\ sttnp s < phDur f - sT s + EPS -> (snb s < vlen v)%nat /\ sttnp s <> 0)).
    { destruct (Nat.lt_decidable (snb s) (vlen v)) as [D1|D1].
      - destruct (Req_dec (sttnp s) 0) as [D2|D2]; [|auto]. intros F. exfalso. apply (B ltac:(intros G; destruct (G F); contradiction) s' H).
      - intros F. exfalso. apply (B ltac:(intros G; destruct (G F); contradiction) s' H). }
    destruct (A D) as (s1 & E & Z & _). rewrite E in H. injection H as <-. exact Z.
Qed.
Lemma sized_steps cs : forall s s', full s -> chain follows (types s) -> types s <> [] -> feet_sized s -> ssteps cs s = Ok s' -> feet_sized s'.
Proof.
  induction cs as [|c cs IH]; intros s s' H1 H2 H3 H4 H; cbn [ssteps] in H; [injection H as <-; assumption|].
  apply bind_ok in H. destruct H as (s1 & Hc & H). destruct (step_inv c s s1 H1 H2 H3 Hc) as (A & B & C).
  exact (IH s1 s' A B C (sized_step c s s1 H1 H3 H4 Hc) H).
Qed.
Lemma reachable_sized s : reachable s -> feet_sized s.
Proof.
  intros (N & T & s0 & cs & H0 & Hcs). apply (sized_steps cs s0 s); try exact Hcs;
  unfold newSup, newFoot in H0; repeat (apply bind_ok in H0; destruct H0 as (? & ? & H0)); injection H0 as <-; try reflexivity; try exact Logic.I; try discriminate.
  repeat match goal with E : (do _ <- guard _; _) = Ok _ |- _ => apply guard_ok in E; destruct E as (_ & E) end.
  repeat match goal with E : Ok _ = Ok _ |- _ => injection E as <- end. repeat split.
Qed.

Lemma view_exists s : reachable s -> exists w, sees s w.
Proof.
  intros Hr. destruct (reachable_inv s Hr) as (_ & _ & Hne). destruct (cbl (stl s)) as [|f r] eqn:Ec; [unfold types in Hne; rewrite Ec in Hne; contradiction|].
  exists (MkView (sN s) (sT s) (sfb s) (sstep s) (sDS s) (smove s) (sleft s) (sright s) f r (sttnp s) (snb s)). unfold sees. cbn. auto 12.
Qed.

Lemma front_of s w : sees s w -> s_front s = Ok (vw_now w).
Proof. intros (_ & _ & _ & _ & _ & _ & _ & _ & E & _). unfold s_front, cb_at. rewrite E. reflexivity. Qed.
Lemma in_DS s w : sees s w -> exists b, s_isInDS s = Ok b /\ (b = false <-> single_support w).
Proof.
  intros V. unfold s_isInDS. rewrite (front_of s w V). cbn [bind]. eexists. split; [reflexivity|]. unfold single_support.
  destruct (phType (vw_now w)); cbn [is_DS]; intuition congruence.
Qed.
Lemma set_front s w x : sees s w -> cb_set (stl s) 0 x = Ok (MkCb (x :: vw_next w) (cbcap (stl s))).
Proof. intros (_ & _ & _ & _ & _ & _ & _ & _ & E & _). unfold cb_set, cb_size. rewrite E. reflexivity. Qed.

(** In every state that any history of calls reaches: a setter, or an update of the feet, returns exactly when it is
    accepted. *)
Theorem C61_call_returns_iff : forall s w c, reachable s -> sees s w -> (forall v fb, c <> SUpdateTimeline v fb) ->
  ((exists s', sstep_call c s = Ok s') <-> accepts w c).
Proof.
  intros s w c Hr V Hc. pose proof V as (E1 & E2 & E3 & E4 & E5 & E6 & E7 & E8 & E9 & E10 & E11).
  destruct c; cbn [sstep_call accepts]; try (split; [intros _; exact Logic.I|intros _; eexists; reflexivity]).
  - unfold s_setNbSamples, f_setNbSamples. destruct (Nat.ltb_spec 0 n) as [L|L]; cbn [guard bind].
    + split; [auto|]. intros _. eexists. reflexivity.
    + split; [intros (? & H); discriminate|lia].
  - unfold s_setSamplingPeriod, f_setSamplingPeriod. change (sleb s0 T) with (Rleb 0 T). change (sltb s0 T) with (Rltb 0 T).
    destruct (Rleb_spec 0 T), (Rltb_spec 0 T); cbn [guard bind]; split; intros H; try (destruct H; discriminate); try lra; try (eexists; reflexivity).
  - unfold s_setStepPeriod. change (sltb s0 p) with (Rltb 0 p). destruct (in_DS s w V) as (b & -> & Hb). cbn [bind].
    change (sltb s0 (ssub (sadd (sttnp s) p) (sstep s))) with (Rltb 0 (sttnp s + p - sstep s)).
    destruct (Rltb_spec 0 p) as [L|L]; cbn [guard bind].
    2: { split; [intros (? & H); discriminate|intros (H & _); lra]. }
    destruct b.
    + split; [|intros _; eexists; reflexivity]. intros _. split; [exact L|]. intros S. apply Hb in S. discriminate.
    + assert (S : single_support w) by (apply Hb; reflexivity). rewrite (front_of s w V). cbn [bind]. rewrite (set_front s w _ V). cbn [bind].
      rewrite <- E10, <- E4. destruct (Rltb_spec 0 (sttnp s + p - sstep s)) as [M|M]; cbn [guard bind].
      * split; [|intros _; eexists; reflexivity]. intros _. split; [exact L|]. intros _. lra.
      * split; [intros (? & H); discriminate|]. intros (_ & H). specialize (H S). lra.
  - unfold s_setInitialDoubleSupportLength. destruct (in_DS s w V) as (b & -> & Hb). cbn [bind].
    change (sltb L (ssub (sDS s) EPS)) with (Rltb L (sDS s - EPS)). change (sltb (ssub (sDS s) L) (sadd (sttnp s) EPS)) with (Rltb (sDS s - L) (sttnp s + EPS)).
    rewrite <- E10, <- E5. destruct b.
    + rewrite (front_of s w V). cbn [bind]. rewrite (set_front s w _ V). cbn [bind].
      assert (S : ~ single_support w) by (intros S; apply Hb in S; discriminate).
      destruct (Rltb_spec L (sDS s - EPS)) as [M|M].
      * destruct (Rltb_spec (sDS s - L) (sttnp s + EPS)) as [M2|M2]; cbn [guard bind].
        -- split; [intros _; right; right; lra|intros _; eexists; reflexivity].
        -- split; [intros (? & H); discriminate|]. intros [H|[H|H]]; [contradiction|lra|lra].
      * cbn [bind]. split; [intros _; right; left; lra|intros _; eexists; reflexivity].
    + split; [|intros _; eexists; reflexivity]. intros _. left. apply Hb. reflexivity.
  - unfold s_setFootStateX. destruct (Nat.eqb_spec (vlen v) 3); cbn [guard bind]; split; intros H; try (destruct H; discriminate); try contradiction; try (eexists; reflexivity); assumption.
  - unfold s_setFootStateY. destruct (Nat.eqb_spec (vlen v) 3); cbn [guard bind]; split; intros H; try (destruct H; discriminate); try contradiction; try (eexists; reflexivity); assumption.
  - unfold s_setFootStateZ. destruct (Nat.eqb_spec (vlen v) 3); cbn [guard bind]; split; intros H; try (destruct H; discriminate); try contradiction; try (eexists; reflexivity); assumption.
  - exfalso. eapply Hc. reflexivity.
  - destruct (feet_exact v fb s (vw_now w) (front_of s w V) (reachable_sized s Hr)) as (A & B). cbn zeta in A, B. unfold flying, single_support.
    rewrite <- E2, <- E10, <- E11. split.
    + intros (s' & H). destruct (Nat.lt_decidable (snb s) (vlen v)) as [D1|D1].
      * destruct (Req_dec (sttnp s) 0) as [D2|D2]; [|auto]. intros F. exfalso. apply (B ltac:(intros G; destruct (G F); contradiction) s' H).
      * intros F. exfalso. apply (B ltac:(intros G; destruct (G F); contradiction) s' H).
    + intros G. destruct (A G) as (s' & E & _). exists s'. exact E.
Qed.

(** ... and it then changes what [effect] says. *)
Theorem C61_call_effect : forall s w c s', reachable s -> sees s w -> sstep_call c s = Ok s' ->
  exists w', sees s' w' /\ effect c w w'.
Proof.
  intros s w c s' Hr V H.
  assert (Hr' : reachable s').
  { destruct Hr as (N & T & s0 & cs & H0 & Hcs). exists N, T, s0, (cs ++ [c]). split; [exact H0|]. clear -Hcs H. revert s0 Hcs.
    induction cs as [|c0 cs IH]; intros s0 Hcs; cbn [app ssteps] in *; [injection Hcs as ->; rewrite H; reflexivity|].
    apply bind_ok in Hcs. destruct Hcs as (s1 & E & Hs). rewrite E. cbn [bind]. apply IH. exact Hs. }
  destruct (view_exists s' Hr') as (w' & V'). exists w'. split; [exact V'|]. pose proof V as (E1 & E2 & E3 & E4 & E5 & E6 & E7 & E8 & E9 & E10 & E11).
  pose proof V' as (F1 & F2 & F3 & F4 & F5 & F6 & F7 & F8 & F9 & F10 & F11).
  assert (Hfeet : forall d g, s' = s_setFoot d g s -> same_but_feet w w' /\ match d with SLeft => vw_left w' = g /\ vw_right w' = vw_right w | SRight => vw_right w' = g /\ vw_left w' = vw_left w end).
  { intros d g ->. unfold same_but_feet. destruct d; cbn [s_setFoot s_setFeet sN sT sfb sstep sDS smove sleft sright stl sttnp snb] in *; rewrite E9 in F9; injection F9 as A B; repeat split; congruence. }
  destruct c; cbn [sstep_call effect] in H |- *.
  - unfold s_setNbSamples, f_setNbSamples in H. apply guard_ok in H. destruct H as (L & H). rewrite L in H. cbn [guard bind] in H. injection H as <-.
    cbn [s_setN sN sT sfb sstep sDS smove sleft sright stl sttnp snb] in *. rewrite E9 in F9. injection F9 as A B. unfold foot_n, foot_is. rewrite <- F7, <- F8, <- E7, <- E8. cbn. repeat split; congruence.
  - unfold s_setSamplingPeriod, f_setSamplingPeriod in H. apply guard_ok in H. destruct H as (_ & H). destruct (sltb s0 T); [|discriminate]. cbn [guard bind] in H. injection H as <-.
    cbn [sN sT sfb sstep sDS smove sleft sright stl sttnp snb] in *. rewrite E9 in F9. injection F9 as A B. unfold foot_T, foot_is. rewrite <- F7, <- F8, <- E7, <- E8. cbn. repeat split; congruence.
  - unfold s_setStepPeriod in H. apply guard_ok in H. destruct H as (_ & H). destruct (in_DS s w V) as (b & Eb & Hb). rewrite Eb in H. cbn [bind] in H. destruct b.
    + assert (S : ~ single_support w) by (intros S; apply Hb in S; discriminate). injection H as <-.
      cbn [sN sT sfb sstep sDS smove sleft sright stl sttnp snb] in *. rewrite E9 in F9. injection F9 as A B. repeat (split; [congruence|]). split; [contradiction|]. intros _. split; congruence.
    + assert (S : single_support w) by (apply Hb; reflexivity). apply guard_ok in H. destruct H as (_ & H). rewrite (front_of s w V) in H. cbn [bind] in H. rewrite (set_front s w _ V) in H. cbn [bind] in H. injection H as <-.
      cbn [sN sT sfb sstep sDS smove sleft sright stl sttnp snb cbl] in *. injection F9 as A B. repeat (split; [congruence|]). split; [|contradiction]. intros _. unfold longer. rewrite <- A, <- F10, E10, E4. split; reflexivity.
  - unfold s_setInitialDoubleSupportLength in H. destruct (in_DS s w V) as (b & Eb & Hb). rewrite Eb in H. cbn [bind] in H. destruct b.
    + assert (S : ~ single_support w) by (intros S; apply Hb in S; discriminate). apply bind_ok in H. destruct H as (u & _ & H). rewrite (front_of s w V) in H. cbn [bind] in H. rewrite (set_front s w _ V) in H. cbn [bind] in H. injection H as <-.
      cbn [sN sT sfb sstep sDS smove sleft sright stl sttnp snb cbl] in *. injection F9 as A B. repeat (split; [congruence|]). split; [contradiction|]. intros _. unfold longer. rewrite <- A, <- F10, E10, E5. split; reflexivity.
    + assert (S : single_support w) by (apply Hb; reflexivity). injection H as <-.
      cbn [sN sT sfb sstep sDS smove sleft sright stl sttnp snb] in *. rewrite E9 in F9. injection F9 as A B. repeat (split; [congruence|]). split; [|contradiction]. intros _. split; congruence.
  - injection H as <-. cbn [s_setMove sN sT sfb sstep sDS smove sleft sright stl sttnp snb] in *. rewrite E9 in F9. injection F9 as A B. repeat split; congruence.
  - injection H as <-. destruct (Hfeet d _ eq_refl) as (A & B). split; [exact A|]. destruct d; destruct B as (-> & B); (split; [|exact B]); unfold foot_is; cbn; rewrite ?E7, ?E8; repeat split.
  - injection H as <-. destruct (Hfeet d _ eq_refl) as (A & B). split; [exact A|]. destruct d; destruct B as (-> & B); (split; [|exact B]); unfold foot_is; cbn; rewrite ?E7, ?E8; repeat split.
  - injection H as <-. destruct (Hfeet d _ eq_refl) as (A & B). split; [exact A|]. destruct d; destruct B as (-> & B); (split; [|exact B]); unfold foot_is; cbn; rewrite ?E7, ?E8; repeat split.
  - unfold s_setFootStateX in H. apply guard_ok in H. destruct H as (_ & H). injection H as <-. destruct (Hfeet d _ eq_refl) as (A & B). split; [exact A|]. destruct d; destruct B as (-> & B); (split; [|exact B]); unfold foot_is; cbn; rewrite ?E7, ?E8; repeat split.
  - unfold s_setFootStateY in H. apply guard_ok in H. destruct H as (_ & H). injection H as <-. destruct (Hfeet d _ eq_refl) as (A & B). split; [exact A|]. destruct d; destruct B as (-> & B); (split; [|exact B]); unfold foot_is; cbn; rewrite ?E7, ?E8; repeat split.
  - unfold s_setFootStateZ in H. apply guard_ok in H. destruct H as (_ & H). injection H as <-. destruct (Hfeet d _ eq_refl) as (A & B). split; [exact A|]. destruct d; destruct B as (-> & B); (split; [|exact B]); unfold foot_is; cbn; rewrite ?E7, ?E8; repeat split.
  - apply bind_ok in H. destruct H as ((s1 & v1) & H & E). injection E as <-. cbn [fst] in *. destruct (reachable_inv s Hr) as (Hfull & _).
    destruct (update_shape _ _ _ _ _ Hfull H) as (f & i & Htl & _ & _ & G1 & G2 & G3 & G4 & G5 & G6 & G7 & G8 & _ & Hnf).
    rewrite Htl in F9. unfold tlist in F9. injection F9 as A B.
    split; [unfold same_configuration; repeat split; congruence|]. split; [congruence|]. split; [congruence|]. split; [congruence|].
    split; [|split].
    + intros L. destruct Hnf as [(_ & C & D)|(C & _)]; [|lra]. apply rd_inv in C. rewrite E9 in C. injection C as C. split; congruence.
    + intros L. destruct Hnf as [(C & _)|(_ & C & D)]; [lra|]. apply rd_inv in C. rewrite E9 in C. cbn [nth_error] in C. destruct (vw_next w) as [|x r] eqn:En; [discriminate|]. injection C as C.
      exists r. split; congruence.
    + intros p Hp. rewrite <- B in Hp. apply in_map_iff in Hp. destruct Hp as (j & <- & _). unfold mkph, durationOf. cbn [phDur phType].
      destruct (typ (smove s) (phType f) j); congruence.
  - destruct (feet_exact v fb s (vw_now w) (front_of s w V) (reachable_sized s Hr)) as (A & B). cbn zeta in A, B.
    assert (D : phType (vw_now w) <> DS /\ sttnp s < phDur (vw_now w) - sT s + EPS -> (snb s < vlen v)%nat /\ sttnp s <> 0).
    { pose proof (proj1 (C61_call_returns_iff s w (SUpdateFeet v fb) Hr V ltac:(discriminate)) (ex_intro _ s' H)) as Q. cbn [accepts] in Q.
      unfold flying, single_support in Q. rewrite <- E2, <- E10, <- E11 in Q. exact Q. }
    destruct (A D) as (s1 & E & _ & (P1 & P2 & P3 & P4 & P5 & P6 & P7 & P8 & P9) & G & HL & HR). rewrite E in H. injection H as <-.
    rewrite P8, E9 in F9. injection F9 as X Y. unfold same_configuration, flying, single_support. rewrite <- E2, <- E10.
    split; [repeat split; congruence|]. do 4 (split; [congruence|]). split; [congruence|]. split.
    + intros Z. rewrite <- F7, <- E7. apply HL. exact Z.
    + intros Z. rewrite <- F8, <- E8. apply HR. exact Z.
Qed.

(** The time already spent in the phase in progress is not changed by a new duration. *)
Theorem C61_elapsed_time_kept : forall s w c s' w', reachable s -> sees s w -> sees s' w' -> sstep_call c s = Ok s' ->
  (exists p, c = SSetStepPeriod p) \/ (exists L, c = SSetDSLength L) ->
  phDur (vw_now w') - vw_remains w' = phDur (vw_now w) - vw_remains w /\ phType (vw_now w') = phType (vw_now w).
Proof.
  intros s w c s' w' Hr V V' H Hc. destruct (C61_call_effect s w c s' Hr V H) as (w2 & V2 & E).
  assert (A : vw_now w2 = vw_now w' /\ vw_remains w2 = vw_remains w').
  { destruct V' as (_ & _ & _ & _ & _ & _ & _ & _ & A & B & _), V2 as (_ & _ & _ & _ & _ & _ & _ & _ & C & D & _). rewrite A in C. injection C as C _. split; congruence. }
  destruct A as (<- & <-).
  assert (D : single_support w \/ ~ single_support w) by (unfold single_support; destruct (phType (vw_now w)); [right|left|left]; congruence).
  destruct Hc as [(p & ->)|(L & ->)]; cbn [effect] in E; destruct E as (_ & _ & _ & _ & _ & _ & _ & _ & _ & _ & E1 & E2);
  (destruct D as [D|D]; [destruct (E1 D) as (-> & ->)|destruct (E2 D) as (-> & ->)]); cbn [longer phDur phType]; split; try reflexivity; ring.
Qed.

(** ** C62: the queries *)
(** The single supports of a plan, in order. *)
Definition supports (w : sview) : list (phase R) := filter (fun p => negb (is_DS (phType p))) (vw_now w :: vw_next w).
Definition mean (a b : vec R) (m : vec R) : Prop := vlen m = 3%nat /\ forall i, vget m i = (vget a i + vget b i) / 2.
(** The origin of the CoP: the support foot; at the beginning of a walk the left foot, which will be the first
    support; when standing the middle of the feet. *)
Theorem C62_support_foot : forall s w, reachable s -> sees s w -> exists x y,
  s_getSupportFootStateX s = Ok x /\ s_getSupportFootStateY s = Ok y
  /\ match phType (vw_now w) with
     | LeftSS => x = fsx (vw_left w) /\ y = fsy (vw_left w)
     | RightSS => x = fsx (vw_right w) /\ y = fsy (vw_right w)
     | DS => if vw_move w then x = fsx (vw_left w) /\ y = fsy (vw_left w)
             else mean (fsx (vw_left w)) (fsx (vw_right w)) x /\ mean (fsy (vw_left w)) (fsy (vw_right w)) y
     end.
Proof.
  intros s w Hr V. destruct (reachable_sized s Hr) as ((L1 & L2 & _) & (R1 & R2 & _)). unfold s_getSupportFootStateX, s_getSupportFootStateY. rewrite (front_of s w V). cbn [bind].
  destruct V as (_ & _ & _ & _ & _ & E6 & E7 & E8 & _). rewrite <- E6, <- E7, <- E8. destruct (phType (vw_now w)); [destruct (smove s)| |]; try (eexists _, _; split; [reflexivity|split; [reflexivity|split; reflexivity]]).
  unfold middle. rewrite L1, L2, R1, R2. cbn [Nat.eqb guard bind]. eexists _, _. split; [reflexivity|]. split; [reflexivity|].
  unfold mean. cbn [vlen vget]. rewrite L1, L2 || idtac. repeat split; try assumption; intros i; rsimpl_goal; rewrite Rplus_comm; reflexivity.
Qed.
Lemma seq_S_filter mv p i j d : (forall k, (k < i)%nat -> typ mv p (d + k) <> DS) ->
  forall s, (j < i)%nat -> nth_error (filter (fun q : phase R => negb (is_DS (phType q))) (map (fun k => mkph s (typ mv p k)) (seq d i))) j = Some (mkph s (typ mv p (d + j))).
Proof.
  revert j d. induction i as [|i IH]; intros j d H s Hj; [lia|]. cbn [seq map filter phType mkph].
  destruct (is_DS_spec (typ mv p d)) as [E|_].
  { exfalso. apply (H 0%nat); [lia|]. rewrite Nat.add_0_r. exact E. }
  cbn [negb]. destruct j as [|j]; cbn [nth_error]; [rewrite Nat.add_0_r; reflexivity|].
  rewrite IH; [f_equal; f_equal; f_equal; lia| |lia]. intros k Hk. replace (S d + k)%nat with (d + S k)%nat by lia. apply H. lia.
Qed.
(** After an update of the timeline the kinematic polygon of a step is defined exactly for the planned steps, and is
    the polygon of the foot on which the robot stands when it makes that step: step number i ends the single support
    number i of the plan. *)
Theorem C62_kinematic_polygon : forall s v fb s' v' w', reachable s -> s_updateTimeline v fb s = Ok (s', v') -> sees s' w' ->
  forall i, ((exists g, s_getKinematicConvexPolygon i s' = Ok g) <-> (i < vw_nb w')%nat)
  /\ forall g, s_getKinematicConvexPolygon i s' = Ok g -> exists p, nth_error (supports w') i = Some p
       /\ (phType p = LeftSS /\ g = fkin (vw_left w') \/ phType p = RightSS /\ g = fkin (vw_right w')).
Proof.
  intros s v fb s' v' w' Hr H V j. destruct (reachable_inv s Hr) as (Hfull & _).
  destruct (update_shape _ _ _ _ _ Hfull H) as (f & i & Htl & _ & Hnb & _ & _ & _ & _ & _ & _ & _ & Hm & _).
  pose proof V as (_ & _ & _ & _ & _ & E6 & E7 & E8 & E9 & E10 & E11).
  assert (Hnow : vw_now w' = f /\ vw_next w' = map (fun k => mkph s (typ (smove s) (phType f) k)) (seq 1 i)).
  { rewrite Htl in E9. unfold tlist in E9. injection E9 as A B. auto. }
  assert (K : (j < snb s')%nat -> exists p, nth_error (supports w') j = Some p /\ phType p <> DS
     /\ cb_at (stl s') (if (is_DS (phType (vw_now w')) && smove s')%bool then S j else j) = Ok p).
  { intros Hj. destruct Hnow as (A & B). unfold supports. rewrite A, B. rewrite Hnb, nbs_eq in Hj. unfold nbs_closed in Hj. rewrite Hm. unfold cb_at. rewrite Htl. cbn [filter].
    destruct (is_DS_spec (phType f)) as [Ef|Ef]; cbn [negb].
    - destruct (smove s) eqn:Em; [|lia]. cbn [andb]. exists (mkph s (typ true (phType f) (S j))). split; [|split].
      + apply (seq_S_filter true (phType f) i j 1); [intros k _; rewrite Ef; apply typ_start|lia].
      + cbn [mkph phType]. rewrite Ef. apply typ_start.
      + apply rd_some. rewrite <- Em. apply tlist_nth. lia.
    - cbn [andb]. destruct j as [|j].
      + exists f. split; [reflexivity|]. split; [exact Ef|]. reflexivity.
      + destruct (smove s) eqn:Em; [|lia]. exists (mkph s (typ true (phType f) (S j))). split; [|split].
        * cbn [nth_error]. apply (seq_S_filter true (phType f) i j 1); [intros k _; apply typ_walk; exact Ef|lia].
        * cbn [mkph phType]. apply typ_walk. exact Ef.
        * apply rd_some. rewrite <- Em. apply tlist_nth. lia. }
  unfold s_getKinematicConvexPolygon, s_isInDS. rewrite (front_of s' w' V). cbn [bind]. rewrite <- E11. destruct (Nat.ltb_spec j (snb s')) as [L|L]; cbn [guard bind].
  - destruct (K L) as (p & Hp & Hds & Hat). rewrite Hat. cbn [bind]. rewrite <- E7, <- E8. split.
    + split; [auto|]. intros _. destruct (phType p); [contradiction|eauto|eauto].
    + intros g Hg. exists p. split; [exact Hp|]. destruct (phType p); [contradiction| |]; injection Hg as <-; auto.
  - split; [|intros g Hg; discriminate]. split; [intros (g & Hg); discriminate|lia].
Qed.
(** The number of planned steps is the number of single supports that end in the plan. *)
Theorem C62_planned_steps : forall s v fb s' v' w', reachable s -> s_updateTimeline v fb s = Ok (s', v') -> sees s' w' ->
  vw_nb w' = length (filter (fun p => negb (is_DS (phType p))) (removelast (vw_now w' :: vw_next w'))).
Proof.
  intros s v fb s' v' w' Hr H V. destruct (reachable_inv s Hr) as (Hfull & _).
  destruct (update_shape _ _ _ _ _ Hfull H) as (f & i & Htl & _ & Hnb & _). destruct V as (_ & _ & _ & _ & _ & _ & _ & _ & E9 & _ & E11).
  rewrite <- E9, <- E11, Hnb, Htl. clear. induction i as [|i IH]; [reflexivity|]. rewrite tlist_S, removelast_last. cbn [nbs].
  assert (E : exists r, tlist s f i = r ++ [match i with O => f | _ => mkph s (typ (smove s) (phType f) i) end]).
  { destruct i as [|i]; [exists []; reflexivity|exists (tlist s f i); apply tlist_S]. }
  destruct E as (r & E). rewrite E in IH |- *. rewrite removelast_last in IH. rewrite IH, filter_app, app_length. cbn [filter].
  assert (T : phType (match i with O => f | _ => mkph s (typ (smove s) (phType f) i) end) = typ (smove s) (phType f) i) by (destruct i; reflexivity).
  rewrite T. destruct (is_DS (typ (smove s) (phType f) i)); cbn [negb length]; lia.
Qed.
(** A stop request in the initial double support makes the query of a planned step abort until the next update. *)
Theorem C62_query_after_stop_refuted : forall s w, reachable s -> sees s w -> phType (vw_now w) = DS ->
  s_getKinematicConvexPolygon 0 (s_setMove false s) = Abort.
Proof.
  intros s w Hr V E. unfold s_getKinematicConvexPolygon, s_isInDS. assert (V' : s_front (s_setMove false s) = Ok (vw_now w)) by (apply front_of in V; exact V).
  rewrite V'. cbn [bind]. rewrite E. cbn [is_DS andb smove s_setMove]. cbn [s_setMove stl snb]. unfold s_front in V'. cbn [s_setMove stl] in V'. rewrite V'. cbn [bind]. rewrite E.
  destruct (Nat.ltb 0 (snb s)); reflexivity.
Qed.
End Calls.

(** ** Cases *)
Section Cases.
Context (TQ : Trig Q).
Local Open Scope Q_scope.
(** A negative double support length is accepted in single support, and the next plan that stops then reads
    outside the timeline. *)
Theorem C61_negative_double_support_refuted : exists s v s1,
  qwalk 6 1 2 1 (1#2) (repeat true 5) = Ok (s, v) /\ s_setInitialDoubleSupportLength (-1) s = Ok s1
  /\ s_updateTimeline v (1#2) (s_setMove false s1) = UB /\ exists s2, s_updateTimeline v (1#2) (s_setMove false s) = Ok s2.
Proof.
  eexists _, _, _. split; [vm_compute; reflexivity|]. split; [vm_compute; reflexivity|]. split; [vm_compute; reflexivity|].
  eexists. vm_compute. reflexivity.
Qed.
(** In the middle of its first step, with half a second left, the walk refuses to shorten its steps by half a second
    and accepts to shorten them by a quarter. *)
Example C61_case : match qwalk 6 1 2 1 (1#2) (repeat true 5) with
  | Ok (s, v) => map phType (cbl (stl s)) = [LeftSS; RightSS; LeftSS; RightSS] /\ sttnp s = (1#2)
                 /\ s_setStepPeriod (3#2) s = Abort
                 /\ match s_setStepPeriod (7#4) s with Ok s' => Qred (sttnp s') = (1#4) /\ map (fun p => Qred (phDur p)) (cbl (stl s')) = [7#4; 2; 2; 2] | _ => False end
  | _ => False end.
Proof. vm_compute. repeat split. Qed.
Example C62_case : match qwalk 6 1 2 1 (1#2) (repeat true 1) with
  | Ok (s, v) => map phType (cbl (stl s)) = [DS; LeftSS; RightSS; LeftSS] /\ snb s = 2%nat
                 /\ match s_getKinematicConvexPolygon 0 s, s_getKinematicConvexPolygon 1 s with
                    | Ok a, Ok b => pverts a = pverts (qkin false) /\ pverts b = pverts (qkin true) | _, _ => False end
                 /\ s_getKinematicConvexPolygon 2 s = Abort /\ s_getKinematicConvexPolygon 0 (s_setMove false s) = Abort
  | _ => False end.
Proof. vm_compute. repeat split. Qed.
End Cases.

Print Assumptions C61_call_returns_iff. Print Assumptions C61_call_effect. Print Assumptions C61_elapsed_time_kept. Print Assumptions C61_negative_double_support_refuted.
Print Assumptions C62_support_foot. Print Assumptions C62_kinematic_polygon. Print Assumptions C62_planned_steps. Print Assumptions C62_query_after_stop_refuted.
