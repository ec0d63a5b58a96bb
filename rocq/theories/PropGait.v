(** The gait: C27 and C28. *)

From Coq Require Import Reals List ZArith QArith Arith Bool Lra Lia.
From Verif Require Import Scalar LinAlg LinAlgFacts ToolsModel InterpModel PolygonModel FootModel LipModel ModelsFacts
  SupModel SupSpec SupFacts SupTime SupWalk PropTools PropSup.
Import ListNotations.
Local Open Scope R_scope.

Section Gait.
Context {TK : Trig R}.

Definition types (s : sup R) : list ptype := map phType (cbl (stl s)).
(** A supervisor after any history of public calls. *)
Definition reachable (s : sup R) : Prop := exists N T s0 cs, newSup N T = Ok s0 /\ ssteps cs s0 = Ok s.

Lemma types_nth s j p : nth_error (types s) j = Some p <-> exists ph, nth_error (cbl (stl s)) j = Some ph /\ phType ph = p.
Proof.
  unfold types. rewrite nth_error_map. destruct (nth_error (cbl (stl s)) j) as [ph|]; cbn [option_map]; split.
  - intros H. injection H as <-. eauto.
  - intros (q & H & <-). injection H as <-. reflexivity.
  - discriminate.
  - intros (q & H & _). discriminate.
Qed.
Lemma lset_types (l : list (phase R)) f d : nth_error l 0 = Some f -> map phType (lset l 0 (MkPhase (phType f) d)) = map phType l.
Proof. destruct l; cbn; [discriminate|]. intros H. injection H as ->. reflexivity. Qed.
(** Setters change neither the types of the phases nor the fullness of the buffer. *)
Lemma setter_types c s s' : setter c -> sstep_call c s = Ok s' -> types s' = types s /\ (full s -> full s').
Proof.
  assert (Hset : forall (t' : cbuf (phase R)) f d, cb_at (stl s) 0 = Ok f -> cb_set (stl s) 0 (MkPhase (phType f) d) = Ok t' ->
     map phType (cbl t') = types s /\ (full s -> length (cbl t') = cbcap t')).
  { intros t' f d Hf H. unfold cb_set in H. apply bind_ok in H. destruct H as (u & _ & H). injection H as <-. cbn [cbl cbcap]. split.
    - apply lset_types. apply rd_inv. exact Hf.
    - unfold full. rewrite lset_length. auto. }
  intros Hc H. destruct c; cbn [setter] in Hc; try contradiction; cbn [sstep_call] in H.
  - unfold s_setNbSamples in H. repeat (apply bind_ok in H; destruct H as (? & _ & H)). injection H as <-. auto.
  - unfold s_setSamplingPeriod in H. repeat (apply bind_ok in H; destruct H as (? & _ & H)). injection H as <-. auto.
  - unfold s_setStepPeriod in H. apply guard_ok in H. destruct H as (_ & H). apply bind_ok in H. destruct H as (ds & _ & H).
    destruct ds; [injection H as <-; auto|]. apply guard_ok in H. destruct H as (_ & H). apply bind_ok in H. destruct H as (f & Hf & H).
    apply bind_ok in H. destruct H as (t' & Ht & H). injection H as <-. exact (Hset _ _ _ Hf Ht).
  - unfold s_setInitialDoubleSupportLength in H. apply bind_ok in H. destruct H as (ds & _ & H).
    destruct ds; [|injection H as <-; auto]. apply bind_ok in H. destruct H as (u & _ & H). apply bind_ok in H. destruct H as (f & Hf & H).
    apply bind_ok in H. destruct H as (t' & Ht & H). injection H as <-. exact (Hset _ _ _ Hf Ht).
  - injection H as <-. auto.
  - injection H as <-. destruct d; auto.
  - injection H as <-. destruct d; auto.
  - injection H as <-. destruct d; auto.
  - unfold s_setFootStateX in H. apply guard_ok in H. destruct H as (_ & H). injection H as <-. destruct d; auto.
  - unfold s_setFootStateY in H. apply guard_ok in H. destruct H as (_ & H). injection H as <-. destruct d; auto.
  - unfold s_setFootStateZ in H. apply guard_ok in H. destruct H as (_ & H). injection H as <-. destruct d; auto.
Qed.
Lemma feet_types v fb s s' : s_updateFeetStates v fb s = Ok s' -> types s' = types s /\ (full s -> full s') /\ smove s' = smove s.
Proof.
  intros H. unfold s_updateFeetStates in H. apply bind_ok in H. destruct H as (p & _ & H).
  match type of H with (if ?c then _ else _) = _ => destruct c end.
  - apply bind_ok in H. destruct H as (x & _ & H). apply bind_ok in H. destruct H as (y & _ & H).
    destruct (phType p); [discriminate| |]; apply bind_ok in H; destruct H as (g & _ & H); injection H as <-; auto.
  - injection H as <-. auto.
Qed.
(** The first phase after an update: the current one, or the next one. *)
Lemma update_types v fb s s' v' : full s -> s_updateTimeline v fb s = Ok (s', v') ->
  exists p i, nth_error (types s) (if Rltb (sttnp s) EPS then 1 else 0) = Some p
   /\ types s' = p :: map (fun j => typ (smove s) p j) (seq 1 i) /\ full s' /\ smove s' = smove s.
Proof.
  intros Hf H. destruct (update_shape v fb s s' v' Hf H) as (f & i & Htl & Hfull & _ & _ & _ & _ & _ & _ & _ & _ & Hm & _ & Hnf).
  exists (phType f), i. split.
  - destruct Hnf as [(A & B & _)|(A & B & _)]; apply rd_inv in B.
    + destruct (Rltb_spec (sttnp s) EPS); [lra|]. apply types_nth. eauto.
    + destruct (Rltb_spec (sttnp s) EPS); [|lra]. apply types_nth. eauto.
  - split; [|auto]. unfold types. rewrite Htl. unfold tlist. cbn [map]. f_equal. rewrite map_map. reflexivity.
Qed.
Lemma update_chain (r : ptype -> ptype -> Prop) v fb s s' v' : full s -> (forall p, r p (nextType (smove s) p)) ->
  s_updateTimeline v fb s = Ok (s', v') -> chain r (types s').
Proof.
  intros Hf Hr H. destruct (update_shape v fb s s' v' Hf H) as (f & i & Htl & _). unfold types. rewrite Htl. apply chain_tlist. exact Hr.
Qed.
Lemma step_inv c s s' : full s -> chain follows (types s) -> types s <> [] -> sstep_call c s = Ok s' ->
  full s' /\ chain follows (types s') /\ types s' <> [].
Proof.
  intros Hf Hch Hne H.
  assert (Hs : setter c \/ (exists v fb, c = SUpdateTimeline v fb) \/ (exists v fb, c = SUpdateFeet v fb)) by (destruct c; cbn [setter]; eauto 6).
  destruct Hs as [Hs|[(v & fb & ->)|(v & fb & ->)]].
  - destruct (setter_types c s s' Hs H) as (-> & A). auto.
  - cbn [sstep_call] in H. apply bind_ok in H. destruct H as ((s1 & v1) & H & E). injection E as <-. cbn [fst].
    destruct (update_types v fb s s1 v1 Hf H) as (p & i & _ & Et & Hf' & _). split; [exact Hf'|]. split.
    + apply (update_chain follows v fb s s1 v1 Hf (fun p => nextType_follows _ p) H).
    + rewrite Et. discriminate.
  - destruct (feet_types v fb s s' H) as (-> & A & _). auto.
Qed.
Lemma steps_inv cs : forall s s', full s -> chain follows (types s) -> types s <> [] -> ssteps cs s = Ok s' ->
  full s' /\ chain follows (types s') /\ types s' <> [].
Proof.
  induction cs as [|c cs IH]; intros s s' H1 H2 H3 H; cbn [ssteps] in H; [injection H as <-; auto|].
  apply bind_ok in H. destruct H as (s1 & Hc & H). destruct (step_inv c s s1 H1 H2 H3 Hc) as (A & B & C). exact (IH s1 s' A B C H).
Qed.
Lemma reachable_inv s : reachable s -> full s /\ chain follows (types s) /\ types s <> [].
Proof.
  intros (N & T & s0 & cs & H0 & Hcs). apply (steps_inv cs s0 s); try exact Hcs;
  unfold newSup, newFoot in H0; repeat (apply bind_ok in H0; destruct H0 as (? & _ & H0)); injection H0 as <-; [reflexivity|exact I|discriminate].
Qed.

(** ** C27 *)
(** In every timeline that any history of calls produces, each phase may follow the one before. *)
Theorem C27_timeline_alternates : forall s, reachable s -> types s <> [] /\ chain follows (types s).
Proof. intros s H. destruct (reachable_inv s H) as (_ & A & B). auto. Qed.
(** No two consecutive single supports on the same foot, and a walk starts on the left foot. *)
Theorem C27_never_the_same_foot_twice : forall s j p q, reachable s ->
  nth_error (types s) j = Some p -> nth_error (types s) (S j) = Some q ->
  (p = q -> p = DS) /\ (p = DS -> q = DS \/ q = LeftSS).
Proof.
  intros s j p q H. destruct (C27_timeline_alternates s H) as (_ & Hc). revert j. induction (types s) as [|a l IH]; intros j Hp Hq; [destruct j; discriminate|].
  destruct j as [|j].
  - injection Hp as <-. cbn [nth_error] in Hq. destruct l as [|b l]; [discriminate|]. injection Hq as <-. destruct Hc as (Hc & _).
    split; intros E; inversion Hc; subst; auto; discriminate.
  - cbn [nth_error] in Hp, Hq. destruct l as [|b l]; [destruct j; discriminate|]. apply (IH (proj2 Hc) j Hp Hq).
Qed.
(** The phase being executed changes only in an update of the timeline, when it is over, to the
    phase planned next, which may follow it. *)
Theorem C27_executed_phase_changes : forall s c s' p p', reachable s -> sstep_call c s = Ok s' ->
  nth_error (types s) 0 = Some p -> nth_error (types s') 0 = Some p' ->
  p' = p \/ ((exists v fb, c = SUpdateTimeline v fb) /\ sttnp s < EPS /\ nth_error (types s) 1 = Some p' /\ follows p p').
Proof.
  intros s c s' p p' R H Hp Hp'. destruct (reachable_inv s R) as (Hf & Hc & _).
  assert (Hs : setter c \/ (exists v fb, c = SUpdateTimeline v fb) \/ (exists v fb, c = SUpdateFeet v fb)) by (destruct c; cbn [setter]; eauto 6).
  destruct Hs as [Hs|[(v & fb & ->)|(v & fb & ->)]].
  - destruct (setter_types c s s' Hs H) as (E & _). left. congruence.
  - cbn [sstep_call] in H. apply bind_ok in H. destruct H as ((s1 & v1) & H & E). injection E as <-. cbn [fst] in Hp'.
    destruct (update_types v fb s s1 v1 Hf H) as (q & i & Hq & Et & _). rewrite Et in Hp'. injection Hp' as <-.
    destruct (Rltb_spec (sttnp s) EPS) as [L|L]; [right|left; congruence]. split; [eauto|]. split; [exact L|]. split; [exact Hq|].
    destruct (types s) as [|x [|y l]]; try discriminate. injection Hp as ->. injection Hq as ->. apply Hc.
  - destruct (feet_types v fb s s' H) as (E & _). left. congruence.
Qed.
(** While the robot is asked to walk, the plan goes on walking. *)
Theorem C27_plan_keeps_walking : forall s v fb s' v', reachable s -> smove s = true -> s_updateTimeline v fb s = Ok (s', v') ->
  chain follows_moving (types s').
Proof.
  intros s v fb s' v' R Hm H. destruct (reachable_inv s R) as (Hf & _). apply (update_chain follows_moving v fb s s' v' Hf); [|exact H].
  rewrite Hm. apply nextType_moving.
Qed.

(** ** C28 *)
(** The robot is asked to stop and every phase after the current one is a double support. *)
Definition stopping (s : sup R) : Prop := smove s = false /\ forall j p, (0 < j)%nat -> nth_error (types s) j = Some p -> p = DS.
Definition standing (s : sup R) : Prop := smove s = false /\ forall j p, nth_error (types s) j = Some p -> p = DS.
Theorem C28_stop_is_planned : forall s v fb s' v', reachable s -> smove s = false -> s_updateTimeline v fb s = Ok (s', v') -> stopping s'.
Proof.
  intros s v fb s' v' R Hm H. destruct (reachable_inv s R) as (Hf & _). destruct (update_types v fb s s' v' Hf H) as (p & i & _ & Et & _ & Em).
  split; [congruence|]. intros j q Hj Hq. rewrite Et in Hq. destruct j as [|j]; [lia|]. cbn [nth_error] in Hq. rewrite nth_error_map in Hq.
  destruct (nth_error (seq 1 i) j) as [z|] eqn:Ez; [|discriminate]. injection Hq as <-. apply nth_error_In, in_seq in Ez. destruct z as [|z]; [lia|].
  rewrite Hm. apply typ_stop.
Qed.
(** Until the robot is asked to walk again, every call keeps this, and the phase executed is the
    same, or double support; in double support it stays there. *)
Theorem C28_stopping_stays : forall s c s', reachable s -> stopping s -> c <> SSetMove true -> sstep_call c s = Ok s' ->
  stopping s' /\ (nth_error (types s') 0 = nth_error (types s) 0 \/ standing s') /\ (standing s -> standing s').
Proof.
  intros s c s' R (Hm & Hst) Hc H. destruct (reachable_inv s R) as (Hf & _).
  assert (Hmove : smove s' = false).
  { destruct c; cbn [sstep_call] in H.
    - unfold s_setNbSamples in H. repeat (apply bind_ok in H; destruct H as (? & _ & H)). injection H as <-. exact Hm.
    - unfold s_setSamplingPeriod in H. repeat (apply bind_ok in H; destruct H as (? & _ & H)). injection H as <-. exact Hm.
    - unfold s_setStepPeriod in H. apply guard_ok in H. destruct H as (_ & H). apply bind_ok in H. destruct H as (ds & _ & H).
      destruct ds; [injection H as <-; exact Hm|]. apply guard_ok in H. destruct H as (_ & H). repeat (apply bind_ok in H; destruct H as (? & _ & H)). injection H as <-. exact Hm.
    - unfold s_setInitialDoubleSupportLength in H. apply bind_ok in H. destruct H as (ds & _ & H).
      destruct ds; [|injection H as <-; exact Hm]. repeat (apply bind_ok in H; destruct H as (? & _ & H)). injection H as <-. exact Hm.
    - injection H as <-. destruct b; [congruence|reflexivity].
    - injection H as <-. destruct d; exact Hm.
    - injection H as <-. destruct d; exact Hm.
    - injection H as <-. destruct d; exact Hm.
    - unfold s_setFootStateX in H. apply guard_ok in H. destruct H as (_ & H). injection H as <-. destruct d; exact Hm.
    - unfold s_setFootStateY in H. apply guard_ok in H. destruct H as (_ & H). injection H as <-. destruct d; exact Hm.
    - unfold s_setFootStateZ in H. apply guard_ok in H. destruct H as (_ & H). injection H as <-. destruct d; exact Hm.
    - apply bind_ok in H. destruct H as ((s1 & v1) & H & E). injection E as <-. destruct (update_types v fb s s1 v1 Hf H) as (_ & _ & _ & _ & _ & Em). cbn [fst]. congruence.
    - destruct (feet_types v fb s s' H) as (_ & _ & Em). congruence. }
  assert (Hs : setter c \/ (exists v fb, c = SUpdateTimeline v fb) \/ (exists v fb, c = SUpdateFeet v fb)) by (destruct c; cbn [setter]; eauto 6).
  assert (Same : types s' = types s -> stopping s' /\ (nth_error (types s') 0 = nth_error (types s) 0 \/ standing s') /\ (standing s -> standing s')).
  { intros E. unfold stopping, standing. rewrite E. split; [auto|]. split; [auto|]. intros (_ & A). auto. }
  destruct Hs as [Hs|[(v & fb & ->)|(v & fb & ->)]].
  - apply Same. apply (setter_types c s s' Hs H).
  - cbn [sstep_call] in H. apply bind_ok in H. destruct H as ((s1 & v1) & H & E). injection E as <-. cbn [fst] in *.
    pose proof (C28_stop_is_planned s v fb s1 v1 R Hm H) as Hst'. split; [exact Hst'|].
    destruct (update_types v fb s s1 v1 Hf H) as (p & i & Hp & Et & _).
    assert (Hall : p = DS -> standing s1).
    { intros ->. split; [exact Hmove|]. intros j q Hq. destruct j as [|j]; [rewrite Et in Hq; injection Hq as <-; reflexivity|]. apply (proj2 Hst' (S j) q ltac:(lia) Hq). }
    split.
    + destruct (Rltb (sttnp s) EPS); [right; apply Hall, (Hst 1%nat p ltac:(lia) Hp)|left]. rewrite Et, Hp. reflexivity.
    + intros (_ & A). apply Hall. exact (A _ _ Hp).
  - apply Same. apply (feet_types v fb s s' H).
Qed.

(** Stopping takes at most the longest phase plus one feedback period. *)
Lemma stop_cycles N n a b fb (HN : (0 < N)%nat) (Hn : (0 < n)%nat) (Ha : (0 < a)%nat) (HaN : (a <= S N)%nat) (Hb : (0 < b)%nat) (Hfb : EPS < fb) l :
  forall s v f i m k, walking N n a b fb s v f i m k -> smove s = false -> Forall allowed l -> Forall (fun x => amove x = false) l ->
  exists s' v' f' i' m' k', cycles fb l (s, v) = Ok (s', v') /\ walking N n a b fb s' v' f' i' m' k' /\ smove s' = false
   /\ (phType f = DS -> phType f' = DS) /\ (phType f' = DS \/ (m' + length l = m)%nat).
Proof.
  induction l as [|x l IH]; intros s v f i m k W Hm Hl Hmv; cbn [cycles].
  - exists s, v, f, i, m, k. cbn [length]. auto 8.
  - inversion Hl as [|y z (Hc & Hq) Hl']; subst. inversion Hmv as [|y z Hx Hmv']; subst. destruct (foot_calls_ok (acalls x) s Hc) as (s0 & E0).
    destruct (walking_feet _ _ _ _ _ _ _ _ _ _ _ _ _ W Hc E0) as (W0 & Em0 & _). rewrite (cycle_calls _ _ _ _ _ _ _ E0).
    destruct (cycle_ok N n a b fb HN Hn Ha HaN Hb Hfb s0 v f i m k (amove x) (aqp x) W0 Hq) as (s1 & v1 & s2 & S0 & w & n1 & i1 & _ & _ & _ & _ & Ec & Em2 & _ & W2).
    rewrite Ec. cbn [bind]. assert (Hm2 : smove s2 = false) by congruence.
    destruct (IH _ _ _ _ _ _ W2 Hm2 Hl' Hmv') as (s' & v' & f' & i' & m' & k' & E' & W' & Hm' & D1 & D2).
    exists s', v', f', i', m', k'. split; [exact E'|]. split; [exact W'|]. split; [exact Hm'|].
    destruct m as [|m]; cbn [next_f next_m] in *.
    + assert (HD : phType f' = DS) by (apply D1; cbn [mkph phType]; rewrite Em0, Hm; apply (typ_stop _ 0)). auto.
    + split; [intros HD; apply D1; exact HD|]. destruct D2 as [D2|D2]; [left; exact D2|right]. cbn [length]. lia.
Qed.
Theorem C28_stop_is_reached : forall s v n a b fb l l', configured s v n a b fb -> Forall allowed l -> Forall allowed l' ->
  Forall (fun x => amove x = false) l' -> (Nat.max a b * n < length l')%nat ->
  exists s' v', cycles fb (l ++ l') (s, v) = Ok (s', v') /\ standing s'.
Proof.
  intros s v n a b fb l l' C Hl Hl' Hmv Hlen. destruct (walk_states _ _ _ _ _ _ _ C Hl) as (s1 & v1 & f & i & m & k & E & W).
  destruct (configured_walking _ _ _ _ _ _ C) as (_ & HN & _). destruct C as [_ Hfb Hn _ (Ha & HaN) _ Hb _ _ _].
  assert (Happ : forall l1 q q1, cycles fb l1 q = Ok q1 -> cycles fb (l1 ++ l') q = cycles fb l' q1).
  { induction l1 as [|x l1 IH]; intros q q1 H; cbn [app cycles] in *; [injection H as ->; reflexivity|].
    apply bind_ok in H. destruct H as (q2 & H2 & H). rewrite H2. cbn [bind]. apply IH. exact H. }
  rewrite (Happ _ _ _ E). destruct l' as [|x l']; [cbn in Hlen; lia|]. cbn [cycles].
  inversion Hl' as [|y z (Hc & Hq) Hl'']; subst. inversion Hmv as [|y z Hx Hmv']; subst. destruct (foot_calls_ok (acalls x) s1 Hc) as (s0 & E0).
  destruct (walking_feet _ _ _ _ _ _ _ _ _ _ _ _ _ W Hc E0) as (W0 & Em0 & _). rewrite (cycle_calls _ _ _ _ _ _ _ E0).
  destruct (cycle_ok (sN s) n a b fb HN Hn Ha HaN Hb Hfb s0 v1 f i m k (amove x) (aqp x) W0 Hq) as (s3 & v3 & s2 & S0 & w & n1 & i1 & _ & _ & _ & _ & Ec & Em2 & _ & W2).
  rewrite Ec. cbn [bind]. assert (Hm2 : smove s2 = false) by congruence.
  destruct (stop_cycles (sN s) n a b fb HN Hn Ha HaN Hb Hfb l' _ _ _ _ _ _ W2 Hm2 Hl'' Hmv') as (s' & v' & f' & i' & m' & k' & E' & W' & Hm' & D1 & D2).
  exists s', v'. split; [exact E'|]. split; [exact Hm'|].
  assert (HD : phType f' = DS).
  { destruct D2 as [D2|D2]; [exact D2|exfalso]. pose proof (w_m _ _ _ _ _ _ _ _ _ _ _ W2). cbn [length] in Hlen.
    pose proof (next_m_pos (sN s) n a b HN Hn Ha HaN Hb s0 f m). assert (next_m n a b s0 f m <= Nat.max a b * n)%nat; [|lia].
    pose proof (w_m _ _ _ _ _ _ _ _ _ _ _ W0). unfold next_m. destruct m; [|lia]. unfold ticks. destruct (typ _ _ _); nia. }
  intros j p Hp. apply types_nth in Hp. destruct Hp as (ph & Hp & <-). rewrite (w_tl _ _ _ _ _ _ _ _ _ _ _ W') in Hp. rewrite (tlist_type _ _ _ _ _ Hp), Hm', HD.
  destruct j as [|j]; [reflexivity|apply typ_stop].
Qed.
End Gait.
