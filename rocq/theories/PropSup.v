(** Properties of the feet supervisor: C26 - C35, C53, C54. *)

From Coq Require Import Reals List ZArith QArith Arith Bool Lra Lia.
From Verif Require Import Scalar LinAlg LinAlgFacts ToolsModel InterpModel PolygonModel FootModel LipModel ModelsFacts
  SupModel SupSpec SupFacts SupTime SupWalk PropTools.
Import ListNotations.
Local Open Scope R_scope.

Lemma Int_part_spec x z : IZR z <= x < IZR z + 1 -> z = Int_part x.
Proof.
  intros (A & B). destruct (base_Int_part x) as (C & D). assert (IZR z < IZR (Int_part x + 1)) by (rewrite plus_IZR; lra).
  assert (IZR (Int_part x) < IZR (z + 1)) by (rewrite plus_IZR; lra). apply lt_IZR in H, H0. lia.
Qed.

Section Sup.
Context {TK : Trig R}.

(** A configured supervisor and its decision vector satisfy the walking invariant. *)
Lemma configured_walking s v n a b fb : configured s v n a b fb ->
  walking (sN s) n a b fb s v (MkPhase DS (sDS s)) 0 (b * n) 0 /\ (0 < sN s)%nat /\ smove s = smove s.
Proof.
  intros [(N & T & s0 & cs & H0 & Hcs & Hs) Hfb Hn HT Ha Hst Hb HD (Hk1 & Hk2) Hv].
  destruct (fresh_new _ _ _ H0) as (F0 & _). pose proof (fresh_steps cs s0 s F0 Hcs Hs) as F.
  split; [|split; [apply F|reflexivity]]. apply fresh_walking; assumption.
Qed.
Lemma walk_states s v n a b fb l : configured s v n a b fb -> Forall allowed l ->
  exists s' v' f i m k, cycles fb l (s, v) = Ok (s', v') /\ walking (sN s) n a b fb s' v' f i m k.
Proof.
  intros C Hl. destruct (configured_walking _ _ _ _ _ _ C) as (W & HN & _). destruct C as [_ Hfb Hn _ (Ha & HaN) _ Hb _ _ _].
  exact (cycles_ok (sN s) n a b fb HN Hn Ha HaN Hb Hfb l _ _ _ _ _ _ W Hl).
Qed.

(** ** C31: a walk never fails *)
(** Any number of feedback cycles, whatever the move commands, the changes of the feet data and the
    solutions of the quadratic program, and one more update of the timeline: none of the calls
    aborts or reads the timeline out of bounds. *)
Theorem C31_walk_never_fails : forall s v n a b fb l, configured s v n a b fb -> Forall allowed l ->
  exists s' v', cycles fb l (s, v) = Ok (s', v')
  /\ cbl (stl s') <> []
  /\ forall mv, exists tn S0 s1 v1, ready (s_setMove mv s') v' tn S0 /\ s_updateTimeline v' fb (s_setMove mv s') = Ok (s1, v1).
Proof.
  intros s v n a b fb l C Hl. destruct (walk_states _ _ _ _ _ _ _ C Hl) as (s' & v' & f & i & m & k & E & W).
  destruct (configured_walking _ _ _ _ _ _ C) as (_ & HN & _). destruct C as [_ Hfb Hn _ (Ha & HaN) _ Hb _ _ _].
  exists s', v'. split; [exact E|]. split; [rewrite (w_tl _ _ _ _ _ _ _ _ _ _ _ W); discriminate|]. intros mv.
  destruct (walking_ready (sN s) n a b fb HN Hn Ha HaN Hb Hfb s' v' f i m k mv W) as (tn & S0 & R & _).
  destruct (ready_update _ _ _ _ fb R) as (s1 & v1 & _ & _ & _ & _ & _ & _ & _ & _ & E1 & _). exists tn, S0, s1, v1. auto.
Qed.

(** ** C26: the index of the feedback dynamics *)
Lemma calls_before_sample (s : sup R) n fb m : EPS < fb -> (0 < n)%nat -> (0 < m)%nat -> sT s = INR n * fb -> sfb s = fb -> sttnp s = INR m * fb ->
  s_getNbOfCallsBeforeNextSample s = Ok (Z.of_nat (S ((m - 1) mod n))).
Proof.
  intros Hfb Hn Hm HT Hf Ht. assert (HE : 0 < EPS) by (rsimpl; lra).
  destruct (split_time 1 n 1 1 fb ltac:(lia) Hn ltac:(lia) ltac:(lia) ltac:(lia) Hfb m Hm) as (S0 & E & HS & ES).
  assert (HT' : EPS < sT s). { rewrite HT. assert (1 <= INR n) by (apply (le_INR 1); lia). assert (1 * fb <= INR n * fb) by (apply Rmult_le_compat_r; lra). lra. }
  unfold s_getNbOfCallsBeforeNextSample. rewrite (timeToNextSample_spec s S0 ((m - 1) / n)); [|exact HT'|rewrite HT; exact HS|rewrite Ht, HT; exact E].
  cbn [bind]. rewrite Hf. change (seqb fb s0) with (Reqb fb 0). destruct (Reqb_spec fb 0); [lra|]. cbn [negb ubguard bind]. f_equal.
  set (r := ((m - 1) mod n)%nat) in *. change (sdiv (sadd S0 EPS) fb) with ((S0 + EPS) / fb). rewrite ES.
  replace ((INR (S r) * fb + EPS) / fb) with (INR (S r) + EPS / fb) by (field; lra).
  assert (0 < EPS / fb) by (apply Rdiv_lt_0_compat; lra). assert (EPS / fb < 1) by (apply (Rmult_lt_reg_r fb); [lra|]; unfold Rdiv; rewrite Rmult_assoc, Rinv_l; lra).
  pose proof (pos_INR (S r)). rewrite strunc_pos by lra. rewrite INR_IZR_INZ. symmetry. apply Int_part_spec. lra.
Qed.
(** In a walk whose feedback period divides the sampling period n times, at each cycle the walk
    generator reads the per-feedback dynamics number [calls - 1]; it lies between 0 and n - 1, it is
    the remaining time modulo the sampling period, and the LIP model has exactly n of them. *)
Theorem C26_feedback_index_in_range : forall s v n a b fb l mv, configured s v n a b fb -> Forall allowed l ->
  exists s' v' s1 v1 m, cycles fb l (s, v) = Ok (s', v') /\ s_updateTimeline v' fb (s_setMove mv s') = Ok (s1, v1)
  /\ sttnp s1 = INR m * fb /\ (0 < m)%nat
  /\ s_getNbOfCallsBeforeNextSample s1 = Ok (Z.of_nat (S ((m - 1) mod n)))
  /\ (0 <= Z.of_nat (S ((m - 1) mod n)) - 1 < Z.of_nat n)%Z
  /\ nbFeedback (sT s1) fb = Ok (Z.of_nat n).
Proof.
  intros s v n a b fb l mv C Hl. destruct (walk_states _ _ _ _ _ _ _ C Hl) as (s' & v' & f & i & m & k & E & W).
  destruct (configured_walking _ _ _ _ _ _ C) as (_ & HN & _). destruct C as [_ Hfb Hn HT0 (Ha & HaN) _ Hb _ _ _]. assert (HE : 0 < EPS) by (rsimpl; lra).
  destruct (cycle_ok (sN s) n a b fb HN Hn Ha HaN Hb Hfb s' v' f i m k mv (fun w => w) W (fun w => eq_refl)) as (s1 & v1 & s2 & S0 & w & n1 & i1 & E1 & U & _).
  destruct (u_static _ _ _ _ _ _ _ _ _ _ _ _ _ _ _ U) as (_ & UT & Uf & _ & _ & _ & _ & _ & Ut). cbn [sT s_setMove] in UT.
  pose proof (next_m_pos (sN s) n a b HN Hn Ha HaN Hb s' f m) as Hm.
  exists s', v', s1, v1, (next_m n a b s' f m). split; [exact E|]. split; [exact E1|]. split; [exact Ut|]. split; [exact Hm|].
  assert (HT1 : sT s1 = INR n * fb) by (rewrite UT; exact (w_T _ _ _ _ _ _ _ _ _ _ _ W)).
  split; [apply (calls_before_sample s1 n fb); assumption|]. pose proof (Nat.mod_upper_bound (next_m n a b s' f m - 1) n ltac:(lia)). split; [lia|].
  unfold nbFeedback. change (seqb fb s0) with (Reqb fb 0). destruct (Reqb_spec fb 0); [lra|]. cbn [negb ubguard bind]. f_equal.
  change (sdiv (sadd (sT s1) EPS) fb) with ((sT s1 + EPS) / fb). rewrite HT1.
  replace ((INR n * fb + EPS) / fb) with (INR n + EPS / fb) by (field; lra).
  assert (0 < EPS / fb) by (apply Rdiv_lt_0_compat; lra). assert (EPS / fb < 1) by (apply (Rmult_lt_reg_r fb); [lra|]; unfold Rdiv; rewrite Rmult_assoc, Rinv_l; lra).
  pose proof (pos_INR n). rewrite strunc_pos by lra. rewrite INR_IZR_INZ. symmetry. apply Int_part_spec. lra.
Qed.

(** ** C29: the selection matrices *)
(** Sample r (at time S0 + r T) falls in exactly one phase of the timeline; if [m] steps are made
    before that phase, row r of [V0 | V] has its only 1 in column m (column 0 is V0). *)
Theorem C29_one_support_per_sample : forall s v tn S0 fb, ready s v tn S0 ->
  exists s' v', s_updateTimeline v fb s = Ok (s', v') /\ sttnp s' = tn
  /\ mrows (selV (ssel s')) = sN s /\ mcols (selV (ssel s')) = snb s' /\ vlen (selV0 (ssel s')) = sN s
  /\ snb s' = steps_before (cbl (stl s')) (length (cbl (stl s')) - 1)
  /\ forall r, (r < sN s)%nat ->
     exists j, in_progress tn (cbl (stl s')) (S0 + INR r * sT s) j
     /\ (forall j', in_progress tn (cbl (stl s')) (S0 + INR r * sT s) j' -> j' = j)
     /\ let m := steps_before (cbl (stl s')) j in
        (m <= snb s')%nat
        /\ vget (selV0 (ssel s')) r = (if Nat.eqb m 0 then 1 else 0)%Z
        /\ forall c, (c < snb s')%nat -> mget (selV (ssel s')) r c = (if Nat.eqb m (S c) then 1 else 0)%Z
                                       /\ mget (selVT (ssel s')) c r = mget (selV (ssel s')) r c
                                       /\ mget (dU (selDyn (ssel s'))) r c = IZR (mget (selV (ssel s')) r c)
                                       /\ mget (dS (selDyn (ssel s'))) r 0 = IZR (vget (selV0 (ssel s')) r).
Proof.
  intros s v tn S0 fb R. pose proof (ry_N _ _ _ _ R) as HN. pose proof (ry_T _ _ _ _ R) as HT. assert (HE : 0 < EPS) by (rsimpl; lra).
  destruct (ready_update _ _ _ _ fb R) as (s' & v' & f & r0 & a & b & n & w & n1 & i & E & U & Hs & Hd & Ha & Hb & Htn & _ & _).
  exists s', v'. split; [exact E|]. split; [apply (u_static _ _ _ _ _ _ _ _ _ _ _ _ _ _ _ U)|].
  destruct (u_dims _ _ _ _ _ _ _ _ _ _ _ _ _ _ _ U) as (D1 & D2 & D3 & _). split; [exact D1|]. split; [exact D2|]. split; [exact D3|].
  rewrite (u_tl _ _ _ _ _ _ _ _ _ _ _ _ _ _ _ U). rewrite tlist_length. replace (S i - 1)%nat with i by lia.
  split; [rewrite steps_before_nbs by lia; exact (u_nb _ _ _ _ _ _ _ _ _ _ _ _ _ _ _ U)|].
  intros r Hr. pose proof (u_high _ _ _ _ _ _ _ _ _ _ _ _ _ _ _ U) as Hh.
  destruct (row_phase_exists s f r0 a b r i ltac:(lia)) as (j & Hj & Hji). exists j. rewrite Htn.
  assert (HT0 : 0 < sT s) by lra.
  split; [apply (in_progress_row s f S0 r0 a b i r j HT0 Hs Hd); auto|].
  split; [intros j' Hj'; apply (in_progress_row s f S0 r0 a b i r j' HT0 Hs Hd) in Hj'; exact (row_phase_unique s f r0 a b HN Ha Hb r j' j (proj1 Hj') Hj)|].
  cbn zeta. rewrite steps_before_nbs by lia. rewrite (u_nb _ _ _ _ _ _ _ _ _ _ _ _ _ _ _ U) at 1. split; [apply nbs_mono; exact Hji|].
  destruct (u_sel _ _ _ _ _ _ _ _ _ _ _ _ _ _ _ U r j Hr Hj) as (_ & S1 & S2). rewrite colf_nbs in S1, S2.
  split; [rewrite S1; destruct (nbs (smove s) (phType f) j); reflexivity|]. intros c Hc. rewrite (u_dyn _ _ _ _ _ _ _ _ _ _ _ _ _ _ _ U), (u_VT _ _ _ _ _ _ _ _ _ _ _ _ _ _ _ U).
  split; [|split; [reflexivity|split; [|]]].
  - rewrite (S2 c Hc). destruct (nbs (smove s) (phType f) j); reflexivity.
  - unfold toLinearDynamics. cbn [dU mget]. reflexivity.
  - unfold toLinearDynamics. cbn [dS mget]. reflexivity.
Qed.

(** ** C30: the timeline covers the preview horizon, and not more *)
Theorem C30_timeline_covers_horizon : forall s v tn S0 fb, ready s v tn S0 ->
  exists s' v', s_updateTimeline v fb s = Ok (s', v') /\ sttnp s' = tn
  /\ vlen (selIdx (ssel s')) = sN s
  /\ (forall r, (r < sN s)%nat -> in_progress tn (cbl (stl s')) (S0 + INR r * sT s) (vget (selIdx (ssel s')) r))
  /\ length (cbl (stl s')) = S (vget (selIdx (ssel s')) (sN s - 1))
  /\ S0 + INR (sN s - 1) * sT s < start_time tn (cbl (stl s')) (length (cbl (stl s'))).
Proof.
  intros s v tn S0 fb R. pose proof (ry_N _ _ _ _ R) as HN. pose proof (ry_T _ _ _ _ R) as HT. assert (HE : 0 < EPS) by (rsimpl; lra).
  destruct (ready_update _ _ _ _ fb R) as (s' & v' & f & r0 & a & b & n & w & n1 & i & E & U & Hs & Hd & Ha & Hb & Htn & _ & _).
  exists s', v'. split; [exact E|]. split; [apply (u_static _ _ _ _ _ _ _ _ _ _ _ _ _ _ _ U)|].
  destruct (u_dims _ _ _ _ _ _ _ _ _ _ _ _ _ _ _ U) as (_ & _ & _ & D4). split; [exact D4|].
  rewrite (u_tl _ _ _ _ _ _ _ _ _ _ _ _ _ _ _ U), tlist_length. assert (HT0 : 0 < sT s) by lra.
  pose proof (u_high _ _ _ _ _ _ _ _ _ _ _ _ _ _ _ U) as Hh. pose proof (u_low _ _ _ _ _ _ _ _ _ _ _ _ _ _ _ U) as Hl.
  assert (Hlast : row_phase s f r0 a b (sN s - 1) i) by (split; replace (S (sN s - 1)) with (sN s) by lia; assumption).
  split; [|split].
  - intros r Hr. destruct (row_phase_exists s f r0 a b r i ltac:(lia)) as (j & Hj & Hji).
    destruct (u_sel _ _ _ _ _ _ _ _ _ _ _ _ _ _ _ U r j Hr Hj) as (-> & _). rewrite Htn. apply (in_progress_row s f S0 r0 a b i r j HT0 Hs Hd). auto.
  - destruct (u_sel _ _ _ _ _ _ _ _ _ _ _ _ _ _ _ U (sN s - 1)%nat i ltac:(lia) Hlast) as (-> & _). reflexivity.
  - rewrite Htn. apply (in_progress_row s f S0 r0 a b i (sN s - 1) i HT0 Hs Hd). auto.
Qed.

(** ** C32: the size of the decision vector *)
(** The number of steps after an update, and the bound of the number of previewed steps. *)
Theorem C32_size_after_update : forall s v tn S0 fb n, ready s v tn S0 -> vlen v = (2 * sN s + 2 * n)%nat ->
  exists s' v' ph, s_updateTimeline v fb s = Ok (s', v') /\ nth_error (cbl (stl s)) 0 = Some ph
  /\ (snb s' <= sN s)%nat
  /\ vlen (sstepVec s') = (vlen v' - 2 * sN s)%nat
  /\ let kept := if (Rltb (sttnp s) EPS && negb (is_DS (phType ph)))%bool then (n - 1)%nat else n in
     vlen v' = (2 * sN s + 2 * if smove s then Nat.max kept (snb s') else Nat.min 1 (Nat.max kept (snb s')))%nat.
Proof.
  intros s v tn S0 fb n R Hv. pose proof (ry_N _ _ _ _ R) as HN.
  destruct (ready_update _ _ _ _ fb R) as (s' & v' & f & r0 & a & b & n' & w & n1 & i & E & U & Hs & Hd & Ha & Hb & Htn & Hv' & _).
  assert (n' = n) by lia. subst n'. destruct (u_v1 _ _ _ _ _ _ _ _ _ _ _ _ _ _ _ U) as (ph & Hph & Hl). exists s', v', ph. split; [exact E|].
  split; [apply rd_inv; exact Hph|]. split.
  - rewrite (u_nb _ _ _ _ _ _ _ _ _ _ _ _ _ _ _ U), nbs_eq. unfold nbs_closed.
    destruct (u_low _ _ _ _ _ _ _ _ _ _ _ _ _ _ _ U) as [->|L]; [destruct (smove s), (is_DS (phType f)); lia|].
    pose proof (ends_ge s f r0 a b (i - 1) Ha Hb). destruct (smove s), (is_DS (phType f)); lia.
  - split; [rewrite (u_stepVec _ _ _ _ _ _ _ _ _ _ _ _ _ _ _ U); reflexivity|]. cbn zeta.
    rewrite (u_size _ _ _ _ _ _ _ _ _ _ _ _ _ _ _ U). unfold grown. unfold leaves_step in Hl.
    destruct (Rltb (sttnp s) EPS && negb (is_DS (phType ph)))%bool; destruct Hl as (A & B).
    + replace (n - 1)%nat with n1 by lia. reflexivity.
    + subst n1. reflexivity.
Qed.
(** In a walk that is never stopped in double support, the decision vector always has exactly
    2N + 2M entries, M <= N being the number of previewed steps. *)
Theorem C32_walk_size_exact : forall s v n a b fb l, configured s v n a b fb -> Forall allowed l -> stops_in_step fb l (s, v) ->
  exists s' v', cycles fb l (s, v) = Ok (s', v')
  /\ (l <> [] -> vlen v' = (2 * sN s' + 2 * snb s')%nat /\ (snb s' <= sN s')%nat).
Proof.
  intros s v n a b fb l C Hl Hst. destruct (configured_walking _ _ _ _ _ _ C) as (W & HN & _). pose proof C as [_ Hfb Hn _ (Ha & HaN) _ Hb _ _ _].
  assert (Hk : 0%nat = nbs (smove s) (phType (MkPhase DS (sDS s))) 0) by reflexivity.
  destruct (cycles_exact (sN s) n a b fb HN Hn Ha HaN Hb Hfb l s v _ _ _ _ W Hk Hl Hst) as (s' & v' & f' & i' & m' & E & W').
  exists s', v'. split; [exact E|]. intros Hne. rewrite (w_size _ _ _ _ _ _ _ _ _ _ _ W'), (w_N _ _ _ _ _ _ _ _ _ _ _ W').
  assert (Hnb : snb s' = nbs (smove s') (phType f') i' /\ (snb s' <= sN s)%nat).
  { destruct (exists_last Hne) as (l0 & x & El). subst l.
    assert (Hcs : forall l1 q q', cycles fb (l1 ++ [x]) q = Ok q' -> exists q1, cycles fb l1 q = Ok q1 /\ cycle fb (acalls x) (amove x) (aqp x) q1 = Ok q').
    { induction l1 as [|y l1 IH]; intros q q' H; cbn [app cycles] in *.
      - apply bind_ok in H. destruct H as (q1 & H1 & H). injection H as <-. eauto.
      - apply bind_ok in H. destruct H as (q1 & H1 & H). destruct (IH _ _ H) as (q2 & H2 & H3). exists q2. rewrite H1. auto. }
    destruct (Hcs _ _ _ E) as ((s0 & v0) & E0 & Ex). apply Forall_app in Hl. destruct Hl as (Hl0 & Hx). inversion Hx as [|? ? (Hc & Hq) _]; subst.
    destruct (cycles_ok (sN s) n a b fb HN Hn Ha HaN Hb Hfb l0 _ _ _ _ _ _ W Hl0) as (s0' & v0' & f0 & i0 & m0 & k0 & E0' & W0). rewrite E0 in E0'. injection E0' as <- <-.
    destruct (foot_calls_ok (acalls x) s0 Hc) as (s00 & Es00). destruct (walking_feet _ _ _ _ _ _ _ _ _ _ _ _ _ W0 Hc Es00) as (W00 & _).
    rewrite (cycle_calls _ _ _ _ _ _ _ Es00) in Ex.
    destruct (cycle_ok (sN s) n a b fb HN Hn Ha HaN Hb Hfb s00 v0 f0 i0 m0 k0 (amove x) (aqp x) W00 Hq) as (s1 & v1 & s2 & S0 & w & n1 & i1 & E1 & U & HS & ES & Ec & Em2 & En2 & W2).
    rewrite Ec in Ex. injection Ex as -> <-.
    assert (Etl := w_tl _ _ _ _ _ _ _ _ _ _ _ W2). assert (Etl' := w_tl _ _ _ _ _ _ _ _ _ _ _ W'). rewrite Etl' in Etl.
    assert (Ei : i' = i1) by (apply (f_equal (@length _)) in Etl; rewrite !tlist_length in Etl; lia). assert (Ef : f' = next_f s00 f0 m0) by (injection Etl; auto). subst i' f'.
    assert (En : snb s' = nbs (smove s') (phType (next_f s00 f0 m0)) i1) by (rewrite En2, (u_nb _ _ _ _ _ _ _ _ _ _ _ _ _ _ _ U), Em2; reflexivity).
    split; [exact En|]. rewrite En, nbs_eq. unfold nbs_closed.
    destruct (u_low _ _ _ _ _ _ _ _ _ _ _ _ _ _ _ U) as [->|L]; [destruct (smove s'), (is_DS (phType (next_f s00 f0 m0))); lia|].
    cbn [sN s_setMove] in L. rewrite (w_N _ _ _ _ _ _ _ _ _ _ _ W00) in L.
    pose proof (ends_ge (s_setMove (amove x) s00) (next_f s00 f0 m0) ((next_m n a b s00 f0 m0 - 1) / n) a b (i1 - 1) Ha Hb). destruct (smove s'), (is_DS (phType (next_f s00 f0 m0))); lia. }
  destruct Hnb as (-> & H2). split; [reflexivity|exact H2].
Qed.

(** ** C35: the weights of the samples *)
Theorem C35_sample_weights : forall s v tn S0 fb, ready s v tn S0 ->
  exists s' v', s_updateTimeline v fb s = Ok (s', v')
  /\ (let W := selW (ssel s') in mrows W = sN s /\ mcols W = sN s
      /\ (forall i j, i <> j -> mget W i j = 0)
      /\ (forall i, (0 < i < sN s - 1)%nat -> mget W i i = 1)
      /\ mget W (sN s - 1) (sN s - 1) = 105/100 - S0 / sT s
      /\ ((1 < sN s)%nat -> mget W 0 0 = S0 / sT s)
      /\ (S0 <= sT s -> (1 < sN s)%nat -> forall i, (i < sN s)%nat -> 0 < mget W i i)).
Proof.
  intros s v tn S0 fb Rd. pose proof (ry_N _ _ _ _ Rd) as HN. pose proof (ry_T _ _ _ _ Rd) as HT. assert (HE : 0 < EPS) by (rsimpl; lra).
  destruct (ready_update _ _ _ _ fb Rd) as (s' & v' & f & r0 & a & b & n & w & n1 & i & E & U & _).
  exists s', v'. split; [exact E|]. cbn zeta. rewrite (u_W _ _ _ _ _ _ _ _ _ _ _ _ _ _ _ U). cbn [mset mrows mcols mget].
  rewrite Nat.eqb_refl. cbn [andb].
  assert (Hid : forall p q, mget (mid (K:=R) (sN s)) p q = if Nat.eqb p q then 1 else 0) by reflexivity.
  split; [reflexivity|]. split; [reflexivity|].
  assert (W0 : (1 < sN s)%nat -> forall p q, (if (Nat.eqb p (sN s - 1) && Nat.eqb q (sN s - 1))%bool then 105/100 - S0 / sT s
       else if (Nat.eqb p 0 && Nat.eqb q 0)%bool then S0 / sT s else mget (mid (sN s)) p q) =
     if Nat.eqb p q then (if Nat.eqb p (sN s - 1) then 105/100 - S0 / sT s else if Nat.eqb p 0 then S0 / sT s else 1) else 0).
  { intros H1 p q. rewrite Hid. vcmp; subst; try congruence; reflexivity. }
  split.
  - intros p q Hpq. rewrite Hid. vcmp; subst; try congruence; reflexivity.
  - split; [intros p Hp; rewrite Hid; vcmp; reflexivity|].
    rewrite !Nat.eqb_refl. cbn [andb]. split; [reflexivity|]. split; [intros H1; vcmp; reflexivity|].
    intros HS1 H1 p Hp. rewrite W0 by exact H1. rewrite Nat.eqb_refl. destruct (ry_sample _ _ _ _ Rd) as (HS & _).
    assert (0 < S0 / sT s) by (apply Rdiv_lt_0_compat; lra).
    assert (S0 / sT s <= 1) by (apply (Rmult_le_reg_r (sT s)); [lra|]; unfold Rdiv; rewrite Rmult_assoc, Rinv_l; lra).
    destruct (Nat.eqb p (sN s - 1)); [lra|]. destruct (Nat.eqb p 0); lra.
Qed.
End Sup.
