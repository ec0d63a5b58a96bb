(** Facts about the feet supervisor. *)

From Coq Require Import Reals List ZArith Arith Bool Lra Lia.
From Verif Require Import Scalar LinAlg LinAlgFacts ToolsModel InterpModel PolygonModel FootModel SupModel SupSpec PropTools.
Import ListNotations.
Local Open Scope R_scope.

Ltac vcmp := repeat match goal with
  | |- context [Nat.eqb ?a ?b] => destruct (Nat.eqb_spec a b); try (exfalso; lia)
  | |- context [Nat.leb ?a ?b] => destruct (Nat.leb_spec a b); try (exfalso; lia)
  | |- context [Nat.ltb ?a ?b] => destruct (Nat.ltb_spec a b); try (exfalso; lia)
  end; cbn [andb orb negb].
Section Facts.
Context {TK : Trig R}.

(** ** The timeline in closed form *)
Definition typ (move : bool) (p : ptype) (j : nat) : ptype := Nat.iter j (nextType move) p.
Definition mkph (s : sup R) (p : ptype) : phase R := MkPhase p (durationOf s p).
Definition tlist (s : sup R) (f : phase R) (i : nat) : list (phase R) :=
  f :: map (fun j => mkph s (typ (smove s) (phType f) j)) (seq 1 i).
Fixpoint nbs (move : bool) (p : ptype) (i : nat) : nat :=
  match i with O => 0 | S k => if is_DS (typ move p k) then nbs move p k else S (nbs move p k) end%nat.
(** The first i+1 phases are those of the closed form; the buffer is full. *)
Definition tl_inv (s : sup R) (f : phase R) (t : cbuf (phase R)) (i : nat) : Prop :=
  firstn (S i) (cbl t) = tlist s f i /\ length (cbl t) = cbcap t.

Lemma tlist_length s f i : length (tlist s f i) = S i.
Proof. unfold tlist. cbn [length]. rewrite map_length, seq_length. reflexivity. Qed.
Lemma tlist_S s f i : tlist s f (S i) = tlist s f i ++ [mkph s (typ (smove s) (phType f) (S i))].
Proof. unfold tlist. rewrite seq_S, map_app. reflexivity. Qed.
Lemma tlist_nth s f i j : (1 <= j <= i)%nat -> nth_error (tlist s f i) j = Some (mkph s (typ (smove s) (phType f) j)).
Proof.
  intros H. destruct j as [|j]; [lia|]. unfold tlist. cbn [nth_error].
  rewrite nth_error_map. rewrite (nth_error_nth' _ 0%nat) by (rewrite seq_length; lia). rewrite seq_nth by lia. reflexivity.
Qed.
Lemma tlist_type s f i j p : nth_error (tlist s f i) j = Some p -> phType p = typ (smove s) (phType f) j.
Proof.
  intros H. destruct j as [|j]; [injection H as <-; reflexivity|].
  assert (L : (S j < length (tlist s f i))%nat) by (apply nth_error_Some; congruence). rewrite tlist_length in L.
  rewrite tlist_nth in H by lia. injection H as <-. reflexivity.
Qed.
Lemma firstn_nth_error {A} (l : list A) n i x : nth_error (firstn n l) i = Some x -> nth_error l i = Some x.
Proof.
  revert n i. induction l as [|a l IH]; intros n i H; destruct n, i; cbn in *; try discriminate; try assumption. eapply IH; eassumption.
Qed.
Lemma tl_inv_length s f t i : tl_inv s f t i -> (S i <= length (cbl t))%nat.
Proof.
  intros (H & _). assert (E : length (firstn (S i) (cbl t)) = S i) by (rewrite H; apply tlist_length).
  rewrite firstn_length in E. lia.
Qed.
Lemma tl_inv_nth s f t i j : tl_inv s f t i -> (1 <= j <= i)%nat -> nth_error (cbl t) j = Some (mkph s (typ (smove s) (phType f) j)).
Proof. intros (H & _) L. apply (firstn_nth_error _ (S i)). rewrite H. apply tlist_nth. exact L. Qed.
Lemma tl_inv_front s f t i : tl_inv s f t i -> nth_error (cbl t) 0 = Some f.
Proof. intros (H & _). apply (firstn_nth_error _ (S i)). rewrite H. reflexivity. Qed.
Lemma tl_inv_type s f t i j : tl_inv s f t i -> (j <= i)%nat -> exists p, nth_error (cbl t) j = Some p /\ phType p = typ (smove s) (phType f) j.
Proof.
  intros H L. destruct j as [|j].
  - exists f. split; [exact (tl_inv_front _ _ _ _ H)|reflexivity].
  - eexists. split; [apply (tl_inv_nth _ _ _ _ _ H); lia|reflexivity].
Qed.
Lemma rd_some {A} (l : list A) i x : nth_error l i = Some x -> rd l i = Ok x.
Proof. unfold rd. intros ->. reflexivity. Qed.
Lemma rd_inv {A} (l : list A) i x : rd l i = Ok x -> nth_error l i = Some x.
Proof. unfold rd. destruct (nth_error l i); intros H; congruence. Qed.

Lemma lset_length {A} (l : list A) i x : length (lset l i x) = length l.
Proof. revert i. induction l as [|a l IH]; intros [|i]; cbn; auto. Qed.
Lemma lset_firstn {A} (l : list A) i x : (i < length l)%nat -> firstn (S i) (lset l i x) = firstn i l ++ [x].
Proof. revert i. induction l as [|a l IH]; intros [|i] H; cbn in *; try lia; [reflexivity|]. f_equal. apply IH. lia. Qed.
Lemma lset_nth_eq {A} (l : list A) i x : (i < length l)%nat -> nth_error (lset l i x) i = Some x.
Proof. revert i. induction l as [|a l IH]; intros [|i] H; cbn in *; try lia; [reflexivity|]. apply IH. lia. Qed.

Lemma phase_change_spec s f i :
  tl_inv s f (stl s) i ->
  exists t', phase_change s i = Ok (s_setTl s (if is_DS (typ (smove s) (phType f) i) then snb s else S (snb s)) t')
    /\ tl_inv s f t' (S i).
Proof.
  intros H. pose proof (tl_inv_length _ _ _ _ H) as HL. destruct (tl_inv_type _ _ _ i i H (le_n _)) as (p & Hp & Tp).
  unfold phase_change, cb_at. rewrite (rd_some _ _ _ Hp). cbn [bind]. rewrite Tp. cbn [processFSM].
  set (ph := mkph s (typ (smove s) (phType f) (S i))).
  change (MkPhase (nextType (smove s) (typ (smove s) (phType f) i)) (durationOf s (nextType (smove s) (typ (smove s) (phType f) i)))) with ph.
  destruct H as (H & Hc). unfold cb_size. destruct (Nat.eqb_spec (S i) (length (cbl (stl s)))) as [E|E].
  - eexists. split; [reflexivity|]. unfold cb_push_back, cb_set_capacity, cb_size. cbn [cbl cbcap].
    rewrite firstn_all2 by lia. destruct (Nat.ltb_spec (length (cbl (stl s))) (S (cbcap (stl s)))) as [L|L]; [|lia].
    rewrite firstn_all2 in H by lia. split; cbn [cbl cbcap].
    + rewrite firstn_all2 by (rewrite app_length; cbn; lia). rewrite H, tlist_S. reflexivity.
    + rewrite app_length. cbn. lia.
  - unfold cb_set, cb_size. destruct (Nat.ltb_spec (S i) (length (cbl (stl s)))) as [L|L]; [|lia]. cbn [ubguard bind].
    eexists. split; [reflexivity|]. split; cbn [cbl cbcap].
    + rewrite lset_firstn by lia. rewrite H, tlist_S. reflexivity.
    + rewrite lset_length. exact Hc.
Qed.
Lemma tl_inv_setTl s a b f t i : tl_inv (s_setTl s a b) f t i <-> tl_inv s f t i.
Proof. split; intros H; exact H. Qed.

(** ** The generation loop, without any assumption on the timing *)
Lemma timeline_loop_inv s f fuel : forall t i pt h v s' i' v',
  tl_inv s f t i ->
  timeline_loop fuel (s_setTl s (nbs (smove s) (phType f) i) t) i pt h v = Ok (s', i', v') ->
  exists t', s' = s_setTl s (nbs (smove s) (phType f) i') t' /\ tl_inv s f t' i' /\ (i <= i')%nat.
Proof.
  induction fuel as [|fuel IH]; intros t i pt h v s' i' v' Ht H; cbn [timeline_loop] in H.
  - destruct (sltb (- EPS)%sc h); [discriminate|]. injection H as <- <- <-. exists t. auto.
  - destruct (sltb (- EPS)%sc h); [|injection H as <- <- <-; exists t; auto].
    apply bind_ok in H. destruct H as (((s1 & i1) & pt1) & Hb & H).
    assert (exists t1, s1 = s_setTl s (nbs (smove s) (phType f) i1) t1 /\ tl_inv s f t1 i1 /\ (i <= i1)%nat) as (t1 & -> & Ht1 & Hi).
    { destruct (sltb pt EPS).
      - destruct (phase_change_spec (s_setTl s (nbs (smove s) (phType f) i) t) f i Ht) as (t1 & Hp & Ht1).
        rewrite Hp in Hb. cbn [bind] in Hb. apply bind_ok in Hb. destruct Hb as (p & _ & Hb). injection Hb as <- <- <-.
        exists t1. split; [reflexivity|]. split; [exact Ht1|lia].
      - injection Hb as <- <- <-. exists t. auto. }
    apply bind_ok in H. destruct H as (v1 & Hv & H). cbn [smove sN sT s_setTl] in H.
    destruct (IH t1 i1 _ _ _ _ _ _ Ht1 H) as (t' & E & Ht' & Hi'). exists t'. split; [exact E|]. split; [exact Ht'|lia].
Qed.

Lemma nextType_follows move p : follows p (nextType move p).
Proof. destruct move, p; constructor. Qed.
Lemma nextType_moving p : follows_moving p (nextType true p).
Proof. destruct p; constructor. Qed.
Lemma nextType_stop p : nextType false p = DS.
Proof. destruct p; reflexivity. Qed.
Lemma chain_app {A} (r : A -> A -> Prop) l a b : chain r (l ++ [a]) -> r a b -> chain r (l ++ [a; b]).
Proof.
  induction l as [|x l IH]; cbn; [auto|]. destruct l as [|y l]; cbn in *; [tauto|]. intros (H1 & H2) H. split; [exact H1|]. apply IH; assumption.
Qed.
Lemma chain_tlist (r : ptype -> ptype -> Prop) s f i :
  (forall p, r p (nextType (smove s) p)) -> chain r (map phType (tlist s f i)).
Proof.
  intros Hr. induction i as [|i IH]; [exact I|]. rewrite tlist_S, map_app. cbn [map mkph phType].
  assert (exists l, map phType (tlist s f i) = l ++ [typ (smove s) (phType f) i]) as (l & E).
  { destruct i as [|i]; [exists []; reflexivity|]. rewrite tlist_S, map_app. eexists. reflexivity. }
  rewrite E in *. rewrite <- app_assoc. apply chain_app; [exact IH|apply Hr].
Qed.

(** The buffer is full: its capacity is the number of phases. *)
Definition full (s : sup R) : Prop := length (cbl (stl s)) = cbcap (stl s).

(** What an update does to the timeline, in closed form. *)
Definition new_front (s : sup R) (f : phase R) (tn : R) : Prop :=
  (EPS <= sttnp s /\ cb_at (stl s) 0 = Ok f /\ tn = sttnp s)
  \/ (sttnp s < EPS /\ cb_at (stl s) 1 = Ok f /\ tn = phDur f).
Lemma update_head v fb s q :
  (0 < length (cbl (stl s)))%nat -> full s ->
  leavePhase v s = Ok q ->
  forall s1, s1 = MkSup (sN s) (sT s) fb (sleft s) (sright s) 0 (sstep s) (sDS s) (snd q) (smove s) (sstepVec s) (snd (fst q)) (ssel s) ->
  exists f, new_front s f (snd q) /\ tl_inv s1 f (snd (fst q)) 0.
Proof.
  intros H0 Hfull Hq s1 E1. unfold full in Hfull. unfold leavePhase in Hq.
  change (sltb (sttnp s) EPS) with (Rltb (sttnp s) EPS) in Hq. destruct (Rltb_spec (sttnp s) EPS) as [L|L].
  - apply bind_ok in Hq. destruct Hq as (ds & _ & Hq). apply bind_ok in Hq. destruct Hq as (v1' & _ & Hq).
    apply bind_ok in Hq. destruct Hq as (tp & Hp & Hq). apply bind_ok in Hq. destruct Hq as (f & Hf & Hq). injection Hq as <-. cbn [snd fst] in *.
    apply rd_inv in Hf. unfold cb_pop_front in Hp. destruct (cbl (stl s)) as [|a r] eqn:El; [discriminate|]. injection Hp as <-.
    unfold cb_set_capacity in *. cbn [cbl cbcap] in *. cbn [length] in Hfull.
    assert (Er : firstn (cbcap (stl s) - 1) r = r) by (apply firstn_all2; lia). rewrite Er in *.
    exists f. split.
    + right. split; [exact L|]. split; [|reflexivity]. unfold cb_at. rewrite El. apply rd_some. exact Hf.
    + split; cbn [cbl cbcap].
      * destruct r as [|b r]; [discriminate|]. cbn [nth_error] in Hf. injection Hf as ->. reflexivity.
      * lia.
  - injection Hq as <-. cbn [snd fst] in *. destruct (cbl (stl s)) as [|a r] eqn:El; [cbn in H0; lia|].
    exists a. split.
    + left. split; [apply Rnot_lt_le; exact L|]. split; [|reflexivity]. unfold cb_at. rewrite El. reflexivity.
    + split; rewrite ?El; [reflexivity|exact Hfull].
Qed.
Lemma update_shape v fb s s' v' :
  full s -> s_updateTimeline v fb s = Ok (s', v') ->
  exists f i, cbl (stl s') = tlist s f i /\ full s' /\ snb s' = nbs (smove s) (phType f) i
    /\ sN s' = sN s /\ sT s' = sT s /\ sfb s' = fb /\ sleft s' = sleft s /\ sright s' = sright s /\ sstep s' = sstep s
    /\ sDS s' = sDS s /\ smove s' = smove s
    /\ sstepVec s' = vseg v' (2 * sN s) (vlen v' - 2 * sN s)
    /\ new_front s f (sttnp s').
Proof.
  intros Hfull H. unfold s_updateTimeline in H. apply guard_ok in H. destruct H as (H0 & H). apply guard_ok in H. destruct H as (_ & H).
  apply bind_ok in H. destruct H as (q & Hq & H). apply Nat.ltb_lt in H0.
  destruct (update_head v fb s q H0 Hfull Hq _ eq_refl) as (f & Hnf & Hinv). clear Hq. destruct q as ((v1 & t1) & tn). cbn [fst snd] in *.
  apply bind_ok in H. destruct H as (((s2 & i) & v2) & Hl & H).
  apply bind_ok in H. destruct H as (sel & _ & H). injection H as <- <-.
  match type of Hl with timeline_loop _ ?s1 _ _ _ _ = _ =>
    destruct (timeline_loop_inv s1 f _ t1 0 _ _ _ _ _ _ Hinv Hl) as (t2 & -> & Ht2 & _) end.
  exists f, i. cbn [stl cbl cbcap cb_set_capacity s_setTl smove snb sN sT sfb sleft sright sstep sDS sstepVec sttnp].
  split; [exact (proj1 Ht2)|]. split.
  { unfold full. cbn [stl cbl cbcap cb_set_capacity]. rewrite (proj1 Ht2). apply tlist_length. }
  repeat split; try reflexivity. exact Hnf.
Qed.

(** ** Closed forms of the automaton *)
Lemma typ_S move p j : typ move p (S j) = nextType move (typ move p j).
Proof. reflexivity. Qed.
Lemma typ_stop p j : typ false p (S j) = DS.
Proof. rewrite typ_S. apply nextType_stop. Qed.
Lemma typ_walk p j : p <> DS -> typ true p j <> DS.
Proof. intros Hp. induction j as [|j IH]; [exact Hp|]. rewrite typ_S. destruct (typ true p j); [contradiction|discriminate|discriminate]. Qed.
Lemma typ_start j : typ true DS (S j) <> DS.
Proof. induction j as [|j IH]; [discriminate|]. rewrite typ_S. destruct (typ true DS (S j)); [contradiction|discriminate|discriminate]. Qed.
Lemma is_DS_spec p : reflect (p = DS) (is_DS p).
Proof. destruct p; constructor; congruence. Qed.
Definition nbs_closed (move : bool) (p : ptype) (i : nat) : nat :=
  if move then (if is_DS p then i - 1 else i)%nat else (if is_DS p then 0 else Nat.min 1 i)%nat.
Lemma nbs_eq move p i : nbs move p i = nbs_closed move p i.
Proof.
  unfold nbs_closed. destruct move.
  - destruct (is_DS_spec p) as [->|Hp].
    + induction i as [|i IH]; [reflexivity|]. cbn [nbs]. destruct i as [|i]; [reflexivity|].
      destruct (is_DS_spec (typ true DS (S i))) as [E|_]; [apply typ_start in E; destruct E|]. rewrite IH. lia.
    + induction i as [|i IH]; [reflexivity|]. cbn [nbs].
      destruct (is_DS_spec (typ true p i)) as [E|_]; [apply typ_walk in E; [destruct E|exact Hp]|]. rewrite IH. lia.
  - induction i as [|i IH]; [destruct (is_DS p); reflexivity|]. cbn [nbs]. destruct i as [|i].
    + change (typ false p 0) with p. destruct (is_DS p); reflexivity.
    + rewrite typ_stop. cbn [is_DS]. rewrite IH. destruct (is_DS p); [reflexivity|lia].
Qed.
Lemma nbs_mono move p i j : (i <= j)%nat -> (nbs move p i <= nbs move p j)%nat.
Proof. intros H. rewrite !nbs_eq. unfold nbs_closed. destruct move, (is_DS p); lia. Qed.
Lemma nbs_stop p i : (nbs false p i <= 1)%nat.
Proof. rewrite nbs_eq. unfold nbs_closed. destruct (is_DS p); lia. Qed.

(** ** Vectors of steps *)
Lemma half_even n : (Nat.div (2 * n) 2 = n)%nat.
Proof. rewrite Nat.mul_comm. apply Nat.div_mul. discriminate. Qed.
Lemma even_mod n : (Nat.modulo (2 * n) 2 = 0)%nat.
Proof. rewrite Nat.mul_comm. apply Nat.mod_mul. discriminate. Qed.
Lemma nb_steps_eq N v k : vlen v = (2 * N + 2 * k)%nat -> nb_steps N v = k.
Proof. intros H. unfold nb_steps. rewrite H, <- Nat.mul_add_distr_l, half_even. lia. Qed.

Definition kin_of (s : sup R) (p : ptype) : polygon R := match p with LeftSS => fkin (sleft s) | _ => fkin (sright s) end.
(** The phase whose foot supports the robot when step k is made. *)
Definition kin_idx (s : sup R) (f : phase R) (k : nat) : nat := if (is_DS (phType f) && smove s)%bool then S k else k.
Definition step_kin (s : sup R) (f : phase R) (k : nat) : polygon R := kin_of s (typ (smove s) (phType f) (kin_idx s f k)).
Definition feet_ok (s : sup R) : Prop :=
  (0 < vlen (fsx (sleft s)))%nat /\ (0 < vlen (fsy (sleft s)))%nat
  /\ pverts (fkin (sleft s)) <> [] /\ pverts (fkin (sright s)) <> [].

(** The relation between a decision vector and its enlargement by one step. *)
Definition same_steps (N : nat) (v v' : vec R) (n : nat) : Prop :=
  (forall j, (j < 2 * N)%nat -> vget v' j = vget v j)
  /\ (forall k, (k < n)%nat -> stepX N v' k = stepX N v k /\ stepY N v' k = stepY N v k).
(** The new step k is in the middle of the kinematic polygon of the previous one (of the left foot
    when the robot is about to start). *)
Definition new_step (s : sup R) (f : phase R) (v' : vec R) (k : nat) : Prop :=
  (stepX (sN s) v' k = (match k with O => if is_DS (phType f) then vget (fsx (sleft s)) 0 else vget v' (2 * sN s - 1)
                             | S m => stepX (sN s) v' m end) + midX (step_kin s f k))
  /\ (stepY (sN s) v' k = (match k with O => if is_DS (phType f) then vget (fsy (sleft s)) 0 else stepX (sN s) v' 0
                             | S m => stepY (sN s) v' m end) + midY (step_kin s f k)).

Lemma enlarge_spec s f i v n :
  tl_inv s f (stl s) i -> snb s = nbs (smove s) (phType f) i -> snb s = S n -> vlen v = (2 * sN s + 2 * n)%nat ->
  (0 < sN s)%nat -> feet_ok s ->
  exists v', enlargeStepVec s v = Ok v' /\ vlen v' = (2 * sN s + 2 * S n)%nat
    /\ same_steps (sN s) v v' n /\ new_step s f v' n.
Proof.
  intros Ht Hnb Hn Hv HN (F1 & F2 & F3 & F4). unfold enlargeStepVec. rewrite Hv, <- Nat.mul_add_distr_l, half_even, even_mod. cbn [Nat.eqb guard bind].
  assert (Efront : s_isInDS s = Ok (is_DS (phType f))).
  { unfold s_isInDS, s_front, cb_at. rewrite (rd_some _ _ _ (tl_inv_front _ _ _ _ Ht)). reflexivity. }
  assert (Ekin : s_getKinematicConvexPolygon (sN s + n - sN s + 1 - 1) s = Ok (step_kin s f n)).
  { unfold s_getKinematicConvexPolygon. replace (sN s + n - sN s + 1 - 1)%nat with n by lia.
    destruct (Nat.ltb_spec n (snb s)) as [_|L]; [|lia]. cbn [guard bind]. rewrite Efront. cbn [bind].
    assert (L : (kin_idx s f n <= i)%nat).
    { rewrite Hnb, nbs_eq in Hn. unfold kin_idx, nbs_closed in *. destruct (smove s), (is_DS (phType f)); cbn [andb] in *; lia. }
    destruct (tl_inv_type _ _ _ _ _ Ht L) as (p & Hp & Tp). unfold cb_at, kin_idx in *. rewrite (rd_some _ _ _ Hp). cbn [bind]. rewrite Tp.
    unfold step_kin, kin_idx, kin_of.
    assert (Hd : typ (smove s) (phType f) (if (is_DS (phType f) && smove s)%bool then S n else n) <> DS).
    { rewrite Hnb, nbs_eq in Hn. unfold nbs_closed in Hn. destruct (smove s).
      - destruct (is_DS_spec (phType f)) as [->|E]; cbn [andb]; [apply typ_start|apply typ_walk; exact E].
      - destruct (is_DS_spec (phType f)) as [E|E]; [lia|]. cbn [andb]. replace n with 0%nat by lia. exact E. }
    destruct (typ (smove s) (phType f) (if (is_DS (phType f) && smove s)%bool then S n else n)); [contradiction|reflexivity|reflexivity]. }
  rewrite Ekin. cbn [bind].
  assert (Hk : pverts (step_kin s f n) <> []) by (unfold step_kin, kin_of; destruct (typ _ _ _); assumption).
  destruct (pverts (step_kin s f n)) as [|q l] eqn:Ek; [contradiction|]. cbn [length Nat.eqb negb guard bind]. rewrite Efront. cbn [bind].
  replace (sN s + n - sN s + 1)%nat with (S n) by lia. replace (S n - 1)%nat with n by lia.
  set (v2 := vsetseg (MkVec (2 * sN s + 2 * S n) (vget v)) (2 * sN s + S n) (vseg v (sN s + n + sN s) n)).
  assert (V2 : forall j, vget v2 j = if (Nat.leb (2 * sN s + S n) j && Nat.ltb j (2 * sN s + S n + n))%bool
                                     then vget v (sN s + n + sN s + (j - (2 * sN s + S n))) else vget v j) by reflexivity.
  assert (L2 : vlen v2 = (2 * sN s + 2 * S n)%nat) by reflexivity. clearbody v2.
  assert (Hfin : forall x y, let v' := vset (vset v2 (2 * sN s + S n - 1) x) (2 * sN s + 2 * S n - 1) y in
            vlen v' = (2 * sN s + 2 * S n)%nat /\ same_steps (sN s) v v' n /\ stepX (sN s) v' n = x /\ stepY (sN s) v' n = y).
  { intros x y v'. assert (L' : vlen v' = (2 * sN s + 2 * S n)%nat) by exact L2. split; [exact L'|]. split; [split|].
    - intros j Hj. unfold v', vset. cbn [vget vlen]. rewrite V2. vcmp. reflexivity.
    - intros k Hk'. unfold stepX, stepY. rewrite (nb_steps_eq _ _ _ L'), (nb_steps_eq _ _ _ Hv). unfold v', vset. cbn [vget vlen]. rewrite !V2.
      split; vcmp; [reflexivity|]. f_equal. lia.
    - unfold stepX, stepY. rewrite (nb_steps_eq _ _ _ L'). unfold v', vset. cbn [vget vlen]. split; vcmp; reflexivity. }
  destruct (is_DS (phType f) && Nat.eqb (snb s) 1)%bool eqn:Eds.
  - apply andb_prop in Eds. destruct Eds as (Eds & E1). apply Nat.eqb_eq in E1. assert (n = 0)%nat by lia. subst n.
    unfold vread. destruct (Nat.ltb_spec 0 (vlen (fsx (sleft s)))); [|lia]. destruct (Nat.ltb_spec 0 (vlen (fsy (sleft s)))); [|lia]. cbn [guard bind].
    eexists. split; [reflexivity|]. edestruct Hfin as (A & B & C & D). split; [exact A|]. split; [exact B|].
    unfold new_step. rewrite C, D, Eds. split; reflexivity.
  - eexists. split; [reflexivity|]. edestruct Hfin as (A & B & C & D). split; [exact A|]. split; [exact B|].
    unfold new_step. rewrite C, D. unfold stepX at 1 2, stepY. rewrite (nb_steps_eq _ _ _ A).
    destruct n as [|n].
    + rewrite Hn in Eds. cbn [Nat.eqb] in Eds. rewrite Bool.andb_true_r in Eds. rewrite Eds.
      unfold stepX, vset. cbn [vget vlen]. rewrite !V2. split; vcmp; [|reflexivity].
      replace (2 * sN s + 1 - 2)%nat with (2 * sN s - 1)%nat by lia. reflexivity.
    + unfold stepX, vset. cbn [vget vlen]. rewrite !V2. split; vcmp; rsimpl_goal; f_equal; f_equal; lia.
Qed.

Lemma reduce_spec (move : bool) N (v : vec R) n : vlen v = (2 * N + 2 * n)%nat ->
  let m := if move then n else Nat.min 1 n in
  vlen (reduceStepVec move N v) = (2 * N + 2 * m)%nat /\ same_steps N v (reduceStepVec move N v) m.
Proof.
  intros Hv m. unfold reduceStepVec. rewrite Hv. destruct move; cbn [negb andb].
  - split; [exact Hv|]. split; intros; auto.
  - destruct (Nat.ltb_spec (2 * N + 2) (2 * N + 2 * n)) as [L|L].
    + assert (m = 1)%nat by (unfold m; lia). rewrite H. rewrite <- Nat.mul_add_distr_l, half_even. split; [reflexivity|].
      split; intros.
      * unfold vset. cbn [vget vlen]. vcmp. reflexivity.
      * assert (k = 0)%nat by lia. subst k. unfold stepX, stepY. rewrite (nb_steps_eq N v n Hv).
        rewrite (nb_steps_eq N _ 1) by reflexivity. unfold vset. cbn [vget vlen]. split; vcmp; f_equal; lia.
    + assert (m = n) by (unfold m; lia). rewrite H. split; [exact Hv|]. split; intros; auto.
Qed.
Lemma same_steps_trans N a b c n m : (m <= n)%nat -> same_steps N a b n -> same_steps N b c m -> same_steps N a c m.
Proof.
  intros L (H1 & H2) (H3 & H4). split; intros.
  - rewrite H3, H1 by assumption. reflexivity.
  - destruct (H4 k H) as (-> & ->). apply H2. lia.
Qed.
Lemma new_step_same s f v v' n k : same_steps (sN s) v v' n -> (k < n)%nat -> (0 < sN s)%nat -> new_step s f v k -> new_step s f v' k.
Proof.
  intros (H1 & H2) Hk HN (H3 & H4). destruct (H2 k Hk) as (E1 & E2). unfold new_step. rewrite E1, E2, H3, H4. destruct k as [|k].
  - rewrite H1 by lia. destruct (H2 0%nat Hk) as (E3 & _). split; [reflexivity|]. destruct (is_DS (phType f)); [reflexivity|]. rewrite E3. reflexivity.
  - destruct (H2 k) as (E3 & E4); [lia|]. rewrite E3, E4. split; reflexivity.
Qed.

(** ** Regular timing *)
(** The current phase lasts S + r T with EPS < S < T + EPS, all durations are multiples of T. *)
Section Regular.
Context (s : sup R) (f : phase R) (S0 : R) (r0 a b : nat).
Context (HT : EPS < sT s).
Context (HN : (0 < sN s)%nat).
Context (HS : EPS < S0 < sT s + EPS).
Context (Ha : sstep s = INR a * sT s).
Context (Hb : sDS s = INR b * sT s).
Context (Ha0 : (0 < a)%nat).
Context (Hb0 : (0 < b)%nat).
Let p0 := phType f.
Let mv := smove s.
(** Number of samples of phase j, and the number of the sample at which phase j ends. *)
Definition ticks (j : nat) : nat := match typ mv p0 j with DS => b | _ => a end.
Fixpoint ends (j : nat) : nat := match j with O => S r0 | S k => (ends k + ticks (S k))%nat end.
Lemma ticks_pos j : (0 < ticks j)%nat.
Proof. unfold ticks. destruct (typ mv p0 j); assumption. Qed.
Lemma ends_mono j k : (j <= k)%nat -> (ends j <= ends k)%nat.
Proof. induction 1 as [|k H IH]; [reflexivity|]. cbn [ends]. lia. Qed.
Lemma ends_lt j k : (j < k)%nat -> (ends j < ends k)%nat.
Proof. intros H. apply (ends_mono (S j)) in H. cbn [ends] in H. pose proof (ticks_pos (S j)). lia. Qed.
Lemma duration_ticks j : durationOf s (typ mv p0 j) = INR (ticks j) * sT s.
Proof. unfold durationOf, ticks. destruct (typ mv p0 j); assumption. Qed.
(** The phase timer, c samples before the end of phase i. *)
Definition timer (i c : nat) : R := match i with O => S0 - sT s + INR c * sT s | _ => INR c * sT s end.
Lemma timer_step i c : timer i (S c) - sT s = timer i c.
Proof. unfold timer. rewrite S_INR. destruct i; ring. Qed.
Lemma timer_over i c : Rltb (timer i c) EPS = true <-> c = 0%nat.
Proof.
  rewrite Rltb_true. unfold timer. rsimpl. destruct c as [|c].
  - rewrite Rmult_0_l. destruct i; split; intros; try reflexivity; lra.
  - rewrite S_INR. pose proof (pos_INR c). split; [|discriminate]. intros K. exfalso.
    assert (0 <= INR c * sT s) by (apply Rmult_le_pos; lra). destruct i; lra.
Qed.
(** Sizes of the decision vector. *)
Definition grown (n nb : nat) : nat := if mv then Nat.max n nb else Nat.min 1 (Nat.max n nb).
Definition good_growth (n : nat) (v v' : vec R) (m : nat) : Prop :=
  same_steps (sN s) v v' (Nat.min n m) /\ forall k, (n <= k < m)%nat -> new_step s f v' k.

Lemma enlarge_loop_spec t i v n :
  tl_inv s f t i -> feet_ok s -> vlen v = (2 * sN s + 2 * n)%nat -> (nbs mv p0 i <= S n)%nat ->
  let nb := nbs mv p0 i in
  let m := Nat.max n nb in
  exists v', enlarge_loop nb (s_setTl s nb t) v = Ok v' /\ vlen v' = (2 * sN s + 2 * m)%nat /\ good_growth n v v' m.
Proof.
  intros Ht Hf Hv Hnb nb m. destruct (Nat.eq_dec nb (S n)) as [E|E].
  - destruct (enlarge_spec (s_setTl s nb t) f i v n) as (v' & Hv' & L' & Hs & Hn); try assumption; try reflexivity.
    exists v'. rewrite E at 1. cbn [enlarge_loop]. cbn [sN snb s_setTl] in *. rewrite Hv, E. destruct (Nat.ltb_spec (2 * sN s + 2 * n) (2 * sN s + 2 * S n)); [|lia].
    rewrite E in Hv'. rewrite Hv'. cbn [bind].
    assert (El : enlarge_loop n (s_setTl s (S n) t) v' = Ok v').
    { destruct n; cbn [enlarge_loop sN snb s_setTl]; rewrite L', Nat.ltb_irrefl; reflexivity. }
    split; [exact El|]. assert (m = S n) by (unfold m; lia). rewrite H0. split; [exact L'|].
    split; [rewrite Nat.min_l by lia; exact Hs|]. intros k Hk. assert (k = n) by lia. subst k. exact Hn.
  - assert (m = n) by (unfold m, nb; lia). exists v. rewrite H. split.
    { destruct nb eqn:En; cbn [enlarge_loop sN snb s_setTl]; rewrite Hv.
      - destruct (Nat.ltb_spec (2 * sN s + 2 * n) (2 * sN s + 2 * 0)); [lia|reflexivity].
      - destruct (Nat.ltb_spec (2 * sN s + 2 * n) (2 * sN s + 2 * S n0)); [lia|reflexivity]. }
    split; [exact Hv|]. split; [split; intros; auto|]. intros; lia.
Qed.

Lemma loop_regular fuel : forall k t i c v n,
  tl_inv s f t i -> feet_ok s -> (k + c = ends i)%nat -> (i = 0 \/ ends (i - 1) < k)%nat ->
  (k <= S (sN s))%nat -> (S (sN s) - k <= fuel)%nat ->
  vlen v = (2 * sN s + 2 * n)%nat -> (nbs mv p0 i <= n)%nat ->
  exists t' i' v', timeline_loop fuel (s_setTl s (nbs mv p0 i) t) i (timer i c) (INR (sN s) * sT s - INR k * sT s) v
      = Ok (s_setTl s (nbs mv p0 i') t', i', v')
    /\ tl_inv s f t' i' /\ (i' = 0 \/ ends (i' - 1) <= sN s)%nat /\ (sN s < ends i')%nat /\ (i <= i')%nat
    /\ let m := if Nat.leb k (sN s) then grown n (nbs mv p0 i') else n in
       vlen v' = (2 * sN s + 2 * m)%nat /\ good_growth n v v' m.
Proof.
  induction fuel as [|fuel IH]; intros k t i c v n Ht Hf Hc Hi Hk Hfuel Hv Hnb.
  - assert (k = S (sN s)) by lia. subst k. cbn [timeline_loop].
    change (sltb (- EPS)%sc (INR (sN s) * sT s - INR (S (sN s)) * sT s)) with (Rltb (- EPS) (INR (sN s) * sT s - INR (S (sN s)) * sT s)).
    rewrite S_INR. destruct (Rltb_spec (- EPS) (INR (sN s) * sT s - (INR (sN s) + 1) * sT s)) as [L|_]; [rsimpl; nra|].
    exists t, i, v. split; [reflexivity|]. split; [exact Ht|]. split; [lia|]. split; [lia|]. split; [lia|].
    destruct (Nat.leb_spec (S (sN s)) (sN s)); [lia|]. split; [exact Hv|]. split; [split; intros; auto|intros; lia].
  - destruct (Nat.eq_dec k (S (sN s))) as [->|Hne].
    + cbn [timeline_loop].
      change (sltb (- EPS)%sc (INR (sN s) * sT s - INR (S (sN s)) * sT s)) with (Rltb (- EPS) (INR (sN s) * sT s - INR (S (sN s)) * sT s)).
      rewrite S_INR. destruct (Rltb_spec (- EPS) (INR (sN s) * sT s - (INR (sN s) + 1) * sT s)) as [L|_]; [rsimpl; nra|].
      exists t, i, v. split; [reflexivity|]. split; [exact Ht|]. split; [lia|]. split; [lia|]. split; [lia|].
      destruct (Nat.leb_spec (S (sN s)) (sN s)); [lia|]. split; [exact Hv|]. split; [split; intros; auto|intros; lia].
    + cbn [timeline_loop].
      change (sltb (- EPS)%sc (INR (sN s) * sT s - INR k * sT s)) with (Rltb (- EPS) (INR (sN s) * sT s - INR k * sT s)).
      destruct (Rltb_spec (- EPS) (INR (sN s) * sT s - INR k * sT s)) as [_|L].
      2:{ exfalso. apply L. assert (INR k <= INR (sN s)) by (apply le_INR; lia). assert (0 <= (INR (sN s) - INR k) * sT s) by (apply Rmult_le_pos; rsimpl; lra). rsimpl; lra. }
      change (sltb (timer i c) EPS) with (Rltb (timer i c) EPS).
      (* the phase change *)
      assert (exists t1 i1 c1,
        (if Rltb (timer i c) EPS then
           do s' <- phase_change (s_setTl s (nbs mv p0 i) t) i; do p <- cb_at (stl s') (S i); Ok (s', S i, phDur p)
         else Ok (s_setTl s (nbs mv p0 i) t, i, timer i c)) = Ok (s_setTl s (nbs mv p0 i1) t1, i1, timer i1 (S c1))
        /\ tl_inv s f t1 i1 /\ (S k + c1 = ends i1)%nat /\ (i1 = 0 \/ ends (i1 - 1) < S k)%nat /\ (i <= i1)%nat /\ (nbs mv p0 i1 <= S n)%nat)
        as (t1 & i1 & c1 & E1 & Ht1 & Hc1 & Hi1 & Hle & Hnb1).
      { destruct (Rltb (timer i c) EPS) eqn:Et.
        - apply timer_over in Et. subst c. destruct (phase_change_spec (s_setTl s (nbs mv p0 i) t) f i Ht) as (t1 & Hp & Ht1).
          rewrite Hp. cbn [bind stl s_setTl]. unfold cb_at. rewrite (rd_some _ _ _ (tl_inv_nth _ _ _ _ (S i) Ht1 ltac:(lia))). cbn [bind phDur mkph].
          exists t1, (S i), (ticks (S i) - 1)%nat. pose proof (ticks_pos (S i)) as Hpos. split.
          { cbn [timer]. replace (S (ticks (S i) - 1)) with (ticks (S i)) by lia. rewrite <- duration_ticks. reflexivity. }
          split; [exact Ht1|]. cbn [ends]. replace (S i - 1)%nat with i by lia. split; [lia|]. split; [lia|]. split; [lia|].
          cbn [nbs]. destruct (is_DS (typ mv p0 i)); lia.
        - destruct c as [|c]; [exfalso; assert (Rltb (timer i 0) EPS = true) by (apply timer_over; reflexivity); congruence|].
          exists t, i, c. split; [reflexivity|]. split; [exact Ht|]. split; [lia|]. split; [lia|]. split; [lia|lia]. }
      rewrite E1. cbn [bind]. clear E1.
      destruct (enlarge_loop_spec t1 i1 v n Ht1 Hf Hv Hnb1) as (v1 & Ev1 & Lv1 & G1).
      cbn [snb s_setTl smove sN sT]. rewrite Ev1. cbn [bind].
      pose proof (reduce_spec mv (sN s) v1 (Nat.max n (nbs mv p0 i1)) Lv1) as R. cbn zeta in R. fold mv.
      set (n2 := if mv then Nat.max n (nbs mv p0 i1) else Nat.min 1 (Nat.max n (nbs mv p0 i1))) in *. destruct R as (Lv2 & S2).
      change (ssub (timer i1 (S c1)) (sT s)) with (timer i1 (S c1) - sT s). rewrite timer_step.
      change (ssub (INR (sN s) * sT s - INR k * sT s) (sT s)) with (INR (sN s) * sT s - INR k * sT s - sT s).
      replace (INR (sN s) * sT s - INR k * sT s - sT s) with (INR (sN s) * sT s - INR (S k) * sT s) by (rewrite S_INR; ring).
      assert (Hn2 : (nbs mv p0 i1 <= n2)%nat).
      { unfold n2. destruct mv; [lia|]. pose proof (nbs_stop p0 i1). lia. }
      destruct (IH (S k) t1 i1 c1 (reduceStepVec mv (sN s) v1) n2 Ht1 Hf Hc1 Hi1 ltac:(lia) ltac:(lia) Lv2 Hn2)
        as (t' & i' & v' & E' & Ht' & HA & HB & Hi' & Lv' & G').
      exists t', i', v'. split; [exact E'|]. split; [exact Ht'|]. split; [exact HA|]. split; [exact HB|]. split; [lia|].
      destruct (Nat.leb_spec k (sN s)) as [_|L]; [|lia].
      set (nb' := nbs mv p0 i') in *.
      assert (Hm1 : (nbs mv p0 i1 <= nb')%nat) by (apply nbs_mono; exact Hi').
      set (m2 := if Nat.leb (S k) (sN s) then grown n2 nb' else n2) in *.
      assert (Em : m2 = grown n nb').
      { assert (Hend : (S k <= sN s)%nat \/ nb' = nbs mv p0 i1).
        { destruct (Nat.le_gt_cases (S k) (sN s)); [left; assumption|right].
          assert (k = sN s) by lia. unfold nb'. f_equal. destruct (Nat.eq_dec i1 i') as [->|Hx]; [reflexivity|].
          exfalso. assert (Hl : (i1 <= i' - 1)%nat) by lia. apply ends_mono in Hl. lia. }
        unfold m2, grown, n2. destruct (Nat.leb_spec (S k) (sN s)); destruct mv; try lia; destruct Hend; lia. }
      rewrite <- Em. split; [exact Lv'|].
      destruct G1 as (G1s & G1n). destruct G' as (G's & G'n).
      assert (Hn2' : (n2 <= Nat.max n (nbs mv p0 i1))%nat) by (unfold n2; destruct mv; lia).
      assert (Hmin : (Nat.min n m2 <= Nat.min n2 m2)%nat).
      { rewrite Em. unfold grown, n2. destruct mv; lia. }
      assert (S3 : same_steps (sN s) v1 v' (Nat.min n2 m2)).
      { apply (same_steps_trans _ _ (reduceStepVec mv (sN s) v1) _ n2); [lia|exact S2|exact G's]. }
      split.
      * assert (L1 : (Nat.min n m2 <= Nat.min n (Nat.max n (nbs mv p0 i1)))%nat) by lia.
        apply (same_steps_trans _ _ v1 _ _ _ L1 G1s). split; [exact (proj1 S3)|]. intros j Hj. apply (proj2 S3). lia.
      * intros j Hj. destruct (Nat.lt_ge_cases j n2) as [Hj2|Hj2].
        -- apply (new_step_same s f v1 v' (Nat.min n2 m2) j S3); [lia|exact HN|]. apply G1n. lia.
        -- apply G'n. lia.
Qed.

(** ** The selection matrices *)
Definition row_phase (r j : nat) : Prop := (j = 0 \/ ends (j - 1) <= S r)%nat /\ (S r < ends j)%nat.
Lemma row_phase_unique r j j' : row_phase r j -> row_phase r j' -> j = j'.
Proof.
  intros (A & B) (A' & B'). destruct (lt_eq_lt_dec j j') as [[L|L]|L]; [|exact L|]; exfalso.
  - assert (H : (j <= j' - 1)%nat) by lia. apply ends_mono in H. lia.
  - assert (H : (j' <= j - 1)%nat) by lia. apply ends_mono in H. lia.
Qed.
(** The column of the step phase j stands on; None for the current support. *)
Definition colf (j : nat) : option nat :=
  match j with
  | O => None
  | S k => if is_DS p0 then (if mv then match k with O => None | S m => Some m end else None)
           else if mv then Some k else Some 0%nat
  end.
Definition b2z (b : bool) : Z := if b then 1%Z else 0%Z.
Definition is_col (o : option nat) (c : nat) : bool := match o with Some k => Nat.eqb k c | None => false end.
Definition is_none (o : option nat) : bool := match o with None => true | Some _ => false end.
Record sel_good (nb : nat) (e : selst R) : Prop := {
  g_dims : mrows (eV e) = sN s /\ mcols (eV e) = nb /\ vlen (eV0 e) = sN s /\ vlen (eIdx e) = sN s;
  g_row : (eRow e <= sN s)%nat;
  g_done : forall r j, (r < eRow e)%nat -> row_phase r j ->
     vget (eIdx e) r = j /\ vget (eV0 e) r = b2z (is_none (colf j)) /\ forall c, (c < nb)%nat -> mget (eV e) r c = b2z (is_col (colf j) c);
  g_todo : forall r, (eRow e <= r)%nat -> vget (eIdx e) r = 0%nat /\ vget (eV0 e) r = 0%Z /\ forall c, mget (eV e) r c = 0%Z;
  g_hor : if Nat.ltb (eRow e) (sN s) then eHor e = INR (sN s - eRow e) * sT s - S0 else eHor e <= - S0 }.

Lemma v0_spec fuel : forall row V0, (row <= Nat.min r0 (sN s))%nat -> (sN s - row <= fuel)%nat -> vlen V0 = sN s ->
  (forall r, vget V0 r = b2z (Nat.ltb r row)) ->
  exists pt V0', v0_loop fuel (sT s) (S0 + INR (r0 - row) * sT s) (sN s) row V0 = Ok (pt, Nat.min r0 (sN s), V0')
    /\ vlen V0' = sN s /\ forall r, vget V0' r = b2z (Nat.ltb r (Nat.min r0 (sN s))).
Proof.
  induction fuel as [|fuel IH]; intros row V0 Hr Hf Hl Hv; cbn [v0_loop];
  change (sltb (sadd (sT s) EPS) (S0 + INR (r0 - row) * sT s)) with (Rltb (sT s + EPS) (S0 + INR (r0 - row) * sT s)).
  - assert (row = sN s) by lia. destruct (Nat.ltb_spec row (sN s)); [lia|]. rewrite Bool.andb_false_r.
    replace (Nat.min r0 (sN s)) with row by lia. eexists _, _. split; [reflexivity|]. auto.
  - destruct (Nat.ltb_spec row (sN s)) as [L|L].
    + destruct (Rltb_spec (sT s + EPS) (S0 + INR (r0 - row) * sT s)) as [K|K]; cbn [andb].
      * assert (row < r0)%nat. { destruct (Nat.lt_ge_cases row r0); [assumption|exfalso]. replace (r0 - row)%nat with 0%nat in K by lia. cbn [INR] in K. lra. }
        change (ssub (S0 + INR (r0 - row) * sT s) (sT s)) with (S0 + INR (r0 - row) * sT s - sT s).
        replace (S0 + INR (r0 - row) * sT s - sT s) with (S0 + INR (r0 - S row) * sT s).
        2:{ replace (r0 - row)%nat with (S (r0 - S row)) by lia. rewrite S_INR. ring. }
        apply IH; [lia|lia|exact Hl|]. intros r. cbn [vget]. rewrite Hv. destruct (Nat.eqb_spec r row); destruct (Nat.ltb_spec r row); destruct (Nat.ltb_spec r (S row)); try lia; reflexivity.
      * assert (Nat.min r0 (sN s) = row)%nat.
        { destruct (Nat.eq_dec (Nat.min r0 (sN s)) row) as [E|E]; [exact E|exfalso]. apply K. replace (r0 - row)%nat with (S (r0 - S row)) by lia. rewrite S_INR.
          pose proof (pos_INR (r0 - S row)). assert (0 <= INR (r0 - S row) * sT s) by (apply Rmult_le_pos; rsimpl; lra). lra. }
        rewrite H. eexists _, _. split; [reflexivity|]. auto.
    + rewrite Bool.andb_false_r. replace (Nat.min r0 (sN s)) with row by lia. eexists _, _. split; [reflexivity|]. auto.
Qed.

Definition colv (j : nat) : nat := if mv then (if is_DS p0 then j - 2 else j - 1)%nat else 0%nat.
Lemma inner_spec nb fuel : forall j c e, (1 <= j)%nat ->
  (forall k, colf j = Some k -> k = colv j /\ (k < nb)%nat) ->
  sel_good nb e -> (S (eRow e) + c = ends j)%nat -> (ends (j - 1) <= S (eRow e))%nat -> (sN s - eRow e <= fuel)%nat ->
  exists e', sel_inner fuel s (is_DS p0) j (colv j) (INR c * sT s) e = Ok e' /\ sel_good nb e'
    /\ eRow e' = Nat.min (sN s) (ends j - 1) .
Proof.
  induction fuel as [|fuel IH]; intros j c e Hj Hcol G Hc He Hf; cbn [sel_inner];
  change (sltb EPS (INR c * sT s)) with (Rltb EPS (INR c * sT s)); pose proof (g_row _ _ G) as Hrow.
  - assert (eRow e = sN s) by lia. destruct (Nat.ltb_spec (eRow e) (sN s)); [lia|]. rewrite Bool.andb_false_r.
    exists e. split; [reflexivity|]. split; [exact G|]. lia.
  - destruct (Nat.ltb_spec (eRow e) (sN s)) as [L|L].
    2:{ rewrite Bool.andb_false_r. exists e. split; [reflexivity|]. split; [exact G|]. lia. }
    destruct c as [|c].
    { cbn [INR]. rewrite Rmult_0_l. destruct (Rltb_spec EPS 0) as [K|_]; [rsimpl; lra|]. cbn [andb]. exists e. split; [reflexivity|]. split; [exact G|]. lia. }
    destruct (Rltb_spec EPS (INR (S c) * sT s)) as [_|K].
    2:{ exfalso. apply K. rewrite S_INR. pose proof (pos_INR c). assert (0 <= INR c * sT s) by (apply Rmult_le_pos; rsimpl; lra). lra. }
    cbn [andb]. change (ssub (INR (S c) * sT s) (sT s)) with (INR (S c) * sT s - sT s).
    replace (INR (S c) * sT s - sT s) with (INR c * sT s) by (rewrite S_INR; ring).
    assert (Hph : row_phase (eRow e) j) by (split; [right; exact He|lia]).
    assert (Enone : is_none (colf j) = (is_DS p0 && (Nat.eqb j 1 || negb (smove s)))%bool).
    { unfold colf. fold mv. destruct j as [|[|j]]; [lia| |]; destruct (is_DS p0), mv; reflexivity. }
    assert (Ehor : eHor e = INR (sN s - eRow e) * sT s - S0) by (pose proof (g_hor _ _ G) as A; destruct (Nat.ltb_spec (eRow e) (sN s)); [exact A|lia]).
    assert (Ghor : if Nat.ltb (S (eRow e)) (sN s) then ssub (eHor e) (sT s) = INR (sN s - S (eRow e)) * sT s - S0 else ssub (eHor e) (sT s) <= - S0).
    { change (ssub (eHor e) (sT s)) with (eHor e - sT s). rewrite Ehor. replace (sN s - eRow e)%nat with (S (sN s - S (eRow e))) by lia. rewrite S_INR.
      destruct (Nat.ltb_spec (S (eRow e)) (sN s)); [ring|]. replace (sN s - S (eRow e))%nat with 0%nat by lia. cbn [INR]. lra. }
    destruct G as [Gd Gr Gdone Gtodo Gh].
    assert (Gstep : forall V V0,
       mrows V = sN s -> mcols V = nb -> vlen V0 = sN s ->
       (forall r, r <> eRow e -> vget V0 r = vget (eV0 e) r) -> (forall r k, r <> eRow e -> mget V r k = mget (eV e) r k) ->
       vget V0 (eRow e) = b2z (is_none (colf j)) -> (forall k, (k < nb)%nat -> mget V (eRow e) k = b2z (is_col (colf j) k)) ->
       sel_good nb (MkSelSt V V0 (MkVec (vlen (eIdx e)) (fun k => if Nat.eqb k (eRow e) then j else vget (eIdx e) k)) (S (eRow e)) (ssub (eHor e) (sT s)))).
    { intros V V0 D1 D2 D3 K1 K2 K3 K4. constructor; cbn [eV eV0 eIdx eRow eHor vlen vget].
      - repeat split; try assumption. apply Gd.
      - lia.
      - intros r k Hr Hk. destruct (Nat.eqb_spec r (eRow e)) as [->|Hne].
        + rewrite (row_phase_unique _ _ _ Hk Hph). auto.
        + rewrite K1 by exact Hne. destruct (Gdone r k ltac:(lia) Hk) as (A & B & C). split; [exact A|]. split; [exact B|].
          intros c0 Hc0. rewrite K2 by exact Hne. apply C. exact Hc0.
      - intros r Hr. destruct (Nat.eqb_spec r (eRow e)); [lia|]. rewrite K1 by assumption. destruct (Gtodo r ltac:(lia)) as (A & B & C).
        split; [exact A|]. split; [exact B|]. intros k. rewrite K2 by assumption. apply C.
      - exact Ghor. }
    destruct (Gtodo (eRow e) (le_n _)) as (_ & Tz & Tm).
    destruct (is_DS p0 && (Nat.eqb j 1 || negb (smove s)))%bool eqn:Eb.
    + edestruct (IH j c) as (e' & E' & G' & R'); [exact Hj|exact Hcol| | | | |exists e'; split; [exact E'|split; [exact G'|exact R']]];
        [|cbn [eRow]; lia|cbn [eRow]; lia|cbn [eRow]; lia].
      apply Gstep; cbn [vget vlen]; try apply Gd.
      * intros r Hr. destruct (Nat.eqb_spec r (eRow e)); [contradiction|reflexivity].
      * reflexivity.
      * rewrite Nat.eqb_refl, Enone. reflexivity.
      * intros k _. rewrite Tm. destruct (colf j); [discriminate Enone|reflexivity].
    + destruct (colf j) as [k0|] eqn:Ec; [|discriminate Enone]. destruct (Hcol k0 eq_refl) as (-> & Hlt).
      rewrite (proj1 (proj2 Gd)). destruct (Nat.ltb_spec (colv j) nb) as [_|K]; [|lia]. cbn [guard bind].
      edestruct (IH j c) as (e' & E' & G' & R'); [exact Hj|rewrite Ec; exact Hcol| | | | |exists e'; split; [exact E'|split; [exact G'|exact R']]];
        [|cbn [eRow]; lia|cbn [eRow]; lia|cbn [eRow]; lia].
      apply Gstep; cbn [vget vlen mset mrows mcols mget]; try apply Gd.
      * reflexivity.
      * intros r k Hr. destruct (Nat.eqb_spec r (eRow e)); [contradiction|reflexivity].
      * exact Tz.
      * intros k _. cbn [is_col]. rewrite Nat.eqb_refl. cbn [andb]. rewrite Nat.eqb_sym. destruct (Nat.eqb (colv j) k); [reflexivity|apply Tm].
Qed.

Section Outer.
Context (i : nat).
Context (Htl : cbl (stl s) = tlist s f i).
Context (Hnb : snb s = nbs mv p0 i).
Context (Hend : (sN s < ends i)%nat).
Context (Ht : sttnp s = S0 + INR r0 * sT s).
Lemma colf_fits j k : (1 <= j <= i)%nat -> colf j = Some k -> k = colv j /\ (k < snb s)%nat.
Proof.
  intros Hj. rewrite Hnb, nbs_eq. unfold colf, colv, nbs_closed. destruct j as [|j]; [lia|]. destruct (is_DS p0), mv; intros E; try discriminate.
  - destruct j as [|j]; [discriminate|]. injection E as <-. lia.
  - injection E as <-. lia.
  - injection E as <-. lia.
Qed.
Lemma outer_spec fuel : forall j e, (1 <= j)%nat -> sel_good (snb s) e ->
  (eRow e = Nat.min (sN s) (ends (j - 1) - 1))%nat -> (S i - j < fuel)%nat \/ (sN s <= eRow e)%nat ->
  exists e', sel_outer fuel s (is_DS p0) j (colv j) e = Ok e' /\ sel_good (snb s) e' /\ eRow e' = sN s.
Proof.
  induction fuel as [|fuel IH]; intros j e Hj G Hrow Hf; cbn [sel_outer];
  change (sltb (sopp EPS) (eHor e)) with (Rltb (- EPS) (eHor e)); pose proof (g_row _ _ G) as Hle; pose proof (g_hor _ _ G) as Hh.
  - assert (eRow e = sN s) by lia. destruct (Nat.ltb_spec (eRow e) (sN s)); [lia|]. destruct (Rltb_spec (- EPS) (eHor e)); [lra|].
    exists e. auto.
  - destruct (Nat.ltb_spec (eRow e) (sN s)) as [L|L].
    2:{ destruct (Rltb_spec (- EPS) (eHor e)); [lra|]. exists e. split; [reflexivity|]. split; [exact G|lia]. }
    destruct (Rltb_spec (- EPS) (eHor e)) as [_|K].
    2:{ exfalso. apply K. rewrite Hh. replace (sN s - eRow e)%nat with (S (sN s - S (eRow e))) by lia. rewrite S_INR.
        pose proof (pos_INR (sN s - S (eRow e))). assert (0 <= INR (sN s - S (eRow e)) * sT s) by (apply Rmult_le_pos; rsimpl; lra). lra. }
    assert (E1 : (0 < ends (j - 1))%nat). { pose proof (ends_mono 0 (j - 1) ltac:(lia)) as A. cbn [ends] in A. lia. }
    assert (Hji : (j <= i)%nat). { destruct (Nat.le_gt_cases j i); [assumption|exfalso]. assert (A : (i <= j - 1)%nat) by lia. apply ends_mono in A. lia. }
    unfold cb_at. rewrite Htl. rewrite (rd_some _ _ _ (tlist_nth s f i j ltac:(lia))). cbn [bind mkph phDur]. fold mv p0. rewrite duration_ticks.
    assert (Ends : ends j = (ends (j - 1) + ticks j)%nat) by (destruct j as [|j']; [lia|]; cbn [ends]; replace (S j' - 1)%nat with j' by lia; reflexivity).
    destruct (inner_spec (snb s) (sN s) j (ticks j) e Hj) as (e' & E' & G' & R'); [intros k Hk; apply colf_fits; [lia|exact Hk]|exact G|lia|lia|lia|].
    rewrite E'. cbn [bind].
    replace (if (mv && (negb (is_DS p0) || Nat.ltb 1 j))%bool then S (colv j) else colv j) with (colv (S j)).
    2:{ unfold colv. destruct mv, (is_DS p0); cbn [negb orb andb]; try lia. destruct (Nat.ltb_spec 1 j); lia. }
    apply IH; [lia|exact G'|replace (S j - 1)%nat with j by lia; exact R'|].
    destruct (Nat.le_gt_cases (S j) i) as [A|A]; [left; lia|]. assert (j = i) by lia. subst j. right. rewrite R'. lia.
Qed.
Lemma selection_spec : exists e, selectionMatrix s = Ok e /\ sel_good (snb s) e /\ eRow e = sN s.
Proof.
  unfold selectionMatrix. destruct (Nat.ltb_spec 0 (sN s)); [|lia]. cbn [guard bind].
  assert (Efront : s_isInDS s = Ok (is_DS p0)) by (unfold s_isInDS, s_front, cb_at; rewrite Htl; reflexivity).
  rewrite Efront. cbn [bind]. rewrite Ht.
  destruct (v0_spec (sN s) 0 (MkVec (sN s) (fun _ => 0%Z))) as (pt & V0 & Ev & Lv & Gv); [lia|lia|reflexivity| |].
  { intros r. cbn [vget]. destruct (Nat.ltb_spec r 0); [lia|reflexivity]. }
  rewrite Nat.sub_0_r in Ev. rewrite Ev. cbn [bind]. replace (sel_outer (S (cb_size (stl s))) s (is_DS p0) 1 0) with (sel_outer (S (cb_size (stl s))) s (is_DS p0) 1 (colv 1)) by (unfold colv; destruct mv, (is_DS p0); reflexivity).
  destruct (outer_spec (S (cb_size (stl s))) 1
     (MkSelSt (MkMat (sN s) (snb s) (fun _ _ => 0%Z)) V0 (MkVec (sN s) (fun _ => 0%nat)) (Nat.min r0 (sN s))
         (ssub (smul (sofnat (sN s)) (sT s)) (S0 + INR r0 * sT s)))) as (e & Ee & Ge & Re).
  - lia.
  - constructor; cbn [eV eV0 eIdx eRow eHor vlen vget mrows mcols mget].
    + repeat split; try reflexivity. exact Lv.
    + lia.
    + intros r j Hr Hj. assert (j = 0)%nat. { apply (row_phase_unique r); [exact Hj|]. split; [lia|]. cbn [ends]. lia. }
      subst j. rewrite Gv. destruct (Nat.ltb_spec r (Nat.min r0 (sN s))); [|lia]. cbn. auto.
    + intros r Hr. rewrite Gv. destruct (Nat.ltb_spec r (Nat.min r0 (sN s))); [lia|]. cbn. auto.
    + rewrite sofnat_INR. change (ssub (smul (INR (sN s)) (sT s)) (S0 + INR r0 * sT s)) with (INR (sN s) * sT s - (S0 + INR r0 * sT s)).
      destruct (Nat.ltb_spec (Nat.min r0 (sN s)) (sN s)) as [L|L].
      * rewrite Nat.min_l by lia. rewrite minus_INR by lia. ring.
      * assert (A : INR (sN s) <= INR r0) by (apply le_INR; lia). assert (0 <= (INR r0 - INR (sN s)) * sT s) by (apply Rmult_le_pos; rsimpl; lra). lra.
  - cbn [eRow ends Nat.sub]. lia.
  - left. unfold cb_size. rewrite Htl, tlist_length. lia.
  - exists e. auto.
Qed.
End Outer.
End Regular.
End Facts.
