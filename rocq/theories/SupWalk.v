(** Walking histories of the feet supervisor. *)

From Coq Require Import Reals List ZArith Arith Bool Lra Lia.
From Verif Require Import Scalar LinAlg LinAlgFacts ToolsModel InterpModel PolygonModel FootModel ModelsFacts SupModel SupSpec SupFacts SupTime PropTools.
Import ListNotations.
Local Open Scope R_scope.

Section Walk.
Context {TK : Trig R}.

(** ** Times and samples *)
Lemma start_time_ends (s : sup R) f S0 r0 a b i : sstep s = INR a * sT s -> sDS s = INR b * sT s ->
  forall j, (j <= i)%nat -> start_time (S0 + INR r0 * sT s) (tlist s f i) (S j) = S0 + (INR (ends s f r0 a b j) - 1) * sT s.
Proof.
  intros Ha Hb j. induction j as [|j IH]; intros Hj.
  - cbn [start_time ends]. rewrite S_INR. ring.
  - cbn [start_time] in *. rewrite IH by lia. rewrite tlist_nth by lia. cbn [mkph phDur ends]. rewrite (duration_ticks s f a b Ha Hb), plus_INR. ring.
Qed.
Lemma in_progress_row (s : sup R) f S0 r0 a b i r j : 0 < sT s -> sstep s = INR a * sT s -> sDS s = INR b * sT s ->
  (in_progress (S0 + INR r0 * sT s) (tlist s f i) (S0 + INR r * sT s) j <-> row_phase s f r0 a b r j /\ (j <= i)%nat).
Proof.
  intros HT Ha Hb. unfold in_progress, row_phase. rewrite tlist_length.
  assert (Cmp : forall e, S0 + (INR e - 1) * sT s <= S0 + INR r * sT s <-> (e <= S r)%nat).
  { intros e. split; intros H.
    - apply INR_le. rewrite S_INR. apply (Rmult_le_reg_r (sT s)); lra.
    - apply le_INR in H. rewrite S_INR in H. apply (Rmult_le_compat_r (sT s)) in H; lra. }
  split.
  - intros (L & H1 & H2). split; [|lia]. rewrite (start_time_ends s f S0 r0 a b i Ha Hb) in H2 by lia.
    assert (~ (ends s f r0 a b j <= S r)%nat) by (rewrite <- Cmp; lra).
    split; [|lia]. destruct H1 as [->|H1]; [left; reflexivity|]. destruct j as [|j]; [left; reflexivity|]. right.
    rewrite (start_time_ends s f S0 r0 a b i Ha Hb) in H1 by lia. apply Cmp in H1. replace (S j - 1)%nat with j by lia. exact H1.
  - intros ((H1 & H2) & L). split; [lia|]. rewrite (start_time_ends s f S0 r0 a b i Ha Hb) by lia.
    assert (~ (S0 + (INR (ends s f r0 a b j) - 1) * sT s <= S0 + INR r * sT s)) by (rewrite Cmp; lia). split; [|lra].
    destruct j as [|j]; [left; reflexivity|]. right. rewrite (start_time_ends s f S0 r0 a b i Ha Hb) by lia. apply Cmp.
    destruct H1 as [H1|H1]; [discriminate|]. replace (S j - 1)%nat with j in H1 by lia. exact H1.
Qed.
Lemma row_phase_exists (s : sup R) f r0 a b r i : (S r < ends s f r0 a b i)%nat -> exists j, row_phase s f r0 a b r j /\ (j <= i)%nat.
Proof.
  induction i as [|i IH]; intros H.
  - exists 0%nat. split; [split; [left; reflexivity|exact H]|lia].
  - destruct (Nat.lt_ge_cases (S r) (ends s f r0 a b i)) as [L|L].
    + destruct (IH L) as (j & Hj & Hle). exists j. auto.
    + exists (S i). split; [|lia]. split; [right; replace (S i - 1)%nat with i by lia; exact L|exact H].
Qed.
Lemma steps_before_nbs (s : sup R) f i j : (j <= S i)%nat -> steps_before (tlist s f i) j = nbs (smove s) (phType f) j.
Proof.
  unfold steps_before. induction j as [|j IH]; intros Hj; [reflexivity|].
  assert (exists p, nth_error (tlist s f i) j = Some p /\ phType p = typ (smove s) (phType f) j) as (p & Hp & Tp).
  { destruct (nth_error (tlist s f i) j) as [p|] eqn:E; [exists p; split; [reflexivity|apply (tlist_type _ _ _ _ _ E)]|].
    apply nth_error_None in E. rewrite tlist_length in E. lia. }
  assert (Ef : firstn (S j) (tlist s f i) = firstn j (tlist s f i) ++ [p]).
  { clear - Hp. revert j Hp. generalize (tlist s f i). induction l as [|x l IH]; intros [|j] H; cbn in *; try discriminate; [injection H as ->; reflexivity|].
    f_equal. apply IH. exact H. }
  rewrite Ef, filter_app, app_length, IH by lia. cbn [filter nbs]. rewrite Tp. destruct (is_DS (typ (smove s) (phType f) j)); cbn; lia.
Qed.
Lemma colf_nbs (s : sup R) f j : colf s f j = match nbs (smove s) (phType f) j with O => None | S k => Some k end.
Proof.
  rewrite nbs_eq. unfold colf, nbs_closed. destruct j as [|j]; [destruct (smove s), (is_DS (phType f)); reflexivity|].
  destruct (is_DS (phType f)), (smove s); try reflexivity. destruct j; reflexivity.
Qed.
Lemma ends_ext (s s' : sup R) f f' r0 a b j : smove s = smove s' -> phType f = phType f' -> ends s f r0 a b j = ends s' f' r0 a b j.
Proof. intros H1 H2. induction j as [|j IH]; [reflexivity|]. cbn [ends]. rewrite IH. unfold ticks. rewrite H1, H2. reflexivity. Qed.
Lemma ends_r0 (s : sup R) f r r' a b j : (r <= r')%nat -> (ends s f r a b j <= ends s f r' a b j)%nat.
Proof. intros H. induction j as [|j IH]; cbn [ends]; lia. Qed.
Lemma ends_ge (s : sup R) f r a b j : (0 < a)%nat -> (0 < b)%nat -> (S j <= ends s f r a b j)%nat.
Proof. intros Ha Hb. induction j as [|j IH]; cbn [ends]; [lia|]. pose proof (ticks_pos s f a b Ha Hb (S j)). lia. Qed.
(** The ends of the phases after the first phase is left: everything is shifted. *)
Lemma typ_shift move p j : typ move (typ move p 1) j = typ move p (S j).
Proof. induction j as [|j IH]; [reflexivity|]. rewrite typ_S, IH. reflexivity. Qed.
Lemma ends_shift (s : sup R) f a b j : (0 < a)%nat -> (0 < b)%nat ->
  S (ends s (mkph s (typ (smove s) (phType f) 1)) (ticks s f a b 1 - 1) a b j) = ends s f 0 a b (S j).
Proof.
  intros Ha Hb. pose proof (ticks_pos s f a b Ha Hb 1) as Hp. induction j as [|j IH].
  - cbn [ends]. lia.
  - change (ends s f 0 a b (S (S j))) with (Nat.add (ends s f 0 a b (S j)) (ticks s f a b (S (S j)))). rewrite <- IH. cbn [ends].
    assert (E : ticks s (mkph s (typ (smove s) (phType f) 1)) a b (S j) = ticks s f a b (S (S j))) by (unfold ticks; cbn [mkph phType]; rewrite typ_shift; reflexivity).
    rewrite E. lia.
Qed.

(** ** The feet *)
Definition foot3 (f : foot R) : Prop := vlen (fsx f) = 3%nat /\ vlen (fsy f) = 3%nat /\ vlen (fsz f) = 3%nat /\ pverts (fkin f) <> [].
Lemma interpolateVec_ok (v : vec R) obj T t : vlen v = 3%nat -> T <> 0 -> exists w, interpolateVec v obj T t = Ok w /\ vlen w = 3%nat.
Proof.
  intros Hv HT. unfold interpolateVec, interpolateTrajectory. rewrite Hv. cbn [Nat.eqb guard bind]. change (seqb T s0) with (Reqb T 0).
  destruct (Reqb_spec T 0) as [E|_]; [contradiction|]. cbn [negb nanguard bind]. eexists. split; [reflexivity|]. exact Hv.
Qed.
Lemma flyTo_ok (f : foot R) x y z T Tz fb : foot3 f -> T <> 0 -> Tz <> 0 ->
  exists f', flyTo f x y z T Tz fb = Ok f' /\ foot3 f' /\ fkin f' = fkin f /\ fcop f' = fcop f /\ fmaxHeight f' = fmaxHeight f.
Proof.
  intros (H1 & H2 & H3 & H4) HT HTz. unfold flyTo, f_updateStateX, f_updateStateY, f_updateStateZ.
  destruct (interpolateVec_ok (fsx f) (St3 x s0 s0) T fb H1 HT) as (wx & -> & Lx). cbn [bind f_setStateX f_setStates fsy].
  destruct (interpolateVec_ok (fsy f) (St3 y s0 s0) T fb H2 HT) as (wy & -> & Ly). cbn [bind f_setStateX f_setStateY f_setStates fsz].
  destruct (interpolateVec_ok (fsz f) (St3 z s0 s0) Tz fb H3 HTz) as (wz & -> & Lz). cbn [bind].
  eexists. split; [reflexivity|]. cbn. unfold foot3. cbn. auto.
Qed.
(** What the update of the feet leaves unchanged *)
Definition same_plan (s s' : sup R) : Prop :=
  sN s' = sN s /\ sT s' = sT s /\ sfb s' = sfb s /\ snb s' = snb s /\ sstep s' = sstep s /\ sDS s' = sDS s /\ smove s' = smove s
  /\ stl s' = stl s /\ ssel s' = ssel s.
Lemma feet_returns (v : vec R) fb s f :
  cb_at (stl s) 0 = Ok f -> foot3 (sleft s) -> foot3 (sright s) -> EPS <= sttnp s ->
  (phType f <> DS -> sttnp s < phDur f - sT s + EPS -> (0 < snb s)%nat /\ vlen v = (2 * snb s)%nat) ->
  exists s', s_updateFeetStates v fb s = Ok s' /\ same_plan s s' /\ sttnp s' = sttnp s - fb /\ foot3 (sleft s') /\ foot3 (sright s')
    /\ sstepVec s' = v.
Proof.
  intros Hf HL HR Ht Hnb. unfold s_updateFeetStates, s_front. rewrite Hf. cbn [bind]. assert (HE : 0 < EPS) by (rsimpl; lra).
  change (sltb (sttnp s) (sadd (ssub (phDur f) (sT s)) EPS)) with (Rltb (sttnp s) (phDur f - sT s + EPS)).
  assert (Hstay : exists s', Ok (MkSup (sN s) (sT s) (sfb s) (sleft s) (sright s) (snb s) (sstep s) (sDS s) (ssub (sttnp s) fb) (smove s) v (stl s) (ssel s)) = Ok s'
     /\ same_plan s s' /\ sttnp s' = sttnp s - fb /\ foot3 (sleft s') /\ foot3 (sright s') /\ sstepVec s' = v).
  { eexists. split; [reflexivity|]. unfold same_plan. cbn. repeat (split; [solve [assumption|reflexivity|repeat split]|]). auto. }
  destruct (Rltb_spec (sttnp s) (phDur f - sT s + EPS)) as [L|L]; [|rewrite Bool.andb_false_r; exact Hstay]. rewrite Bool.andb_true_r.
  destruct (is_DS_spec (phType f)) as [E|E]; cbn [negb]; [exact Hstay|]. clear Hstay.
  destruct (Hnb E L) as (Hpos & Hlen). unfold vread. rewrite Hlen. destruct (Nat.ltb_spec 0 (2 * snb s)); [|lia]. destruct (Nat.ltb_spec (snb s) (2 * snb s)); [|lia].
  cbn [guard bind].
  change (sltb (sttnp s) (sadd (smul (ssub (phDur f) (sT s)) shalf) EPS)) with (Rltb (sttnp s) ((phDur f - sT s) * shalf + EPS)).
  assert (Hgo : forall g, foot3 g -> exists g', (if Rltb (sttnp s) ((phDur f - sT s) * shalf + EPS) then flyTo g (vget v 0) (vget v (snb s)) s0 (sttnp s) (sttnp s) fb
                  else flyTo g (vget v 0) (vget v (snb s)) (fmaxHeight g) (sttnp s) (ssub (sttnp s) (smul (ssub (phDur f) (sT s)) shalf)) fb) = Ok g' /\ foot3 g').
  { intros g Hg. destruct (Rltb_spec (sttnp s) ((phDur f - sT s) * shalf + EPS)) as [L2|L2].
    - destruct (flyTo_ok g (vget v 0) (vget v (snb s)) s0 (sttnp s) (sttnp s) fb Hg) as (g' & E' & F' & _); [lra|lra|]. eauto.
    - destruct (flyTo_ok g (vget v 0) (vget v (snb s)) (fmaxHeight g) (sttnp s) (ssub (sttnp s) (smul (ssub (phDur f) (sT s)) shalf)) fb Hg) as (g' & E' & F' & _); [lra| |eauto].
      change (ssub (sttnp s) (smul (ssub (phDur f) (sT s)) shalf)) with (sttnp s - (phDur f - sT s) * shalf). lra. }
  destruct (phType f) eqn:Et; [contradiction| |].
  - destruct (Hgo (sright s) HR) as (g' & -> & G'). cbn [bind]. eexists. split; [reflexivity|]. unfold same_plan. cbn.
    repeat (split; [solve [assumption|reflexivity|repeat split]|]). auto.
  - destruct (Hgo (sleft s) HL) as (g' & -> & G'). cbn [bind]. eexists. split; [reflexivity|]. unfold same_plan. cbn.
    repeat (split; [solve [assumption|reflexivity|repeat split]|]). auto.
Qed.

(** ** The invariant of walking *)
Section Inv.
Context (N n a b : nat) (fb : R).
Context (HN : (0 < N)%nat) (Hn : (0 < n)%nat) (Ha : (0 < a)%nat) (HaN : (a <= S N)%nat) (Hb : (0 < b)%nat) (Hfb : EPS < fb).
Record walking (s : sup R) (v : vec R) (f : phase R) (i m k : nat) : Prop := {
  w_N : sN s = N; w_T : sT s = INR n * fb; w_step : sstep s = INR a * sT s; w_DS : sDS s = INR b * sT s;
  w_left : foot3 (sleft s); w_right : foot3 (sright s);
  w_full : full s; w_tl : cbl (stl s) = tlist s f i; w_front : phDur f = durationOf s (phType f);
  w_t : sttnp s = INR m * fb; w_m : (m <= Nat.max a b * n)%nat; w_size : vlen v = (2 * N + 2 * k)%nat;
  w_cover : (i = 0 /\ 0 < m /\ k = 0)%nat
        \/ ((i = 0 \/ ends s f (m / n) a b (i - 1) <= N)%nat /\ (N < ends s f (m / n) a b i)%nat /\ (nbs (smove s) (phType f) i <= k)%nat) }.

Lemma split_time m1 : (0 < m1)%nat -> exists S0, INR m1 * fb = S0 + INR ((m1 - 1) / n) * (INR n * fb) /\ EPS < S0 < INR n * fb + EPS
   /\ S0 = INR (S ((m1 - 1) mod n)) * fb.
Proof.
  intros Hm. exists (INR (S ((m1 - 1) mod n)) * fb). pose proof (Nat.div_mod_eq (m1 - 1) n) as D. pose proof (Nat.mod_upper_bound (m1 - 1) n ltac:(lia)) as U.
  set (q := ((m1 - 1) / n)%nat) in *. set (r := ((m1 - 1) mod n)%nat) in *.
  assert (E : m1 = (n * q + S r)%nat) by lia. assert (HE : 0 < EPS) by (rsimpl; lra). split; [|split; [|reflexivity]].
  - rewrite E, plus_INR, mult_INR. ring.
  - rewrite S_INR. pose proof (pos_INR r). assert (0 <= INR r * fb) by (apply Rmult_le_pos; lra). split; [lra|].
    assert (INR (S r) <= INR n) by (apply le_INR; lia). rewrite S_INR in H1. assert ((INR r + 1) * fb <= INR n * fb) by (apply Rmult_le_compat_r; lra). lra.
Qed.
Lemma w_Tpos s v f i m k : walking s v f i m k -> EPS < sT s.
Proof.
  intros W. rewrite (w_T _ _ _ _ _ _ W). assert (1 <= INR n) by (apply (le_INR 1); lia). assert (HE : 0 < EPS) by (rsimpl; lra).
  assert (1 * fb <= INR n * fb) by (apply Rmult_le_compat_r; lra). lra.
Qed.
(** The phase in progress after the next update: its number of feedback periods to go. *)
Definition next_m (s : sup R) (f : phase R) (m : nat) : nat := match m with O => (ticks s f a b 1 * n)%nat | _ => m end.
Definition next_f (s : sup R) (f : phase R) (m : nat) : phase R := match m with O => mkph s (typ (smove s) (phType f) 1) | _ => f end.
Lemma w_i s v f i m k : walking s v f i m k -> m = 0%nat -> (0 < i)%nat.
Proof.
  intros W ->. destruct (w_cover _ _ _ _ _ _ W) as [(_ & L & _)|(_ & L & _)]; [lia|]. destruct i; [|lia].
  cbn [ends] in L. rewrite Nat.div_0_l in L by lia. lia.
Qed.
Lemma next_m_pos s f m : (0 < next_m s f m)%nat.
Proof. unfold next_m. destruct m; [|lia]. pose proof (ticks_pos s f a b Ha Hb 1). nia. Qed.
Lemma w_next s v f i m k mv : walking s v f i m k ->
  new_front (s_setMove mv s) (next_f s f m) (INR (next_m s f m) * fb).
Proof.
  intros W. pose proof (w_Tpos _ _ _ _ _ _ W) as HT. assert (HE : 0 < EPS) by (rsimpl; lra). destruct m as [|m]; cbn [next_m next_f].
  - right. cbn [sttnp s_setMove stl]. rewrite (w_t _ _ _ _ _ _ W). cbn [INR]. split; [lra|]. unfold cb_at. rewrite (w_tl _ _ _ _ _ _ W).
    pose proof (w_i _ _ _ _ _ _ W eq_refl). rewrite (rd_some _ _ _ (tlist_nth s f i 1 ltac:(lia))). split; [reflexivity|]. cbn [mkph phDur].
    rewrite (duration_ticks s f a b (w_step _ _ _ _ _ _ W) (w_DS _ _ _ _ _ _ W)). rewrite (w_T _ _ _ _ _ _ W), mult_INR. ring.
  - left. cbn [sttnp s_setMove stl]. rewrite (w_t _ _ _ _ _ _ W). split.
    + rewrite S_INR. pose proof (pos_INR m). assert (0 <= INR m * fb) by (apply Rmult_le_pos; lra). lra.
    + split; [|reflexivity]. unfold cb_at. rewrite (w_tl _ _ _ _ _ _ W). reflexivity.
Qed.

(** One cycle succeeds and keeps the invariant; all that the update guarantees is available. *)
Lemma cycle_ok s v f i m k mv qp : walking s v f i m k -> (forall w, vlen (qp w) = vlen w) ->
  exists s1 v1 s2 S0 w n1 i1,
    s_updateTimeline v fb (s_setMove mv s) = Ok (s1, v1)
    /\ updated (s_setMove mv s) v k (next_f s f m) (INR (next_m s f m) * fb) S0 ((next_m s f m - 1) / n) a b fb s1 v1 w n1 i1
    /\ EPS < S0 < sT s + EPS /\ S0 = INR (S ((next_m s f m - 1) mod n)) * fb
    /\ cycle fb [] mv qp (s, v) = Ok (s2, qp v1) /\ smove s2 = mv /\ snb s2 = snb s1
    /\ walking s2 (qp v1) (next_f s f m) i1 (next_m s f m - 1) (grown s2 n1 (snb s1)).
Proof.
  intros W Hqp. pose proof (w_Tpos _ _ _ _ _ _ W) as HT. assert (HE : 0 < EPS) by (rsimpl; lra).
  pose proof (next_m_pos s f m) as Hm1. destruct (split_time _ Hm1) as (S0 & HtS & HS & ES). pose proof (w_next _ _ _ _ _ _ mv W) as Hnf.
  set (m1 := next_m s f m) in *. set (f1 := next_f s f m) in *. rewrite <- (w_T _ _ _ _ _ _ W) in HtS, HS.
  destruct (update_regular v fb (s_setMove mv s) k f1 (INR m1 * fb) S0 ((m1 - 1) / n) a b) as (s1 & v1 & w & n1 & i1 & E1 & U).
  - exact (w_full _ _ _ _ _ _ W).
  - cbn [stl s_setMove]. rewrite (w_tl _ _ _ _ _ _ W), tlist_length. lia.
  - exact HT.
  - cbn [sN s_setMove]. rewrite (w_N _ _ _ _ _ _ W). exact HN.
  - destruct (w_left _ _ _ _ _ _ W) as (A1 & A2 & _ & A4). destruct (w_right _ _ _ _ _ _ W) as (_ & _ & _ & B4).
    unfold feet_ok. cbn [sleft sright s_setMove]. rewrite A1, A2. repeat split; try lia; assumption.
  - exact (w_step _ _ _ _ _ _ W).
  - exact (w_DS _ _ _ _ _ _ W).
  - exact Ha.
  - exact Hb.
  - cbn [sN s_setMove]. rewrite (w_N _ _ _ _ _ _ W). exact (w_size _ _ _ _ _ _ W).
  - exact Hnf.
  - exact HtS.
  - exact HS.
  - intros ph Hph. unfold leaves_step, cb_at in *. cbn [sttnp stl s_setMove] in *. rewrite (w_tl _ _ _ _ _ _ W) in Hph. cbn [rd tlist nth_error] in Hph. injection Hph as <-.
    rewrite (w_t _ _ _ _ _ _ W). intros Hl. apply andb_prop in Hl. destruct Hl as (Hl & Hd). apply Rltb_true in Hl.
    assert (m = 0)%nat. { destruct m as [|m']; [reflexivity|exfalso]. rewrite S_INR in Hl. pose proof (pos_INR m'). assert (0 <= INR m' * fb) by (apply Rmult_le_pos; lra). lra. }
    pose proof (w_i _ _ _ _ _ _ W H) as Hi. destruct (w_cover _ _ _ _ _ _ W) as [(L & _)|(_ & _ & L)]; [lia|].
    rewrite nbs_eq in L. unfold nbs_closed in L. destruct (is_DS (phType f)); [discriminate|]. destruct (smove s); lia.
  - destruct (u_static _ _ _ _ _ _ _ _ _ _ _ _ _ _ _ U) as (UN & UT & Ufb & Ul & Ur & Us & UD & Umv & Ut).
    cbn [sN sT sleft sright sstep sDS smove s_setMove] in UN, UT, Ul, Ur, Us, UD, Umv.
    assert (Ef1 : cb_at (stl s1) 0 = Ok f1) by (unfold cb_at; rewrite (u_tl _ _ _ _ _ _ _ _ _ _ _ _ _ _ _ U); reflexivity).
    assert (Ff1 : phDur f1 = durationOf s (phType f1)).
    { unfold f1, next_f. destruct m; [reflexivity|exact (w_front _ _ _ _ _ _ W)]. }
    pose proof (u_size _ _ _ _ _ _ _ _ _ _ _ _ _ _ _ U) as Hsz. cbn [sN s_setMove] in Hsz. rewrite (w_N _ _ _ _ _ _ W) in Hsz.
    pose proof (u_high _ _ _ _ _ _ _ _ _ _ _ _ _ _ _ U) as Hhigh. cbn [sN s_setMove] in Hhigh. rewrite (w_N _ _ _ _ _ _ W) in Hhigh.
    pose proof (u_nb _ _ _ _ _ _ _ _ _ _ _ _ _ _ _ U) as Hnb. cbn [smove s_setMove] in Hnb.
    destruct (feet_returns (vseg (qp v1) (2 * sN s1) (2 * snb s1)) fb s1 f1 Ef1) as (s2 & E2 & SP & Ht2 & FL & FR & _).
    + rewrite Ul. exact (w_left _ _ _ _ _ _ W).
    + rewrite Ur. exact (w_right _ _ _ _ _ _ W).
    + rewrite Ut. assert (1 <= INR m1) by (apply (le_INR 1); lia). assert (1 * fb <= INR m1 * fb) by (apply Rmult_le_compat_r; lra). lra.
    + intros Hss Hfly. split; [|reflexivity]. rewrite Ut, UT, Ff1 in Hfly.
      assert (Ed : durationOf s (phType f1) = INR a * sT s) by (rewrite <- (w_step _ _ _ _ _ _ W); destruct (phType f1); [contradiction|reflexivity|reflexivity]).
      rewrite Ed, (w_T _ _ _ _ _ _ W) in Hfly.
      assert (Hlt : (m1 < (a - 1) * n + 1)%nat).
      { apply INR_lt. rewrite plus_INR, mult_INR, minus_INR by lia. cbn [INR]. apply (Rmult_lt_reg_r fb); [lra|].
        replace (((INR a - 1) * INR n + 1) * fb) with (INR a * (INR n * fb) - INR n * fb + fb) by ring. lra. }
      assert (Hdiv : ((m1 - 1) / n < a - 1)%nat) by (apply Nat.div_lt_upper_bound; [lia|nia]).
      rewrite Hnb, nbs_eq. unfold nbs_closed. destruct (is_DS_spec (phType f1)); [contradiction|].
      assert (0 < i1)%nat. { destruct i1; [cbn [ends] in Hhigh; lia|lia]. } destruct mv; lia.
    + exists s1, v1, s2, S0, w, n1, i1. split; [exact E1|]. split; [exact U|]. split; [exact HS|]. split; [exact ES|].
      destruct SP as (PN & PT & Pf & Pn & Ps & PD & Pm & Ptl & Psel).
      split; [unfold cycle; cbn [fst snd ssteps bind]; rewrite E1; cbn [bind]; rewrite E2; reflexivity|]. split; [congruence|]. split; [exact Pn|].
      assert (Eg : grown s2 n1 (snb s1) = grown (s_setMove mv s) n1 (snb s1)) by (unfold grown; rewrite Pm, Umv; reflexivity).
      assert (Edur : forall p, durationOf s2 p = durationOf s p) by (intros p; unfold durationOf; rewrite Ps, PD, Us, UD; reflexivity).
      assert (Etl : forall g j, tlist (s_setMove mv s) g j = tlist s2 g j).
      { intros g j. unfold tlist, mkph. rewrite Pm, Umv. f_equal. apply map_ext. intros q. f_equal. cbn [smove s_setMove]. symmetry. apply Edur. }
      constructor.
      * rewrite PN, UN. exact (w_N _ _ _ _ _ _ W).
      * rewrite PT, UT. exact (w_T _ _ _ _ _ _ W).
      * rewrite Ps, Us, PT, UT. exact (w_step _ _ _ _ _ _ W).
      * rewrite PD, UD, PT, UT. exact (w_DS _ _ _ _ _ _ W).
      * exact FL.
      * exact FR.
      * unfold full. rewrite Ptl. exact (u_full _ _ _ _ _ _ _ _ _ _ _ _ _ _ _ U).
      * rewrite Ptl, (u_tl _ _ _ _ _ _ _ _ _ _ _ _ _ _ _ U). apply Etl.
      * rewrite Edur. exact Ff1.
      * rewrite Ht2, Ut, minus_INR by lia. cbn [INR]. ring.
      * pose proof (w_m _ _ _ _ _ _ W). unfold m1, next_m. destruct m; [|lia]. unfold ticks. destruct (typ (smove s) (phType f) 1); nia.
      * rewrite Hqp, Hsz, Eg. reflexivity.
      * right. rewrite !(ends_ext s2 (s_setMove mv s) f1 f1) by (rewrite ?Pm, ?Umv; reflexivity).
        pose proof (u_low _ _ _ _ _ _ _ _ _ _ _ _ _ _ _ U) as Hlow. cbn [sN s_setMove] in Hlow. rewrite (w_N _ _ _ _ _ _ W) in Hlow.
        split; [exact Hlow|]. split; [exact Hhigh|]. rewrite Pm, Umv, <- Hnb, Eg. unfold grown. cbn [smove s_setMove].
        destruct mv; [lia|]. pose proof (nbs_stop (phType f1) i1). rewrite <- Hnb in H. lia.
Qed.

(** The number of steps of the decision vector is exactly the number of previewed steps, unless the
    walk is stopped in double support. *)
Lemma exact_size s v f i m k mv S0 s1 v1 w n1 i1 :
  walking s v f i m k -> k = nbs (smove s) (phType f) i -> (mv = false -> smove s = true -> phType f <> DS) ->
  updated (s_setMove mv s) v k (next_f s f m) (INR (next_m s f m) * fb) S0 ((next_m s f m - 1) / n) a b fb s1 v1 w n1 i1 ->
  grown (s_setMove mv s) n1 (snb s1) = snb s1.
Proof.
  intros W Hk Hmv U. pose proof (w_Tpos _ _ _ _ _ _ W) as HT. assert (HE : 0 < EPS) by (rsimpl; lra). assert (HNs : (0 < sN s)%nat) by (rewrite (w_N _ _ _ _ _ _ W); exact HN).
  rewrite (u_nb _ _ _ _ _ _ _ _ _ _ _ _ _ _ _ U). cbn [smove s_setMove].
  assert (Hn1 : n1 = if (Nat.eqb m 0 && negb (is_DS (phType f)))%bool then (k - 1)%nat else k).
  { destruct (u_v1 _ _ _ _ _ _ _ _ _ _ _ _ _ _ _ U) as (ph & Hph & Hl). unfold cb_at in Hph. cbn [stl s_setMove] in Hph. rewrite (w_tl _ _ _ _ _ _ W) in Hph.
    injection Hph as <-. unfold leaves_step in Hl. cbn [sttnp s_setMove] in Hl. rewrite (w_t _ _ _ _ _ _ W) in Hl.
    replace (Rltb (INR m * fb) EPS) with (Nat.eqb m 0) in Hl.
    2:{ symmetry. destruct m as [|m']; [apply Rltb_true; cbn [INR]; lra|]. apply Rltb_false. rewrite S_INR. pose proof (pos_INR m').
        assert (0 <= INR m' * fb) by (apply Rmult_le_pos; lra). lra. }
    destruct (Nat.eqb m 0 && negb (is_DS (phType f)))%bool; lia. }
  assert (Hgoal : (n1 <= nbs mv (phType (next_f s f m)) i1)%nat \/ (mv = false /\ (Nat.min 1 n1 <= nbs mv (phType (next_f s f m)) i1)%nat) ->
     grown (s_setMove mv s) n1 (nbs mv (phType (next_f s f m)) i1) = nbs mv (phType (next_f s f m)) i1).
  { unfold grown. cbn [smove s_setMove]. destruct mv; [intros [H|(H & _)]; [lia|discriminate]|]. pose proof (nbs_stop (phType (next_f s f m)) i1). lia. }
  apply Hgoal. clear Hgoal.
  pose proof (u_high _ _ _ _ _ _ _ _ _ _ _ _ _ _ _ U) as Hhigh. cbn [sN s_setMove] in Hhigh. rewrite (w_N _ _ _ _ _ _ W) in Hhigh. clear U.
  destruct (w_cover _ _ _ _ _ _ W) as [(Hi & Hm & Hk0)|(Hlow & _ & _)].
  { left. rewrite Hn1, Hk0. destruct (Nat.eqb m 0 && negb (is_DS (phType f)))%bool; lia. }
  destruct m as [|m].
  - (* the phase changes *)
    pose proof (w_i _ _ _ _ _ _ W eq_refl) as Hi. cbn [next_f next_m Nat.eqb andb] in *. pose proof (ticks_pos s f a b Ha Hb 1) as Htp.
    replace ((ticks s f a b 1 * n - 1) / n)%nat with (ticks s f a b 1 - 1)%nat in Hhigh.
    2:{ apply Nat.div_unique with (r := (n - 1)%nat); [lia|]. nia. }
    rewrite Nat.div_0_l in Hlow by lia.
    assert (H1 : (2 <= i)%nat -> (0 < i1)%nat).
    { intros Hi2. destruct Hlow as [?|Hlow]; [lia|]. pose proof (ends_mono s f 0 a b HNs Ha Hb 1 (i - 1) ltac:(lia)) as M. cbn [ends] in M.
      destruct i1; [|lia]. cbn [ends] in Hhigh. lia. }
    assert (H2 : mv = smove s -> (i - 1 <= i1)%nat).
    { intros Emv. rewrite (ends_ext (s_setMove mv s) s _ (mkph s (typ (smove s) (phType f) 1))) in Hhigh by (cbn [smove s_setMove]; congruence).
      pose proof (ends_shift s f a b i1 Ha Hb) as Hsh. destruct (Nat.le_gt_cases (i - 1) i1) as [L|L]; [exact L|exfalso].
      destruct Hlow as [?|Hlow]; [lia|]. pose proof (ends_mono s f 0 a b HNs Ha Hb (S i1) (i - 1) ltac:(lia)) as M. lia. }
    cbn [mkph phType]. rewrite nbs_eq in Hk |- *. unfold nbs_closed in *. change (typ (smove s) (phType f) 1) with (nextType (smove s) (phType f)).
    destruct (smove s), mv, (phType f); cbn [is_DS nextType negb] in *; try specialize (Hmv eq_refl eq_refl); try specialize (H2 eq_refl); try lia; try congruence.
  - cbn [next_f next_m Nat.eqb andb] in *. subst n1.
    assert (Hr : ((S m - 1) / n <= S m / n)%nat) by (apply Nat.div_le_mono; lia).
    assert (H1 : (1 <= i)%nat -> (0 < i1)%nat).
    { intros Hi2. destruct Hlow as [?|Hlow]; [lia|]. pose proof (ends_mono s f (S m / n) a b HNs Ha Hb 0 (i - 1) ltac:(lia)) as M. cbn [ends] in M.
      destruct i1; [|lia]. cbn [ends] in Hhigh. lia. }
    assert (H2 : mv = smove s -> (i <= i1)%nat).
    { intros Emv. rewrite (ends_ext (s_setMove mv s) s f f) in Hhigh by (cbn [smove s_setMove]; congruence).
      pose proof (ends_r0 s f _ _ a b i1 Hr) as M1. destruct (Nat.le_gt_cases i i1) as [L|L]; [exact L|exfalso].
      destruct Hlow as [?|Hlow]; [lia|]. pose proof (ends_mono s f (S m / n) a b HNs Ha Hb i1 (i - 1) ltac:(lia)) as M. lia. }
    rewrite nbs_eq in Hk |- *. unfold nbs_closed in *.
    destruct (smove s), mv, (phType f); cbn [is_DS nextType negb] in *; try specialize (Hmv eq_refl eq_refl); try specialize (H2 eq_refl); try lia; try congruence.
Qed.

(** Calls about the feet keep the invariant. *)
Lemma walking_foot c s v f i m k s' : walking s v f i m k -> foot_call c -> sstep_call c s = Ok s' ->
  walking s' v f i m k /\ smove s' = smove s /\ stl s' = stl s.
Proof.
  assert (Hset : forall d g, walking s v f i m k -> foot3 g -> walking (s_setFoot d g s) v f i m k /\ smove (s_setFoot d g s) = smove s /\ stl (s_setFoot d g s) = stl s).
  { intros d g W Hg. split; [|destruct d; split; reflexivity]. destruct d; constructor; try exact Hg; apply W. }
  intros W Hc H. destruct c; cbn [foot_call] in Hc; try contradiction; cbn [sstep_call] in H; unfold s_setKinematicConvexPolygon, s_setCopConvexPolygon, s_setMaxHeight in H;
  try unfold s_setFootStateX, s_setFootStateY, s_setFootStateZ in H;
  try (rewrite Hc in H; cbn [Nat.eqb guard bind] in H); injection H as <-; apply Hset; try exact W; pose proof (w_left _ _ _ _ _ _ W) as (L1 & L2 & L3 & L4); pose proof (w_right _ _ _ _ _ _ W) as (R1 & R2 & R3 & R4);
  destruct d; cbn [s_foot]; unfold foot3; cbn; auto.
Qed.
Lemma walking_feet cs : forall s v f i m k s', walking s v f i m k -> Forall foot_call cs -> ssteps cs s = Ok s' ->
  walking s' v f i m k /\ smove s' = smove s /\ stl s' = stl s.
Proof.
  induction cs as [|c cs IH]; intros s v f i m k s' W Hc H; cbn [ssteps] in H.
  - injection H as <-. auto.
  - apply bind_ok in H. destruct H as (s1 & H1 & H). inversion Hc as [|x y Hc1 Hc2]; subst.
    destruct (walking_foot c s v f i m k s1 W Hc1 H1) as (W1 & E1 & E1'). destruct (IH s1 v f i m k s' W1 Hc2 H) as (W2 & E2 & E2').
    split; [exact W2|]. split; congruence.
Qed.
Lemma foot_calls_ok cs : forall s, Forall foot_call cs -> exists s', ssteps cs s = Ok s'.
Proof.
  induction cs as [|c cs IH]; intros s Hc; cbn [ssteps]; [eauto|]. inversion Hc as [|x y Hc1 Hc2]; subst.
  assert (exists s1, sstep_call c s = Ok s1) as (s1 & ->).
  { destruct c; cbn [foot_call] in Hc1; try contradiction; cbn [sstep_call]; try (eexists; reflexivity);
    unfold s_setFootStateX, s_setFootStateY, s_setFootStateZ; rewrite Hc1; eexists; reflexivity. }
  cbn [bind]. apply IH. exact Hc2.
Qed.
Lemma cycle_calls cs mv qp (s s' : sup R) (v : vec R) : ssteps cs s = Ok s' -> cycle fb cs mv qp (s, v) = cycle fb [] mv qp (s', v).
Proof. intros H. unfold cycle. cbn [fst snd ssteps bind]. rewrite H. reflexivity. Qed.
Lemma walking_ready s v f i m k mv : walking s v f i m k ->
  exists tn S0, ready (s_setMove mv s) v tn S0 /\ tn = INR (next_m s f m) * fb /\ S0 = INR (S ((next_m s f m - 1) mod n)) * fb.
Proof.
  intros W. pose proof (w_Tpos _ _ _ _ _ _ W) as HT. assert (HE : 0 < EPS) by (rsimpl; lra).
  destruct (split_time _ (next_m_pos s f m)) as (S0 & HtS & HS & ES). pose proof (w_next _ _ _ _ _ _ mv W) as Hnf.
  rewrite <- (w_T _ _ _ _ _ _ W) in HtS, HS.
  exists (INR (next_m s f m) * fb), S0. split; [|auto].
  pose proof (w_left _ _ _ _ _ _ W) as (L1 & L2 & L3 & L4). pose proof (w_right _ _ _ _ _ _ W) as (R1 & R2 & R3 & R4).
  constructor; cbn [sN sT sstep sDS stl sttnp sleft sright s_setMove].
  - rewrite (w_N _ _ _ _ _ _ W). exact HN.
  - exact HT.
  - exists a. split; [exact Ha|exact (w_step _ _ _ _ _ _ W)].
  - exists b. split; [exact Hb|exact (w_DS _ _ _ _ _ _ W)].
  - split; [rewrite (w_tl _ _ _ _ _ _ W); discriminate|exact (w_full _ _ _ _ _ _ W)].
  - destruct Hnf as [(A & B & C)|(A & B & C)]; cbn [sttnp stl s_setMove] in *; [left; auto|right]. split; [exact A|]. eexists. split; [apply rd_inv; exact B|exact C].
  - split; [exact HS|]. eauto.
  - lia.
  - auto.
  - exists k. split; [rewrite (w_N _ _ _ _ _ _ W); exact (w_size _ _ _ _ _ _ W)|]. intros Hl p Hp Hd.
    rewrite (w_tl _ _ _ _ _ _ W) in Hp. injection Hp as <-. rewrite (w_t _ _ _ _ _ _ W) in Hl.
    assert (m = 0)%nat. { destruct m as [|m']; [reflexivity|exfalso]. rewrite S_INR in Hl. pose proof (pos_INR m'). assert (0 <= INR m' * fb) by (apply Rmult_le_pos; lra). lra. }
    pose proof (w_i _ _ _ _ _ _ W H) as Hi. destruct (w_cover _ _ _ _ _ _ W) as [(L & _)|(_ & _ & L)]; [lia|].
    rewrite nbs_eq in L. unfold nbs_closed in L. destruct (is_DS_spec (phType f)); [contradiction|]. destruct (smove s); lia.
Qed.

(** Any number of cycles succeeds. *)
Lemma cycles_ok l : forall s v f i m k, walking s v f i m k -> Forall allowed l ->
  exists s' v' f' i' m' k', cycles fb l (s, v) = Ok (s', v') /\ walking s' v' f' i' m' k'.
Proof.
  induction l as [|x l IH]; intros s v f i m k W Hl; cbn [cycles].
  - exists s, v, f, i, m, k. auto.
  - inversion Hl as [|y z (Hc & Hq) Hl']; subst. destruct (foot_calls_ok (acalls x) s Hc) as (s0 & E0).
    destruct (walking_feet _ _ _ _ _ _ _ _ W Hc E0) as (W0 & _ & _). rewrite (cycle_calls _ _ _ _ _ _ E0).
    destruct (cycle_ok s0 v f i m k (amove x) (aqp x) W0 Hq) as (s1 & v1 & s2 & S0 & w & n1 & i1 & _ & _ & _ & _ & Ec & _ & _ & W2).
    rewrite Ec. cbn [bind]. exact (IH _ _ _ _ _ _ W2 Hl').
Qed.
Lemma cycles_exact l : forall s v f i m k, walking s v f i m k -> k = nbs (smove s) (phType f) i -> Forall allowed l -> stops_in_step fb l (s, v) ->
  exists s' v' f' i' m', cycles fb l (s, v) = Ok (s', v') /\ walking s' v' f' i' m' (nbs (smove s') (phType f') i').
Proof.
  induction l as [|x l IH]; intros s v f i m k W Hk Hl Hst; cbn [cycles].
  - exists s, v, f, i, m. subst k. auto.
  - inversion Hl as [|y z (Hc & Hq) Hl']; subst. destruct (foot_calls_ok (acalls x) s Hc) as (s0 & E0).
    destruct (walking_feet _ _ _ _ _ _ _ _ W Hc E0) as (W0 & Em & Etl). destruct Hst as (Hst & Hst').
    rewrite (cycle_calls _ _ _ _ _ _ E0) in Hst' |- *.
    destruct (cycle_ok s0 v f i m _ (amove x) (aqp x) W0 Hq) as (s1 & v1 & s2 & S0 & w & n1 & i1 & _ & U & _ & _ & Ec & Em2 & En2 & W2).
    rewrite Ec. cbn [bind].
    assert (Ex : grown (s_setMove (amove x) s0) n1 (snb s1) = snb s1).
    { apply (exact_size s0 v f i m _ (amove x) S0 s1 v1 w n1 i1 W0); [rewrite Em; reflexivity| |exact U].
      intros H1 H2. apply (Hst H1); [cbn [fst]; congruence|]. unfold s_front, cb_at. cbn [fst]. rewrite (w_tl _ _ _ _ _ _ W). reflexivity. }
    assert (Eg : grown s2 n1 (snb s1) = grown (s_setMove (amove x) s0) n1 (snb s1)) by (unfold grown; rewrite Em2; reflexivity).
    rewrite Eg, Ex, (u_nb _ _ _ _ _ _ _ _ _ _ _ _ _ _ _ U) in W2. cbn [smove s_setMove] in W2.
    apply (IH s2 (aqp x v1) (next_f s0 f m) i1 (next_m s0 f m - 1)%nat _ W2); [rewrite Em2; reflexivity|exact Hl'|]. exact (Hst' _ Ec).
Qed.
End Inv.

(** ** From a new supervisor to the first cycle *)
Definition fresh (s : sup R) : Prop :=
  cbl (stl s) = [MkPhase DS (sDS s)] /\ cbcap (stl s) = 1%nat /\ sttnp s = sDS s
  /\ (0 < sN s)%nat /\ 0 < sT s
  /\ (forall d, vlen (fsx (s_foot d s)) = 3%nat /\ vlen (fsy (s_foot d s)) = 3%nat /\ vlen (fsz (s_foot d s)) = 3%nat).
Lemma fresh_new N T (s : sup R) : newSup N T = Ok s -> fresh s /\ smove s = false.
Proof.
  intros H. unfold newSup, newFoot in H. change (sltb s0 T) with (Rltb 0 T) in H. destruct (Rltb_spec 0 T) as [HT|]; [|discriminate]. cbn [guard bind] in H.
  destruct (Nat.ltb_spec 0 N); [|discriminate]. cbn [guard bind] in H. injection H as <-. split; [|reflexivity].
  unfold fresh. cbn. repeat split; try assumption; try (destruct d; reflexivity).
Qed.
Lemma fresh_feet s l r : fresh s ->
  (vlen (fsx l) = 3%nat /\ vlen (fsy l) = 3%nat /\ vlen (fsz l) = 3%nat) -> (vlen (fsx r) = 3%nat /\ vlen (fsy r) = 3%nat /\ vlen (fsz r) = 3%nat) ->
  fresh (s_setFeet s l r).
Proof. intros (H1 & H2 & H3 & H4 & H5 & H6) Hl Hr. unfold fresh. cbn. repeat (split; [assumption|]). intros [|]; cbn; assumption. Qed.
Lemma fresh_setFoot s d g : fresh s -> (vlen (fsx g) = 3%nat /\ vlen (fsy g) = 3%nat /\ vlen (fsz g) = 3%nat) -> fresh (s_setFoot d g s).
Proof.
  intros H Hg. pose proof (proj2 (proj2 (proj2 (proj2 (proj2 H))))) as H6. destruct d; apply fresh_feet; try assumption; [exact (H6 SRight)|exact (H6 SLeft)].
Qed.
Lemma fresh_front (s : sup R) : fresh s -> s_front s = Ok (MkPhase DS (sDS s)).
Proof. intros (H & _). unfold s_front, cb_at. rewrite H. reflexivity. Qed.
Lemma fresh_step c s s' : fresh s -> setter c -> sstep_call c s = Ok s' -> fresh s'.
Proof.
  intros F Hc H. pose proof F as (F1 & F2 & F3 & F4 & F5 & F6). pose proof (fresh_front _ F) as Ff.
  assert (Ed : s_isInDS s = Ok true) by (unfold s_isInDS; rewrite Ff; reflexivity).
  destruct c; cbn [setter] in Hc; try contradiction; cbn [sstep_call] in H.
  - unfold s_setNbSamples, f_setNbSamples in H. destruct (Nat.ltb_spec 0 n); [|discriminate]. cbn [guard bind] in H. injection H as <-.
    unfold fresh. cbn. repeat (split; [assumption|]). intros [|]; cbn; [exact (F6 SLeft)|exact (F6 SRight)].
  - unfold s_setSamplingPeriod, f_setSamplingPeriod in H. change (sleb s0 T) with (Rleb 0 T) in H. change (sltb s0 T) with (Rltb 0 T) in H.
    destruct (Rleb_spec 0 T); [|discriminate]. cbn [guard bind] in H. destruct (Rltb_spec 0 T); [|discriminate]. cbn [guard bind] in H. injection H as <-.
    unfold fresh. cbn. repeat (split; [assumption|]). intros [|]; cbn; [exact (F6 SLeft)|exact (F6 SRight)].
  - unfold s_setStepPeriod in H. rewrite Ed in H. apply guard_ok in H. destruct H as (_ & H). cbn [bind] in H. injection H as <-.
    unfold fresh. cbn. repeat (split; [assumption|]). intros [|]; cbn; [exact (F6 SLeft)|exact (F6 SRight)].
  - unfold s_setInitialDoubleSupportLength in H. rewrite Ed in H. cbn [bind] in H. apply bind_ok in H. destruct H as (u & _ & H). rewrite Ff in H. cbn [bind phType phDur] in H.
    unfold cb_set, cb_size in H. rewrite F1 in H. cbn [length Nat.ltb Nat.leb ubguard bind lset] in H. injection H as <-.
    unfold fresh. cbn [stl cbl cbcap sDS sttnp sN sT s_foot sleft sright].
    split; [f_equal; f_equal; rsimpl_goal; ring|]. split; [exact F2|]. split; [rewrite F3; rsimpl_goal; ring|]. split; [exact F4|]. split; [exact F5|]. exact F6.
  - injection H as <-. exact F.
  - injection H as <-. apply fresh_setFoot; [exact F|]. exact (F6 d).
  - injection H as <-. apply fresh_setFoot; [exact F|]. exact (F6 d).
  - injection H as <-. apply fresh_setFoot; [exact F|]. exact (F6 d).
  - unfold s_setFootStateX in H. destruct (Nat.eqb_spec (vlen v) 3) as [E|]; [|discriminate]. injection H as <-. apply fresh_setFoot; [exact F|]. destruct (F6 d) as (A & B & C). cbn. auto.
  - unfold s_setFootStateY in H. destruct (Nat.eqb_spec (vlen v) 3) as [E|]; [|discriminate]. injection H as <-. apply fresh_setFoot; [exact F|]. destruct (F6 d) as (A & B & C). cbn. auto.
  - unfold s_setFootStateZ in H. destruct (Nat.eqb_spec (vlen v) 3) as [E|]; [|discriminate]. injection H as <-. apply fresh_setFoot; [exact F|]. destruct (F6 d) as (A & B & C). cbn. auto.
Qed.
Lemma fresh_steps cs : forall s s', fresh s -> Forall setter cs -> ssteps cs s = Ok s' -> fresh s'.
Proof.
  induction cs as [|c cs IH]; intros s s' F Hc H; cbn [ssteps] in H; [injection H as <-; exact F|].
  apply bind_ok in H. destruct H as (s1 & H1 & H). inversion Hc as [|x y Hc1 Hc2]; subst. exact (IH s1 s' (fresh_step c s s1 F Hc1 H1) Hc2 H).
Qed.
Lemma fresh_walking s v n a b fb : fresh s -> (0 < n)%nat -> (0 < b)%nat -> sT s = INR n * fb -> sstep s = INR a * sT s -> sDS s = INR b * sT s ->
  pverts (fkin (sleft s)) <> [] -> pverts (fkin (sright s)) <> [] -> vlen v = (2 * sN s)%nat ->
  walking (sN s) n a b fb s v (MkPhase DS (sDS s)) 0 (b * n) 0.
Proof.
  intros (F1 & F2 & F3 & F4 & F5 & F6) Hn Hb HT Ha HD Hl Hr Hv. destruct (F6 SLeft) as (A1 & A2 & A3). destruct (F6 SRight) as (B1 & B2 & B3). cbn [s_foot] in *.
  constructor; try assumption; try reflexivity.
  - unfold foot3. auto.
  - unfold foot3. auto.
  - unfold full. rewrite F1, F2. reflexivity.
  - rewrite F3, HD, HT, mult_INR. ring.
  - nia.
  - rewrite Hv. lia.
  - left. split; [reflexivity|]. split; [nia|reflexivity].
Qed.

(** ** Updating a ready state *)
Lemma ready_update s v tn S0 fb : ready s v tn S0 ->
  exists s' v' f r0 a b n w n1 i, s_updateTimeline v fb s = Ok (s', v') /\ updated s v n f tn S0 r0 a b fb s' v' w n1 i
    /\ sstep s = INR a * sT s /\ sDS s = INR b * sT s /\ (0 < a)%nat /\ (0 < b)%nat /\ tn = S0 + INR r0 * sT s
    /\ vlen v = (2 * sN s + 2 * n)%nat /\ new_front s f tn.
Proof.
  intros [HN HT (a & Ha & Hs) (b & Hb & Hd) (Htl & Hcap) Hnow (HS & r0 & Htn) (F1 & F2) (F3 & F4) (n & Hv & Hn)].
  assert (H0 : (0 < length (cbl (stl s)))%nat) by (destruct (cbl (stl s)); [contradiction|cbn; lia]).
  assert (exists f, new_front s f tn) as (f & Hnf).
  { destruct (cbl (stl s)) as [|f rest] eqn:El; [contradiction|]. destruct Hnow as [(L & E)|(L & p & Hp & E)].
    - exists f. left. split; [exact L|]. unfold cb_at. rewrite El. auto.
    - exists p. right. split; [exact L|]. unfold cb_at. rewrite El. split; [apply rd_some; exact Hp|exact E]. }
  destruct (update_regular v fb s n f tn S0 r0 a b) as (s' & v' & w & n1 & i & E & U); try assumption.
  - unfold feet_ok. auto.
  - intros ph Hph Hl. unfold leaves_step in Hl. apply andb_prop in Hl. destruct Hl as (L1 & L2). apply Rltb_true in L1.
    apply (Hn L1 ph); [apply rd_inv; exact Hph|]. destruct (is_DS_spec (phType ph)); [discriminate|assumption].
  - exists s', v', f, r0, a, b, n, w, n1, i. repeat (split; [assumption|]). exact Hnf.
Qed.
End Walk.
