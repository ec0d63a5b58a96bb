(** The steps and the feet: C33, C34, C53, C54. *)

From Coq Require Import Reals List ZArith QArith Arith Bool Lra Lia.
From Verif Require Import Scalar LinAlg LinAlgFacts ToolsModel InterpModel InterpFacts PropInterp PolygonModel PolygonFacts HullFacts PropPolygon
  FootModel LipModel ModelsFacts SupModel SupSpec SupFacts SupTime SupWalk PropTools PropSup PropGait.
Import ListNotations.
Local Open Scope R_scope.

(** ** The middle of the bounding box of points is in their convex hull *)
Lemma extremum_spec (better : R -> R -> bool) (le : R -> R -> Prop) :
  (forall x, le x x) -> (forall x y z, le x y -> le y z -> le x z) -> (forall x m, better x m = true -> le m x) -> (forall x m, better x m = false -> le x m) ->
  forall l, l <> [] -> In (extremum better l) l /\ forall x, In x l -> le x (extremum better l).
Proof.
  intros Hr Ht H1 H2 [|a l] Hl; [contradiction|]. cbn [extremum]. clear Hl. revert a.
  induction l as [|b l IH]; intros a; cbn [fold_left].
  - split; [left; reflexivity|]. intros x [<-|[]]. apply Hr.
  - destruct (better b a) eqn:E; [destruct (IH b) as (A & B)|destruct (IH a) as (A & B)]; split.
    + right. exact A.
    + intros x [<-|[<-|Hx]]; [apply (Ht _ b); [apply H1; exact E|apply B; left; reflexivity]|apply B; left; reflexivity|apply B; right; exact Hx].
    + destruct A as [A|A]; [left; exact A|right; right; exact A].
    + intros x [<-|[<-|Hx]]; [apply B; left; reflexivity|apply (Ht _ a); [apply H2; exact E|apply B; left; reflexivity]|apply B; right; exact Hx].
Qed.
Lemma max_spec l : l <> [] -> In (extremum (fun x m => sltb m x) l) l /\ forall x, In x l -> x <= extremum (fun x m => sltb m x) l.
Proof.
  apply (extremum_spec (fun x m => sltb m x) Rle); [apply Rle_refl|intros x y z; apply Rle_trans| |].
  - intros x m H. change (Rltb m x = true) in H. apply Rltb_true in H. lra.
  - intros x m H. change (Rltb m x = false) in H. apply Rltb_false in H. lra.
Qed.
Lemma min_spec l : l <> [] -> In (extremum (fun x m => sltb x m) l) l /\ forall x, In x l -> extremum (fun x m => sltb x m) l <= x.
Proof.
  apply (extremum_spec (fun x m => sltb x m) (fun x y => y <= x)); [apply Rle_refl|intros x y z A B; lra| |].
  - intros x m H. change (Rltb x m = true) in H. apply Rltb_true in H. lra.
  - intros x m H. change (Rltb x m = false) in H. apply Rltb_false in H. lra.
Qed.
Lemma box_middle_enclosed p : pverts p <> [] -> enclosed (pverts p) (midX p, midY p).
Proof.
  intros Hne. assert (H1 : map fst (pverts p) <> []) by (destruct (pverts p); [contradiction|discriminate]).
  assert (H2 : map snd (pverts p) <> []) by (destruct (pverts p); [contradiction|discriminate]).
  unfold midX, midY. rsimpl.
  destruct (max_spec _ H1) as (I1 & B1). destruct (min_spec _ H1) as (I2 & B2). destruct (max_spec _ H2) as (I3 & B3). destruct (min_spec _ H2) as (I4 & B4).
  change (fun x m : R => sltb m x) with (fun x m : R => Rltb m x) in *. change (fun x m : R => sltb x m) with (fun x m : R => Rltb x m) in *.
  set (xr := extremum _ (map fst (pverts p))) in *. set (xl := extremum (fun x m => Rltb x m) (map fst (pverts p))) in *.
  set (yt := extremum (fun x m => Rltb m x) (map snd (pverts p))) in *. set (yb := extremum (fun x m => Rltb x m) (map snd (pverts p))) in *.
  apply in_map_iff in I1, I2, I3, I4. destruct I1 as (qr & E1 & I1). destruct I2 as (ql & E2 & I2). destruct I3 as (qt & E3 & I3). destruct I4 as (qb & E4 & I4).
  assert (HX : forall q, In q (pverts p) -> xl <= fst q <= xr) by (intros q Hq; split; [apply B2|apply B1]; apply in_map; exact Hq).
  assert (HY : forall q, In q (pverts p) -> yb <= snd q <= yt) by (intros q Hq; split; [apply B4|apply B3]; apply in_map; exact Hq).
  intros a b c Hc. cbn [fst snd]. pose proof (Hc _ I1) as C1. pose proof (Hc _ I2) as C2. pose proof (Hc _ I3) as C3. pose proof (Hc _ I4) as C4.
  pose proof (HX _ I3) as X3. pose proof (HX _ I4) as X4. pose proof (HY _ I1) as Y1. pose proof (HY _ I2) as Y2.
  rewrite E1 in C1. rewrite E2 in C2. rewrite E3 in C3. rewrite E4 in C4.
  replace (a * ((xr + xl) / 2) + b * ((yb + yt) / 2)) with ((a * xr + a * xl + b * yb + b * yt) / 2) by field.
  destruct (Rle_or_lt 0 a) as [Ha|Ha], (Rle_or_lt 0 b) as [Hb|Hb].
  - assert (b * yb <= b * snd qr) by (apply Rmult_le_compat_l; lra). assert (a * xl <= a * fst qt) by (apply Rmult_le_compat_l; lra). lra.
  - assert (b * yt <= b * snd qr) by nra. assert (a * xl <= a * fst qb) by (apply Rmult_le_compat_l; lra). lra.
  - assert (b * yb <= b * snd ql) by (apply Rmult_le_compat_l; lra). assert (a * xr <= a * fst qt) by nra. lra.
  - assert (b * yt <= b * snd ql) by nra. assert (a * xr <= a * fst qb) by nra. lra.
Qed.
(** An enclosed point satisfies the constraints of a convex polygon. *)
Lemma enclosed_satisfies v x : (forall e, In e (edges v) -> sharp_edge e) -> convex_ccw v -> in_box x -> enclosed v x -> satisfies (polygon_of_vertices v) x.
Proof.
  intros Hs Hc Hb He. apply C13_constraints_are_region; try assumption. intros e Hin. unfold inner, pcross, psub. rsimpl.
  set (a := fst (snd e) - fst (fst e)). set (b := snd (snd e) - snd (fst e)).
  specialize (He b (- a) (b * fst (fst e) - a * snd (fst e))).
  assert (b * fst x + - a * snd x <= b * fst (fst e) - a * snd (fst e)); [|cbn [fst snd]; nra].
  apply He. intros p Hp. specialize (Hc e p Hin Hp). unfold inner, pcross, psub in Hc. rsimpl. cbn [fst snd] in Hc. fold a b in Hc. nra.
Qed.

Section Steps.
Context {TK : Trig R}.

(** The kinematic polygon that the supervisor gives for step k. *)
Lemma kin_getter s v n f tn S0 r0 a b fb s' v' v1 n1 i k : updated s v n f tn S0 r0 a b fb s' v' v1 n1 i -> (k < snb s')%nat ->
  s_getKinematicConvexPolygon k s' = Ok (step_kin s f k).
Proof.
  intros U Hk. pose proof (u_tl _ _ _ _ _ _ _ _ _ _ _ _ _ _ _ U) as Htl. pose proof (u_nb _ _ _ _ _ _ _ _ _ _ _ _ _ _ _ U) as Hnb.
  destruct (u_static _ _ _ _ _ _ _ _ _ _ _ _ _ _ _ U) as (_ & _ & _ & El & Er & _ & _ & Em & _).
  unfold s_getKinematicConvexPolygon. destruct (Nat.ltb_spec k (snb s')) as [_|L]; [|lia]. cbn [guard bind].
  unfold s_isInDS, s_front, cb_at. rewrite Htl. cbn [rd nth_error tlist bind]. rewrite Em.
  assert (L : (kin_idx s f k <= i)%nat).
  { rewrite Hnb, nbs_eq in Hk. unfold kin_idx, nbs_closed in *. destruct (smove s), (is_DS (phType f)); cbn [andb] in *; lia. }
  fold (kin_idx s f k).
  assert (Hn : exists ph, nth_error (tlist s f i) (kin_idx s f k) = Some ph).
  { destruct (nth_error (tlist s f i) (kin_idx s f k)) eqn:E; [eauto|]. apply nth_error_None in E. rewrite tlist_length in E. lia. }
  destruct Hn as (ph & Hn). rewrite (rd_some _ _ _ Hn). cbn [bind]. rewrite (tlist_type _ _ _ _ _ Hn). unfold step_kin, kin_of.
  assert (Hd : typ (smove s) (phType f) (kin_idx s f k) <> DS).
  { unfold kin_idx. rewrite Hnb, nbs_eq in Hk. unfold nbs_closed in Hk. destruct (smove s).
    - destruct (is_DS_spec (phType f)) as [->|E]; cbn [andb]; [apply typ_start|apply typ_walk; exact E].
    - destruct (is_DS_spec (phType f)) as [E|E]; [lia|]. cbn [andb]. replace k with 0%nat by lia. exact E. }
  rewrite El, Er. destruct (typ (smove s) (phType f) (kin_idx s f k)); [contradiction|reflexivity|reflexivity].
Qed.

(** ** C33 *)
(** An update of the timeline keeps the 2N first entries; the steps keep their order and values, the
    first one being removed exactly when a single support ends; every step added at the end lies,
    relatively to the step before it (to the left foot when the walk starts), in the convex hull of
    the vertices of its kinematic polygon. *)
Theorem C33_steps_kept_and_added : forall s v tn S0 fb, ready s v tn S0 ->
  exists s' v' ph f, s_updateTimeline v fb s = Ok (s', v')
  /\ nth_error (cbl (stl s)) 0 = Some ph /\ nth_error (cbl (stl s')) 0 = Some f
  /\ (forall j, (j < 2 * sN s)%nat -> vget v' j = vget v j)
  /\ let d := if (Rltb (sttnp s) EPS && negb (is_DS (phType ph)))%bool then 1%nat else 0%nat in
     let N := sN s in
     forall k, (k < nb_steps N v')%nat ->
     ((k + d < nb_steps N v)%nat -> stepX N v' k = stepX N v (k + d) /\ stepY N v' k = stepY N v (k + d))
     /\ ((nb_steps N v <= k + d)%nat -> (0 < k)%nat \/ phType f = DS ->
         exists kin, s_getKinematicConvexPolygon k s' = Ok kin
         /\ let px := if Nat.eqb k 0 then vget (fsx (sleft s)) 0 else stepX N v' (k - 1) in
            let py := if Nat.eqb k 0 then vget (fsy (sleft s)) 0 else stepY N v' (k - 1) in
            enclosed (pverts kin) (stepX N v' k - px, stepY N v' k - py)).
Proof.
  intros s v tn S0 fb Hr. pose proof (ry_N _ _ _ _ Hr) as HN. pose proof (ry_kin _ _ _ _ Hr) as (K1 & K2).
  destruct (ready_update _ _ _ _ fb Hr) as (s' & v' & f & r0 & a & b & n & w & n1 & i & E & U & Hs & Hd & Ha & Hb & Htn & Hv & Hnf).
  destruct (u_v1 _ _ _ _ _ _ _ _ _ _ _ _ _ _ _ U) as (ph & Hph & Hl). exists s', v', ph, f. split; [exact E|].
  split; [apply rd_inv; exact Hph|]. split; [rewrite (u_tl _ _ _ _ _ _ _ _ _ _ _ _ _ _ _ U); reflexivity|].
  pose proof (u_size _ _ _ _ _ _ _ _ _ _ _ _ _ _ _ U) as Hsz. destruct (u_growth _ _ _ _ _ _ _ _ _ _ _ _ _ _ _ U) as ((G1 & G2) & G3).
  set (m := grown s n1 (snb s')) in *. unfold leaves_step in Hl.
  set (d := if (Rltb (sttnp s) EPS && negb (is_DS (phType ph)))%bool then 1%nat else 0%nat).
  assert (Hw : (forall j, (j < 2 * sN s)%nat -> vget w j = vget v j) /\ n = (n1 + d)%nat
      /\ forall k, (k < n1)%nat -> stepX (sN s) w k = stepX (sN s) v (k + d) /\ stepY (sN s) w k = stepY (sN s) v (k + d)).
  { unfold d. destruct (Rltb (sttnp s) EPS && negb (is_DS (phType ph)))%bool.
    - destruct Hl as (En & (_ & A & B)). split; [exact A|]. split; [lia|]. intros k Hk. rewrite Nat.add_1_r. apply B. exact Hk.
    - destruct Hl as (-> & ->). split; [auto|]. split; [lia|]. intros k Hk. rewrite Nat.add_0_r. auto. }
  destruct Hw as (W1 & W2 & W3). split; [intros j Hj; rewrite G1, W1 by exact Hj; reflexivity|]. cbn zeta. intros k Hk. rewrite (nb_steps_eq _ _ _ Hsz) in Hk. rewrite (nb_steps_eq _ _ _ Hv). split.
  - intros L. destruct (G2 k ltac:(lia)) as (-> & ->). apply W3. lia.
  - intros L Hcase. assert (Hknb : (k < snb s')%nat) by (unfold m, grown in Hk; destruct (smove s); lia).
    exists (step_kin s f k). split; [eapply kin_getter; eassumption|].
    destruct (G3 k ltac:(lia)) as (X & Y).
    assert (Kn : pverts (step_kin s f k) <> []) by (unfold step_kin, kin_of; destruct (typ _ _ _); assumption).
    destruct k as [|k]; cbn [Nat.eqb]; rewrite X, Y.
    + destruct Hcase as [Hc|Hc]; [lia|]. rewrite Hc. cbn [is_DS].
      match goal with |- enclosed _ ?q => replace q with (midX (step_kin s f 0), midY (step_kin s f 0)) by (f_equal; ring) end. apply box_middle_enclosed, Kn.
    + replace (S k - 1)%nat with k by lia.
      match goal with |- enclosed _ ?q => replace q with (midX (step_kin s f (S k)), midY (step_kin s f (S k))) by (f_equal; ring) end. apply box_middle_enclosed, Kn.
Qed.
(** "This method ensures that the new footstep will respect the constraints." *)
Theorem C33_enclosed_respects_constraints : forall v x, (forall e, In e (edges v) -> sharp_edge e) -> convex_ccw v -> in_box x ->
  enclosed v x -> satisfies (polygon_of_vertices v) x.
Proof. exact enclosed_satisfies. Qed.

(** ** C34 *)
(** Whatever the history, an update of the feet states moves at most the foot that is not the support
    foot; in double support, and as long as the sampling period that opens a step lasts, it moves
    neither. *)
Theorem C34_support_foot_never_moves : forall s v fb s', s_updateFeetStates v fb s = Ok s' ->
  exists p, nth_error (cbl (stl s)) 0 = Some p
  /\ (phType p = DS -> sleft s' = sleft s /\ sright s' = sright s)
  /\ (phType p = LeftSS -> sleft s' = sleft s)
  /\ (phType p = RightSS -> sright s' = sright s)
  /\ (phDur p - sT s + EPS <= sttnp s -> sleft s' = sleft s /\ sright s' = sright s)
  /\ sttnp s' = sttnp s - fb.
Proof.
  intros s v fb s' H. unfold s_updateFeetStates in H. apply bind_ok in H. destruct H as (p & Hp & H). exists p. split; [apply rd_inv; exact Hp|].
  change (sltb (sttnp s) (sadd (ssub (phDur p) (sT s)) EPS)) with (Rltb (sttnp s) (phDur p - sT s + EPS)) in H.
  destruct (Rltb_spec (sttnp s) (phDur p - sT s + EPS)) as [L|L].
  - rewrite andb_true_r in H. destruct (phType p) eqn:Et; cbn [is_DS negb] in H.
    + injection H as <-. cbn [sleft sright sttnp]. repeat split; try discriminate; lra.
    + apply bind_ok in H. destruct H as (x & _ & H). apply bind_ok in H. destruct H as (y & _ & H). apply bind_ok in H. destruct H as (r & _ & H).
      injection H as <-. cbn [sleft sright sttnp]. repeat split; try discriminate; lra.
    + apply bind_ok in H. destruct H as (x & _ & H). apply bind_ok in H. destruct H as (y & _ & H). apply bind_ok in H. destruct H as (r & _ & H).
      injection H as <-. cbn [sleft sright sttnp]. repeat split; try discriminate; lra.
  - rewrite andb_false_r in H. injection H as <-. cbn [sleft sright sttnp]. auto 10.
Qed.
(** No other call than the setters of the foot states changes the position of a foot. *)
Definition sets_state (c : scall R) : Prop := match c with SSetFootX _ _ | SSetFootY _ _ | SSetFootZ _ _ => True | _ => False end.
Definition same_states (f g : foot R) : Prop := fsx f = fsx g /\ fsy f = fsy g /\ fsz f = fsz g.
Theorem C34_other_calls_move_nothing : forall s c s', sstep_call c s = Ok s' -> ~ sets_state c -> (forall v fb, c <> SUpdateFeet v fb) ->
  same_states (sleft s') (sleft s) /\ same_states (sright s') (sright s).
Proof.
  intros s c s' H Hc Hu. unfold same_states. destruct c; cbn [sets_state] in Hc; try (exfalso; tauto); cbn [sstep_call] in H.
  - unfold s_setNbSamples in H. apply guard_ok in H. destruct H as (_ & H). apply bind_ok in H. destruct H as (l & Hl & H). apply bind_ok in H. destruct H as (r & Hr & H).
    injection H as <-. cbn [sleft sright s_setN]. unfold f_setNbSamples in *. apply guard_ok in Hl, Hr. destruct Hl as (_ & Hl), Hr as (_ & Hr). injection Hl as <-. injection Hr as <-. auto 10.
  - unfold s_setSamplingPeriod in H. apply guard_ok in H. destruct H as (_ & H). apply bind_ok in H. destruct H as (l & Hl & H). apply bind_ok in H. destruct H as (r & Hr & H).
    injection H as <-. cbn [sleft sright]. unfold f_setSamplingPeriod in *. apply guard_ok in Hl, Hr. destruct Hl as (_ & Hl), Hr as (_ & Hr). injection Hl as <-. injection Hr as <-. auto 10.
  - unfold s_setStepPeriod in H. apply guard_ok in H. destruct H as (_ & H). apply bind_ok in H. destruct H as (ds & _ & H).
    destruct ds; [injection H as <-; auto 10|]. apply guard_ok in H. destruct H as (_ & H). apply bind_ok in H. destruct H as (f & _ & H). apply bind_ok in H. destruct H as (t & _ & H). injection H as <-. auto 10.
  - unfold s_setInitialDoubleSupportLength in H. apply bind_ok in H. destruct H as (ds & _ & H).
    destruct ds; [|injection H as <-; auto 10]. apply bind_ok in H. destruct H as (u & _ & H). apply bind_ok in H. destruct H as (f & _ & H). apply bind_ok in H. destruct H as (t & _ & H). injection H as <-. auto 10.
  - injection H as <-. auto 10.
  - injection H as <-. destruct d; auto 10.
  - injection H as <-. destruct d; auto 10.
  - injection H as <-. destruct d; auto 10.
  - apply bind_ok in H. destruct H as ((s1 & v1) & H & E). injection E as <-. cbn [fst].
    unfold s_updateTimeline in H. apply guard_ok in H. destruct H as (_ & H). apply guard_ok in H. destruct H as (_ & H).
    apply bind_ok in H. destruct H as (((w & t1) & tn) & _ & H). apply bind_ok in H. destruct H as (((s2 & i) & v2) & _ & H). apply bind_ok in H. destruct H as (sel & _ & H).
    injection H as <- _. auto 10.
  - exfalso. eapply Hu. reflexivity.
Qed.

(** ** C53: the flying foot lands *)
(** State x, velocity, acceleration of a coordinate of a foot. *)
Definition at_rest (v : vec R) (x : R) : Prop := vlen v = 3%nat /\ vget v 0 = x /\ vget v 1 = 0 /\ vget v 2 = 0.
Definition flying_foot (p : ptype) (s : sup R) : foot R := match p with LeftSS => sright s | _ => sleft s end.
Lemma interpolateVec_end (v w : vec R) x T : 0 < T -> interpolateVec v (St3 x s0 s0) T T = Ok w -> at_rest w x.
Proof.
  intros HT H. unfold interpolateVec in H. apply guard_ok in H. destruct H as (L & H). apply Nat.eqb_eq in L. rewrite C09_end in H by exact HT. cbn [bind pos vel acc] in H. injection H as <-.
  unfold at_rest, vset. cbn [vlen vget Nat.eqb]. auto.
Qed.
(** In the last feedback period of a step, the flying foot comes to the first planned step, on the
    ground, at rest. *)
Theorem C53_foot_lands : forall s v fb s' p, nth_error (cbl (stl s)) 0 = Some p -> phType p <> DS ->
  sT s <= phDur p -> 0 < fb -> sttnp s = fb -> fb < (phDur p - sT s) / 2 + EPS ->
  s_updateFeetStates v fb s = Ok s' ->
  let g := flying_foot (phType p) s' in
  at_rest (fsx g) (vget v 0) /\ at_rest (fsy g) (vget v (snb s)) /\ at_rest (fsz g) 0 /\ sttnp s' = 0.
Proof.
  intros s v fb s' p Hp Hss HT Hfb Ht Hfl H. unfold s_updateFeetStates, s_front, cb_at in H. rewrite (rd_some _ _ _ Hp) in H. cbn [bind] in H.
  change (sltb (sttnp s) (sadd (ssub (phDur p) (sT s)) EPS)) with (Rltb (sttnp s) (phDur p - sT s + EPS)) in H.
  change (sltb (sttnp s) (sadd (smul (ssub (phDur p) (sT s)) shalf) EPS)) with (Rltb (sttnp s) ((phDur p - sT s) * shalf + EPS)) in H.
  assert (Eh : (phDur p - sT s) * shalf = (phDur p - sT s) / 2) by (unfold shalf; rsimpl; field). rewrite Eh, Ht in H.
  destruct (Rltb_spec fb (phDur p - sT s + EPS)) as [_|L]; [|lra]. destruct (Rltb_spec fb ((phDur p - sT s) / 2 + EPS)) as [_|L]; [|lra].
  destruct (is_DS_spec (phType p)) as [|_]; [contradiction|]. cbn [negb andb] in H.
  apply bind_ok in H. destruct H as (x & Hx & H). apply bind_ok in H. destruct H as (y & Hy & H).
  unfold vread in Hx, Hy. apply guard_ok in Hx, Hy. destruct Hx as (_ & Hx), Hy as (_ & Hy). injection Hx as <-. injection Hy as <-.
  assert (Hfly : forall f g, flyTo f (vget v 0) (vget v (snb s)) s0 fb fb fb = Ok g ->
     at_rest (fsx g) (vget v 0) /\ at_rest (fsy g) (vget v (snb s)) /\ at_rest (fsz g) 0).
  { intros f g Hg. unfold flyTo, f_updateStateX, f_updateStateY, f_updateStateZ in Hg.
    apply bind_ok in Hg. destruct Hg as (f1 & H1 & Hg). apply bind_ok in H1. destruct H1 as (wx & Hx & H1). injection H1 as <-.
    apply bind_ok in Hg. destruct Hg as (f2 & H2 & Hg). apply bind_ok in H2. destruct H2 as (wy & Hy & H2). injection H2 as <-.
    apply bind_ok in Hg. destruct Hg as (wz & Hz & Hg). injection Hg as <-. apply interpolateVec_end in Hx, Hy, Hz; try exact Hfb. cbn. auto. }
  assert (E0 : fb - fb = 0) by ring.
  destruct (phType p); [contradiction| |]; apply bind_ok in H; destruct H as (g & Hg & H); injection H as <-; cbn [flying_foot sleft sright sttnp]; destruct (Hfly _ _ Hg) as (A & B & C); rsimpl; auto.
Qed.
(** Half way the foot is at its maximal height, with a zero vertical velocity and acceleration. *)
Theorem C53_foot_reaches_height : forall s v fb s' p, nth_error (cbl (stl s)) 0 = Some p -> phType p <> DS ->
  EPS < fb -> sttnp s = (phDur p - sT s) / 2 + fb -> fb <= (phDur p - sT s) / 2 ->
  s_updateFeetStates v fb s = Ok s' ->
  at_rest (fsz (flying_foot (phType p) s')) (fmaxHeight (flying_foot (phType p) s)) /\ sttnp s' = (phDur p - sT s) / 2.
Proof.
  intros s v fb s' p Hp Hss Hfb Ht Hfl H. assert (HE : 0 < EPS) by (rsimpl; lra). unfold s_updateFeetStates, s_front, cb_at in H. rewrite (rd_some _ _ _ Hp) in H. cbn [bind] in H.
  change (sltb (sttnp s) (sadd (ssub (phDur p) (sT s)) EPS)) with (Rltb (sttnp s) (phDur p - sT s + EPS)) in H.
  change (sltb (sttnp s) (sadd (smul (ssub (phDur p) (sT s)) shalf) EPS)) with (Rltb (sttnp s) ((phDur p - sT s) * shalf + EPS)) in H.
  change (ssub (sttnp s) (smul (ssub (phDur p) (sT s)) shalf)) with (sttnp s - (phDur p - sT s) * shalf) in H.
  assert (Eh : (phDur p - sT s) * shalf = (phDur p - sT s) / 2) by (unfold shalf; rsimpl; field). rewrite Eh, Ht in H.
  set (h := (phDur p - sT s) / 2) in *. assert (Hh : phDur p - sT s = 2 * h) by (unfold h; field).
  destruct (Rltb_spec (h + fb) (phDur p - sT s + EPS)) as [_|L]; [|lra]. destruct (Rltb_spec (h + fb) (h + EPS)) as [L|_]; [lra|].
  destruct (is_DS_spec (phType p)) as [|_]; [contradiction|]. cbn [negb andb] in H. replace (h + fb - h) with fb in H by ring.
  apply bind_ok in H. destruct H as (x & Hx & H). apply bind_ok in H. destruct H as (y & Hy & H).
  assert (Hfly : forall f g T, flyTo f x y (fmaxHeight f) T fb fb = Ok g -> at_rest (fsz g) (fmaxHeight f)).
  { intros f g T Hg. unfold flyTo, f_updateStateX, f_updateStateY, f_updateStateZ in Hg. apply bind_ok in Hg. destruct Hg as (f1 & Hf1 & Hg). apply bind_ok in Hg. destruct Hg as (f2 & Hf2 & Hg).
    apply bind_ok in Hg. destruct Hg as (wz & Hz & Hg). injection Hg as <-. cbn [f_setStateZ f_setStates fsz].
    apply interpolateVec_end in Hz; [exact Hz|lra]. }
  assert (E0 : h + fb - fb = h) by ring.
  destruct (phType p); [contradiction| |]; apply bind_ok in H; destruct H as (g & Hg & H); injection H as <-; cbn [flying_foot sleft sright sttnp]; split; try exact E0; exact (Hfly _ _ _ Hg).
Qed.
(** In a walk whose steps last at least two feedback periods more than one sampling period: at the end of
    each feedback cycle that completes a step, the flying foot stands where the solution of the
    quadratic program puts the first step. *)
Theorem C53_walk_feet_land : forall s v n a b fb l x, configured s v n a b fb -> (2 <= (a - 1) * n)%nat -> Forall allowed l -> allowed x ->
  exists s1 v1 s2 v2 p, cycles fb l (s, v) = Ok (s1, v1) /\ cycle fb (acalls x) (amove x) (aqp x) (s1, v1) = Ok (s2, v2)
  /\ nth_error (cbl (stl s2)) 0 = Some p
  /\ (phType p <> DS -> sttnp s2 < EPS -> let g := flying_foot (phType p) s2 in
      at_rest (fsx g) (stepX (sN s2) v2 0) /\ at_rest (fsy g) (vget v2 (2 * sN s2 + snb s2)) /\ at_rest (fsz g) 0).
Proof.
  intros s v n a b fb l x C Han Hl (Hc & Hq). destruct (walk_states _ _ _ _ _ _ _ C Hl) as (s1 & v1 & f & i & m & k & E & W).
  destruct (configured_walking _ _ _ _ _ _ C) as (_ & HN & _). destruct C as [_ Hfb Hn HT0 (Ha & HaN) _ Hb _ _ _]. assert (HE : 0 < EPS) by (rsimpl; lra).
  destruct (foot_calls_ok (acalls x) s1 Hc) as (s0' & E0). destruct (walking_feet _ _ _ _ _ _ _ _ _ _ _ _ _ W Hc E0) as (W0 & _).
  destruct (cycle_ok (sN s) n a b fb HN Hn Ha HaN Hb Hfb s0' v1 f i m k (amove x) (aqp x) W0 Hq) as (s3 & v3 & s2 & S0 & w & n1 & i1 & E3 & U & _ & _ & Ec & Em2 & En2 & W2).
  exists s1, v1, s2, (aqp x v3), (next_f s0' f m). split; [exact E|]. split; [rewrite (cycle_calls _ _ _ _ _ _ _ E0); exact Ec|].
  rewrite (w_tl _ _ _ _ _ _ _ _ _ _ _ W2). split; [reflexivity|]. intros Hss Hlt.
  unfold cycle in Ec. cbn [fst snd ssteps bind] in Ec. rewrite E3 in Ec. cbn [bind] in Ec. apply bind_ok in Ec. destruct Ec as (s2' & Hu & Ec). injection Ec as <-.
  destruct (u_static _ _ _ _ _ _ _ _ _ _ _ _ _ _ _ U) as (UN & UT & Uf & _ & _ & _ & _ & _ & Ut). cbn [sN sT s_setMove] in UN, UT.
  set (m1 := next_m n a b s0' f m) in *.
  assert (Hp3 : nth_error (cbl (stl s3)) 0 = Some (next_f s0' f m)) by (rewrite (u_tl _ _ _ _ _ _ _ _ _ _ _ _ _ _ _ U); reflexivity).
  assert (Ht2 : sttnp s2' = INR m1 * fb - fb). { destruct (C34_support_foot_never_moves _ _ _ _ Hu) as (_ & _ & _ & _ & _ & _ & ->). rewrite Ut. reflexivity. }
  pose proof (next_m_pos (sN s) n a b HN Hn Ha HaN Hb s0' f m) as Hm1. fold m1 in Hm1.
  assert (Em1 : m1 = 1%nat). { destruct (Nat.eq_dec m1 1) as [|Hne]; [assumption|exfalso]. assert (2 <= INR m1) by (apply (le_INR 2); lia). rewrite Ht2 in Hlt. nra. }
  assert (Hdur : phDur (next_f s0' f m) = INR a * (INR n * fb)).
  { assert (Est : sstep s0' = INR a * (INR n * fb)) by (rewrite (w_step _ _ _ _ _ _ _ _ _ _ _ W0), (w_T _ _ _ _ _ _ _ _ _ _ _ W0); reflexivity).
    destruct m as [|m]; cbn [next_f] in *.
    - cbn [mkph phDur phType] in *. unfold durationOf. destruct (typ (smove s0') (phType f) 1); [contradiction|exact Est|exact Est].
    - rewrite (w_front _ _ _ _ _ _ _ _ _ _ _ W0). unfold durationOf. destruct (phType f); [contradiction|exact Est|exact Est]. }
  assert (HT3 : sT s3 = INR n * fb) by (rewrite UT; apply (w_T _ _ _ _ _ _ _ _ _ _ _ W0)).
  assert (Hfl : 2 * fb <= phDur (next_f s0' f m) - sT s3).
  { rewrite Hdur, HT3. replace (INR a * (INR n * fb) - INR n * fb) with (INR ((a - 1) * n) * fb) by (rewrite mult_INR, minus_INR by lia; cbn [INR]; ring).
    apply Rmult_le_compat_r; [lra|]. apply (le_INR 2). exact Han. }
  pose proof (C53_foot_lands s3 (vseg (aqp x v3) (2 * sN s3) (2 * snb s3)) fb s2' _ Hp3 Hss ltac:(lra) ltac:(lra)
     ltac:(rewrite Ut, Em1; cbn [INR]; ring) ltac:(lra) Hu) as (A & B & D & _).
  assert (HN2 : sN s2' = sN s3) by (rewrite (w_N _ _ _ _ _ _ _ _ _ _ _ W2), UN; symmetry; apply (w_N _ _ _ _ _ _ _ _ _ _ _ W0)).
  unfold stepX. rewrite HN2, En2. unfold vseg in A, B. cbn [vget] in A, B. replace (2 * sN s3 + 0)%nat with (2 * sN s3)%nat in * by lia. auto.
Qed.
(** With a step period of one sampling period the feet never move. *)
Theorem C53_one_sample_steps_never_move : forall s v n b fb l x, configured s v n 1 b fb -> Forall allowed l -> (forall w, vlen (aqp x w) = vlen w) ->
  exists s1 v1 s2 v2, cycles fb l (s, v) = Ok (s1, v1) /\ cycle fb [] (amove x) (aqp x) (s1, v1) = Ok (s2, v2)
  /\ sleft s2 = sleft s1 /\ sright s2 = sright s1.
Proof.
  intros s v n b fb l x C Hl Hq. destruct (walk_states _ _ _ _ _ _ _ C Hl) as (s1 & v1 & f & i & m & k & E & W).
  destruct (configured_walking _ _ _ _ _ _ C) as (_ & HN & _). destruct C as [_ Hfb Hn HT0 (Ha & HaN) _ Hb _ _ _]. assert (HE : 0 < EPS) by (rsimpl; lra).
  destruct (cycle_ok (sN s) n 1 b fb HN Hn Ha HaN Hb Hfb s1 v1 f i m k (amove x) (aqp x) W Hq) as (s3 & v3 & s2 & S0 & w & n1 & i1 & E3 & U & _ & _ & Ec & Em2 & En2 & W2).
  exists s1, v1, s2, (aqp x v3). split; [exact E|]. split; [exact Ec|].
  unfold cycle in Ec. cbn [fst snd ssteps bind] in Ec. rewrite E3 in Ec. cbn [bind] in Ec. apply bind_ok in Ec. destruct Ec as (s2' & Hu & Ec). injection Ec as <-.
  destruct (u_static _ _ _ _ _ _ _ _ _ _ _ _ _ _ _ U) as (UN & UT & Uf & UL & UR & _ & _ & _ & Ut). cbn [sN sT s_setMove sleft sright] in UN, UT, UL, UR.
  rewrite <- UL, <- UR. destruct (C34_support_foot_never_moves _ _ _ _ Hu) as (p & Hp & D1 & _ & _ & D2 & _).
  rewrite (u_tl _ _ _ _ _ _ _ _ _ _ _ _ _ _ _ U) in Hp. injection Hp as <-.
  destruct (is_DS_spec (phType (next_f s1 f m))) as [Hds|Hss]; [apply D1; exact Hds|]. apply D2.
  pose proof (next_m_pos (sN s) n 1 b HN Hn Ha HaN Hb s1 f m) as Hm1. set (m1 := next_m n 1 b s1 f m) in *.
  assert (Hdur : phDur (next_f s1 f m) = INR n * fb).
  { assert (Est : sstep s1 = INR n * fb) by (rewrite (w_step _ _ _ _ _ _ _ _ _ _ _ W), (w_T _ _ _ _ _ _ _ _ _ _ _ W); cbn [INR]; ring).
    destruct m as [|m]; cbn [next_f] in *.
    - cbn [mkph phDur phType] in *. unfold durationOf. destruct (typ (smove s1) (phType f) 1); [contradiction|exact Est|exact Est].
    - rewrite (w_front _ _ _ _ _ _ _ _ _ _ _ W). unfold durationOf. destruct (phType f); [contradiction|exact Est|exact Est]. }
  rewrite Hdur, UT, (w_T _ _ _ _ _ _ _ _ _ _ _ W), Ut. assert (1 <= INR m1) by (apply (le_INR 1); exact Hm1). assert (1 * fb <= INR m1 * fb) by (apply Rmult_le_compat_r; lra). lra.
Qed.
End Steps.

(** ** C54: the double support polygon *)
(** The positions of the feet in the double support that is current or, when a step is being made,
    that will close it; and the point to which the CoP is relative. *)
Definition ds_feet (s : sup R) (p : ptype) (L Rt O : pt R) : Prop :=
  let l := (vget (fsx (sleft s)) 0, vget (fsy (sleft s)) 0) in
  let r := (vget (fsx (sright s)) 0, vget (fsy (sright s)) 0) in
  let st := (vget (sstepVec s) 0, vget (sstepVec s) (snb s)) in
  match p, smove s with
  | DS, true => L = l /\ Rt = r /\ O = l
  | DS, false => L = l /\ Rt = r /\ O = ((fst r + fst l) / 2, (snd r + snd l) / 2)
  | LeftSS, false => L = l /\ Rt = st /\ O = st
  | RightSS, false => L = st /\ Rt = r /\ O = st
  | _, true => False
  end.
Definition at_pos (P : pt R) (g : polygon R) : list (pt R) := map (fun q => (fst q + fst P, snd q + snd P)) (pverts g).
Lemma in_hull_shift p d x : in_hull (map (fun q => (fst q + fst d, snd q + snd d)) p) x <-> in_hull p (fst x - fst d, snd x - snd d).
Proof.
  split; intros H C HC Hin.
  - specialize (H (fun q => C (fst q - fst d, snd q - snd d))). apply H.
    + intros a b t Ha Hb Ht. specialize (HC _ _ t Ha Hb Ht). cbn [fst snd] in *.
      match type of HC with C ?u => match goal with |- C ?w => replace w with u by (f_equal; ring) end end. exact HC.
    + intros q Hq. apply in_map_iff in Hq. destruct Hq as (y & <- & Hy). cbn [fst snd]. replace (fst y + fst d - fst d, snd y + snd d - snd d) with y by (destruct y; cbn [fst snd]; f_equal; ring). auto.
  - specialize (H (fun q => C (fst q + fst d, snd q + snd d))).
    replace x with (fst (fst x - fst d, snd x - snd d) + fst d, snd (fst x - fst d, snd x - snd d) + snd d) by (destruct x; cbn [fst snd]; f_equal; ring). apply H.
    + intros a b t Ha Hb Ht. specialize (HC _ _ t Ha Hb Ht). cbn [fst snd] in *.
      match type of HC with C ?u => match goal with |- C ?w => replace w with u by (f_equal; ring) end end. exact HC.
    + intros q Hq. apply Hin. apply in_map_iff. eauto.
Qed.
(** The constraints on the CoP in double support describe the convex hull of the two foot polygons,
    each placed at the position of its foot. *)
Theorem C54_double_support_polygon : forall s p L Rt O g c,
  nth_error (cbl (stl s)) 0 = Some p -> ds_feet s (phType p) L Rt O -> s_computeDSCopConvexPolygon s = Ok g ->
  let rel := map (fun q => (fst q - fst O, snd q - snd O)) (at_pos L (fcop (sleft s)) ++ at_pos Rt (fcop (sright s))) in
  (2 <= length rel)%nat -> separated rel -> ~ collinear rel -> (forall e, In e (edges (pverts g)) -> sharp_edge e) ->
  in_box (fst c - fst O, snd c - snd O) ->
  (satisfies g (fst c - fst O, snd c - snd O) <-> in_hull (at_pos L (fcop (sleft s)) ++ at_pos Rt (fcop (sright s))) c).
Proof.
  intros s p L Rt O g c Hp Hf H rel H2 Hs Hc He Hb.
  assert (Hg : makePolygon rel = Ok g).
  { unfold s_computeDSCopConvexPolygon in H. apply bind_ok in H. destruct H as (lx & Hlx & H). apply bind_ok in H. destruct H as (ly & Hly & H).
    apply bind_ok in H. destruct H as (rx & Hrx & H). apply bind_ok in H. destruct H as (ry & Hry & H).
    unfold vread in Hlx, Hly, Hrx, Hry. apply guard_ok in Hlx, Hly, Hrx, Hry. destruct Hlx as (_ & Hlx), Hly as (_ & Hly), Hrx as (_ & Hrx), Hry as (_ & Hry).
    injection Hlx as <-. injection Hly as <-. injection Hrx as <-. injection Hry as <-.
    unfold s_front, cb_at in H. rewrite (rd_some _ _ _ Hp) in H. cbn [bind] in H.
    assert (Hsh : forall (P : polygon R) d, map (fun q => (fst q - fst O, snd q - snd O)) (at_pos d P) = shiftPoly P (psub d O)).
    { intros P d. unfold at_pos, shiftPoly. rewrite map_map. apply map_ext. intros q. unfold psub. cbn [fst snd]. rsimpl_goal. f_equal; ring. }
    unfold rel. rewrite map_app, !Hsh. unfold ds_feet in Hf.
    destruct (phType p), (smove s); try contradiction; destruct Hf as (-> & -> & ->); cbn [bind fst snd] in *; try exact H;
      apply bind_ok in H; destruct H as (q & Hq & H); apply bind_ok in Hq; destruct Hq as (x & Hx & Hq); apply bind_ok in Hq; destruct Hq as (y & Hy & Hq);
      unfold vread in Hx, Hy; apply guard_ok in Hx, Hy; destruct Hx as (_ & Hx), Hy as (_ & Hy); injection Hx as <-; injection Hy as <-; injection Hq as <-; exact H. }
  rewrite (C52_constraints_are_hull rel g _ H2 Hs Hc Hg He Hb). unfold rel.
  replace (map (fun q => (fst q - fst O, snd q - snd O)) (at_pos L (fcop (sleft s)) ++ at_pos Rt (fcop (sright s))))
    with (map (fun q => (fst q + fst (- fst O, - snd O), snd q + snd (- fst O, - snd O))) (at_pos L (fcop (sleft s)) ++ at_pos Rt (fcop (sright s)))) by (apply map_ext; intros q; cbn [fst snd]; f_equal; ring).
  rewrite in_hull_shift. cbn [fst snd]. replace (fst c - fst O - - fst O, snd c - snd O - - snd O) with c by (destruct c; cbn [fst snd]; f_equal; ring). reflexivity.
Qed.
