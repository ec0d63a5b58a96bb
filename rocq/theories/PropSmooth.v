(** C60: the feet move smoothly. *)

From Coq Require Import Reals List ZArith Arith Bool Lra Lia.
From Verif Require Import Scalar LinAlg LinAlgFacts ToolsModel InterpModel InterpFacts PropInterp PolygonModel PolygonFacts HullFacts PropPolygon FootModel LipModel ModelsFacts
  SupModel SupSpec SupFacts SupTime SupWalk PropSup PropSteps.
Import ListNotations.
Local Open Scope R_scope.

(** ** What is a smooth motion *)
(** q1 and q2 are the first and second derivatives of q, and q2 is continuous. *)
Definition smooth (q q1 q2 : R -> R) : Prop :=
  (forall t, derivable_pt_lim q t (q1 t)) /\ (forall t, derivable_pt_lim q1 t (q2 t)) /\ (forall t, continuity_pt q2 t).
(** The coordinate of a foot v (position, velocity, acceleration) is that of the motion at time t. *)
Definition sampled (q q1 q2 : R -> R) (t : R) (v : vec R) : Prop := vlen v = 3%nat /\ vget v 0 = q t /\ vget v 1 = q1 t /\ vget v 2 = q2 t.
Definition cubic_between (q : R -> R) (lo hi : R) : Prop := exists a b c d, forall t, lo < t <= hi -> q t = a * t^3 + b * t^2 + c * t + d.
(** From the state v, a smooth motion made of three cubics of equal durations comes to rest at x after
    the duration T; w is its state at time t. *)
Definition on_the_way (v : vec R) (x T t : R) (w : vec R) : Prop :=
  exists q q1 q2, smooth q q1 q2 /\ sampled q q1 q2 0 v /\ q T = x /\ q1 T = 0 /\ q2 T = 0 /\ sampled q q1 q2 t w
  /\ cubic_between q 0 (T / 3) /\ cubic_between q (T / 3) (2 * T / 3) /\ cubic_between q (2 * T / 3) T.

Lemma raw_cubic i f T lo hi c : (forall t, lo < t <= hi -> selectFactors (computeFactors i f T) t T = c) ->
  cubic_between (fun t => pos (interp_raw i f T t)) lo hi.
Proof.
  intros H. unfold interp_raw. cbn [pos]. destruct c as [c3 c2 c1 c0] eqn:Ec. exists (c3 * (/ T)^3), (c2 * (/ T)^2), (c1 * / T), c0.
  intros t Ht. rewrite (H t Ht), poly_cubic. unfold cubic. cbn. unfold Rdiv. ring.
Qed.
Lemma way_of_vec v x T t w : 0 < T -> interpolateVec v (St3 x 0 0) T t = Ok w -> on_the_way v x T t w.
Proof.
  intros HT H. unfold interpolateVec in H. apply guard_ok in H. destruct H as (L & H). apply Nat.eqb_eq in L. rewrite interpolateTrajectory_ok in H by lra. cbn [bind] in H. injection H as <-.
  set (i := St3 (vget v 0) (vget v 1) (vget v 2)). set (f := St3 x 0 0).
  exists (fun t => pos (interp_raw i f T t)), (fun t => vel (interp_raw i f T t)), (fun t => acc (interp_raw i f T t)).
  split; [repeat split; intros; apply C10_twice_differentiable; exact HT|].
  split; [unfold sampled; rewrite (interp_start i f T HT); auto|]. rewrite (interp_end i f T HT). do 3 (split; [reflexivity|]).
  split; [unfold sampled, vset; cbn [vlen vget Nat.eqb]; auto|].
  repeat split; eapply raw_cubic; intros t0 Ht0; unfold selectFactors; rsimpl.
  - rewrite (proj2 (Rleb_true t0 (T / 3))) by lra. reflexivity.
  - rewrite (proj2 (Rleb_false t0 (T / 3))), (proj2 (Rleb_true t0 (2 * T / 3))) by lra. reflexivity.
  - rewrite (proj2 (Rleb_false t0 (T / 3))), (proj2 (Rleb_false t0 (2 * T / 3))) by lra. reflexivity.
Qed.

(** ** One call *)
(** Each call of updateFeetStates in the flying part of a single support moves the foot that flies along
    smooth motions to the first planned step: in the remaining time for x and y; up to the maximal
    height in the first half of the flight, then down to the ground. *)
Theorem C60_one_update : forall s v fb s' p, nth_error (cbl (stl s)) 0 = Some p -> phType p <> DS ->
  0 < sttnp s -> sttnp s < (phDur p - sT s) + EPS -> s_updateFeetStates v fb s = Ok s' ->
  let f := flying_foot (phType p) s in let f' := flying_foot (phType p) s' in let half := (phDur p - sT s) / 2 in
  on_the_way (fsx f) (vget v 0) (sttnp s) fb (fsx f') /\ on_the_way (fsy f) (vget v (snb s)) (sttnp s) fb (fsy f')
  /\ (sttnp s < half + EPS -> on_the_way (fsz f) 0 (sttnp s) fb (fsz f'))
  /\ (half + EPS <= sttnp s -> on_the_way (fsz f) (fmaxHeight f) (sttnp s - half) fb (fsz f')).
Proof.
  intros s v fb s' p Hp Hss Ht Hfl H. cbv zeta. unfold s_updateFeetStates, s_front, cb_at in H. rewrite (rd_some _ _ _ Hp) in H. cbn [bind] in H.
  change (sltb (sttnp s) (sadd (ssub (phDur p) (sT s)) EPS)) with (Rltb (sttnp s) (phDur p - sT s + EPS)) in H.
  change (sltb (sttnp s) (sadd (smul (ssub (phDur p) (sT s)) shalf) EPS)) with (Rltb (sttnp s) ((phDur p - sT s) * shalf + EPS)) in H.
  change (ssub (sttnp s) (smul (ssub (phDur p) (sT s)) shalf)) with (sttnp s - (phDur p - sT s) * shalf) in H.
  assert (Eh : (phDur p - sT s) * shalf = (phDur p - sT s) / 2) by (unfold shalf; rsimpl; field). rewrite Eh in H. set (half := (phDur p - sT s) / 2) in *.
  rewrite (proj2 (Rltb_true _ _) Hfl) in H. assert (D : is_DS (phType p) = false) by (destruct (phType p); [contradiction|reflexivity|reflexivity]). rewrite D in H. cbn [negb andb] in H.
  apply bind_ok in H. destruct H as (x & Hx & H). apply bind_ok in H. destruct H as (y & Hy & H).
  unfold vread in Hx, Hy. apply guard_ok in Hx, Hy. destruct Hx as (_ & Hx), Hy as (_ & Hy). injection Hx as <-. injection Hy as <-.
  assert (HE : 0 < EPS) by (rsimpl; lra).
  assert (G : forall f g z Tz, 0 < Tz -> flyTo f (vget v 0) (vget v (snb s)) z (sttnp s) Tz fb = Ok g ->
     on_the_way (fsx f) (vget v 0) (sttnp s) fb (fsx g) /\ on_the_way (fsy f) (vget v (snb s)) (sttnp s) fb (fsy g) /\ on_the_way (fsz f) z Tz fb (fsz g)).
  { intros f g z Tz HTz Hg. unfold flyTo, f_updateStateX, f_updateStateY, f_updateStateZ in Hg. apply bind_ok in Hg. destruct Hg as (f1 & H1 & Hg). apply bind_ok in H1. destruct H1 as (wx & Hx & H1). injection H1 as <-.
    apply bind_ok in Hg. destruct Hg as (f2 & H2 & Hg). apply bind_ok in H2. destruct H2 as (wy & Hy & H2). injection H2 as <-. apply bind_ok in Hg. destruct Hg as (wz & Hz & Hg). injection Hg as <-.
    cbn [f_setStateX f_setStateY f_setStateZ f_setStates fsx fsy fsz] in *. split; [|split]; apply way_of_vec; assumption. }
  destruct (Rltb_spec (sttnp s) (half + EPS)) as [L|L].
  - destruct (phType p); [contradiction| |]; apply bind_ok in H; destruct H as (g & Hg & H); injection H as <-; cbn [flying_foot sleft sright];
      (destruct (G _ _ _ _ Ht Hg) as (A & B & C); split; [exact A|split; [exact B|split; [intros _; exact C|intros; lra]]]).
  - assert (P : 0 < sttnp s - half) by lra.
    destruct (phType p); [contradiction| |]; apply bind_ok in H; destruct H as (g & Hg & H); injection H as <-; cbn [flying_foot sleft sright];
      (destruct (G _ _ _ _ P Hg) as (A & B & C); split; [exact A|split; [exact B|split; [intros; lra|intros _; exact C]]]).
Qed.

(** ** A walk *)
Inductive axis : Type := AX | AY | AZ.
Definition coordinate (d : side) (c : axis) (s : sup R) : vec R :=
  let f := match d with SLeft => sleft s | SRight => sright s end in
  match c with AX => fsx f | AY => fsy f | AZ => fsz f end.
(** A smooth motion from v to w in time t *)
Definition moves (v : vec R) (t : R) (w : vec R) : Prop := exists q q1 q2, smooth q q1 q2 /\ sampled q q1 q2 0 v /\ sampled q q1 q2 t w.
Definition resting (v : vec R) : Prop := exists x, at_rest v x.
Lemma way_moves v x T t w : on_the_way v x T t w -> moves v t w.
Proof. intros (q & q1 & q2 & A & B & _ & _ & _ & C & _). exists q, q1, q2. auto. Qed.
Lemma rest_moves v t : resting v -> moves v t v.
Proof.
  intros (x & L & A & B & C). exists (fun _ => x), (fun _ => 0), (fun _ => 0). split; [repeat split; intros|split; repeat split; assumption].
  - apply derivable_pt_lim_const.
  - apply derivable_pt_lim_const.
  - apply continuity_const. intros a b. reflexivity.
Qed.
Lemma smooth_shift q q1 q2 d : smooth q q1 q2 -> smooth (fun t => q (t - d)) (fun t => q1 (t - d)) (fun t => q2 (t - d)).
Proof.
  assert (G : forall f l x, derivable_pt_lim f (x - d) l -> derivable_pt_lim (fun t => f (t - d)) x l).
  { intros f l x H eps He. destruct (H eps He) as (del & Hd). exists del. intros h Hh Hl. replace (x + h - d) with (x - d + h) by ring. apply Hd; assumption. }
  intros (A & B & C). repeat split; intros t; [apply G, A|apply G, B|].
  intros eps He. destruct (C (t - d) eps He) as (del & Hp & Hd). exists del. split; [exact Hp|]. intros x ((_ & Hne) & Hx). apply Hd. split; [split; [exact I|lra]|].
  cbn in *. unfold R_dist in *. replace (x - d - (t - d)) with (x - t) by ring. exact Hx.
Qed.
Lemma smooth_glue d q q1 q2 r r1 r2 : smooth q q1 q2 -> smooth r r1 r2 -> q d = r d -> q1 d = r1 d -> q2 d = r2 d -> smooth (glue d q r) (glue d q1 r1) (glue d q2 r2).
Proof.
  intros (A & B & C) (A' & B' & C') E0 E1 E2. repeat split; intros t.
  - apply glue_deriv; auto. intros ->. exact E1.
  - apply glue_deriv; auto. intros ->. exact E2.
  - apply glue_cont; auto.
Qed.
Definition flyside (p : ptype) : side := match p with LeftSS => SRight | _ => SLeft end.
Lemma coordinate_flying p c s : coordinate (flyside p) c s = match c with AX => fsx (flying_foot p s) | AY => fsy (flying_foot p s) | AZ => fsz (flying_foot p s) end.
Proof. destruct p, c; reflexivity. Qed.
(** Calls that do not set the state of a foot *)
Definition no_jump (x : action) : Prop := allowed x /\ Forall (fun c => ~ sets_state c) (acalls x).

Section Walk.
Context {TK : Trig R}.
Lemma calls_move_nothing cs : forall s s', Forall foot_call cs -> Forall (fun c => ~ sets_state c) cs -> ssteps cs s = Ok s' -> forall d c, coordinate d c s' = coordinate d c s.
Proof.
  induction cs as [|x cs IH]; intros s s' H1 H2 E d c; cbn [ssteps] in E; [injection E as ->; reflexivity|]. apply bind_ok in E. destruct E as (s1 & E1 & E).
  inversion H1 as [|? ? F1 G1]; subst. inversion H2 as [|? ? F2 G2]; subst. rewrite (IH s1 s' G1 G2 E).
  destruct (C34_other_calls_move_nothing s x s1 E1 F2) as ((A & B & C) & (A' & B' & C')); [intros v fb ->; exact F1|]. destruct d, c; cbn [coordinate]; assumption.
Qed.
Context (N n a b : nat) (fb : R).
Context (HN : (0 < N)%nat) (Hn : (0 < n)%nat) (Ha : (0 < a)%nat) (HaN : (a <= S N)%nat) (Hb : (0 < b)%nat) (Hfb : EPS < fb).
Context (Han : (2 <= (a - 1) * n)%nat).
(** Both feet rest, but the one that flies, until it lands. *)
Definition calm (s : sup R) (f : phase R) (m : nat) : Prop :=
  forall d, (forall c, resting (coordinate d c s)) \/ (phType f <> DS /\ d = flyside (phType f) /\ (1 <= m <= (a - 1) * n)%nat).
Lemma step_smooth s v f i m k x : walking N n a b fb s v f i m k -> calm s f m -> no_jump x ->
  exists s2 v2 f2 i2 m2 k2, cycle fb (acalls x) (amove x) (aqp x) (s, v) = Ok (s2, v2) /\ walking N n a b fb s2 v2 f2 i2 m2 k2 /\ calm s2 f2 m2
  /\ forall d c, moves (coordinate d c s) fb (coordinate d c s2).
Proof.
  intros W J ((Hc & Hq) & Hj). assert (HE : 0 < EPS) by (rsimpl; lra).
  destruct (foot_calls_ok (acalls x) s Hc) as (s0' & E0). destruct (walking_feet _ _ _ _ _ _ _ _ _ _ _ _ _ W Hc E0) as (W0 & _). pose proof (calls_move_nothing _ _ _ Hc Hj E0) as C0.
  destruct (cycle_ok N n a b fb HN Hn Ha HaN Hb Hfb s0' v f i m k (amove x) (aqp x) W0 Hq) as (s3 & v3 & s2 & S0 & w & n1 & i1 & E3 & U & _ & _ & Ec & Em2 & En2 & W2).
  do 6 eexists. split; [rewrite (cycle_calls _ _ _ _ _ _ _ E0); exact Ec|]. split; [exact W2|].
  unfold cycle in Ec. cbn [fst snd ssteps bind] in Ec. rewrite E3 in Ec. cbn [bind] in Ec. apply bind_ok in Ec. destruct Ec as (s2' & Hu & Ec). injection Ec as <-.
  destruct (u_static _ _ _ _ _ _ _ _ _ _ _ _ _ _ _ U) as (UN & UT & Uf & UL & UR & _ & _ & _ & Ut). cbn [sN sT s_setMove sleft sright] in UN, UT, UL, UR.
  pose proof (next_m_pos N n a b HN Hn Ha HaN Hb s0' f m) as Hm1.
  assert (Hnext : (1 <= m)%nat -> next_m n a b s0' f m = m /\ next_f s0' f m = f) by (intros L; destruct m; [lia|split; reflexivity]).
  set (m1 := next_m n a b s0' f m) in *.
  assert (Hp3 : nth_error (cbl (stl s3)) 0 = Some (next_f s0' f m)) by (rewrite (u_tl _ _ _ _ _ _ _ _ _ _ _ _ _ _ _ U); reflexivity).
  assert (Hdur : phType (next_f s0' f m) <> DS -> phDur (next_f s0' f m) = INR a * (INR n * fb)).
  { intros Hss. assert (Est : sstep s0' = INR a * (INR n * fb)) by (rewrite (w_step _ _ _ _ _ _ _ _ _ _ _ W0), (w_T _ _ _ _ _ _ _ _ _ _ _ W0); reflexivity).
    destruct m as [|m]; cbn [next_f] in *.
    - cbn [mkph phDur phType] in *. unfold durationOf. destruct (typ (smove s0') (phType f) 1); [contradiction|exact Est|exact Est].
    - rewrite (w_front _ _ _ _ _ _ _ _ _ _ _ W0). unfold durationOf. destruct (phType f); [contradiction|exact Est|exact Est]. }
  assert (HT3 : sT s3 = INR n * fb) by (rewrite UT; apply (w_T _ _ _ _ _ _ _ _ _ _ _ W0)).
  assert (C3 : forall d c, coordinate d c s3 = coordinate d c s) by (intros d c; rewrite <- C0; destruct d, c; cbn [coordinate]; rewrite ?UL, ?UR; reflexivity).
  destruct (C34_support_foot_never_moves _ _ _ _ Hu) as (p & Hp & D1 & D2 & D3 & D4 & _). rewrite Hp3 in Hp. injection Hp as <-. set (f1 := next_f s0' f m) in *.
  (* feet that do not move *)
  assert (G : forall d, (forall c, coordinate d c s2' = coordinate d c s3) -> (phType f1 <> DS -> d = flyside (phType f1) -> ((a - 1) * n < m1)%nat) ->
     (forall c, resting (coordinate d c s2')) /\ (forall c, moves (coordinate d c s) fb (coordinate d c s2'))).
  { intros d Eq Hd. destruct (J d) as [R0|(F1 & F2 & F3)].
    - split; intros c; rewrite Eq, C3; [apply R0|apply rest_moves, R0].
    - exfalso. destruct (Hnext (proj1 F3)) as (Em & Ef). rewrite Ef, Em in Hd. specialize (Hd F1 F2). lia. }
  assert (Hside : forall d, d = flyside (phType f1) \/ d <> flyside (phType f1)) by (intros []; destruct (phType f1); cbn; (left; reflexivity) || (right; discriminate)).
  assert (Q : forall d, ((forall c, resting (coordinate d c s2')) \/ (phType f1 <> DS /\ d = flyside (phType f1) /\ (1 <= m1 - 1 <= (a - 1) * n)%nat))
     /\ (forall c, moves (coordinate d c s) fb (coordinate d c s2'))).
  { intros d. assert (Hds : phType f1 = DS \/ phType f1 <> DS) by (destruct (phType f1); (left; reflexivity) || (right; discriminate)). destruct Hds as [Hds|Hss].
    - destruct (D1 Hds) as (A & B). destruct (G d) as (P1 & P2); [intros c; destruct d, c; cbn [coordinate]; rewrite ?A, ?B; reflexivity|intros; contradiction|]. split; [left; exact P1|exact P2].
    - destruct (Hside d) as [->|Hd].
      + specialize (Hdur Hss). destruct (le_lt_dec m1 ((a - 1) * n)) as [Hle|Hgt].
        * assert (Hfl : phDur f1 - sT s3 = INR ((a - 1) * n) * fb) by (rewrite Hdur, HT3, mult_INR, minus_INR by lia; cbn [INR]; ring).
          assert (M1 : 1 <= INR m1) by (apply (le_INR 1); lia). assert (M2 : INR m1 <= INR ((a - 1) * n)) by (apply le_INR; exact Hle). assert (M3 : 2 <= INR ((a - 1) * n)) by (apply (le_INR 2); exact Han).
          assert (Pt : 0 < INR m1 * fb) by (apply Rmult_lt_0_compat; lra). assert (Pf : INR m1 * fb <= INR ((a - 1) * n) * fb) by (apply Rmult_le_compat_r; lra).
          assert (P2f : 2 * fb <= INR ((a - 1) * n) * fb) by (apply Rmult_le_compat_r; lra).
          pose proof (C60_one_update s3 _ fb s2' f1 Hp3 Hss ltac:(rewrite Ut; exact Pt) ltac:(rewrite Hfl, Ut; lra) Hu) as (X & Y & Z1 & Z2).
          split.
          -- destruct (Nat.eq_dec m1 1) as [E1|Hne].
             ++ left. pose proof (C53_foot_lands s3 _ fb s2' _ Hp3 Hss ltac:(lra) ltac:(lra) ltac:(rewrite Ut, E1; cbn [INR]; ring) ltac:(lra) Hu) as (A & B & D & _).
                intros c. rewrite coordinate_flying. destruct c; [exists (vget (vseg (aqp x v3) (2 * sN s3) (2 * snb s3)) 0); exact A|eexists; exact B|eexists; exact D].
             ++ right. split; [exact Hss|]. split; [reflexivity|lia].
          -- intros c. rewrite <- C3, !coordinate_flying. destruct c; [eapply way_moves; exact X|eapply way_moves; exact Y|].
             destruct (Rlt_dec (sttnp s3) ((phDur f1 - sT s3) / 2 + EPS)) as [L|L]; eapply way_moves; [apply Z1, L|apply Z2; lra].
        * assert (Hst : phDur f1 - sT s3 + EPS <= sttnp s3).
          { rewrite Hdur, HT3, Ut. replace (INR a * (INR n * fb) - INR n * fb) with (INR ((a - 1) * n) * fb) by (rewrite mult_INR, minus_INR by lia; cbn [INR]; ring).
            assert (INR ((a - 1) * n) + 1 <= INR m1) by (rewrite <- S_INR; apply le_INR; lia). assert ((INR ((a - 1) * n) + 1) * fb <= INR m1 * fb) by (apply Rmult_le_compat_r; lra). lra. }
          destruct (D4 Hst) as (A & B). destruct (G (flyside (phType f1))) as (P1 & P2); [intros c; destruct (flyside (phType f1)), c; cbn [coordinate]; rewrite ?A, ?B; reflexivity|intros; exact Hgt|]. split; [left; exact P1|exact P2].
      + destruct (G d) as (P1 & P2); [|intros; contradiction|split; [left; exact P1|exact P2]].
        intros c. destruct (phType f1), d; cbn [flyside] in Hd; try contradiction; try (exfalso; apply Hd; reflexivity); destruct c; cbn [coordinate]; rewrite ?D2, ?D3 by reflexivity; reflexivity. }
  split; [intros d; apply Q|intros d c; apply Q].
Qed.
(** Along a whole run *)
Lemma run_smooth d c l : forall s v f i m k, walking N n a b fb s v f i m k -> calm s f m -> Forall no_jump l ->
  exists q q1 q2, smooth q q1 q2 /\ forall j, (j <= length l)%nat -> exists s' v', cycles fb (firstn j l) (s, v) = Ok (s', v') /\ sampled q q1 q2 (INR j * fb) (coordinate d c s').
Proof.
  assert (HE : 0 < EPS) by (rsimpl; lra).
  induction l as [|x l IH]; intros s v f i m k W J Hl.
  - assert (L3 : vlen (coordinate d c s) = 3%nat) by (destruct (w_left _ _ _ _ _ _ _ _ _ _ _ W) as (A & B & C & _), (w_right _ _ _ _ _ _ _ _ _ _ _ W) as (A' & B' & C' & _); destruct d, c; assumption).
    set (x := vget (coordinate d c s) 0). set (y := vget (coordinate d c s) 1). set (z := vget (coordinate d c s) 2).
    exists (fun t => x + y * t + z / 2 * (t * t)), (fun t => y + z * t), (fun _ => z). split.
    + repeat split; intros t.
      * replace (y + z * t) with (0 + y * 1 + z / 2 * (1 * t + t * 1)) by field.
        apply (derivable_pt_lim_plus (fun t => x + y * t) (fun t => z / 2 * (t * t))).
        -- apply (derivable_pt_lim_plus (fun _ => x) (fun t => y * t)); [apply derivable_pt_lim_const|apply (derivable_pt_lim_scal id y), derivable_pt_lim_id].
        -- apply (derivable_pt_lim_scal (fun t => t * t)). apply (derivable_pt_lim_mult id id); apply derivable_pt_lim_id.
      * replace (derivable_pt_lim (fun t0 => y + z * t0) t z) with (derivable_pt_lim (fun t0 => y + z * t0) t (0 + z * 1)) by (f_equal; ring). apply (derivable_pt_lim_plus (fun _ => y) (fun t => z * t)); [apply derivable_pt_lim_const|apply (derivable_pt_lim_scal id z), derivable_pt_lim_id].
      * apply continuity_const. intros ? ?. reflexivity.
    + intros j Hj. cbn [length] in Hj. assert (j = 0)%nat by lia. subst j. exists s, v. split; [reflexivity|]. cbn [INR]. repeat split; [exact L3|..]; fold x y z; ring.
  - inversion Hl as [|? ? H1 H2]; subst. destruct (step_smooth _ _ _ _ _ _ x W J H1) as (s2 & v2 & f2 & i2 & m2 & k2 & E & W2 & J2 & M). destruct (M d c) as (r & r1 & r2 & R & R0 & Rf).
    destruct (IH s2 v2 f2 i2 m2 k2 W2 J2 H2) as (q & q1 & q2 & Q & S). destruct (S 0%nat ltac:(lia)) as (s' & v' & E' & S0). cbn [firstn cycles] in E'. injection E' as <- <-. cbn [INR] in S0. rewrite Rmult_0_l in S0.
    destruct Rf as (_ & Ra & Rb & Rc), S0 as (_ & Sa & Sb & Sc).
    exists (glue fb r (fun t => q (t - fb))), (glue fb r1 (fun t => q1 (t - fb))), (glue fb r2 (fun t => q2 (t - fb))). split.
    + apply smooth_glue; [exact R|apply smooth_shift, Q|..]; replace (fb - fb) with 0 by ring; congruence.
    + intros [|j] Hj; cbn [firstn cycles].
      * exists s, v. split; [reflexivity|]. cbn [INR]. rewrite Rmult_0_l. unfold sampled, glue. destruct (Rle_dec 0 fb); [exact R0|lra].
      * rewrite E. cbn [bind]. destruct (S j ltac:(cbn [length] in Hj; lia)) as (s' & v' & E' & Sj). exists s', v'. split; [exact E'|].
        replace (INR (Datatypes.S j) * fb) with (INR j * fb + fb) by (rewrite S_INR; ring). unfold sampled, glue. destruct (Rle_dec (INR j * fb + fb) fb) as [L|L].
        -- assert (j = 0)%nat. { destruct j as [|j]; [reflexivity|exfalso]. assert (1 <= INR (Datatypes.S j)) by (apply (le_INR 1); lia). nra. } subst j. cbn [INR] in *. rewrite Rmult_0_l in *. rewrite Rplus_0_l.
           destruct Sj as (L3 & Ta & Tb & Tc). split; [exact L3|]. split; [congruence|]. split; congruence.
        -- replace (INR j * fb + fb - fb) with (INR j * fb) by ring. exact Sj.
Qed.
End Walk.

(** In a walk whose steps last at least two feedback periods more than one sampling period, with feet
    that rest at the start, each coordinate of each foot follows one twice continuously
    differentiable motion: after each number j of cycles the position, velocity and acceleration of
    the foot are those of that motion at time j fb. *)
Theorem C60_feet_move_smoothly : forall (TK : Trig R) s v n a b fb l d c, configured s v n a b fb -> (2 <= (a - 1) * n)%nat ->
  (forall d c, resting (coordinate d c s)) -> Forall no_jump l ->
  exists q q1 q2, smooth q q1 q2 /\ forall j, (j <= length l)%nat -> exists s' v', cycles fb (firstn j l) (s, v) = Ok (s', v') /\ sampled q q1 q2 (INR j * fb) (coordinate d c s').
Proof.
  intros TK s v n a b fb l d c C Han Hr Hl. destruct (configured_walking _ _ _ _ _ _ C) as (W & HN & _). destruct C as [_ Hfb Hn HT0 (Ha & HaN) _ Hb _ _ _].
  eapply run_smooth with (N := sN s) (n := n) (a := a) (b := b); try eassumption. intros d'. left. apply Hr.
Qed.

(** ** A concrete case *)
(** Six samples of 1 s, steps of 2 s, a call every 0.5 s; the walk is started and stopped at will. *)
Definition kin_case : polygon R := polygon_of_vertices [(-1, 1); (1, 1); (1, 3); (-1, 3)].
Example C60_case : forall (TK : Trig R), exists s, configured s (vzero 12) 2 2 2 (1/2) /\ (forall d c, resting (coordinate d c s))
  /\ forall l, Forall no_jump (map (fun mv => MkAction [SSetMaxHeight SLeft (1/10)] mv (fun w => w)) l).
Proof.
  intros TK.
  assert (H : exists s0, newSup 6 1 = Ok s0 /\ sN s0 = 6%nat /\ sT s0 = 1 /\ sstep s0 = 2 /\ sDS s0 = 2 /\ forall d c, coordinate d c s0 = vzero 3).
  { unfold newSup, newFoot. cbn [Nat.ltb Nat.leb guard bind]. change (sleb s0 1) with (Rleb 0 1). change (sltb s0 1) with (Rltb 0 1).
    destruct (Rltb_spec 0 1) as [_|L]; [|lra]. cbn [guard bind]. eexists. split; [reflexivity|]. cbn [sN sT sstep sDS]. rsimpl. repeat split; try lra. intros [] []; reflexivity. }
  destruct H as (s0 & E & HN & HT & Hst & HD & Hc).
  set (s := s_setKinematicConvexPolygon SRight kin_case (s_setKinematicConvexPolygon SLeft kin_case s0)).
  assert (V : pverts kin_case <> []) by (unfold kin_case, polygon_of_vertices, computeBounds; rewrite pverts_fold; discriminate).
  exists s. split; [|split].
  - assert (HE : EPS < 1/2) by (rsimpl; lra). split; try exact HE; try lia.
    + exists 6%nat, 1, s0, [SSetKin SLeft kin_case; SSetKin SRight kin_case]. split; [exact E|]. split; [repeat constructor|reflexivity].
    + change (sT s) with (sT s0). rewrite HT. cbn [INR]. lra.
    + change (sN s) with (sN s0). lia.
    + change (sstep s) with (sstep s0). change (sT s) with (sT s0). rewrite Hst, HT. cbn [INR]. lra.
    + change (sDS s) with (sDS s0). change (sT s) with (sT s0). rewrite HD, HT. cbn [INR]. lra.
    + split; exact V.
    + change (sN s) with (sN s0). rewrite HN. reflexivity.
  - intros d c. exists 0. replace (coordinate d c s) with (coordinate d c s0) by (destruct d, c; reflexivity). rewrite Hc. repeat split.
  - intros l. apply Forall_map, Forall_forall. intros mv _. split; [split|]; cbn; repeat constructor. intros [].
Qed.
Print Assumptions C60_one_update.
Print Assumptions C60_feet_move_smoothly.
