(** The feet supervisor does not depend on where the robot is. *)

From Coq Require Import Reals List ZArith Arith Bool Lra Lia.
From Verif Require Import Scalar LinAlg LinAlgFacts ToolsModel InterpModel PolygonModel FootModel SupModel SupSpec SupFacts LipModel QPModel HumModel ShiftSpec.
Import ListNotations.
Local Open Scope R_scope.

Section Shift.
Context {TK : Trig R}.
Variables a b : R.

(** ** States and feet *)
Lemma carried_vec_moved c v : moved_state c v (carried_vec c v).
Proof. split; [reflexivity|]. intros k Hk. unfold carried_vec. cbn [vget]. destruct (Nat.eqb k 0); ring. Qed.
Lemma moved_read c v v' x : moved_state c v v' -> vread v 0 = Ok x -> vread v' 0 = Ok (x + c).
Proof.
  intros (L & E) H. unfold vread in *. apply guard_ok in H. destruct H as (H & Hx). injection Hx as <-. rewrite L, H. cbn [guard bind]. f_equal.
  apply Nat.ltb_lt in H. rewrite E by assumption. reflexivity.
Qed.
Lemma interp_moved c (s o : st3 R) T t : T <> 0 -> interp_raw (carried c s) (carried c o) T t = carried c (interp_raw s o T t).
Proof.
  intros HT. destruct s as [p v ac], o as [p' v' ac']. unfold interp_raw, carried. cbn [pos vel acc].
  unfold computeFactors, rhs, selectFactors, ldot, aInvNorm, frac. cbn [nth combine fold_left fst snd f_a f_b f_c pos vel acc].
  unfold polynomValue, dPolynomValue, ddPolynomValue.
  repeat match goal with |- context [sleb ?x ?y] => destruct (sleb x y) end; cbn; rsimpl; f_equal; field; assumption.
Qed.
Lemma interpVec_moved c v v' o T t w : moved_state c v v' -> interpolateVec v o T t = Ok w ->
  exists w', interpolateVec v' (carried c o) T t = Ok w' /\ moved_state c w w'.
Proof.
  intros (L & E) H. unfold interpolateVec, interpolateTrajectory in *. apply guard_ok in H. destruct H as (H3 & H). rewrite L, H3. cbn [guard bind]. apply Nat.eqb_eq in H3.
  change (seqb T s0) with (Reqb T 0) in *. destruct (Reqb_spec T 0) as [ET|ET]; [discriminate|]. cbn [negb nanguard bind] in *. injection H as <-.
  rewrite (E 0%nat), (E 1%nat), (E 2%nat) by lia. cbn [Nat.eqb].
  replace (St3 (vget v 0 + c) (vget v 1 + 0) (vget v 2 + 0)) with (carried c (St3 (vget v 0) (vget v 1) (vget v 2))) by (unfold carried; cbn [pos vel acc]; f_equal; ring).
  rewrite interp_moved by assumption. eexists. split; [reflexivity|]. split; [cbn [vset vlen]; congruence|].
  intros k Hk. cbn [vset vlen vget] in *. unfold carried. cbn [pos vel acc]. destruct (Nat.eqb_spec k 2) as [->|]; [cbn; ring|].
  destruct (Nat.eqb_spec k 1) as [->|]; [cbn; ring|]. destruct (Nat.eqb_spec k 0) as [->|]; [reflexivity|lia].
Qed.
Lemma carried_at c x : carried c (St3 x 0 0) = St3 (x + c) 0 0.
Proof. reflexivity. Qed.
Lemma flyTo_moved f f' x y z T Tz fb g : moved_foot a b f f' -> flyTo f x y z T Tz fb = Ok g ->
  exists g', flyTo f' (x + a) (y + b) z T Tz fb = Ok g' /\ moved_foot a b g g'.
Proof.
  intros (vx & vy & -> & Mx & My) H. unfold flyTo, f_updateStateX, f_updateStateY, f_updateStateZ in *.
  apply bind_ok in H. destruct H as (f1 & H1 & H). apply bind_ok in H1. destruct H1 as (w1 & H1 & E1). injection E1 as <-.
  apply bind_ok in H. destruct H as (f2 & H2 & H). apply bind_ok in H2. destruct H2 as (w2 & H2 & E2). injection E2 as <-.
  apply bind_ok in H. destruct H as (w3 & H3 & H). injection H as <-.
  destruct (interpVec_moved a _ _ _ _ _ _ Mx H1) as (w1' & H1' & M1). destruct (interpVec_moved b _ _ _ _ _ _ My H2) as (w2' & H2' & M2).
  rewrite carried_at in H1', H2'. cbn [f_setStates f_setStateX f_setStateY fsx fsy fsz] in *. change (@s0 R RScalar) with 0 in *.
  rewrite H1'. cbn [bind f_setStates f_setStateX f_setStateY fsx fsy fsz]. rewrite H2'. cbn [bind f_setStates f_setStateX f_setStateY fsx fsy fsz]. rewrite H3. cbn [bind].
  eexists. split; [reflexivity|]. exists w1', w2'. split; [reflexivity|]. split; [exact M1|exact M2].
Qed.

(** ** Getters of the supervisor *)
Lemma middle_moved c u u' v v' w : moved_state c u u' -> moved_state c v v' -> middle u v = Ok w -> exists w', middle u' v' = Ok w' /\ moved_state c w w'.
Proof.
  intros (L1 & E1) (L2 & E2) H. unfold middle in *. apply guard_ok in H. destruct H as (H & Hw). injection Hw as <-. rewrite L1, L2, H. cbn [guard bind].
  apply Nat.eqb_eq in H. eexists. split; [reflexivity|]. split; [reflexivity|]. intros k Hk. cbn [vget vlen] in *. rewrite E1, E2 by lia. rsimpl. destruct (Nat.eqb k 0); field.
Qed.
Lemma moved_left s s' : moved_sup a b s s' -> moved_foot a b (sleft s) (sleft s').
Proof. intros (l & r & sv & -> & H & _). exact H. Qed.
Lemma moved_right s s' : moved_sup a b s s' -> moved_foot a b (sright s) (sright s').
Proof. intros (l & r & sv & -> & _ & H & _). exact H. Qed.
Lemma foot_x f f' : moved_foot a b f f' -> moved_state a (fsx f) (fsx f') /\ moved_state b (fsy f) (fsy f') /\ fcop f' = fcop f /\ fkin f' = fkin f.
Proof. intros (x & y & -> & Mx & My). auto. Qed.
Lemma supportX_moved s s' v : moved_sup a b s s' -> s_getSupportFootStateX s = Ok v -> exists v', s_getSupportFootStateX s' = Ok v' /\ moved_state a v v'.
Proof.
  intros (l & r & sv & -> & Ml & Mr & _) H. destruct (foot_x _ _ Ml) as (L1 & _), (foot_x _ _ Mr) as (R1 & _). unfold s_getSupportFootStateX, s_front in *. cbn [stl smove sleft sright].
  apply bind_ok in H. destruct H as (p & Hp & H). rewrite Hp. cbn [bind].
  destruct (phType p); [destruct (smove s)| |]; try (injection H as <-; eexists; split; [reflexivity|assumption]). exact (middle_moved _ _ _ _ _ _ R1 L1 H).
Qed.
Lemma supportY_moved s s' v : moved_sup a b s s' -> s_getSupportFootStateY s = Ok v -> exists v', s_getSupportFootStateY s' = Ok v' /\ moved_state b v v'.
Proof.
  intros (l & r & sv & -> & Ml & Mr & _) H. destruct (foot_x _ _ Ml) as (_ & L1 & _), (foot_x _ _ Mr) as (_ & R1 & _). unfold s_getSupportFootStateY, s_front in *. cbn [stl smove sleft sright].
  apply bind_ok in H. destruct H as (p & Hp & H). rewrite Hp. cbn [bind].
  destruct (phType p); [destruct (smove s)| |]; try (injection H as <-; eexists; split; [reflexivity|assumption]). exact (middle_moved _ _ _ _ _ _ R1 L1 H).
Qed.
Lemma kin_moved s s' i : moved_sup a b s s' -> s_getKinematicConvexPolygon i s' = s_getKinematicConvexPolygon i s.
Proof. intros (l & r & sv & -> & (x & y & -> & _) & (x' & y' & -> & _) & _). reflexivity. Qed.
Lemma steps_read v v' m x y : moved_steps a b 0 v v' -> vlen v = (2 * m)%nat -> vread v 0 = Ok x -> vread v m = Ok y -> vread v' 0 = Ok (x + a) /\ vread v' m = Ok (y + b).
Proof.
  intros (m' & L & L' & _ & Ex & Ey) Lm Hx Hy. cbn [Nat.add] in *. assert (m' = m) by lia. subst m'. unfold vread in *.
  apply guard_ok in Hx. destruct Hx as (Hx & Q). injection Q as <-. apply guard_ok in Hy. destruct Hy as (Hy & Q). injection Q as <-.
  rewrite L', <- L, Hx, Hy. apply Nat.ltb_lt in Hx, Hy. cbn [guard bind]. specialize (Ex 0%nat). specialize (Ey 0%nat). rewrite Nat.add_0_r in Ey. rewrite Ex, Ey by lia. auto.
Qed.
Lemma cop_moved s s' i p : moved_sup a b s s' -> vlen (sstepVec s) = (2 * snb s)%nat -> s_getCopConvexPolygon i s = Ok p -> s_getCopConvexPolygon i s' = Ok p.
Proof.
  intros M Ls H. pose proof (foot_x _ _ (moved_left _ _ M)) as (LX & LY & LC & _). pose proof (foot_x _ _ (moved_right _ _ M)) as (RX & RY & RC & _).
  destruct M as (l & r & sv & -> & _ & _ & Ms). cbn [sleft sright] in *. unfold s_getCopConvexPolygon in *. cbn [ssel stl sleft sright].
  apply guard_ok in H. destruct H as (H0 & H). rewrite H0. cbn [guard bind]. apply bind_ok in H. destruct H as (ph & Hp & H). rewrite Hp. cbn [bind]. rewrite LC, RC.
  destruct (phType ph); try exact H. clear H0 Hp ph.
  unfold s_computeDSCopConvexPolygon, s_front in *. cbn [stl smove snb sleft sright sstepVec].
  apply bind_ok in H. destruct H as (lx & H1 & H). apply bind_ok in H. destruct H as (ly & H2 & H). apply bind_ok in H. destruct H as (rx & H3 & H). apply bind_ok in H. destruct H as (ry & H4 & H).
  apply bind_ok in H. destruct H as (ph & Hp & H). rewrite (moved_read _ _ _ _ LX H1), (moved_read _ _ _ _ LY H2), (moved_read _ _ _ _ RX H3), (moved_read _ _ _ _ RY H4). cbn [bind].
  rewrite Hp. cbn [bind]. apply bind_ok in H. destruct H as (((lp & rp) & tr) & Hq & H). rewrite LC, RC.
  assert (Q : exists lp' rp' tr', (match phType ph, smove s with
             | LeftSS, false => do x <- vread sv 0; do y <- vread sv (snb s); Ok ((lx + a, ly + b), (x, y), (x, y))
             | RightSS, false => do x <- vread sv 0; do y <- vread sv (snb s); Ok ((x, y), (rx + a, ry + b), (x, y))
             | DS, false => Ok ((lx + a, ly + b), (rx + a, ry + b), (((rx + a + (lx + a)) / sofZ 2)%sc, ((ry + b + (ly + b)) / sofZ 2)%sc))
             | _, true => Ok ((lx + a, ly + b), (rx + a, ry + b), (lx + a, ly + b))
             end) = Ok (lp', rp', tr') /\ psub lp' tr' = psub lp tr /\ psub rp' tr' = psub rp tr).
  { destruct (phType ph), (smove s).
    - injection Hq as <- <- <-. do 3 eexists. split; [reflexivity|]. unfold psub. cbn [fst snd]. rsimpl. split; f_equal; ring.
    - injection Hq as <- <- <-. do 3 eexists. split; [reflexivity|]. unfold psub. cbn [fst snd]. rsimpl. split; f_equal; field.
    - injection Hq as <- <- <-. do 3 eexists. split; [reflexivity|]. unfold psub. cbn [fst snd]. rsimpl. split; f_equal; ring.
    - apply bind_ok in Hq. destruct Hq as (x & Hx & Hq). apply bind_ok in Hq. destruct Hq as (y & Hy & Hq). injection Hq as <- <- <-.
      destruct (steps_read _ _ _ _ _ Ms Ls Hx Hy) as (Hx' & Hy'). rewrite Hx', Hy'. cbn [bind]. do 3 eexists. split; [reflexivity|]. unfold psub. cbn [fst snd]. rsimpl. split; f_equal; ring.
    - injection Hq as <- <- <-. do 3 eexists. split; [reflexivity|]. unfold psub. cbn [fst snd]. rsimpl. split; f_equal; ring.
    - apply bind_ok in Hq. destruct Hq as (x & Hx & Hq). apply bind_ok in Hq. destruct Hq as (y & Hy & Hq). injection Hq as <- <- <-.
      destruct (steps_read _ _ _ _ _ Ms Ls Hx Hy) as (Hx' & Hy'). rewrite Hx', Hy'. cbn [bind]. do 3 eexists. split; [reflexivity|]. unfold psub. cbn [fst snd]. rsimpl. split; f_equal; ring. }
  destruct Q as (lp' & rp' & tr' & Q & Q1 & Q2). etransitivity; [apply (f_equal (fun r => bind r _)); exact Q|]. cbn [bind]. rewrite Q1, Q2. exact H.
Qed.

(** ** The feet *)
Lemma updateFeet_moved s s' v v' fb s2 : moved_sup a b s s' -> moved_steps a b 0 v v' -> vlen v = (2 * snb s)%nat ->
  s_updateFeetStates v fb s = Ok s2 -> exists s2', s_updateFeetStates v' fb s' = Ok s2' /\ moved_sup a b s2 s2'.
Proof.
  intros M Mv Lv H. pose proof (moved_left _ _ M) as Ml. pose proof (moved_right _ _ M) as Mr. destruct M as (l & r & sv & -> & _ & _ & Ms). cbn [sleft sright] in *.
  unfold s_updateFeetStates, s_front in *. cbn [stl sT sttnp sleft sright snb smove ssel sN sfb sstep sDS]. apply bind_ok in H. destruct H as (p & Hp & H). rewrite Hp. cbn [bind].
  destruct (negb _ && _)%bool.
  - apply bind_ok in H. destruct H as (x & Hx & H). apply bind_ok in H. destruct H as (y & Hy & H).
    destruct (steps_read _ _ _ _ _ Mv Lv Hx Hy) as (Hx' & Hy'). rewrite Hx', Hy'. cbn [bind].
    destruct (phType p); [discriminate| |].
    + apply bind_ok in H. destruct H as (g & Hg & H). injection H as <-.
      assert (Q : exists g', (if sltb (sttnp s) ((phDur p - sT s) * shalf + EPS)%sc then flyTo r (x + a) (y + b) s0 (sttnp s) (sttnp s) fb
         else flyTo r (x + a) (y + b) (fmaxHeight r) (sttnp s) (sttnp s - (phDur p - sT s) * shalf)%sc fb) = Ok g' /\ moved_foot a b g g').
      { assert (fmaxHeight r = fmaxHeight (sright s)) as -> by (destruct Mr as (? & ? & -> & _); reflexivity). destruct (sltb _ _); exact (flyTo_moved _ _ _ _ _ _ _ _ _ Mr Hg). }
      destruct Q as (g' & Q & Mg). rewrite Q. cbn [bind]. eexists. split; [reflexivity|]. do 3 eexists. split; [reflexivity|]. cbn [sleft sright sstepVec]. auto.
    + apply bind_ok in H. destruct H as (g & Hg & H). injection H as <-.
      assert (Q : exists g', (if sltb (sttnp s) ((phDur p - sT s) * shalf + EPS)%sc then flyTo l (x + a) (y + b) s0 (sttnp s) (sttnp s) fb
         else flyTo l (x + a) (y + b) (fmaxHeight l) (sttnp s) (sttnp s - (phDur p - sT s) * shalf)%sc fb) = Ok g' /\ moved_foot a b g g').
      { assert (fmaxHeight l = fmaxHeight (sleft s)) as -> by (destruct Ml as (? & ? & -> & _); reflexivity). destruct (sltb _ _); exact (flyTo_moved _ _ _ _ _ _ _ _ _ Ml Hg). }
      destruct Q as (g' & Q & Mg). rewrite Q. cbn [bind]. eexists. split; [reflexivity|]. do 3 eexists. split; [reflexivity|]. cbn [sleft sright sstepVec]. auto.
  - injection H as <-. eexists. split; [reflexivity|]. do 3 eexists. split; [reflexivity|]. cbn [sleft sright sstepVec]. auto.
Qed.

(** ** The decision vector *)
Ltac at_ix n H := match goal with |- vget ?u ?i = vget ?w ?j + _ => replace i with n by lia; replace j with n by lia; apply H; lia end.
Lemma shorten_moved N v v' w : moved_steps a b (2 * N) v v' -> shortenStepVec N v = Ok w ->
  exists w', shortenStepVec N v' = Ok w' /\ moved_steps a b (2 * N) w w' /\ vlen v = S (S (vlen w)).
Proof.
  intros (m & L & L' & E & Ex & Ey) H. unfold shortenStepVec in *. rewrite L in H. rewrite L'.
  assert (Hd : Nat.div (2 * N + 2 * m) 2 = (N + m)%nat) by (rewrite <- Nat.mul_add_distr_l, Nat.mul_comm, Nat.div_mul by lia; reflexivity). rewrite Hd in *.
  apply guard_ok in H. destruct H as (H1 & H). apply guard_ok in H. destruct H as (H2 & H). injection H as <-. rewrite H1, H2. cbn [guard bind]. apply Nat.leb_le in H2.
  eexists. split; [reflexivity|]. split; [|cbn [vsetseg vlen vseg]; lia]. exists (m - 1)%nat. split; [cbn [vsetseg vlen vseg]; lia|]. split; [cbn [vsetseg vlen vseg]; lia|].
  split; [|split]; intros k Hk; cbn [vsetseg vlen vseg vget]; vcmp.
  - apply E. lia.
  - at_ix (2 * N + S k)%nat Ex.
  - at_ix (2 * N + m + S k)%nat Ey.
Qed.
Lemma enlarge_moved s s' v v' w : moved_sup a b s s' -> moved_steps a b (2 * sN s) v v' -> enlargeStepVec s v = Ok w ->
  ((2 * sN s < vlen v)%nat \/ (s_isInDS s = Ok true /\ snb s = 1%nat)) ->
  exists w', enlargeStepVec s' v' = Ok w' /\ moved_steps a b (2 * sN s) w w' /\ (vlen w = S (S (vlen v)))%nat.
Proof.
  intros M (m & L & L' & E & Ex & Ey) H Hc. pose proof (foot_x _ _ (moved_left _ _ M)) as (LX & LY & _). pose proof (kin_moved _ _ m M) as Hk.
  unfold enlargeStepVec in *. assert (EN : sN s' = sN s) by (destruct M as (? & ? & ? & -> & _); reflexivity). assert (Es : snb s' = snb s) by (destruct M as (? & ? & ? & -> & _); reflexivity).
  assert (Ed : s_isInDS s' = s_isInDS s) by (destruct M as (? & ? & ? & -> & _); reflexivity). rewrite EN, Es, Ed. set (N := sN s) in *. rewrite L in H. rewrite L'.
  assert (Hd : Nat.div (2 * N + 2 * m) 2 = (N + m)%nat) by (rewrite <- Nat.mul_add_distr_l, Nat.mul_comm, Nat.div_mul by lia; reflexivity). rewrite Hd in *.
  apply guard_ok in H. destruct H as (H1 & H). rewrite H1. cbn [guard bind].
  replace (N + m - N + 1)%nat with (S m) in * by lia. replace (S m - 1)%nat with m in * by lia. rewrite Hk. apply bind_ok in H. destruct H as (kin & Hkin & H). rewrite Hkin. cbn [bind].
  apply guard_ok in H. destruct H as (H2 & H). rewrite H2. cbn [guard bind]. apply bind_ok in H. destruct H as (ds & Hds & H). rewrite Hds. cbn [bind].
  revert H. generalize (midX kin) (midY kin). intros mx my H. destruct (ds && Nat.eqb (snb s) 1)%bool eqn:Eb.
  - apply bind_ok in H. destruct H as (lx & Hlx & H). apply bind_ok in H. destruct H as (ly & Hly & H). injection H as <-.
    rewrite (moved_read _ _ _ _ LX Hlx), (moved_read _ _ _ _ LY Hly). cbn [bind]. eexists. split; [reflexivity|]. split; [|cbn [vset vlen vsetseg]; lia].
    exists (S m). split; [reflexivity|]. split; [reflexivity|]. split; [|split]; intros k Hk'; cbn [vset vsetseg vlen vseg vget]; vcmp;
      first [apply E; lia|at_ix (2 * N + k)%nat Ex|at_ix (2 * N + m + k)%nat Ey|cbn; ring].
  - injection H as <-.
    assert (Hm : (0 < m)%nat).
    { destruct Hc as [Hc|(Hc1 & Hc2)]; [lia|]. rewrite Hds in Hc1. injection Hc1 as ->. rewrite Hc2 in Eb. discriminate. }
    eexists. split; [reflexivity|]. split; [|cbn [vset vlen vsetseg]; lia].
    exists (S m). split; [reflexivity|]. split; [reflexivity|]. split; [|split]; intros k Hk'; cbn [vset vsetseg vlen vseg vget]; vcmp;
      first [apply E; lia|at_ix (2 * N + k)%nat Ex|at_ix (2 * N + m + k)%nat Ey|
        match goal with |- (vget v' ?i + ?d)%sc = ?r => change (vget v' i + d = r) end;
        first [match goal with |- vget v' ?i + ?d = vget v ?j + ?d + a => replace i with (2 * N + (m - 1))%nat by lia; replace j with (2 * N + (m - 1))%nat by lia; rewrite Ex by lia end
              |match goal with |- vget v' ?i + ?d = vget v ?j + ?d + b => replace i with (2 * N + m + (m - 1))%nat by lia; replace j with (2 * N + m + (m - 1))%nat by lia; rewrite Ey by lia end]; ring].
Qed.
Lemma reduce_moved move N v v' : moved_steps a b (2 * N) v v' -> moved_steps a b (2 * N) (reduceStepVec move N v) (reduceStepVec move N v')
  /\ ((2 * N < vlen v)%nat -> (2 * N < vlen (reduceStepVec move N v))%nat).
Proof.
  intros (m & L & L' & E & Ex & Ey). unfold reduceStepVec. rewrite L, L'. destruct (negb move && _)%bool eqn:Eb; [|split; [exists m; auto|lia]].
  apply andb_prop in Eb. destruct Eb as (_ & Eb). apply Nat.ltb_lt in Eb.
  assert (Hd : Nat.div (2 * N + 2 * m) 2 = (N + m)%nat) by (rewrite <- Nat.mul_add_distr_l, Nat.mul_comm, Nat.div_mul by lia; reflexivity). rewrite Hd.
  split; [|cbn [vlen]; lia]. exists 1%nat. split; [reflexivity|]. split; [reflexivity|]. split; [|split]; intros k Hk; cbn [vset vget vlen]; vcmp.
  - apply E. assumption.
  - at_ix (2 * N + k)%nat Ex.
  - at_ix (2 * N + m + 0)%nat Ey.
Qed.
Lemma enlarge_loop_moved fuel s s' : moved_sup a b s s' -> forall v v' w, moved_steps a b (2 * sN s) v v' -> enlarge_loop fuel s v = Ok w ->
  ((2 * sN s < vlen v)%nat \/ snb s = 0%nat \/ (s_isInDS s = Ok true /\ snb s = 1%nat)) ->
  exists w', enlarge_loop fuel s' v' = Ok w' /\ moved_steps a b (2 * sN s) w w' /\ (vlen v <= vlen w)%nat /\ (2 * sN s + 2 * snb s <= vlen w)%nat.
Proof.
  intros M. assert (EN : sN s' = sN s) by (destruct M as (? & ? & ? & -> & _); reflexivity). assert (Es : snb s' = snb s) by (destruct M as (? & ? & ? & -> & _); reflexivity).
  induction fuel as [|fuel IH]; intros v v' w Mv H Hc; cbn [enlarge_loop] in *; rewrite EN, Es;
    (assert (Lv : vlen v' = vlen v) by (destruct Mv as (m & L & L' & _); congruence)); rewrite Lv; destruct (Nat.ltb_spec (vlen v) (2 * sN s + 2 * snb s)) as [L|L].
  - discriminate.
  - injection H as <-. exists v'. repeat split; auto; lia.
  - apply bind_ok in H. destruct H as (v1 & Hv & H). destruct (enlarge_moved _ _ _ _ _ M Mv Hv) as (v1' & Hv' & Mv' & Ll); [destruct Hc as [Hc|[Hc|Hc]]; [auto|exfalso; destruct Mv as (m & Lm & _); lia|auto]|].
    rewrite Hv'. cbn [bind]. destruct (IH _ _ _ Mv' H) as (w' & Hw & Mw & L1 & L2); [left; destruct Mv as (m & Lm & _); lia|]. exists w'. repeat split; auto; lia.
  - injection H as <-. exists v'. repeat split; auto; lia.
Qed.

(** ** The timeline *)
Lemma nbs_mono mv0 p i j : (i <= j)%nat -> (nbs mv0 p i <= nbs mv0 p j)%nat.
Proof. induction 1 as [|j _ IH]; [lia|]. cbn [nbs]. destruct (is_DS _); lia. Qed.
Lemma moved_setTl s s' nb t : moved_sup a b s s' -> moved_sup a b (s_setTl s nb t) (s_setTl s' nb t).
Proof. intros (l & r & sv & -> & Ml & Mr & Ms). exists l, r, sv. auto. Qed.
Lemma phase_change_moved (s s' : sup R) i (r : sup R) : stl s' = stl s -> snb s' = snb s -> smove s' = smove s -> sDS s' = sDS s -> sstep s' = sstep s -> phase_change s i = Ok r ->
  phase_change s' i = Ok (s_setTl s' (snb r) (stl r)).
Proof.
  intros E1 E2 E3 E4 E5 H. unfold phase_change, processFSM, durationOf in *. rewrite E1, E2, E3, E4, E5. apply bind_ok in H. destruct H as (la & Hla & H). rewrite Hla. cbn [bind].
  destruct (Nat.eqb _ _); [injection H as <-; reflexivity|]. apply bind_ok in H. destruct H as (t & Ht & H). rewrite Ht. cbn [bind]. injection H as <-. reflexivity.
Qed.
Lemma loop_moved s s' f fuel : moved_sup a b s s' -> forall t i pt h v v' s2 i2 v2, tl_inv s f t i -> moved_steps a b (2 * sN s) v v' ->
  timeline_loop fuel (s_setTl s (nbs (smove s) (phType f) i) t) i pt h v = Ok (s2, i2, v2) ->
  (phType f = DS \/ nbs (smove s) (phType f) i2 = 0%nat \/ (2 * sN s < vlen v)%nat) -> (nbs (smove s) (phType f) i = 0%nat \/ (2 * sN s < vlen v)%nat) ->
  exists v2', timeline_loop fuel (s_setTl s' (nbs (smove s) (phType f) i) t) i pt h v' = Ok (s_setTl s' (snb s2) (stl s2), i2, v2') /\ moved_steps a b (2 * sN s) v2 v2'.
Proof.
  intros M. assert (EN : sN s' = sN s) by (destruct M as (? & ? & ? & -> & _); reflexivity). assert (ET : sT s' = sT s) by (destruct M as (? & ? & ? & -> & _); reflexivity).
  assert (Em : smove s' = smove s) by (destruct M as (? & ? & ? & -> & _); reflexivity).
  assert (EDS : sDS s' = sDS s) by (destruct M as (? & ? & ? & -> & _); reflexivity). assert (Est : sstep s' = sstep s) by (destruct M as (? & ? & ? & -> & _); reflexivity).
  induction fuel as [|fuel IH]; intros t i pt h v v' s2 i2 v2 Ht Mv H C1 C2; cbn [timeline_loop] in *; destruct (sltb (- EPS)%sc h); try discriminate.
  - injection H as <- <- <-. exists v'. split; [reflexivity|exact Mv].
  - apply bind_ok in H. destruct H as (((s1 & i1) & pt1) & Hb & H).
    assert (Q : exists t1, s1 = s_setTl s (nbs (smove s) (phType f) i1) t1 /\ tl_inv s f t1 i1
      /\ (nbs (smove s) (phType f) i <= nbs (smove s) (phType f) i1 <= S (nbs (smove s) (phType f) i))%nat
      /\ (if sltb pt EPS then do s0 <- phase_change (s_setTl s' (nbs (smove s) (phType f) i) t) i; do p <- cb_at (stl s0) (S i); Ok (s0, S i, phDur p)
          else Ok (s_setTl s' (nbs (smove s) (phType f) i) t, i, pt)) = Ok (s_setTl s' (nbs (smove s) (phType f) i1) t1, i1, pt1)).
    { destruct (sltb pt EPS).
      - destruct (phase_change_spec (s_setTl s (nbs (smove s) (phType f) i) t) f i Ht) as (t1 & Hp & Ht1).
        pose proof (phase_change_moved (s_setTl s (nbs (smove s) (phType f) i) t) (s_setTl s' (nbs (smove s) (phType f) i) t) _ _ eq_refl eq_refl Em EDS Est Hp) as Hp'. cbn [snb stl s_setTl smove] in Hp'.
        rewrite Hp in Hb. cbn [bind] in Hb. apply bind_ok in Hb. destruct Hb as (p & Hcb & Hb). injection Hb as <- <- <-.
        exists t1. split; [reflexivity|]. split; [exact Ht1|]. split; [cbn [nbs]; destruct (is_DS _); lia|]. rewrite Hp'. cbn [bind stl s_setTl] in *. rewrite Hcb. reflexivity.
      - injection Hb as <- <- <-. exists t. split; [reflexivity|]. split; [exact Ht|]. split; [lia|]. reflexivity. }
    destruct Q as (t1 & -> & Ht1 & Hn & Q). rewrite Q. cbn [bind]. apply bind_ok in H. destruct H as (v1 & Hv & H).
    pose proof (timeline_loop_inv s f _ _ _ _ _ _ _ _ _ Ht1 H) as (t2 & -> & Ht2 & Hi2). cbn [smove sN sT s_setTl snb stl] in *.
    pose proof (nbs_mono (smove s) (phType f) _ _ Hi2) as Hmono.
    destruct (enlarge_loop_moved _ (s_setTl s (nbs (smove s) (phType f) i1) t1) (s_setTl s' (nbs (smove s) (phType f) i1) t1) (moved_setTl _ _ _ _ M) v v' v1 Mv Hv) as (v1' & Hv' & Mv1 & L1 & L2).
    { cbn [sN snb s_setTl]. destruct C2 as [C2|C2]; [|auto]. destruct C1 as [C1|[C1|C1]]; [|right; left; lia|auto]. right.
      assert (Hnn : nbs (smove s) (phType f) i1 = 0%nat \/ nbs (smove s) (phType f) i1 = 1%nat) by lia. destruct Hnn as [Hnn|Hnn]; [left; exact Hnn|right]. split; [|exact Hnn].
      unfold s_isInDS, s_front, cb_at. cbn [stl s_setTl]. rewrite (rd_some _ _ _ (tl_inv_front _ _ _ _ Ht1)). cbn [bind]. rewrite C1. reflexivity. }
    cbn [sN snb s_setTl] in *. change (snb (s_setTl s' (nbs (smove s) (phType f) i1) t1)) with (nbs (smove s) (phType f) i1). rewrite Hv'. cbn [bind sT]. rewrite Em, EN, ET.
    destruct (reduce_moved (smove s) (sN s) v1 v1' Mv1) as (Mr & Lr).
    destruct (IH _ _ _ _ _ _ _ _ _ Ht1 Mr H) as (v2' & Hl & M2).
    + destruct C1 as [C1|[C1|C1]]; [auto|auto|]. right. right. apply Lr. lia.
    + destruct (nbs (smove s) (phType f) i1) eqn:En; [auto|]. right. apply Lr. lia.
    + exists v2'. split; [exact Hl|exact M2].
  - injection H as <- <- <-. exists v'. split; [reflexivity|exact Mv].
Qed.

(** ** The selection matrices *)
Lemma sel_inner_same (s s' : sup R) : sN s' = sN s -> sT s' = sT s -> smove s' = smove s -> forall fuel ds j c pt e, sel_inner fuel s' ds j c pt e = sel_inner fuel s ds j c pt e.
Proof.
  intros E1 E2 E3. induction fuel as [|fuel IH]; intros ds j c pt e; cbn [sel_inner]; rewrite E1; destruct (_ && _)%bool; try reflexivity. rewrite E3, E2, !IH.
  reflexivity.
Qed.
Lemma sel_outer_same (s s' : sup R) : sN s' = sN s -> sT s' = sT s -> smove s' = smove s -> stl s' = stl s -> forall fuel ds j c e, sel_outer fuel s' ds j c e = sel_outer fuel s ds j c e.
Proof.
  intros E1 E2 E3 E4. induction fuel as [|fuel IH]; intros ds j c e; cbn [sel_outer]; destruct (sltb _ _); try reflexivity. rewrite E4, E1, E3. destruct (cb_at (stl s) j); try reflexivity. cbn [bind].
  rewrite (sel_inner_same s s' E1 E2 E3). destruct (sel_inner _ _ _ _ _ _ _); try reflexivity. cbn [bind]. apply IH.
Qed.
Lemma selection_moved s s' : moved_sup a b s s' -> computeSelection s' = computeSelection s.
Proof.
  intros (l & r & sv & E & _). unfold computeSelection.
  assert (E1 : selectionMatrix s' = selectionMatrix s).
  { unfold selectionMatrix. assert (Q : sN s' = sN s /\ sT s' = sT s /\ smove s' = smove s /\ stl s' = stl s /\ s_isInDS s' = s_isInDS s /\ sttnp s' = sttnp s /\ snb s' = snb s) by (rewrite E; repeat split; reflexivity).
    destruct Q as (Q1 & Q2 & Q3 & Q4 & Q5 & Q6 & Q7). rewrite Q5. rewrite Q1, Q2, Q4, Q6, Q7. destruct (guard _); try reflexivity. cbn [bind]. destruct (s_isInDS s); try reflexivity. cbn [bind].
    destruct (v0_loop _ _ _ _ _ _) as [((? & ?) & ?)| | | |]; try reflexivity. cbn [bind]. apply sel_outer_same; assumption. }
  assert (E2 : sampleWeights s' = sampleWeights s) by (rewrite E; reflexivity). rewrite E1, E2. replace (sN s') with (sN s) by (rewrite E; reflexivity). reflexivity.
Qed.

(** ** The update of the timeline *)
Lemma leave_moved s s' v v' v1 t1 tn : moved_sup a b s s' -> moved_steps a b (2 * sN s) v v' -> leavePhase v s = Ok (v1, t1, tn) ->
  exists v1', leavePhase v' s' = Ok (v1', t1, tn) /\ moved_steps a b (2 * sN s) v1 v1'
  /\ (v1 = v \/ (sttnp s < EPS /\ s_isInDS s = Ok false /\ vlen v = S (S (vlen v1)))).
Proof.
  intros M Mv H. unfold leavePhase in *. assert (E : sttnp s' = sttnp s /\ stl s' = stl s /\ s_isInDS s' = s_isInDS s /\ sN s' = sN s) by (destruct M as (? & ? & ? & -> & _); auto).
  destruct E as (E1 & E2 & E3 & E4). rewrite E1, E2, E3, E4. change (sltb (sttnp s) EPS) with (Rltb (sttnp s) EPS) in *. destruct (Rltb_spec (sttnp s) EPS) as [L|L].
  - apply bind_ok in H. destruct H as (ds & Hds & H). rewrite Hds. cbn [bind]. apply bind_ok in H. destruct H as (w & Hw & H). destruct ds.
    + injection Hw as <-. cbn [bind]. apply bind_ok in H. destruct H as (tp & Hp & H). rewrite Hp. cbn [bind] in *. apply bind_ok in H. destruct H as (f & Hf & H). rewrite Hf. cbn [bind]. injection H as <- <- <-. eauto.
    + destruct (shorten_moved _ _ _ _ Mv Hw) as (w' & Hw' & Mw & Lw). rewrite Hw'. cbn [bind]. apply bind_ok in H. destruct H as (tp & Hp & H). rewrite Hp. cbn [bind] in *.
      apply bind_ok in H. destruct H as (f & Hf & H). rewrite Hf. cbn [bind]. injection H as <- <- <-. eauto 10.
  - injection H as <- <- <-. eauto.
Qed.
Lemma update_moved s s' v v' fb s1 v1 : full s -> moved_sup a b s s' -> moved_steps a b (2 * sN s) v v' -> s_updateTimeline v fb s = Ok (s1, v1) ->
  (s_isInDS s1 = Ok true \/ snb s1 = 0%nat \/ exists m, vlen v = (2 * sN s + 2 * m)%nat /\ (0 < m)%nat /\ (sttnp s < EPS -> s_isInDS s = Ok false -> (1 < m)%nat)) ->
  exists s1' v1', s_updateTimeline v' fb s' = Ok (s1', v1') /\ moved_sup a b s1 s1' /\ moved_steps a b (2 * sN s) v1 v1'.
Proof.
  intros Hfull M Mv H C. unfold s_updateTimeline in *. assert (E : stl s' = stl s /\ sN s' = sN s /\ sT s' = sT s /\ sstep s' = sstep s /\ sDS s' = sDS s /\ smove s' = smove s /\ ssel s' = ssel s) by (destruct M as (? & ? & ? & -> & _); repeat split; reflexivity).
  destruct E as (E1 & E2 & E3 & E4 & E5 & E6 & E7).
  assert (Lv : vlen v' = vlen v) by (destruct Mv as (m & L & L' & _); congruence). rewrite Lv, E1, E2, E3, E4, E5, E6, E7.
  apply guard_ok in H. destruct H as (H0 & H). apply guard_ok in H. destruct H as (H1 & H). rewrite H0, H1. cbn [guard bind].
  apply bind_ok in H. destruct H as (((w & t1) & tn) & Hq & H). destruct (leave_moved _ _ _ _ _ _ _ M Mv Hq) as (w' & Hq' & Mw & Lw). rewrite Hq'. cbn [bind].
  apply Nat.ltb_lt in H0. destruct (update_head v fb s _ H0 Hfull Hq _ eq_refl) as (f & Hnf & Hinv). cbn [fst snd] in *.
  apply bind_ok in H. destruct H as (((s2 & i) & v2) & Hl & H). apply bind_ok in H. destruct H as (sel & Hsel & H). injection H as <- <-.
  set (q := MkSup (sN s) (sT s) fb (sleft s) (sright s) 0 (sstep s) (sDS s) tn (smove s) (sstepVec s) t1 (ssel s)) in *.
  set (q' := MkSup (sN s) (sT s) fb (sleft s') (sright s') 0 (sstep s) (sDS s) tn (smove s) (sstepVec s') t1 (ssel s)).
  assert (Mq : moved_sup a b q q') by (destruct M as (l & r & sv & -> & Ml & Mr & Ms); exists l, r, sv; auto).
  pose proof (timeline_loop_inv q f _ t1 0 _ _ _ _ _ _ Hinv Hl) as (t2 & -> & Ht2 & _).
  destruct (loop_moved q q' f (timeline_fuel q) Mq t1 0 _ _ w w' _ _ _ Hinv Mw Hl) as (v2' & Hl' & M2).
  { cbn [snb s_isInDS s_setTl smove q] in C. destruct C as [C|[C|(m & Lm & Hm1 & Hm2)]].
    - left. unfold s_isInDS, s_front, cb_at in C. cbn [stl s_setTl cb_set_capacity cbl] in C. rewrite (proj1 Ht2) in C. cbn in C. destruct (phType f); cbn in C; congruence.
    - right. left. exact C.
    - right. right. change (sN q) with (sN s). destruct Lw as [->|(D1 & D2 & D3)]; [lia|]. specialize (Hm2 D1 D2). lia. }
  { left. reflexivity. }
  change (timeline_fuel q') with (timeline_fuel q) in *. change (s_setTl q' (nbs (smove q) (phType f) 0) t1) with q' in Hl'. rewrite Hl'. cbn [bind snb stl s_setTl].
  assert (M3 : moved_sup a b (s_setTl (s_setTl q (nbs (smove q) (phType f) i) t2) (nbs (smove q) (phType f) i) (cb_set_capacity (S i) t2))
                 (s_setTl (s_setTl q' (nbs (smove q) (phType f) i) t2) (nbs (smove q) (phType f) i) (cb_set_capacity (S i) t2))) by (apply moved_setTl, moved_setTl; exact Mq).
  rewrite (selection_moved _ _ M3). cbn [snb stl s_setTl] in Hsel. rewrite Hsel. cbn [bind]. eexists _, _. split; [reflexivity|]. split; [|exact M2].
  destruct M as (l & r & sv & -> & Ml & Mr & Ms). eexists l, r, _. split; [reflexivity|]. split; [exact Ml|]. split; [exact Mr|]. cbn [sstepVec].
  destruct M2 as (m & L & L' & _ & Ex & Ey). change (sN q) with (sN s) in *. exists m. cbn [vseg vlen vget]. split; [lia|]. split; [lia|]. split; [intros k Hk; lia|]. split.
  - intros k Hk. at_ix (2 * sN s + k)%nat Ex.
  - intros k Hk. at_ix (2 * sN s + m + k)%nat Ey.
Qed.
End Shift.
