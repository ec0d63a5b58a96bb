(** Property C70: the humanoid walk generator walks the same way wherever the robot is. *)

From Coq Require Import Reals List ZArith Lra Lia Arith Bool.
From Verif Require Import Scalar LinAlg LinAlgFacts ToolsModel ToolsSpec ToolsFacts NoDynModel PolygonModel
  QPModel QPFacts TrajModel TrajFacts LipModel FootModel ModelsSpec ModelsFacts SupModel SupSpec SupFacts SupTime SupWalk PropSup PropGait HumModel HumSpec HumFacts HumRunSpec HumRun HumSafeSpec PropHumSafe
  ShiftSpec SupShift HumShift HumMoved.
Import ListNotations.
Local Open Scope R_scope.

Section Prop70.
Context {TK : Trig R}.

(** ** Walks are undisturbed when the horizon is longer than a step *)
Definition steps_ahead (h : hum R) : Prop :=
  s_isInDS (hsup h) = Ok false -> (2 * sN (hsup h) < vlen (hX h))%nat /\ sttnp (hsup h) <= sstep (hsup h).
Lemma call_ahead n fb c h g : may n fb c h -> ~ is_solve c -> hstep c h = Ok g -> steps_ahead h -> steps_ahead g.
Proof.
  intros Hm Hs H A. destruct c; cbn [may is_solve hstep] in *; try contradiction; try tauto.
  - injection H as <-. destruct d; exact A.
  - unfold h_setVelRef in H. apply guard_ok in H. destruct H as (_ & H). injection H as <-. exact A.
  - unfold h_setFootStateX, s_setFootStateX in H. rewrite Hm in H. cbn [Nat.eqb guard bind] in H. injection H as <-. destruct d; exact A.
  - unfold h_setFootStateY, s_setFootStateY in H. rewrite Hm in H. cbn [Nat.eqb guard bind] in H. injection H as <-. destruct d; exact A.
  - unfold h_setFootStateZ, s_setFootStateZ in H. rewrite Hm in H. cbn [Nat.eqb guard bind] in H. injection H as <-. destruct d; exact A.
  - unfold h_setComStateX in H. apply guard_ok in H. destruct H as (_ & H). apply bind_ok in H. destruct H as (l & _ & H). injection H as <-. exact A.
  - unfold h_setComStateY in H. apply guard_ok in H. destruct H as (_ & H). apply bind_ok in H. destruct H as (l & _ & H). injection H as <-. exact A.
  - unfold h_setComStateZ in H. apply guard_ok in H. destruct H as (_ & H). apply guard_ok in H. destruct H as (_ & H). apply guard_ok in H. destruct H as (_ & H). apply bind_ok in H. destruct H as (l & _ & H). injection H as <-. exact A.
  - unfold h_setWeightings in H. apply guard_ok in H. destruct H as (_ & H). apply guard_ok in H. destruct H as (_ & H). apply guard_ok in H. destruct H as (_ & H). injection H as <-. exact A.
  - unfold h_setMove in H. apply bind_ok in H. destruct H as (ds & Hd & H). injection H as <-. exact A.
Qed.
Section Walk.
Variables (N n a b : nat) (fb : R).
Hypotheses (HN : (0 < N)%nat) (Hn : (0 < n)%nat) (Ha : (0 < a)%nat) (HaN : (a < N)%nat) (Hb : (0 < b)%nat) (Hfb : EPS < fb).
Let HaN' : (a <= S N)%nat. Proof. clear - HaN. lia. Qed.

Lemma solve_ahead o h : hwalk N n a b fb h -> steps_ahead h ->
  undisturbed_call (HSolve o fb) h /\ forall found g, h_solve o fb h = Ok (found, g) -> steps_ahead g.
Proof.
  intros [I W Et Er Rm Pc (s & f & i & m & k & Wk & Ek & Es & Hmv)] A. assert (HE : 0 < EPS) by (rsimpl; lra). set (mv := smove (hsup h)) in *.
  destruct (cycle_ok N n a b fb HN Hn Ha HaN' Hb Hfb s (hX h) f i m k mv (fun w => w) Wk (fun _ => eq_refl)) as (s1 & v1 & s2 & S0 & w & n1 & i1 & Eu & U & _ & _ & _ & _ & _ & _). rewrite <- Es in Eu.
  destruct (u_static _ _ _ _ _ _ _ _ _ _ _ _ _ _ _ U) as (UN & UT & Uf & Ul & Ur & Us & UD & Um & Ut). cbn [sN sT sstep smove s_setMove] in UN, UT, Us, Um.
  pose proof (next_m_pos N n a b HN Hn Ha HaN' Hb s f m) as Hm1. pose proof (u_tl _ _ _ _ _ _ _ _ _ _ _ _ _ _ _ U) as Utl. pose proof (u_nb _ _ _ _ _ _ _ _ _ _ _ _ _ _ _ U) as Unb. cbn [smove s_setMove] in Unb.
  pose proof (u_high _ _ _ _ _ _ _ _ _ _ _ _ _ _ _ U) as Hh. cbn [sN s_setMove] in Hh. rewrite (w_N _ _ _ _ _ _ _ _ _ _ _ Wk) in Hh, UN.
  pose proof (w_T _ _ _ _ _ _ _ _ _ _ _ Wk) as WT. pose proof (w_size _ _ _ _ _ _ _ _ _ _ _ Wk) as WS. pose proof (w_t _ _ _ _ _ _ _ _ _ _ _ Wk) as Wt. pose proof (w_step _ _ _ _ _ _ _ _ _ _ _ Wk) as Wst.
  assert (F0 : s_isInDS (hsup h) = Ok (is_DS (phType f))) by (rewrite Es; unfold s_isInDS, s_front, cb_at; cbn [stl s_setMove]; rewrite (w_tl _ _ _ _ _ _ _ _ _ _ _ Wk); reflexivity).
  assert (F1 : s_isInDS s1 = Ok (is_DS (phType (next_f s f m)))) by (unfold s_isInDS, s_front, cb_at; rewrite Utl; reflexivity).
  assert (Eh : sttnp (hsup h) = sttnp s /\ sstep (hsup h) = sstep s /\ sN (hsup h) = N /\ sT (hsup h) = sT s) by (rewrite Es; cbn [sttnp sstep sN sT s_setMove]; rewrite (w_N _ _ _ _ _ _ _ _ _ _ _ Wk); auto). destruct Eh as (E1 & E2 & E3 & E4).
  unfold steps_ahead in A. rewrite F0, E1, E2, E3, WS, Wt, Wst, WT in A.
  (* the phase in progress has at most the length of a step to go, and so a step in the horizon *)
  assert (Hss : is_DS (phType (next_f s f m)) = false -> (next_m n a b s f m <= a * n)%nat).
  { intros E. unfold next_m, next_f in *. destruct m as [|m].
    - cbn [mkph phType] in E. unfold ticks. destruct (typ (smove s) (phType f) 1); [discriminate E| |]; lia.
    - rewrite E in A. destruct (A eq_refl) as (_ & L). replace (INR a * (INR n * fb)) with (INR (a * n) * fb) in L by (rewrite mult_INR; ring). apply INR_le. apply (Rmult_le_reg_r fb); [lra|exact L]. }
  assert (Hi : is_DS (phType (next_f s f m)) = false -> (0 < snb s1)%nat).
  { intros E. specialize (Hss E). rewrite Unb, nbs_eq. unfold nbs_closed. rewrite E. assert (0 < i1)%nat.
    { destruct i1; [|lia]. cbn [ends] in Hh. assert ((next_m n a b s f m - 1) / n < a)%nat by (apply Nat.div_lt_upper_bound; [lia|nia]). lia. }
    destruct mv; lia. }
  assert (Hk : is_DS (phType (next_f s f m)) = false -> (0 < k)%nat /\ (m = 0%nat -> is_DS (phType f) = false -> (1 < k)%nat)).
  { intros E. unfold next_f in E. destruct m as [|m].
    - pose proof (w_i N n a b fb HN Hn Ha HaN' Hb _ _ _ _ _ _ Wk eq_refl) as Hi0. destruct (w_cover _ _ _ _ _ _ _ _ _ _ _ Wk) as [(L & _)|(_ & L & Lk)]; [lia|]. rewrite Nat.div_0_l in L by lia.
      cbn [mkph phType] in E. assert (Hmvt : smove s = true) by (destruct (smove s); [reflexivity|]; rewrite typ_stop in E; discriminate E).
      rewrite nbs_eq in Lk. unfold nbs_closed in Lk. rewrite Hmvt in Lk.
      assert (2 <= i)%nat. { destruct i as [|[|i]]; [lia| |lia]. exfalso. cbn [ends] in L. unfold ticks in L. destruct (typ (smove s) (phType f) 1); [discriminate E| |]; lia. }
      destruct (is_DS (phType f)); split; intros; try discriminate; lia.
    - rewrite E in A. destruct (A eq_refl) as (L & _). split; [lia|discriminate]. }
  split.
  - cbn [undisturbed_call]. intros h1 Hp. destruct (h_prepare_cases _ _ _ Hp) as (s3 & X3 & l3 & Hu3 & _ & _ & _ & Es3 & _). rewrite Eu in Hu3. injection Hu3 as <- <-. rewrite Es3. split.
    + intros q Eq. rewrite Ut, UT, WT in Eq. replace (INR q * (INR n * fb)) with (INR (q * n) * fb) in Eq by (rewrite mult_INR; ring). set (m1 := next_m n a b s f m) in *.
      destruct (Nat.le_gt_cases m1 (q * n)) as [L|L]; apply le_INR in L; [|rewrite S_INR in L].
      * assert (INR m1 * fb <= INR (q * n) * fb) by (apply Rmult_le_compat_r; lra). lra.
      * assert ((INR (q * n) + 1) * fb <= INR m1 * fb) by (apply Rmult_le_compat_r; lra). lra.
    + destruct (is_DS (phType (next_f s f m))) eqn:Ed; [left; exact F1|]. right. right. destruct (Hk eq_refl) as (K1 & K2). exists k. unfold steps_held. rewrite E3. split; [exact WS|]. split; [exact K1|].
      intros Lt Hd. rewrite F0 in Hd. injection Hd as Hd. apply K2; [|exact Hd]. rewrite E1, Wt in Lt. destruct m as [|m]; [reflexivity|]. exfalso. rewrite S_INR in Lt. pose proof (pos_INR m). nra.
  - intros found g Hg. unfold h_solve in Hg. apply bind_ok in Hg. destruct Hg as (h1 & Hp & Hg). apply bind_ok in Hg. destruct Hg as (q & _ & Hg). pose proof (finish_len _ _ _ _ _ _ _ Hg) as LX.
    destruct (h_prepare_cases _ _ _ Hp) as (s3 & X3 & l3 & Hu3 & _ & _ & EN3 & Es3 & El3 & _). rewrite Eu in Hu3. injection Hu3 as <- <-. rewrite Es3 in LX. rewrite El3, <- EN3, UN in LX.
    destruct (finish_cases _ _ _ _ _ _ Hg) as (dX & X & t & l1 & l2 & s4 & LX4 & _ & _ & _ & _ & _ & Hf & _ & E). cbn [snd] in E. rewrite Es3 in Hf. destruct (feet_frame _ _ _ _ Hf) as (_ & _ & _ & _ & Ft & _ & _ & Fn). destruct (s_updateFeet_N _ _ _ _ Hf) as (FN & _).
    assert (Fs : sstep s4 = sstep s1). { clear - Hf. unfold s_updateFeetStates in Hf. apply bind_ok in Hf. destruct Hf as (p & Hp & H). destruct (andb _ _); [|injection H as <-; reflexivity].
      apply bind_ok in H. destruct H as (x & Hx & H). apply bind_ok in H. destruct H as (y & Hy & H). destruct (phType p); [discriminate H| |]; apply bind_ok in H; destruct H as (g & Hg & H); injection H as <-; reflexivity. }
    rewrite E. unfold steps_ahead. cbn [hsup hX]. rewrite LX4, LX, FN, UN, Fn, Fs, Us, Ut, Wst, WT.
    assert (F4 : s_isInDS s4 = s_isInDS s1) by (unfold s_isInDS, s_front; rewrite Ft; reflexivity). rewrite F4, F1. intros Hd. injection Hd as Hd. split; [specialize (Hi Hd); lia|].
    specialize (Hss Hd). apply le_INR in Hss. rewrite mult_INR in Hss. assert (INR (next_m n a b s f m) * fb <= INR a * INR n * fb) by (apply Rmult_le_compat_r; lra). lra.
Qed.
Lemma walk_undisturbed cs : forall h, hwalk N n a b fb h -> steps_ahead h -> permitted n fb cs h -> hulls_found fb cs h -> undisturbed cs h.
Proof.
  induction cs as [|c cs IH]; intros h W A Pm Hh; cbn [permitted hulls_found undisturbed] in *; [exact Logic.I|]. destruct Pm as (My & Pm), Hh as (Hk & Hh).
  assert (Hk' : is_solve c -> hull_known fb h) by (intros Hi; specialize (Hk Hi); intros Ec s v Eu; apply Classical_Prop.NNPP; intros Nh; apply Hk; split; [exact Ec|]; eauto).
  assert (Q : undisturbed_call c h /\ forall h', hstep c h = Ok h' -> steps_ahead h').
  { destruct c; try (split; [cbn [may undisturbed_call] in *; try contradiction; exact Logic.I|intros h' H; apply (call_ahead n fb _ h h' My); [exact (fun x => x)|exact H|exact A]]).
    cbn [may] in My. subst. destruct (solve_ahead o h W A) as (Q1 & Q2). split; [exact Q1|]. intros h' H. cbn [hstep] in H. apply bind_ok in H. destruct H as ((fo & g) & H & E). injection E as <-. exact (Q2 _ _ H). }
  destruct Q as (Q1 & Q2). split; [exact Q1|]. intros h' H. destruct (call_ok N n a b fb HN Hn Ha HaN' Hb Hfb c h W My Hk') as (h2 & E2 & W2). rewrite H in E2. injection E2 as <-. apply IH; auto.
Qed.
End Walk.

(** ** C70 *)
(** A solve from the same situation elsewhere poses the same problem to the solver, finds the same answer
    and leaves the robot in the same situation elsewhere. *)
Theorem C70_same_problem_anywhere : forall a b o fb h h' found g, reached h -> moved_hum a b h h' -> undisturbed_call (HSolve o fb) h -> h_solve o fb h = Ok (found, g) ->
  exists g', h_solve o fb h' = Ok (found, g') /\ moved_hum a b g g'
  /\ exists h1 h1' q, h_prepare fb h = Ok h1 /\ h_prepare fb h' = Ok h1' /\ h_problem h1 = Ok q /\ h_problem h1' = Ok q.
Proof. intros a b o fb h h' found g. apply solve_moved. Qed.

(** So does any sequence of calls. *)
Theorem C70_histories_anywhere : forall a b cs h h' g, reached h -> moved_hum a b h h' -> undisturbed cs h -> hsteps cs h = Ok g ->
  exists g', hsteps (map (moved_call a b) cs) h' = Ok g' /\ moved_hum a b g g'.
Proof. intros a b cs. apply steps_moved. Qed.

(** A walk whose horizon is longer than a step is undisturbed: it goes on elsewhere as it does here. *)
Theorem C70_walks_anywhere : forall n a b fb x y hs hs' cs, ready_to_walk n a b fb hs -> (a < sN (hsup hs))%nat -> moved_hum x y hs hs' ->
  permitted n fb cs hs -> hulls_found fb cs hs ->
  exists g g', hsteps cs hs = Ok g /\ hsteps (map (moved_call x y) cs) hs' = Ok g' /\ moved_hum x y g g'.
Proof.
  intros n a b fb x y hs hs' cs Rw La Mh Pm Hh. destruct (ready_walks _ _ _ _ _ Rw) as (HN & W). pose proof Rw as [(h0 & t & St & Eh & _) Hfb Hn Ha Hb _ _ _ _ _ _ _ _].
  assert (Rc : reached hs) by (rewrite Eh; apply reached_table; exact (up_reached _ (settled_up _ St))).
  assert (A : steps_ahead hs).
  { rewrite Eh. unfold steps_ahead. cbn [h_setSolvers hsup hX]. destruct (up_idle _ (settled_up _ St)) as [F _ _ _ _ _ _]. intros Hd. exfalso. destruct F as (Tl & _). unfold s_isInDS, s_front, cb_at in Hd. rewrite Tl in Hd. cbn in Hd. discriminate Hd. }
  pose proof (walk_undisturbed (sN (hsup hs)) n a b fb HN Hn (proj1 Ha) La Hb Hfb cs hs W A Pm Hh) as U.
  destruct (run_ok (sN (hsup hs)) n a b fb HN Hn (proj1 Ha) (proj2 Ha) Hb Hfb cs hs W Pm) as [(g & E & _)|(cs1 & o & cs2 & h1 & Ec & E1 & Hf)].
  - destruct (steps_moved x y cs hs hs' g Rc Mh U E) as (g' & E' & M'). exists g, g'. auto.
  - exfalso. clear - Hh Ec E1 Hf. revert hs Hh E1 Ec. revert cs. induction cs1 as [|c cs1 IH]; intros cs hs Hh E1 ->; cbn [app hulls_found hsteps] in *.
    + injection E1 as <-. exact (proj1 Hh Logic.I Hf).
    + apply bind_ok in E1. destruct E1 as (h2 & E2 & E1). destruct Hh as (_ & Hh). exact (IH _ h2 (Hh _ E2) E1 eq_refl).
Qed.

(** Before the robot walks, giving the feet and the centre of mass their places puts it there: the same calls
    with the places moved by (x, y) give the same generator, (x, y) further. *)
Definition put (lx ly rx ry cx cy : vec R) : list (hcall R) :=
  [HSetFootX SLeft lx; HSetFootY SLeft ly; HSetFootX SRight rx; HSetFootY SRight ry; HSetComX cx; HSetComY cy].
Lemma no_steps h : set_up h -> vlen (sstepVec (hsup h)) = 0%nat.
Proof.
  induction 1 as [h H|c h h' _ IH Hc E].
  - unfold newHum in H. apply bind_ok in H. destruct H as (s & Hs & H). apply bind_ok in H. destruct H as (l & _ & H). injection H as <-. unfold newSupDefault, newSup in Hs. binds Hs. injection Hs as <-. reflexivity.
  - rewrite <- IH. clear IH. destruct c; cbn [hstep is_solve] in *; try (exfalso; exact (Hc Logic.I)).
    + unfold h_setNbSamples in E. apply guard_ok in E. destruct E as (_ & E). apply bind_ok in E. destruct E as (l & _ & E). apply bind_ok in E. destruct E as (s & Hs & E). injection E as <-. unfold s_setNbSamples in Hs. binds Hs. injection Hs as <-. reflexivity.
    + unfold h_setSamplingPeriod in E. apply guard_ok in E. destruct E as (_ & E). apply bind_ok in E. destruct E as (l & _ & E). apply bind_ok in E. destruct E as (s & Hs & E). injection E as <-. unfold s_setSamplingPeriod in Hs. binds Hs. injection Hs as <-. reflexivity.
    + unfold h_setStepPeriod in E. binds E. injection E as <-. match goal with Q : s_setStepPeriod _ _ = Ok _ |- _ => unfold s_setStepPeriod in Q; binds Q end; repeat match goal with Q : (if ?c then _ else _) = Ok _ |- _ => destruct c; binds Q end; match goal with Q : Ok _ = Ok _ |- _ => injection Q as <- end; reflexivity.
    + unfold h_setInitialDoubleSupportLength in E. binds E. injection E as <-. match goal with Q : s_setInitialDoubleSupportLength _ _ = Ok _ |- _ => unfold s_setInitialDoubleSupportLength in Q; binds Q end; repeat match goal with Q : (if ?c then _ else _) = Ok _ |- _ => destruct c; binds Q end; match goal with Q : Ok _ = Ok _ |- _ => injection Q as <- end; reflexivity.
    + injection E as <-. destruct d; reflexivity.
    + injection E as <-. destruct d; reflexivity.
    + injection E as <-. destruct d; reflexivity.
    + unfold h_setVelRef in E. apply guard_ok in E. destruct E as (_ & E). injection E as <-. reflexivity.
    + unfold h_setFootStateX, s_setFootStateX in E. apply guard_ok in E. destruct E as (Hg & E). rewrite Hg in E. cbn [guard bind] in E. injection E as <-. destruct d; reflexivity.
    + unfold h_setFootStateY, s_setFootStateY in E. apply guard_ok in E. destruct E as (Hg & E). rewrite Hg in E. cbn [guard bind] in E. injection E as <-. destruct d; reflexivity.
    + unfold h_setFootStateZ, s_setFootStateZ in E. apply guard_ok in E. destruct E as (Hg & E). rewrite Hg in E. cbn [guard bind] in E. injection E as <-. destruct d; reflexivity.
    + unfold h_setComStateX in E. apply guard_ok in E. destruct E as (_ & E). apply bind_ok in E. destruct E as (l & _ & E). injection E as <-. reflexivity.
    + unfold h_setComStateY in E. apply guard_ok in E. destruct E as (_ & E). apply bind_ok in E. destruct E as (l & _ & E). injection E as <-. reflexivity.
    + unfold h_setComStateZ in E. apply guard_ok in E. destruct E as (_ & E). apply guard_ok in E. destruct E as (_ & E). apply guard_ok in E. destruct E as (_ & E). apply bind_ok in E. destruct E as (l & _ & E). injection E as <-. reflexivity.
    + unfold h_setWeightings in E. apply guard_ok in E. destruct E as (_ & E). apply guard_ok in E. destruct E as (_ & E). apply guard_ok in E. destruct E as (_ & E). injection E as <-. reflexivity.
    + injection E as <-. reflexivity.
    + unfold h_setMove in E. apply bind_ok in E. destruct E as (ds & Hd & E). injection E as <-. reflexivity.
Qed.
Theorem C70_put_anywhere : forall x y lx ly rx ry cx cy h g, set_up h -> hsteps (put lx ly rx ry cx cy) h = Ok g ->
  exists g', hsteps (map (moved_call x y) (put lx ly rx ry cx cy)) h = Ok g' /\ moved_hum x y g g'.
Proof.
  intros x y lx ly rx ry cx cy h g U H. pose proof (no_steps _ U) as N0. pose proof (id_X _ (up_idle _ U)) as LX. clear U. unfold put in *. cbn [hsteps hstep map moved_call] in *.
  unfold h_setFootStateX, h_setFootStateY, h_setComStateX, h_setComStateY, s_setFootStateX, s_setFootStateY, l_setStateX, l_setStateY in *.
  change (vlen (carried_vec x lx)) with (vlen lx). change (vlen (carried_vec x rx)) with (vlen rx). change (vlen (carried_vec x cx)) with (vlen cx).
  change (vlen (carried_vec y ly)) with (vlen ly). change (vlen (carried_vec y ry)) with (vlen ry). change (vlen (carried_vec y cy)) with (vlen cy).
  destruct (Nat.eqb (vlen lx) 3); [|discriminate H]. cbn [guard bind] in *. destruct (Nat.eqb (vlen ly) 3); [|discriminate H]. cbn [guard bind] in *.
  destruct (Nat.eqb (vlen rx) 3); [|discriminate H]. cbn [guard bind] in *. destruct (Nat.eqb (vlen ry) 3); [|discriminate H]. cbn [guard bind] in *.
  destruct (Nat.eqb (vlen cx) 3); [|discriminate H]. cbn [guard bind] in *. destruct (st3_of_vec cx) as [sx| | | |] eqn:Ex; try discriminate H. rewrite (state_of_moved x _ _ Ex). cbn [guard bind] in *.
  destruct (Nat.eqb (vlen cy) 3); [|discriminate H]. cbn [guard bind] in *. destruct (st3_of_vec cy) as [sy| | | |] eqn:Ey; try discriminate H. rewrite (state_of_moved y _ _ Ey). cbn [guard bind] in *.
  injection H as <-. eexists. split; [reflexivity|]. eexists _, _, _, _. split; [reflexivity|]. cbn [h_setSup h_setLip h_setModels hsup hlip hX s_setFoot s_setFeet s_foot sleft sright sN sstepVec]. split; [|split].
  - eexists _, _, _. split; [reflexivity|]. cbn [sleft sright sstepVec]. split; [|split].
    + eexists _, _. split; [reflexivity|]. split; apply vec_moved.
    + eexists _, _. split; [reflexivity|]. split; apply vec_moved.
    + exists 0%nat. cbn [s_setFeet sstepVec]. rewrite N0. repeat split; intros; lia.
  - reflexivity.
  - exists 0%nat. cbn [s_setFeet hsup hX sN]. rewrite LX. repeat split; try lia; intros; lia.
Qed.

(** What a user reads of two generators, the second being (a, b) from the first *)
Definition reads_elsewhere (a b : R) (h h' : hum R) : Prop :=
  lsx (hlip h') = carried a (lsx (hlip h)) /\ lsy (hlip h') = carried b (lsy (hlip h)) /\ lh (hlip h') = lh (hlip h)
  /\ (forall d, let f := s_foot d (hsup h) in let f' := s_foot d (hsup h') in
        (forall k, (k < vlen (fsx f))%nat -> vget (fsx f') k = vget (fsx f) k + if Nat.eqb k 0 then a else 0)
        /\ (forall k, (k < vlen (fsy f))%nat -> vget (fsy f') k = vget (fsy f) k + if Nat.eqb k 0 then b else 0)
        /\ fsz f' = fsz f /\ fsyaw f' = fsyaw f)
  /\ stl (hsup h') = stl (hsup h) /\ sttnp (hsup h') = sttnp (hsup h) /\ smove (hsup h') = smove (hsup h) /\ snb (hsup h') = snb (hsup h)
  /\ s_isInDS (hsup h') = s_isInDS (hsup h).
Theorem C70_readings : forall a b h h', moved_hum a b h h' -> reads_elsewhere a b h h'.
Proof.
  intros a b h h' (s & l & X & t & -> & (fl & fr & sv & -> & Ml & Mr & _) & -> & _). unfold reads_elsewhere. cbn [hlip hsup lsx lsy lh l_setStates].
  split; [reflexivity|]. split; [reflexivity|]. split; [reflexivity|]. split; [|repeat split].
  intros d. destruct Ml as (x1 & y1 & -> & (_ & Mx1) & (_ & My1)), Mr as (x2 & y2 & -> & (_ & Mx2) & (_ & My2)). destruct d; cbn [s_foot sleft sright f_setStates fsx fsy fsz fsyaw]; auto.
Qed.

(** Being elsewhere is symmetric: the first is at (-a, -b) from the second. *)
Lemma state_back a v v' : moved_state a v v' -> moved_state (- a) v' v.
Proof. intros (L & H). split; [symmetry; exact L|]. intros k Hk. rewrite L in Hk. rewrite (H k Hk). destruct (Nat.eqb k 0); ring. Qed.
Lemma foot_back a b f f' : moved_foot a b f f' -> moved_foot (- a) (- b) f' f.
Proof. intros (x & y & -> & Mx & My). exists (fsx f), (fsy f). split; [destruct f; reflexivity|]. cbn [f_setStates fsx fsy]. split; apply state_back; assumption. Qed.
Lemma steps_back a b n v v' : moved_steps a b n v v' -> moved_steps (- a) (- b) n v' v.
Proof. intros (m & L & L' & H1 & H2 & H3). exists m. split; [exact L'|]. split; [exact L|]. split; [|split]; intros k Hk; [rewrite (H1 k Hk)|rewrite (H2 k Hk)|rewrite (H3 k Hk)]; ring. Qed.
Theorem C70_symmetric : forall a b h h', moved_hum a b h h' -> moved_hum (- a) (- b) h' h.
Proof.
  intros a b h h' (s & l & X & t & -> & (fl & fr & sv & -> & Ml & Mr & Mv) & -> & MX). exists (hsup h), (hlip h), (hX h), (htX h). cbn [hsup hlip hX sN]. split; [destruct h; reflexivity|]. split; [|split].
  - exists (sleft (hsup h)), (sright (hsup h)), (sstepVec (hsup h)). split; [destruct (hsup h); reflexivity|]. cbn [sleft sright sstepVec]. auto using foot_back, steps_back.
  - unfold moved_lip, l_setStates, carried. destruct (hlip h) as []. cbn. destruct lsx, lsy. cbn. f_equal; f_equal; ring.
  - apply steps_back. exact MX.
Qed.
(** Hence a call that is undisturbed at both places has the same outcome at both: it returns at one if it does
    at the other. *)
Theorem C70_same_outcome : forall a b cs h h', reached h -> reached h' -> moved_hum a b h h' -> undisturbed cs h -> undisturbed (map (moved_call a b) cs) h' ->
  ((exists g, hsteps cs h = Ok g) <-> exists g', hsteps (map (moved_call a b) cs) h' = Ok g').
Proof.
  intros a b cs h h' Hr Hr' M U U'. split; intros (g & E).
  - destruct (steps_moved a b cs h h' g Hr M U E) as (g' & E' & _). eauto.
  - destruct (steps_moved (- a) (- b) _ h' h g Hr' (C70_symmetric _ _ _ _ M) U' E) as (g' & E' & _). exists g'. rewrite <- E'. f_equal. clear. rewrite map_map. rewrite <- (map_id cs) at 1. apply map_ext. intros c.
    assert (V : forall t (v : vec R), carried_vec (- t) (carried_vec t v) = v).
    { intros t [n f]. unfold carried_vec. cbn [vlen vget]. f_equal. apply FunctionalExtensionality.functional_extensionality. intros k. destruct (Nat.eqb k 0); [ring|reflexivity]. }
    destruct c; cbn [moved_call]; rewrite ?V; reflexivity.
Qed.

(** ** What disturbs *)
(** A change of the number of samples while steps are planned: these are then at the origin, wherever the
    robot is. *)
Theorem C70_planned_steps_forgotten_refuted : forall a b n h h' g g', a <> 0 \/ b <> 0 -> (0 < snb (hsup h))%nat -> moved_hum a b h h' ->
  h_setNbSamples n h = Ok g -> h_setNbSamples n h' = Ok g' -> hX g' = hX g /\ ~ moved_hum a b g g'.
Proof.
  intros a b n h h' g g' Hab Hs (s & l & X & t & -> & (fl & fr & sv & -> & Ml & Mr & Mv) & -> & MX) H H'.
  assert (E : hX g = vzero (2 * n + 2 * snb (hsup h)) /\ hX g' = vzero (2 * n + 2 * snb (hsup h)) /\ sN (hsup g) = n).
  { clear - H H'. unfold h_setNbSamples in *. binds H. binds H'. injection H as <-. injection H' as <-. cbn [h_computeConstantPart hX hsup].
    repeat match goal with Q : s_setNbSamples _ _ = Ok _ |- _ => unfold s_setNbSamples in Q; binds Q; injection Q as <- end. cbn [s_setN sN snb hsup]. auto. }
  destruct E as (E1 & E2 & EN). split; [congruence|]. intros (s & l2 & X2 & t2 & E & _ & _ & (m & L & _ & _ & Hx & Hy)). rewrite E in E2. cbn [hX] in E2. subst X2.
  rewrite E1, EN in *. cbn [vzero vlen vget] in *. assert (m = snb (hsup h)) by lia. subst m. destruct Hab as [Ha|Hb]; [apply Ha; specialize (Hx 0%nat Hs)|apply Hb; specialize (Hy 0%nat Hs)]; lra.
Qed.
End Prop70.

Print Assumptions C70_same_problem_anywhere.
Print Assumptions C70_histories_anywhere.
Print Assumptions C70_walks_anywhere.
Print Assumptions C70_put_anywhere.
Print Assumptions C70_readings.
Print Assumptions C70_symmetric.
Print Assumptions C70_same_outcome.
Print Assumptions C70_planned_steps_forgotten_refuted.
