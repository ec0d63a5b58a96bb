(** What a solve of the humanoid walk generator starts from, and that it does not matter (C64). *)

From Coq Require Import Reals List ZArith Arith Bool Lra Lia FunctionalExtensionality.
From Verif Require Import Scalar LinAlg LinAlgFacts ToolsModel ToolsSpec NoDynModel PolygonModel PolygonFacts QPModel QPFacts TrajModel LipModel FootModel
  ModelsSpec ModelsFacts SupModel SupSpec SupFacts SupTime PropGait PropSteps PropSupCalls HumModel HumAlg HumSpec HumFacts HumObj HumProb HumWorld PropHum PropHumCalls.
From Verif Require PropZebSolve QPExist HumRunSpec HumTable PropHumRun.
Import ListNotations.
Local Open Scope R_scope.

Section Start.
Context {TK : Trig R}.

(** ** The height of the centre of mass *)
Lemma height_step c l l' : (exists n, lip_fresh l n) -> lauto l = true -> lh l = pos (lsz l) -> lstep c l = Ok l' -> lh l' = pos (lsz l').
Proof.
  intros F A E H. destruct (lstep_inv c l l' F A H) as (_ & _ & O). assert (D : oh (lobs_of l') = osz (lobs_of l')); [|exact D]. rewrite O. clear O H.
  assert (D : oh (lobs_of l) = osz (lobs_of l)) by exact E. destruct (lobs_of l). cbn in D. destruct c; cbn; auto.
Qed.
Lemma reached_height h : reached h -> lh (hlip h) = pos (lsz (hlip h)).
Proof.
  intros H. destruct (C63_models_histories h H) as (_ & l0 & ls & E0 & E & _). unfold newLipDefault in E0. destruct (newLip_fresh _ _ _ E0) as (Fr & O & A).
  assert (H0 : lh l0 = pos (lsz l0)). { assert (D : oh (lobs_of l0) = osz (lobs_of l0)); [|exact D]. rewrite O. reflexivity. }
  clear E0 O H. revert l0 Fr A H0 E. induction ls as [|c ls IH]; intros l0 Fr A H0 E; cbn [lsteps] in E; [injection E as ->; exact H0|].
  apply bind_ok in E. destruct E as (l1 & E1 & E). destruct (lstep_inv c l0 l1 Fr A E1) as (B & C & _). exact (IH l1 B C (height_step c l0 l1 Fr A H0 E1) E).
Qed.

(** When the generator restarts, the decision vector is filled, before the problem is stated, with the present centre of
    pressure relative to the left foot, at every sample. *)
Theorem C64_restarts_from_present_cop : forall h0 fb h, reached h0 -> h_prepare fb h0 = Ok h -> hfirst h0 = true ->
  let l := hlip h in let N := lN (hlip h0) in
  hfirst h = false
  /\ forall i, (i < N)%nat ->
       dCopX (vget (hX h)) i + vget (fsx (sleft (hsup h0))) 0 = cop_of (lh l) (gx (lg l)) (gz (lg l)) (lm l) (lM l) (lsx (hlip h0))
    /\ dCopY N (vget (hX h)) i + vget (fsy (sleft (hsup h0))) 0 = cop_of (lh l) (gy (lg l)) (gz (lg l)) (lm l) (lM l) (lsy (hlip h0)).
Proof.
  intros h0 fb h H0 Hp Hf l N. pose proof (reached_inv h0 H0) as I.
  destruct (prepared _ _ _ H0 Hp) as (Ih & Sh & HNp).
  pose proof Hp as Hp'. unfold h_prepare, h_updateModels in Hp. apply bind_ok in Hp. destruct Hp as (h1 & H1 & Hp).
  apply bind_ok in H1. destruct H1 as ((s & X) & Hu & H1). apply bind_ok in H1. destruct H1 as (l1 & Hl & H1).
  apply guard_ok in H1. destruct H1 as (Hfb & H1). apply guard_ok in H1. destruct H1 as (HN & H1). injection H1 as <-.
  apply bind_ok in Hp. destruct Hp as (c & _ & Hp). unfold h_firstFill in Hp. cbn [hfirst hlip hsup hX] in Hp. rewrite Hf in Hp.
  apply bind_ok in Hp. destruct Hp as (lx & Ex & Hp). apply bind_ok in Hp. destruct Hp as (ly & Ey & Hp). apply guard_ok in Hp. destruct Hp as (HX & Hp). apply Nat.leb_le in HX.
  assert (ES : sleft s = sleft (hsup h0)).
  { unfold s_updateTimeline in Hu. apply guard_ok in Hu. destruct Hu as (_ & Hu). apply guard_ok in Hu. destruct Hu as (_ & Hu). apply bind_ok in Hu. destruct Hu as (((v1 & t1) & tn) & _ & Hu).
    apply bind_ok in Hu. destruct Hu as (((s2 & i) & v2) & _ & Hu). apply bind_ok in Hu. destruct Hu as (sel & _ & Hu). injection Hu as <- _. reflexivity. }
  assert (EO : lN l1 = N /\ lsx l1 = lsx (hlip h0) /\ lsy l1 = lsy (hlip h0) /\ lh l1 = lh (hlip h0) /\ lsz l1 = lsz (hlip h0) /\ lg l1 = lg (hlip h0) /\ lm l1 = lm (hlip h0) /\ lM l1 = lM (hlip h0)).
  { rewrite sabs_Rabs in Hl. unfold N. destruct (sltb EPS (Rabs (ssub fb (lfb (hlip h0))))); [|injection Hl as <-; repeat split].
    unfold l_setFeedbackPeriod in Hl. apply guard_ok in Hl. destruct Hl as (_ & Hl). unfold l_auto in Hl. cbn [l_setPar lauto] in Hl. rewrite (hi_auto _ I) in Hl. unfold l_computeDynamics in Hl. binds Hl. injection Hl as <-. repeat split. }
  destruct EO as (EN & Esx & Esy & Eh & Esz & Eg & Em & EM).
  assert (Erot : selRot (ssel s) = mid (2 * N)). { assert (Es : hsup h = s) by (injection Hp as <-; reflexivity). rewrite <- Es, (proj1 (sh_rot _ Sh)), Es. apply Nat.eqb_eq in HN. rewrite HN, EN. reflexivity. }
  destruct (reached_valid h0 H0) as (_ & _ & _ & G1 & G2 & G3). cbn [lobs_of og om oM] in G1, G2, G3. pose proof (reached_height h0 H0) as Hh.
  apply vread_inv in Ex, Ey. destruct Ex as (_ & ->), Ey as (_ & ->). unfold l. rewrite EN in Hp, HX. rewrite Erot in Hp. injection Hp as <-. cbn [hlip hX hfirst].
  split; [reflexivity|]. intros i Hi. rewrite Esx, Esy, Esz, ES, <- Hh, Eh, Eg, Em, EM, G1, G2, G3. clear c.
  assert (B : forall r c (x : R), (r = 0 \/ r = N)%nat -> (c = 0 \/ c = N)%nat ->
     vget (mv (mblock (mid (2 * N)) r c N N) (vfill N x)) i = if Nat.eqb r c then x else 0).
  { intros r c x Hr Hc. refine (eq_trans _ (id_block N (2 * N) (vfill N x) i r c eq_refl Hi Hr Hc eq_refl)). cbn [mv mblock mtr mid vget mget mrows mcols]. apply ssum_ext. intros k Hk. rewrite (Nat.eqb_sym (r + i)). reflexivity. }
  match goal with |- context [vsetseg (vsetseg _ 0 ?a) N ?b] => set (Ca := a); set (Cb := b) end.
  assert (La : vlen Ca = N) by reflexivity. assert (Lb : vlen Cb = N) by reflexivity.
  assert (Va : vget Ca i = pos (lsx (hlip h0)) - lh (hlip h0) * acc (lsx (hlip h0)) / (981/100) - vget (fsx (sleft (hsup h0))) 0).
  { unfold Ca. cbn [vadd vget]. rewrite !B by auto. rewrite Nat.eqb_refl. destruct (Nat.eqb_spec 0 N); [lia|]. unfold GRAVITY_NORM. rsimpl. lra. }
  assert (Vb : vget Cb i = pos (lsy (hlip h0)) - lh (hlip h0) * acc (lsy (hlip h0)) / (981/100) - vget (fsy (sleft (hsup h0))) 0).
  { unfold Cb. cbn [vadd vget]. rewrite !B by auto. rewrite Nat.eqb_refl. destruct (Nat.eqb_spec N 0); [lia|]. unfold GRAVITY_NORM. rsimpl. lra. }
  unfold dCopX, dCopY, vsetseg. cbn [vget vlen]. rewrite La, Lb. unfold cop_of, GRAVITY, GRAVITY_NORM. cbn [gx gy gz].
  split.
  - bools; try (exfalso; lia). rewrite Nat.sub_0_r, Va. rsimpl. field.
  - bools; try (exfalso; lia). replace (N + i - N)%nat with i by lia. rewrite Vb. rsimpl. field.
Qed.

(** Otherwise it starts from the previous solution: the centres of pressure as they are and the steps that are still to be
    made, without the one that has just been completed. *)
Theorem C64_otherwise_continues : forall h0 fb h tn S0, reached h0 -> h_prepare fb h0 = Ok h -> ready (hsup h0) (hX h0) tn S0 ->
  let N := lN (hlip h0) in
  (hfirst h0 = false -> forall i, (i < 2 * N)%nat -> vget (hX h) i = vget (hX h0) i)
  /\ exists ph, nth_error (cbl (stl (hsup h0))) 0 = Some ph
  /\ let completed := if (Rltb (sttnp (hsup h0)) EPS && negb (is_DS (phType ph)))%bool then 1%nat else 0%nat in
     forall k, (k < nb_steps N (hX h))%nat -> (k + completed < nb_steps N (hX h0))%nat ->
       stepX N (hX h) k = stepX N (hX h0) (k + completed) /\ stepY N (hX h) k = stepY N (hX h0) (k + completed).
Proof.
  intros h0 fb h tn S0 H0 Hp Rd N. destruct (h_prepare_cases _ _ _ Hp) as (s & X & l & Hu & Hl & _ & EN & E1 & E2 & _ & _ & _ & _ & _ & _ & _ & _ & _ & _ & EL & _ & EX & EF).
  pose proof (reached_inv h0 H0) as I. pose proof (hi_N _ I) as EN0.
  destruct (C33_steps_kept_and_added _ _ _ _ fb Rd) as (s' & v' & ph & f & E & Hph & _ & Q1 & Q2). rewrite Hu in E. injection E as <- <-.
  assert (HN : sN (hsup h0) = N) by (unfold N; congruence). rewrite HN in Q1, Q2.
  assert (Hl' : lN l = N) by (rewrite <- EN, (update_N _ _ _ _ _ Hu); exact HN). rewrite Hl' in EX.
  split; [intros Hf i Hi; rewrite (EF Hf); apply Q1; exact Hi|]. exists ph. split; [exact Hph|].
  intros c k Hk Hc. assert (EM : nb_steps N (hX h) = nb_steps N X) by (unfold nb_steps; rewrite EL; reflexivity).
  rewrite EM in Hk. destruct (proj1 (Q2 k Hk) Hc) as (A & B). unfold stepX, stepY in *. rewrite EM. rewrite !EX by lia. auto.
Qed.

(** ** The motion found *)
Lemma mid3_sim_upto S T x J0 J1 J2 n i : (forall k, (k < n)%nat -> J0 k = (J1 k + J2 k) / 2) -> (i < n)%nat -> PropZebSolve.mid3 (sim S T x J0 i) (sim S T x J1 i) (sim S T x J2 i).
Proof.
  intros H. induction i as [|i IH]; intros Hi; cbn [sim]; apply PropZebSolve.mid3_raw; try (apply H; lia).
  - unfold PropZebSolve.mid3. repeat split; field.
  - apply IH. lia.
Qed.
Lemma cost_mid h S w Y0 Y1 Y2 A0 A1 A2 B0 B1 B2 : let N := lN (hlip h) in
  (forall i, (i < N)%nat -> 0 <= w i) -> (forall k, Y0 k = (Y1 k + Y2 k) / 2) ->
  (forall k, (k < N)%nat -> A0 k = (A1 k + A2 k) / 2) -> (forall k, (k < N)%nat -> B0 k = (B1 k + B2 k) / 2) ->
  hum_cost h S w Y0 A0 B0 <= (hum_cost h S w Y1 A1 B1 + hum_cost h S w Y2 A2 B2) / 2
    - / 8 * (Rmax 0 (wJerkM (hw h)) * ssum N (fun i => w i * ((A1 i - A2 i) ^ 2 + (B1 i - B2 i) ^ 2))
             + Rmax 0 (wCopC (hw h)) * ssum N (fun i => (dCopX Y1 i - dCopX Y2 i) ^ 2 + (dCopY N Y1 i - dCopY N Y2 i) ^ 2)).
Proof.
  intros N Hw HY HA HB. unfold hum_cost. cbv zeta. fold N.
  assert (C : ssum N (fun i => dCopX Y0 i ^ 2 + dCopY N Y0 i ^ 2) = / 2 * ssum N (fun i => dCopX Y1 i ^ 2 + dCopY N Y1 i ^ 2) + / 2 * ssum N (fun i => dCopX Y2 i ^ 2 + dCopY N Y2 i ^ 2)
     - / 4 * ssum N (fun i => (dCopX Y1 i - dCopX Y2 i) ^ 2 + (dCopY N Y1 i - dCopY N Y2 i) ^ 2)).
  { rewrite <- !ssum_mul_l, <- ssum_plus, <- ssum_minus. apply ssum_ext. intros i Hi. unfold dCopX, dCopY. rewrite !HY. field. }
  assert (J : ssum N (fun i => w i * (A0 i ^ 2 + B0 i ^ 2)) = / 2 * ssum N (fun i => w i * (A1 i ^ 2 + B1 i ^ 2)) + / 2 * ssum N (fun i => w i * (A2 i ^ 2 + B2 i ^ 2))
     - / 4 * ssum N (fun i => w i * ((A1 i - A2 i) ^ 2 + (B1 i - B2 i) ^ 2))).
  { rewrite <- !ssum_mul_l, <- ssum_plus, <- ssum_minus. apply ssum_ext. intros i Hi. rewrite HA, HB by assumption. field. }
  set (T := lT (hlip h)). set (x := lsx (hlip h)). set (y := lsy (hlip h)). set (r := hvelRef h).
  assert (V : ssum N (fun i => w i * ((vel (sim S T x A0 i) - vget r i) ^ 2 + (vel (sim S T y B0 i) - vget r (N + i)) ^ 2))
     <= / 2 * ssum N (fun i => w i * ((vel (sim S T x A1 i) - vget r i) ^ 2 + (vel (sim S T y B1 i) - vget r (N + i)) ^ 2))
      + / 2 * ssum N (fun i => w i * ((vel (sim S T x A2 i) - vget r i) ^ 2 + (vel (sim S T y B2 i) - vget r (N + i)) ^ 2))).
  { rewrite <- !ssum_mul_l, <- ssum_plus. apply ssum_le. intros i Hi.
    destruct (mid3_sim_upto S T x A0 A1 A2 N i HA Hi) as (_ & -> & _). destruct (mid3_sim_upto S T y B0 B1 B2 N i HB Hi) as (_ & -> & _).
    generalize (vel (sim S T x A1 i)) (vel (sim S T x A2 i)) (vel (sim S T y B1 i)) (vel (sim S T y B2 i)) (vget r i) (vget r (N + i)%nat). intros a b c d e f.
    replace (/ 2 * (w i * ((a - e) ^ 2 + (c - f) ^ 2)) + / 2 * (w i * ((b - e) ^ 2 + (d - f) ^ 2)))
      with (w i * (((a + b) / 2 - e) ^ 2 + ((c + d) / 2 - f) ^ 2) + / 4 * w i * ((a - b) ^ 2 + (c - d) ^ 2)) by field.
    specialize (Hw i Hi). pose proof (pow2_ge_0 (a - b)). pose proof (pow2_ge_0 (c - d)).
    assert (0 <= w i * ((a - b) ^ 2 + (c - d) ^ 2)) by (apply Rmult_le_pos; lra). lra. }
  rewrite C, J. pose proof (Rmult_le_compat_l _ _ _ (Rmax_l 0 (wVelT (hw h))) V). lra.
Qed.
(** the conversion to jerks depends on the decision vector in an affine way *)
Lemma foot_half s f (a b : nat -> R) i : foot_at s f (fun k => (a k + b k) / 2) i = (foot_at s f a i + foot_at s f b i) / 2.
Proof.
  unfold foot_at. rewrite (ssum_ext (snb s) (fun k => IZR (mget (selV (ssel s)) i k) * ((a k + b k) / 2)) (fun k => / 2 * (IZR (mget (selV (ssel s)) i k) * a k + IZR (mget (selV (ssel s)) i k) * b k))) by (intros; field).
  rewrite ssum_mul_l, ssum_plus. field.
Qed.
Lemma convert_half h X1 X2 X0 t1 t2 t0 : hinv h -> shapes (hsup h) ->
  h_convert (hlip h) (hsup h) X1 = Ok t1 -> h_convert (hlip h) (hsup h) X2 = Ok t2 -> h_convert (hlip h) (hsup h) X0 = Ok t0 ->
  (forall k, vget X0 k = (vget X1 k + vget X2 k) / 2) ->
  forall i, (i < 2 * lN (hlip h))%nat -> vget t0 i = (vget t1 i + vget t2 i) / 2.
Proof.
  intros I Sh H1 H2 H0 HX i Hi. set (N := lN (hlip h)) in *.
  destruct (convert_inv _ _ _ I Sh H1) as (z & cx & cy & Vx & Vy & fx & fy & F1). pose proof (convert_gets _ _ _ _ _ _ _ _ _ _ F1) as G.
  destruct (convert_inv _ _ _ I Sh H2) as (z' & cx' & cy' & Vx' & Vy' & fx' & fy' & F2). pose proof (convert_gets _ _ _ _ _ _ _ _ _ _ F2) as G'.
  destruct (gets_unique _ _ _ _ _ _ _ _ _ _ _ _ _ _ _ G G') as (-> & -> & -> & -> & -> & -> & ->). clear G'.
  destruct (convert_inv _ _ _ I Sh H0) as (z' & cx' & cy' & Vx' & Vy' & fx' & fy' & F0). pose proof (convert_gets _ _ _ _ _ _ _ _ _ _ F0) as G'.
  destruct (gets_unique _ _ _ _ _ _ _ _ _ _ _ _ _ _ _ G G') as (-> & -> & -> & -> & -> & -> & ->). clear G'.
  destruct (Nat.lt_ge_cases i N) as [Hn|Hn].
  - rewrite (cv_x _ _ _ _ _ _ _ _ _ _ F0), (cv_x _ _ _ _ _ _ _ _ _ _ F1), (cv_x _ _ _ _ _ _ _ _ _ _ F2) by exact Hn. fold N.
    unfold Rdiv. rewrite Rmult_comm, <- ssum_plus, <- ssum_mul_l. apply ssum_ext. intros k Hk. rewrite HX.
    pose proof (foot_half (hsup h) fx (dStepX N (vget X1)) (dStepX N (vget X2)) k) as E.
    assert (E0 : dStepX N (vget X0) = (fun k => (dStepX N (vget X1) k + dStepX N (vget X2) k) / 2)) by (apply functional_extensionality; intros j; unfold dStepX; apply HX).
    rewrite E0, E. field.
  - replace i with (N + (i - N))%nat by lia. assert (Hm : (i - N < N)%nat) by lia.
    rewrite (cv_y _ _ _ _ _ _ _ _ _ _ F0), (cv_y _ _ _ _ _ _ _ _ _ _ F1), (cv_y _ _ _ _ _ _ _ _ _ _ F2) by exact Hm. fold N.
    unfold Rdiv. rewrite Rmult_comm, <- ssum_plus, <- ssum_mul_l. apply ssum_ext. intros k Hk. rewrite HX.
    pose proof (foot_half (hsup h) fy (dStepY N (snb (hsup h)) (vget X1)) (dStepY N (snb (hsup h)) (vget X2)) k) as E.
    assert (E0 : dStepY N (snb (hsup h)) (vget X0) = (fun k => (dStepY N (snb (hsup h)) (vget X1) k + dStepY N (snb (hsup h)) (vget X2) k) / 2)) by (apply functional_extensionality; intros j; unfold dStepY; apply HX).
    rewrite E0, E. field.
Qed.
Lemma convert_ext h X1 X2 t1 t2 : hinv h -> shapes (hsup h) ->
  h_convert (hlip h) (hsup h) X1 = Ok t1 -> h_convert (hlip h) (hsup h) X2 = Ok t2 -> (forall k, vget X2 k = vget X1 k) ->
  forall i, (i < 2 * lN (hlip h))%nat -> vget t2 i = vget t1 i.
Proof.
  intros I Sh H1 H2 E i Hi. assert (H : vget t2 i = (vget t1 i + vget t1 i) / 2); [|lra].
  apply (convert_half h X1 X1 X2 t1 t1 t2 I Sh H1 H1 H2); [|exact Hi]. intros k. rewrite E. field.
Qed.
Lemma convert_defined h X X' t : h_convert (hlip h) (hsup h) X = Ok t -> vlen X' = vlen X -> exists t', h_convert (hlip h) (hsup h) X' = Ok t'.
Proof.
  unfold h_convert. intros H EL. rewrite EL. 
  repeat (apply bind_ok in H; let a := fresh "a" in let Ha := fresh "Ha" in destruct H as (a & Ha & H); rewrite Ha; cbn [bind]).
  eauto.
Qed.

Lemma weights_positive h0 fb h tn S0 : reached h0 -> h_prepare fb h0 = Ok h -> ready (hsup h0) (hX h0) tn S0 -> S0 <= sT (hsup h0) ->
  forall i, (i < lN (hlip h))%nat -> 0 < mget (selW (ssel (hsup h))) i i.
Proof.
  intros H0 Hp Rd HS i Hi. destruct (prepared _ _ _ H0 Hp) as (I & Sh & HN).
  destruct (h_prepare_cases _ _ _ Hp) as (s & X1 & l & Hu & Hl & _ & EN & E1 & E2 & _).
  assert (ENN : sN (hsup h0) = lN (hlip h)) by (rewrite <- (hi_N _ I), E1; symmetry; exact (update_N _ _ _ _ _ Hu)).
  rewrite (weights _ _ _ _ _ _ Hp Rd) by (rewrite ENN; exact Hi). unfold sample_weight.
  destruct (ry_sample _ _ _ _ Rd) as ((S1 & _) & _). pose proof (ry_T _ _ _ _ Rd) as HT. assert (HE : 0 < EPS) by (rsimpl; lra).
  assert (Hd : 0 < S0 / sT (hsup h0) <= 1).
  { split; [apply Rdiv_lt_0_compat; lra|]. apply (Rmult_le_reg_r (sT (hsup h0))); [lra|]. unfold Rdiv. rewrite Rmult_assoc, Rinv_l by lra. lra. }
  destruct (Nat.eqb _ _); [lra|]. destruct (Nat.eqb _ _); lra.
Qed.

(** With a positive weight on the jerk, every minimiser of the problem stands for the same jerks at every sample; with a
    positive weight on the centering of the CoP as well, for the same centres of pressure. *)
Theorem C64_one_motion : forall h0 fb h q idx d e t u tn S0 S, reached h0 -> h_prepare fb h0 = Ok h -> h_problem h = Ok (q, idx) ->
  ready (hsup h0) (hX h0) tn S0 -> S0 <= sT (hsup h0) -> first_interval h S -> 0 < wJerkM (hw h) ->
  qminimiser q (vget d) -> qminimiser q (vget e) ->
  h_convert (hlip h) (hsup h) (vadd (hX h) d) = Ok t -> h_convert (hlip h) (hsup h) (vadd (hX h) e) = Ok u ->
  let N := lN (hlip h) in
  (forall i, (i < 2 * N)%nat -> vget t i = vget u i)
  /\ (0 < wCopC (hw h) -> forall i, (i < 2 * N)%nat -> moved h (vget d) i = moved h (vget e) i).
Proof.
  intros h0 fb h q idx d e t u tn S0 S H0 Hp Hq Rd HS HF HW (Fd & Md) (Fe & Me) Ht Hu N. destruct (prepared _ _ _ H0 Hp) as (I & Sh & HN).
  pose proof (weights_positive _ _ _ _ _ H0 Hp Rd HS) as Wp. fold N in Wp.
  set (m := MkVec (vlen d) (fun k => (vget d k + vget e k) / 2)).
  assert (Fm : qfeasible q (vget m)) by exact (PropZebSolve.feasible_mid q _ _ Fd Fe).
  destruct (convert_defined h (vadd (hX h) d) (hX h) t Ht eq_refl) as (t0 & Ht0).
  destruct (convert_defined h (vadd (hX h) d) (vadd (hX h) m) t Ht eq_refl) as (tm & Htm).
  pose proof (problem_cost _ _ _ _ _ _ _ I Sh Hq HF Ht0 Ht) as Cd. pose proof (problem_cost _ _ _ _ _ _ _ I Sh Hq HF Ht0 Hu) as Ce.
  pose proof (problem_cost _ _ _ _ _ _ _ I Sh Hq HF Ht0 Htm) as Cm. cbv zeta in Cd, Ce, Cm. fold N in Cd, Ce, Cm.
  set (w := fun i => mget (selW (ssel (hsup h))) i i) in *.
  assert (Hm : forall i, (i < 2 * N)%nat -> vget tm i = (vget t i + vget u i) / 2).
  { apply (convert_half h _ _ _ t u tm I Sh Ht Hu Htm). intros k. cbn [vadd vget m]. rsimpl. field. }
  pose proof (cost_mid h S w (moved h (vget m)) (moved h (vget d)) (moved h (vget e)) (vget tm) (vget t) (vget u)
     (fun i => vget tm (N + i)) (fun i => vget t (N + i)) (fun i => vget u (N + i))) as Q. cbv zeta in Q. fold N in Q.
  specialize (Q ltac:(intros i Hi; left; apply Wp; exact Hi) ltac:(intros k; unfold moved; cbn [m vget]; field) ltac:(intros k Hk; apply Hm; lia) ltac:(intros k Hk; apply Hm; lia)).
  pose proof (Md _ Fm) as D1. pose proof (Me _ Fm) as D2. pose proof (Md _ Fe) as D3. pose proof (Me _ Fd) as D4.
  set (SJ := ssum N (fun i => w i * ((vget t i - vget u i) ^ 2 + (vget t (N + i) - vget u (N + i)) ^ 2))) in *.
  set (SC := ssum N (fun i => (dCopX (moved h (vget d)) i - dCopX (moved h (vget e)) i) ^ 2 + (dCopY N (moved h (vget d)) i - dCopY N (moved h (vget e)) i) ^ 2)) in *.
  assert (PJ : 0 <= SJ).
  { apply ssum_nonneg. intros i Hi. apply Rmult_le_pos; [left; apply Wp; exact Hi|]. pose proof (pow2_ge_0 (vget t i - vget u i)). pose proof (pow2_ge_0 (vget t (N + i) - vget u (N + i))). lra. }
  assert (PC : 0 <= SC).
  { apply ssum_nonneg. intros i Hi. match goal with |- 0 <= ?a ^ 2 + ?b ^ 2 => pose proof (pow2_ge_0 a); pose proof (pow2_ge_0 b) end. lra. }
  rewrite (Rmax_right 0 (wJerkM (hw h))) in Q by lra.
  pose proof (Rmult_le_pos _ _ (Rlt_le _ _ HW) PJ) as PJ'. pose proof (Rmult_le_pos _ _ (Rmax_l 0 (wCopC (hw h))) PC) as PC'.
  assert (ZJ : wJerkM (hw h) * SJ + Rmax 0 (wCopC (hw h)) * SC <= 0) by lra.
  split.
  - assert (Z : SJ = 0). { destruct (Rmult_integral (wJerkM (hw h)) SJ); lra. }
    assert (P : forall i, (i < N)%nat -> vget t i = vget u i /\ vget t (N + i) = vget u (N + i)).
    { intros i Hi. set (a := vget t i - vget u i). set (b := vget t (N + i) - vget u (N + i)).
      assert (Hz : a = 0 /\ b = 0); [|unfold a, b in Hz; lra].
      destruct (Req_dec a 0) as [Ea|Ea], (Req_dec b 0) as [Eb|Eb]; [auto|exfalso..];
        (assert (0 < SJ); [|lra]; apply (ssum_pos _ _ i); [|exact Hi|]; [intros j Hj; apply Rmult_le_pos; [left; apply Wp; exact Hj|];
           match goal with |- 0 <= ?a ^ 2 + ?b ^ 2 => pose proof (pow2_ge_0 a); pose proof (pow2_ge_0 b) end; lra|]);
        fold a b; apply Rmult_lt_0_compat; try (apply Wp; exact Hi); nra. }
    intros i Hi. destruct (Nat.lt_ge_cases i N) as [Hl|Hl]; [apply P; exact Hl|]. replace i with (N + (i - N))%nat by lia. apply P. lia.
  - intros HC. rewrite Rmax_right in ZJ, PC' by lra.
    assert (Z : SC = 0). { destruct (Rmult_integral (wCopC (hw h)) SC); lra. }
    assert (P : forall i, (i < N)%nat -> moved h (vget d) i = moved h (vget e) i /\ moved h (vget d) (N + i) = moved h (vget e) (N + i)).
    { intros i Hi. set (a := moved h (vget d) i - moved h (vget e) i). set (b := moved h (vget d) (N + i) - moved h (vget e) (N + i)).
      assert (Hz : a = 0 /\ b = 0); [|unfold a, b in Hz; lra].
      destruct (Req_dec a 0) as [Ea|Ea], (Req_dec b 0) as [Eb|Eb]; [auto|exfalso..];
        (assert (0 < SC); [|lra]; apply (ssum_pos _ _ i); [|exact Hi|]; [intros j Hj;
           match goal with |- 0 <= ?a ^ 2 + ?b ^ 2 => pose proof (pow2_ge_0 a); pose proof (pow2_ge_0 b) end; lra|]);
        unfold dCopX, dCopY; fold a b; nra. }
    intros i Hi. destruct (Nat.lt_ge_cases i N) as [Hl|Hl]; [apply P; exact Hl|]. replace i with (N + (i - N))%nat by lia. apply P. lia.
Qed.

Lemma sim_ext S T x A B i : (forall k, (k <= i)%nat -> A k = B k) -> sim S T x A i = sim S T x B i.
Proof. induction i as [|i IH]; intros H; cbn [sim]; rewrite H by lia; [reflexivity|]. rewrite IH; [reflexivity|]. intros k Hk. apply H. lia. Qed.
(** The same generator with another decision vector *)
Definition with_plan (X : vec R) (h : hum R) : hum R :=
  MkHum (hsup h) (hlip h) (hvelRef h) (hcopLen h) (hsolvers h) (hmats h) (hdX h) X (htX h) (hw h) (hcopC h) (hfeetC h) (hmaxC h) (hmaxS h) (hmove h) (hfirst h).

(** The centres of pressure that the problem is linearised around do not matter: whatever they are replaced by, the minimisers
    stand for the same jerks and the same centres of pressure, as long as no change reaches the 10^11 taken for infinity. *)
Theorem C64_guess_does_not_matter : forall h0 fb h X2 q idx q2 idx2 d e t u tn S0 S, reached h0 -> h_prepare fb h0 = Ok h ->
  ready (hsup h0) (hX h0) tn S0 -> S0 <= sT (hsup h0) -> first_interval h S -> 0 < wJerkM (hw h) ->
  vlen X2 = vlen (hX h) -> (forall k, (2 * lN (hlip h) <= k)%nat -> vget X2 k = vget (hX h) k) ->
  h_problem h = Ok (q, idx) -> h_problem (with_plan X2 h) = Ok (q2, idx2) ->
  qminimiser q (vget d) -> qminimiser q2 (vget e) ->
  h_convert (hlip h) (hsup h) (vadd (hX h) d) = Ok t -> h_convert (hlip h) (hsup h) (vadd X2 e) = Ok u ->
  moderate h (fun k => vget X2 k + vget e k - vget (hX h) k) -> moderate h (fun k => vget (hX h) k + vget d k - vget X2 k) ->
  let N := lN (hlip h) in
  (forall i, (i < 2 * N)%nat -> vget t i = vget u i)
  /\ (0 < wCopC (hw h) -> forall i, (i < 2 * N)%nat -> vget (hX h) i + vget d i = vget X2 i + vget e i).
Proof.
  intros h0 fb h X2 q idx q2 idx2 d e t u tn S0 S H0 Hp Rd HS HF HW L2 E2 Hq Hq2 Md Me Ht Hu M1 M2 N. destruct (prepared _ _ _ H0 Hp) as (I & Sh & HN).
  set (h2 := with_plan X2 h) in *. assert (I2 : hinv h2) by (destruct I; constructor; assumption).
  destruct (convert_inv _ _ _ I Sh Ht) as (z & cx & cy & Vx & Vy & fx & fy & F1). pose proof (cv_foot _ _ _ _ _ _ _ _ _ _ F1) as Hs. clear F1.
  set (e' := MkVec (vlen (hX h)) (fun k => vget X2 k + vget e k - vget (hX h) k)).
  set (d' := MkVec (vlen (hX h)) (fun k => vget (hX h) k + vget d k - vget X2 k)).
  assert (SX : dStepX N (vget X2) = dStepX N (vget (hX h))) by (apply functional_extensionality; intros k; unfold dStepX; apply E2; fold N; lia).
  assert (SY : dStepY N (snb (hsup h)) (vget X2) = dStepY N (snb (hsup h)) (vget (hX h))) by (apply functional_extensionality; intros k; unfold dStepY; apply E2; fold N; lia).
  assert (Ve : moved h (vget e') = moved h2 (vget e)) by (apply functional_extensionality; intros k; unfold moved; cbn [e' vget h2 with_plan hX]; ring).
  assert (Vd : moved h2 (vget d') = moved h (vget d)) by (apply functional_extensionality; intros k; unfold moved; cbn [d' vget h2 with_plan hX]; ring).
  assert (BX : forall Y, step_box h fx fy (vget (hX h)) Y <-> step_box h2 fx fy (vget X2) Y).
  { intros Y. unfold step_box. cbn [h2 with_plan hlip hsup]. fold N. rewrite SX, SY. reflexivity. }
  pose proof (fun x => feasible_iff h q idx x fx fy I Hq Hs) as Fi. pose proof (fun x => feasible_iff h2 q2 idx2 x fx fy I2 Hq2 Hs) as Fi2.
  destruct Md as (Fd & Md), Me as (Fe & Me).
  assert (Fe' : qfeasible q (vget e')).
  { apply Fi. split; [exact M1|]. apply Fi2 in Fe. destruct Fe as (_ & A & B). rewrite Ve. split; [exact A|]. intros C. destruct (B C) as (B1 & B2). split; [exact B1|]. apply BX. exact B2. }
  assert (Fd' : qfeasible q2 (vget d')).
  { apply Fi2. split; [exact M2|]. apply Fi in Fd. destruct Fd as (_ & A & B). rewrite Vd. split; [exact A|]. intros C. destruct (B C) as (B1 & B2). split; [exact B1|]. apply BX. exact B2. }
  destruct (convert_defined h _ (hX h) t Ht eq_refl) as (t0 & Ht0). destruct (convert_defined h _ X2 t Ht L2) as (u0 & Hu0).
  destruct (convert_defined h _ (vadd (hX h) e') t Ht eq_refl) as (te & Hte). destruct (convert_defined h _ (vadd X2 d') t Ht L2) as (td & Htd).
  assert (HF2 : first_interval h2 S) by exact HF.
  pose proof (problem_cost h q idx t0 t d S I Sh Hq HF Ht0 Ht) as C1. pose proof (problem_cost h q idx t0 te e' S I Sh Hq HF Ht0 Hte) as C2.
  pose proof (problem_cost h2 q2 idx2 u0 u e S I2 Sh Hq2 HF2 Hu0 Hu) as C3. pose proof (problem_cost h2 q2 idx2 u0 td d' S I2 Sh Hq2 HF2 Hu0 Htd) as C4.
  cbv zeta in C1, C2, C3, C4. rewrite Ve in C2. rewrite Vd in C4.
  assert (Xe : forall i, (i < 2 * N)%nat -> vget te i = vget u i). { apply (convert_ext h _ _ u te I Sh Hu Hte). intros k. cbn [vadd vget e']. rsimpl. ring. }
  assert (Xd : forall i, (i < 2 * N)%nat -> vget td i = vget t i). { apply (convert_ext h _ _ t td I Sh Ht Htd). intros k. cbn [vadd vget d']. rsimpl. ring. }
  assert (CE : forall w Y (a b : vec R), (forall i, (i < 2 * N)%nat -> vget a i = vget b i) ->
     hum_cost h S w Y (vget a) (fun i => vget a (N + i)) = hum_cost h S w Y (vget b) (fun i => vget b (N + i))).
  { intros w Y a b E. unfold hum_cost. cbv zeta. fold N. f_equal. f_equal. f_equal.
    - f_equal. apply ssum_ext. intros i Hi. rewrite (sim_ext _ _ _ (vget a) (vget b) i), (sim_ext _ _ _ (fun i => vget a (N + i)) (fun i => vget b (N + i)) i); [reflexivity|intros; apply E; lia..].
    - f_equal. apply ssum_ext. intros i Hi. rewrite !E by lia. reflexivity. }
  change (lN (hlip h2)) with N in C3, C4. fold N in C1, C2. change (hum_cost h2) with (hum_cost h) in C3, C4. change (hsup h2) with (hsup h) in C3, C4.
  rewrite (CE _ _ te u Xe) in C2. rewrite (CE _ _ td t Xd) in C4.
  assert (Me' : qminimiser q (vget e')).
  { split; [exact Fe'|]. intros y Fy. pose proof (Md _ Fy). pose proof (Me _ Fd'). pose proof (Md _ Fe'). lra. }
  destruct (C64_one_motion h0 fb h q idx d e' t te tn S0 S H0 Hp Hq Rd HS HF HW (conj Fd Md) Me' Ht Hte) as (P & Q).
  split; [intros i Hi; rewrite <- Xe by exact Hi; apply P; exact Hi|]. intros HC i Hi. specialize (Q HC i Hi). rewrite Ve in Q. exact Q.
Qed.
End Start.

(** A new generator with square feet, all weights 1, without constraints, that starts to walk: the hypotheses of the theorems
    hold, the problem has a minimiser, and replacing the centres of pressure by others changes nothing. *)
Example C64_case : forall TK : Trig R, exists h0 h q idx d t tn S0 S, reached h0 /\ h_prepare (1/10) h0 = Ok h /\ h_problem h = Ok (q, idx)
  /\ ready (hsup h0) (hX h0) tn S0 /\ S0 <= sT (hsup h0) /\ first_interval h S /\ hfirst h0 = true /\ 0 < wJerkM (hw h) /\ 0 < wCopC (hw h)
  /\ qminimiser q (vget d) /\ h_convert (hlip h) (hsup h) (vadd (hX h) d) = Ok t.
Proof.
  intros TK. destruct (PropHumRun.C55_case TK false false) as (h0 & h1 & E0 & E1 & _ & Rw & _). specialize (Rw eq_refl eq_refl).
  pose (o := fun (q : qpmats R) (z : Z) => (fun _ : nat => 0, true)).
  assert (Hr0 : reached h0) by (constructor; exact E0).
  assert (F : hw h1 = MkHW 0 0 0 /\ hfirst h1 = true /\ vlen (hX h1) = 2%nat /\ hcopC h1 = false /\ hfeetC h1 = false
     /\ sN (hsup h1) = 1%nat /\ sT (hsup h1) = 1 /\ sstep (hsup h1) = 2 /\ sDS (hsup h1) = 2 /\ sttnp (hsup h1) = 2 /\ stl (hsup h1) = MkCb [MkPhase DS 2] 1
     /\ vlen (fsx (sleft (hsup h1))) = 3%nat /\ vlen (fsy (sleft (hsup h1))) = 3%nat
     /\ fkin (sleft (hsup h1)) = PropHumRun.square 1 /\ fkin (sright (hsup h1)) = PropHumRun.square 1).
  { clear Rw Hr0. unfold newHum, newSupDefault, newSup, newFoot in E0. apply bind_ok in E0. destruct E0 as (s & Hs & E0). apply bind_ok in E0. destruct E0 as (l & Hl & E0). injection E0 as <-.
    binds Hs. repeat match goal with Q : bind _ _ = Ok _ |- _ => lazymatch type of Q with newLipDefault = _ => fail | hsteps _ _ = _ => fail | _ => binds Q; injection Q as <- end end. injection Hs as <-.
    assert (EN : lN l = 1%nat). { unfold newLipDefault, newLip, l_auto, l_computeDynamics in Hl. cbn [lauto] in Hl. binds Hl. injection Hl as <-. reflexivity. }
    cbn in E1. injection E1 as <-. cbn. rewrite EN. rsimpl. repeat split; try lra; try reflexivity. f_equal. f_equal. f_equal. lra. }
  destruct F as (Fw & Ff & FX & Fc & Fs & FN & FT & Fst & FD & Ft & Fl & F1 & F2 & F3 & F4).
  assert (Hr1 : reached h1).
  { assert (G : forall cs (h h' : hum R), reached h -> hsteps cs h = Ok h' -> reached h').
    { induction cs as [|c cs IH]; intros h h' Hh H; cbn [hsteps] in H; [injection H as <-; exact Hh|]. apply bind_ok in H. destruct H as (k & Hk & H). exact (IH k h' (reached_call _ _ _ Hh Hk) H). }
    exact (G _ _ _ Hr0 E1). }
  destruct (PropHumRun.C55_unconstrained_cop _ _ _ _ _ [HSetWeightings (MkHW 1 1 1); HSolve o (1/10)] Rw) as (h' & E); [|exact Fc|].
  { cbn [HumRunSpec.permitted HumRunSpec.may]. rewrite Fw. cbn. repeat split; lra. }
  cbn [hsteps] in E. apply bind_ok in E. destruct E as (h2 & E2 & E). apply bind_ok in E. destruct E as (h3 & E3 & _).
  pose proof (reached_call _ _ _ Hr1 E2) as Hr2. cbn [hstep] in E2, E3. apply bind_ok in E3. destruct E3 as (r & E3 & _).
  unfold h_solve in E3. apply bind_ok in E3. destruct E3 as (h & Ep & E3). apply bind_ok in E3. destruct E3 as ((q & idx) & Eq & E3).
  cbn [fst snd] in E3. apply finish_cases in E3. destruct E3 as (dX & Y & t & l1 & l2 & s & LY & _ & _ & Et & _).
  unfold h_setWeightings in E2. binds E2. injection E2 as <-.
  match type of Ep with h_prepare _ ?x = _ => set (h2 := x) in * end.
  destruct (prepared _ _ _ Hr2 Ep) as (I & Sh & _). destruct (h_prepare_cases _ _ _ Ep) as (s1 & X1 & l3 & _ & _ & _ & _ & _ & _ & _ & _ & _ & _ & Ew & Ec & Efe & _).
  destruct (convert_inv _ _ _ I Sh Et) as (z & cx & cy & Vx & Vy & fx & fy & G). pose proof (cv_foot _ _ _ _ _ _ _ _ _ _ G) as Gs.
  assert (F0 : qfeasible q (fun _ => 0)).
  { apply (feasible_iff h q idx _ fx fy I Eq Gs). rewrite Ec, Efe. change (hcopC h2) with (hcopC h1). change (hfeetC h2) with (hfeetC h1). rewrite Fc, Fs.
    split; [|split; discriminate]. unfold moderate. rewrite Ec, Efe. change (hcopC h2) with (hcopC h1). change (hfeetC h2) with (hfeetC h1). rewrite Fc, Fs.
    split; [|split; discriminate]. intros j _. rewrite Rabs_R0. unfold MAXB. rsimpl. lra. }
  destruct (QPExist.qp_has_minimiser q (ex_intro _ _ F0)) as (x & Hx).
  destruct (convert_defined h _ (vadd (hX h) (MkVec 0 x)) t Et) as (t' & Et'); [cbn [vadd vlen]; symmetry; exact LY|].
  pose proof (cv_nb _ _ _ _ _ _ _ _ _ _ G) as Gn. unfold h_nb in Gn. apply bind_ok in Gn. destruct Gn as (nb & Gn & _).
  exists h2, h, q, idx, (MkVec 0 x), t', 2, 1, (IZR nb * lfb (hlip h)).
  split; [exact Hr2|]. split; [exact Ep|]. split; [exact Eq|].
  split.
  { change (hsup h2) with (hsup h1). change (hX h2) with (hX h1). constructor; rewrite ?FN, ?FT, ?Fst, ?FD, ?Ft, ?Fl, ?F1, ?F2, ?F3, ?F4, ?FX; cbn [cbl cbcap].
    - lia.
    - unfold EPS; rsimpl; lra.
    - exists 2%nat. split; [lia|]. cbn; lra.
    - exists 2%nat. split; [lia|]. cbn; lra.
    - split; [discriminate|reflexivity].
    - left. unfold EPS; rsimpl; lra.
    - split; [unfold EPS; rsimpl; lra|]. exists 1%nat. cbn; lra.
    - lia.
    - unfold PropHumRun.square. rewrite (proj2 (HumTable.polygon_counted _)). split; discriminate.
    - exists 0%nat. split; [reflexivity|]. intros H9. exfalso. revert H9. unfold EPS; rsimpl; lra. }
  split; [change (sT (hsup h2)) with (sT (hsup h1)); rewrite FT; lra|].
  split; [exists nb; auto|]. split; [exact Ff|]. rewrite Ew. cbn [h2 hw wJerkM wCopC]. split; [lra|]. split; [lra|]. split; [exact Hx|exact Et'].
Qed.
Print Assumptions C64_restarts_from_present_cop.
Print Assumptions C64_otherwise_continues.
Print Assumptions C64_one_motion.
Print Assumptions C64_guess_does_not_matter.
Print Assumptions C64_case.
