(** Proofs of property C70: the humanoid generator carried elsewhere poses the same problems. *)

From Coq Require Import Reals List ZArith Lra Lia Arith Bool FunctionalExtensionality.
From Verif Require Import Scalar LinAlg LinAlgFacts ToolsModel ToolsSpec ToolsFacts InterpModel NoDynModel PolygonModel PolygonFacts
  QPModel QPFacts TrajModel TrajFacts LipModel FootModel ModelsSpec ModelsFacts SupModel SupSpec SupFacts HumModel HumSpec HumAlg HumFacts HumObj HumProb ShiftSpec SupShift SelCover.
Import ListNotations.
Local Open Scope R_scope.

Lemma vec_ext (v w : vec R) : vlen v = vlen w -> (forall i, vget v i = vget w i) -> v = w.
Proof. destruct v, w. cbn. intros -> H. f_equal. apply functional_extensionality. exact H. Qed.
Lemma mv_mmul_get (A B : mat R) x i : vget (mv (mmul A B) x) i = vget (mv A (mv B x)) i.
Proof.
  cbn [mv mmul vget mcols mget]. rewrite (ssum_ext (mcols B) _ (fun k => ssum (mcols A) (fun j => mget A i j * (mget B j k * vget x k)))).
  - rewrite ssum_swap. apply ssum_ext. intros j _. rewrite ssum_mul_l. reflexivity.
  - intros k _. rsimpl. rewrite <- ssum_mul_r. apply ssum_ext. intros. ring.
Qed.
Lemma mv_ext (A : mat R) (x y : vec R) i : (forall k, (k < mcols A)%nat -> vget x k = vget y k) -> vget (mv A x) i = vget (mv A y) i.
Proof. intros H. cbn [mv vget]. apply ssum_ext. intros k Hk. rewrite H by exact Hk. reflexivity. Qed.
Lemma mv_plus (A : mat R) (x y w : vec R) i : (forall k, (k < mcols A)%nat -> vget x k = vget y k + vget w k) -> vget (mv A x) i = vget (mv A y) i + vget (mv A w) i.
Proof. intros H. cbn [mv vget]. rewrite <- ssum_plus. apply ssum_ext. intros k Hk. rewrite H by exact Hk. rsimpl. ring. Qed.
Lemma mv_minus (A : mat R) (x y w : vec R) i : (forall k, (k < mcols A)%nat -> vget x k = vget y k - vget w k) -> vget (mv A x) i = vget (mv A y) i - vget (mv A w) i.
Proof. intros H. cbn [mv vget]. rewrite <- ssum_minus. apply ssum_ext. intros k Hk. rewrite H by exact Hk. rsimpl. ring. Qed.

Lemma tab_rel A B (P : nat -> A -> B -> Prop) f g n : (forall i x, (i < n)%nat -> f i = Ok x -> exists y, g i = Ok y /\ P i x y) -> forall l, tabulateM f n = Ok l ->
  exists l', tabulateM g n = Ok l' /\ length l' = length l /\ forall i d d', (i < n)%nat -> P i (nth i l d) (nth i l' d').
Proof.
  induction n as [|n IH]; intros Q l H; cbn [tabulateM] in *.
  - injection H as <-. exists []. repeat split. intros. lia.
  - apply bind_ok in H. destruct H as (l0 & H0 & H). apply bind_ok in H. destruct H as (x & Hx & H). injection H as <-.
    destruct (IH ltac:(intros; apply Q; [lia|assumption]) _ H0) as (l1 & H1 & L1 & N1). destruct (Q n x ltac:(lia) Hx) as (y & Hy & Py). rewrite H1. cbn [bind]. rewrite Hy. cbn [bind].
    eexists. split; [reflexivity|]. split; [rewrite !app_length, L1; reflexivity|]. intros i d d' Hi. pose proof (tabulateM_length _ _ _ _ H0) as L0. destruct (Nat.eq_dec i n) as [->|Hne].
    + rewrite !app_nth2 by lia. rewrite L1, L0, Nat.sub_diag. exact Py.
    + rewrite !app_nth1 by lia. apply N1. lia.
Qed.
Lemma tab_same A (f g : nat -> res A) n l : (forall i x, (i < n)%nat -> f i = Ok x -> g i = Ok x) -> tabulateM f n = Ok l -> tabulateM g n = Ok l.
Proof.
  revert l. induction n as [|n IH]; intros l Q H; cbn [tabulateM] in *; [exact H|]. apply bind_ok in H. destruct H as (l0 & H0 & H). apply bind_ok in H. destruct H as (x & Hx & H).
  rewrite (IH _ ltac:(intros; apply Q; [lia|assumption]) H0). cbn [bind]. rewrite (Q n x ltac:(lia) Hx). cbn [bind]. exact H.
Qed.
Lemma Forall2_concat A B (P : A -> B -> Prop) l l' : Forall2 (Forall2 P) l l' -> Forall2 P (concat l) (concat l').
Proof. induction 1; cbn [concat]; [constructor|]. apply Forall2_app; assumption. Qed.
Lemma Forall2_nth A B (P : A -> B -> Prop) l : forall l', length l' = length l -> (forall i d d', (i < length l)%nat -> P (nth i l d) (nth i l' d')) -> Forall2 P l l'.
Proof.
  induction l as [|x l IH]; intros [|y l'] L H; try discriminate; constructor.
  - exact (H 0%nat x y ltac:(cbn; lia)).
  - apply IH; [cbn in L; lia|]. intros i d d' Hi. exact (H (S i) d d' ltac:(cbn; lia)).
Qed.
Lemma Forall2_nth_inv A B (P : A -> B -> Prop) l l' d d' i : Forall2 P l l' -> P d d' -> P (nth i l d) (nth i l' d').
Proof. intros H Hd. revert i. induction H; intros [|i]; cbn [nth]; auto. Qed.
Lemma vcwise_same (f : R -> R -> R) v off n w w' r : vlen w' = vlen w -> (forall k, (k < vlen w)%nat -> vget w' k = vget w k) -> vcwiseE f v off n w = Ok r -> vcwiseE f v off n w' = Ok r.
Proof.
  intros L E H. unfold vcwiseE in *. apply guard_ok in H. destruct H as (H0 & H). rewrite H0. cbn [guard bind]. rewrite L. apply guard_ok in H. destruct H as (H1 & H). rewrite H1. cbn [guard bind]. injection H as <-. f_equal.
  apply vec_ext; [reflexivity|]. intros i. unfold vcwise. cbn [vget]. rewrite L. destruct (_ && _)%bool eqn:Eb; [|reflexivity]. apply andb_prop in Eb. destruct Eb as (E1 & E2). apply Nat.leb_le in E1. apply Nat.ltb_lt in E2. rewrite E by lia. reflexivity.
Qed.
Lemma Forall2_map_same A B C (P : B -> C -> Prop) (f : A -> B) (g : A -> C) l : (forall c, P (f c) (g c)) -> Forall2 P (map f l) (map g l).
Proof. intros H. induction l; constructor; auto. Qed.
Lemma F2_length A B (P : A -> B -> Prop) l l' : Forall2 P l l' -> length l = length l'.
Proof. induction 1; cbn [length]; congruence. Qed.
Lemma F2_impl A B (P Q : A -> B -> Prop) l l' : (forall x y, P x y -> Q x y) -> Forall2 P l l' -> Forall2 Q l l'.
Proof. intros H. induction 1; constructor; auto. Qed.
Definition vsame (w w' : vec R) : Prop := vlen w' = vlen w /\ forall k, (k < vlen w)%nat -> vget w' k = vget w k.
Lemma addCtr_same r0 n v0 m size G f f' bd bd' q q2 : vsame f f' -> vsame (fst bd) (fst bd') -> vsame (snd bd) (snd bd') ->
  addCtr r0 n v0 m size G f bd q = Ok q2 -> addCtr r0 n v0 m size G f' bd' q = Ok q2.
Proof.
  intros (F1 & F2) (A1 & A2) (B1 & B2) H. unfold addCtr in *. apply bind_ok in H. destruct H as (A & HA & H). rewrite HA. cbn [bind]. apply bind_ok in H. destruct H as (bu & Hbu & H).
  rewrite (vcwise_same _ _ _ _ (vopp f) (vopp f') _ F1 ltac:(intros k Hk; cbn [vopp vget]; rewrite F2 by exact Hk; reflexivity) Hbu). cbn [bind].
  apply bind_ok in H. destruct H as (xl & Hxl & H). rewrite (vcwise_same _ _ _ _ _ _ _ A1 A2 Hxl). cbn [bind]. apply bind_ok in H. destruct H as (xu & Hxu & H). rewrite (vcwise_same _ _ _ _ _ _ _ B1 B2 Hxu). cbn [bind]. exact H.
Qed.

Section HShift.
Context {TK : Trig R}.
Variables a b : R.

Lemma tmp_T_all s N j i : shapes s -> sN s = N -> (i < 2 * N)%nat -> mget (h_tmpT N (snb s) s) j i = mget (h_tmp N (snb s) s) i j.
Proof.
  intros Sh EN Ha. destruct (sh_rot _ Sh) as (E1 & E2). destruct (selU_dims s N Sh EN) as (U1 & U2), (selUT_dims s N Sh EN) as (T1 & T2).
  unfold h_tmpT, h_tmp. rewrite E1, E2. cbn [msetblock mget mrows mcols mzero mtr mid]. rewrite U1, U2, T1, T2, EN. rewrite !(selU_get s Sh), !(selUT_get s Sh).
  bools; try reflexivity; try (exfalso; lia); try (repeat f_equal; lia).
Qed.
(** Shifting the decision vector is compensated in the linear part. *)
Lemma grad_same s N (P Q : mat R) (g1 g2 g1' g2' x0 x0' wx wy : vec R) : shapes s -> sN s = N ->
  mrows P = N -> mcols P = N -> mrows Q = N -> mcols Q = N -> vlen g1 = N -> vlen g2 = N -> vlen g1' = N -> vlen g2' = N ->
  (forall i, (i < N)%nat -> vget g1' i = vget g1 i - vget (mv P wx) i) -> (forall i, (i < N)%nat -> vget g2' i = vget g2 i - vget (mv Q wy) i) ->
  (forall i, (i < N)%nat -> vget (mv (h_tmp N (snb s) s) x0') i = vget (mv (h_tmp N (snb s) s) x0) i + vget wx i) ->
  (forall i, (i < N)%nat -> vget (mv (h_tmp N (snb s) s) x0') (N + i) = vget (mv (h_tmp N (snb s) s) x0) (N + i) + vget wy i) ->
  vadd (mv (h_tmpT N (snb s) s) (stack2 N g1' g2')) (mv (sandwich (h_tmp N (snb s) s) (diag2 N P Q)) x0')
  = vadd (mv (h_tmpT N (snb s) s) (stack2 N g1 g2)) (mv (sandwich (h_tmp N (snb s) s) (diag2 N P Q)) x0).
Proof.
  intros Sh EN P1 P2 Q1 Q2 L1 L2 L1' L2' G1 G2 X1 X2. apply vec_ext; [reflexivity|]. intros j. set (t := h_tmp N (snb s) s) in *.
  assert (E : forall g h (x : vec R), vget (vadd (mv (h_tmpT N (snb s) s) (stack2 N g h)) (mv (sandwich t (diag2 N P Q)) x)) j
    = ssum (2 * N) (fun i => mget t i j * (vget (stack2 N g h) i + vget (mv (diag2 N P Q) (mv t x)) i))).
  { intros g h x. cbn [vadd vget]. unfold sandwich. rewrite !mv_mmul_get. cbn [mv vget mtr mcols mget]. change (mcols (h_tmpT N (snb s) s)) with (2 * N)%nat. change (mrows t) with (2 * N)%nat.
    rsimpl. rewrite <- ssum_plus. apply ssum_ext. intros i Hi. rewrite tmp_T_all by assumption. fold t. ring. }
  rewrite !E. clear E. rewrite !(ssum_2N N).
  assert (D : forall x i, (i < N)%nat -> vget (mv (diag2 N P Q) x) i = ssum N (fun k => mget P i k * vget x k)
     /\ vget (mv (diag2 N P Q) x) (N + i) = ssum N (fun k => mget Q i k * vget x (N + k)%nat)).
  { intros x i Hi. cbn [mv vget]. change (mcols (diag2 N P Q)) with (2 * N)%nat. rewrite !ssum_2N. split.
    - rewrite (ssum_0 N (fun k => (_ * vget x (N + k)%nat)%sc)); [|intros k Hk; destruct (diag2_entry N P Q i k) as (_ & E & _); auto; rewrite E; rsimpl; ring].
      rewrite Rplus_0_r. apply ssum_ext. intros k Hk. destruct (diag2_entry N P Q i k) as (E & _); auto. rewrite E. reflexivity.
    - rewrite (ssum_0 N (fun k => (_ * vget x k)%sc)); [|intros k Hk; destruct (diag2_entry N P Q i k) as (_ & _ & E & _); auto; rewrite E; rsimpl; ring].
      rewrite Rplus_0_l. apply ssum_ext. intros k Hk. destruct (diag2_entry N P Q i k) as (_ & _ & _ & E); auto. rewrite E. reflexivity. }
  f_equal; apply ssum_ext; intros i Hi; f_equal.
  - destruct (stack2_entry N g1 g2 i L1 L2 Hi) as (-> & _), (stack2_entry N g1' g2' i L1' L2' Hi) as (-> & _).
    rewrite !(proj1 (D _ i Hi)), (G1 i Hi). cbn [mv vget] in G1. 
    rewrite (ssum_ext N (fun k => mget P i k * vget (mv t x0') k) (fun k => mget P i k * vget (mv t x0) k + mget P i k * vget wx k)) by (intros k Hk; rewrite (X1 k Hk); ring).
    rewrite ssum_plus. cbn [mv vget]. rewrite P2. rsimpl. ring.
  - destruct (stack2_entry N g1 g2 i L1 L2 Hi) as (_ & ->), (stack2_entry N g1' g2' i L1' L2' Hi) as (_ & ->).
    rewrite !(proj2 (D _ i Hi)), (G2 i Hi). 
    rewrite (ssum_ext N (fun k => mget Q i k * vget (mv t x0') (N + k)) (fun k => mget Q i k * vget (mv t x0) (N + k) + mget Q i k * vget wy k)) by (intros k Hk; rewrite (X2 k Hk); ring).
    rewrite ssum_plus. cbn [mv vget]. rewrite Q2. rsimpl. ring.
Qed.

(** ** The problem of a call *)
Lemma copS_col l z d : (exists n, lip_fresh l n) -> lm l / lM l = 1 -> l_getCopX l z = Ok d \/ l_getCopY l z = Ok d ->
  mcols (dS d) = 3%nat /\ (forall i, mget (dS d) i 0 = 1) /\ forall V, dUinv d = Some V -> mrows V = lN l /\ mcols V = lN l /\ dUTinv d = Some (mtr V).
Proof.
  intros F Hm H. assert (Q : exists g0, cop_fresh l g0 z d) by (destruct H as [H|H]; [apply (getCopX_fresh _ _ _ F) in H|apply (getCopY_fresh _ _ _ F) in H]; destruct H as (_ & H); eauto).
  destruct Q as (g0 & Q). pose proof (cop_pre_fresh _ _ _ _ Q) as [_ _ _ _ E IV]. unfold cop_fresh, computeCopDynamic in Q. rewrite !guard_ok in Q. destruct Q as (_ & _ & _ & _ & _ & _ & _ & Q). injection Q as <-.
  cbn [dS cop_S mcols mget]. split; [reflexivity|]. split; [intros i; exact Hm|]. intros V HV. destruct (IV V HV) as (A & B). split; [exact A|]. split; [exact B|]. rewrite E, HV. reflexivity.
Qed.
Lemma velS_col l z d : (exists n, lip_fresh l n) -> l_getComVel l z = Ok d -> mcols (dS d) = 3%nat /\ (forall i, mget (dS d) i 0 = 0) /\ dUT d = mtr (dU d) /\ mrows (dU d) = lN l.
Proof.
  intros F H. apply (getVel_fresh _ _ _ F) in H. destruct H as (_ & Q). unfold computeVelDynamic in Q. rewrite !guard_ok in Q. destruct Q as (_ & _ & _ & Q). injection Q as <-. repeat split; reflexivity.
Qed.
Lemma state_moved (S : mat R) c (x : st3 R) i : mcols S = 3%nat -> vget (mv S (vec_of_st3 (carried c x))) i = vget (mv S (vec_of_st3 x)) i + mget S i 0 * c.
Proof. intros E. cbn [mv vget]. rewrite E. cbn [ssum vec_of_st3 vget carried pos vel acc]. rsimpl. ring. Qed.

Section Problem.
Variables (h : hum R) (s' : sup R) (l' : lip R).
Hypothesis I : hinv h.
Hypothesis Sh : shapes (hsup h).
Hypothesis Ms : moved_sup a b (hsup h) s'.
Hypothesis Ml : moved_lip a b (hlip h) l'.
Hypothesis Hm : lm (hlip h) / lM (hlip h) = 1.
Hypothesis Cov : forall r, (r < sN (hsup h))%nat -> attributed (snb (hsup h)) (selV (ssel (hsup h))) (selV0 (ssel (hsup h))) r = 1.
Let N := lN (hlip h).
Let M := snb (hsup h).

Lemma same_fields : snb s' = M /\ ssel s' = ssel (hsup h) /\ sN s' = sN (hsup h) /\ h_nb s' = h_nb (hsup h) /\ lN l' = N
  /\ lsx l' = carried a (lsx (hlip h)) /\ lsy l' = carried b (lsy (hlip h)).
Proof. destruct Ms as (? & ? & ? & -> & _). rewrite Ml. repeat split; reflexivity. Qed.
Lemma same_getters z : l_getCopX l' z = l_getCopX (hlip h) z /\ l_getCopY l' z = l_getCopY (hlip h) z /\ l_getComVel l' z = l_getComVel (hlip h) z.
Proof. rewrite Ml. repeat split; reflexivity. Qed.
Lemma same_tmp : h_tmp N M s' = h_tmp N M (hsup h) /\ h_tmpT N M s' = h_tmpT N M (hsup h).
Proof. destruct Ms as (? & ? & ? & -> & _). split; reflexivity. Qed.
Lemma same_jerkHessian : h_jerkHessian l' s' = h_jerkHessian (hlip h) (hsup h).
Proof. destruct Ms as (? & ? & ? & -> & _). rewrite Ml. reflexivity. Qed.
Lemma same_velHessian : h_velHessian l' s' = h_velHessian (hlip h) (hsup h).
Proof. destruct Ms as (? & ? & ? & -> & _). rewrite Ml. reflexivity. Qed.
Lemma supportX_at v x : s_getSupportFootStateX (hsup h) = Ok v -> vread v 0 = Ok x -> exists v', s_getSupportFootStateX s' = Ok v' /\ vread v' 0 = Ok (x + a).
Proof. intros H1 H2. destruct (supportX_moved a b _ _ _ Ms H1) as (v' & A & B). exists v'. split; [exact A|]. exact (moved_read _ _ _ _ B H2). Qed.
Lemma supportY_at v x : s_getSupportFootStateY (hsup h) = Ok v -> vread v 0 = Ok x -> exists v', s_getSupportFootStateY s' = Ok v' /\ vread v' 0 = Ok (x + b).
Proof. intros H1 H2. destruct (supportY_moved a b _ _ _ Ms H1) as (v' & A & B). exists v'. split; [exact A|]. exact (moved_read _ _ _ _ B H2). Qed.

(** The share of the world frame in the CoP of each sample. *)
Definition share (c : R) : vec R := MkVec N (fun i => c * (1 - IZR (vget (selV0 (ssel (hsup h))) i))).
Lemma steps_share c (st st' : nat -> R) i : (forall k, (k < M)%nat -> st' k = st k + c) -> (i < N)%nat ->
  ssum M (fun k => IZR (mget (selV (ssel (hsup h))) i k) * st' k) = ssum M (fun k => IZR (mget (selV (ssel (hsup h))) i k) * st k) + vget (share c) i.
Proof.
  intros E Hi. rewrite (ssum_ext M _ (fun k => IZR (mget (selV (ssel (hsup h))) i k) * st k + IZR (mget (selV (ssel (hsup h))) i k) * c)) by (intros k Hk; rewrite E by exact Hk; ring).
  rewrite ssum_plus, ssum_mul_r. cbn [share vget]. rewrite <- (Cov i) by (rewrite (hi_N _ I); exact Hi). unfold attributed. fold M. ring.
Qed.
Lemma tmp_moved X X' : moved_steps a b (2 * N) X X' -> vlen X = (2 * N + 2 * M)%nat ->
  (forall i, (i < N)%nat -> vget (mv (h_tmp N M (hsup h)) X') i = vget (mv (h_tmp N M (hsup h)) X) i + vget (share a) i)
  /\ (forall i, (i < N)%nat -> vget (mv (h_tmp N M (hsup h)) X') (N + i) = vget (mv (h_tmp N M (hsup h)) X) (N + i) + vget (share b) i).
Proof.
  intros (m & L & L' & E & Ex & Ey) LX. assert (m = M) by lia. subst m. split; intros i Hi; cbn [mv vget]; change (mcols (h_tmp N M (hsup h))) with (2 * N + 2 * M)%nat.
  - pose proof (tmp_applyX (hsup h) N Sh (hi_N _ I)) as Q. fold M in Q.
    etransitivity; [exact (Q (vget X') i Hi)|]. etransitivity; [|exact (eq_sym (f_equal (fun q => q + vget (share a) i) (Q (vget X) i Hi)))]. rewrite E by lia. rewrite (steps_share a (dStepX N (vget X)) (dStepX N (vget X')) i Ex Hi). ring.
  - pose proof (tmp_applyY (hsup h) N Sh (hi_N _ I)) as Q. fold M in Q.
    etransitivity; [exact (Q (vget X') i Hi)|]. etransitivity; [|exact (eq_sym (f_equal (fun q => q + vget (share b) i) (Q (vget X) i Hi)))]. rewrite E by lia. rewrite (steps_share b (dStepY N M (vget X)) (dStepY N M (vget X')) i Ey Hi). ring.
Qed.
Lemma jerkGradient_moved X X' g : moved_steps a b (2 * N) X X' -> vlen X = (2 * N + 2 * M)%nat -> h_jerkGradient (hlip h) (hsup h) X = Ok g -> h_jerkGradient l' s' X' = Ok g.
Proof.
  intros MX LX H. destruct (tmp_moved X X' MX LX) as (T1 & T2). assert (LX' : vlen X' = vlen X) by (destruct MX as (m & A & B & _); congruence).
  destruct same_fields as (F1 & F2 & F3 & F4 & F5 & F6 & F7). unfold h_jerkGradient in *. rewrite same_jerkHessian, F1, F2, F4, F5, F6, F7, LX'. fold N M in H.
  destruct (same_tmp) as (_ & ->).
  apply guard_ok in H. destruct H as (H0 & H). rewrite H0. cbn [guard bind]. apply bind_ok in H. destruct H as (z & Hz & H). rewrite Hz. cbn [bind].
  destruct (same_getters z) as (G1 & G2 & _). rewrite G1, G2.
  apply bind_ok in H. destruct H as (cx & Hcx & H). rewrite Hcx. cbn [bind]. apply bind_ok in H. destruct H as (cy & Hcy & H). rewrite Hcy. cbn [bind].
  apply bind_ok in H. destruct H as (xi & Hxi & H). rewrite Hxi. cbn [bind]. apply bind_ok in H. destruct H as (xt & Hxt & H). rewrite Hxt. cbn [bind].
  apply bind_ok in H. destruct H as (yi & Hyi & H). rewrite Hyi. cbn [bind]. apply bind_ok in H. destruct H as (yt & Hyt & H). rewrite Hyt. cbn [bind].
  apply bind_ok in H. destruct H as (vx & Hvx & H). apply bind_ok in H. destruct H as (fx & Hfx & H). destruct (supportX_at _ _ Hvx Hfx) as (vx' & Hvx' & Hfx'). rewrite Hvx'. cbn [bind]. rewrite Hfx'. cbn [bind].
  apply bind_ok in H. destruct H as (vy & Hvy & H). apply bind_ok in H. destruct H as (fy & Hfy & H). destruct (supportY_at _ _ Hvy Hfy) as (vy' & Hvy' & Hfy'). rewrite Hvy'. cbn [bind]. rewrite Hfy'. cbn [bind].
  apply bind_ok in H. destruct H as (HH & HHe & H). rewrite HHe. cbn [bind]. injection H as <-. f_equal.
  unfold h_jerkHessian in HHe. apply guard_ok in HHe. destruct HHe as (_ & HHe). rewrite Hz in HHe. cbn [bind] in HHe. rewrite Hcx, Hcy in HHe. cbn [bind] in HHe. rewrite Hxi, Hxt, Hyi, Hyt in HHe. cbn [bind] in HHe. injection HHe as <-.
  apply oinv_inv in Hxi, Hxt, Hyi, Hyt.
  destruct (copS_col _ _ _ (hi_fresh _ I) Hm (or_introl Hcx)) as (S1 & S2 & IX). destruct (copS_col _ _ _ (hi_fresh _ I) Hm (or_intror Hcy)) as (S3 & S4 & IY).
  destruct (IX _ Hxi) as (X1 & X2 & X3), (IY _ Hyi) as (Y1 & Y2 & Y3). rewrite X3 in Hxt. injection Hxt as <-. rewrite Y3 in Hyt. injection Hyt as <-.
  apply (grad_same (hsup h) N _ _ _ _ _ _ X X' (share a) (share b) Sh (hi_N _ I)); try assumption; try (cbn [mmul mtr mrows mcols vsub mv vlen]; assumption).
  - intros i Hi. cbn [vsub vget]. 
    rewrite (mv_plus (mmul (mmul (mtr xi) (selW (ssel (hsup h)))) xi) (colTimes (dS (selDyn (ssel (hsup h)))) (fx + a)) (colTimes (dS (selDyn (ssel (hsup h)))) fx) (colTimes (dS (selDyn (ssel (hsup h)))) a)) by (intros k _; cbn [colTimes vget]; rsimpl; ring).
    rewrite (mv_plus (mmul (mmul (mtr xi) (selW (ssel (hsup h)))) xi) (vadd (mv (dS cx) (vec_of_st3 (carried a (lsx (hlip h))))) (dK cx)) (vadd (mv (dS cx) (vec_of_st3 (lsx (hlip h)))) (dK cx)) (vfill N a))
      by (intros k _; cbn [vadd vget vfill]; rewrite (state_moved _ _ _ _ S1), S2; rsimpl; ring).
    rewrite (mv_minus (mmul (mmul (mtr xi) (selW (ssel (hsup h)))) xi) (share a) (vfill N a) (colTimes (dS (selDyn (ssel (hsup h)))) a)) by (intros k _; rewrite (sel_col _ _ _ Sh); cbn [share vfill vget]; ring). rsimpl. ring.
  - intros i Hi. cbn [vsub vget]. 
    rewrite (mv_plus (mmul (mmul (mtr yi) (selW (ssel (hsup h)))) yi) (colTimes (dS (selDyn (ssel (hsup h)))) (fy + b)) (colTimes (dS (selDyn (ssel (hsup h)))) fy) (colTimes (dS (selDyn (ssel (hsup h)))) b)) by (intros k _; cbn [colTimes vget]; rsimpl; ring).
    rewrite (mv_plus (mmul (mmul (mtr yi) (selW (ssel (hsup h)))) yi) (vadd (mv (dS cy) (vec_of_st3 (carried b (lsy (hlip h))))) (dK cy)) (vadd (mv (dS cy) (vec_of_st3 (lsy (hlip h)))) (dK cy)) (vfill N b))
      by (intros k _; cbn [vadd vget vfill]; rewrite (state_moved _ _ _ _ S3), S4; rsimpl; ring).
    rewrite (mv_minus (mmul (mmul (mtr yi) (selW (ssel (hsup h)))) yi) (share b) (vfill N b) (colTimes (dS (selDyn (ssel (hsup h)))) b)) by (intros k _; rewrite (sel_col _ _ _ Sh); cbn [share vfill vget]; ring). rsimpl. ring.
Qed.
Lemma velGradient_moved vr X X' g : moved_steps a b (2 * N) X X' -> vlen X = (2 * N + 2 * M)%nat -> h_velGradient (hlip h) (hsup h) vr X = Ok g -> h_velGradient l' s' vr X' = Ok g.
Proof.
  intros MX LX H. destruct (tmp_moved X X' MX LX) as (T1 & T2). assert (LX' : vlen X' = vlen X) by (destruct MX as (m & A & B & _); congruence).
  destruct same_fields as (F1 & F2 & F3 & F4 & F5 & F6 & F7). unfold h_velGradient in *. rewrite same_velHessian, F1, F2, F3, F4, F5, F6, F7, LX'. fold N M in H.
  destruct (same_tmp) as (_ & ->).
  apply guard_ok in H. destruct H as (H0 & H). rewrite H0. cbn [guard bind]. apply guard_ok in H. destruct H as (H1 & H). rewrite H1. cbn [guard bind]. apply bind_ok in H. destruct H as (z & Hz & H). rewrite Hz. cbn [bind].
  destruct (same_getters z) as (G1 & G2 & G3). rewrite G1, G2, G3.
  apply bind_ok in H. destruct H as (cx & Hcx & H). rewrite Hcx. cbn [bind]. apply bind_ok in H. destruct H as (cy & Hcy & H). rewrite Hcy. cbn [bind]. apply bind_ok in H. destruct H as (v & Hv & H). rewrite Hv. cbn [bind].
  apply bind_ok in H. destruct H as (xi & Hxi & H). rewrite Hxi. cbn [bind]. apply bind_ok in H. destruct H as (xt & Hxt & H). rewrite Hxt. cbn [bind].
  apply bind_ok in H. destruct H as (yi & Hyi & H). rewrite Hyi. cbn [bind]. apply bind_ok in H. destruct H as (yt & Hyt & H). rewrite Hyt. cbn [bind].
  apply bind_ok in H. destruct H as (vx & Hvx & H). apply bind_ok in H. destruct H as (fx & Hfx & H). destruct (supportX_at _ _ Hvx Hfx) as (vx' & Hvx' & Hfx'). rewrite Hvx'. cbn [bind]. rewrite Hfx'. cbn [bind].
  apply bind_ok in H. destruct H as (vy & Hvy & H). apply bind_ok in H. destruct H as (fy & Hfy & H). destruct (supportY_at _ _ Hvy Hfy) as (vy' & Hvy' & Hfy'). rewrite Hvy'. cbn [bind]. rewrite Hfy'. cbn [bind].
  apply bind_ok in H. destruct H as (HH & HHe & H). rewrite HHe. cbn [bind]. injection H as <-. f_equal.
  unfold h_velHessian in HHe. apply guard_ok in HHe. destruct HHe as (_ & HHe). rewrite Hz in HHe. cbn [bind] in HHe. rewrite Hcx, Hcy, Hv in HHe. cbn [bind] in HHe. rewrite Hxi, Hxt, Hyi, Hyt in HHe. cbn [bind] in HHe. injection HHe as <-.
  apply oinv_inv in Hxi, Hxt, Hyi, Hyt. destruct (velS_col _ _ _ (hi_fresh _ I) Hv) as (V1 & V2 & V3 & V4).
  destruct (copS_col _ _ _ (hi_fresh _ I) Hm (or_introl Hcx)) as (S1 & S2 & IX). destruct (copS_col _ _ _ (hi_fresh _ I) Hm (or_intror Hcy)) as (S3 & S4 & IY).
  destruct (IX _ Hxi) as (X1 & X2 & X3), (IY _ Hyi) as (Y1 & Y2 & Y3). rewrite X3 in Hxt. injection Hxt as <-. rewrite Y3 in Hyt. injection Hyt as <-.
  set (ex := vsub (vadd (vsub (mv (dS v) (vec_of_st3 (lsx (hlip h)))) _) _) _). set (ey := vsub (vadd (vsub (mv (dS v) (vec_of_st3 (lsy (hlip h)))) _) _) _).
  apply (grad_same (hsup h) N _ _ _ _ _ _ X X' (share a) (share b) Sh (hi_N _ I)); try assumption; try (cbn [mmul mtr mrows mcols vsub mv vlen]; assumption).
  - intros i Hi. etransitivity; [apply (mv_minus (mmul (mtr xi) (dUT v)) _ (mv (selW (ssel (hsup h))) ex) (mv (selW (ssel (hsup h))) (mv (dU v) (mv xi (share a)))))|].
    + intros k _. apply mv_minus. intros j _. unfold ex. cbn [vsub vadd vget]. rewrite (state_moved (dS v)), V2 by exact V1.
      rewrite (mv_plus (mmul (dU v) xi) (colTimes (dS (selDyn (ssel (hsup h)))) (fx + a)) (colTimes (dS (selDyn (ssel (hsup h)))) fx) (colTimes (dS (selDyn (ssel (hsup h)))) a)) by (intros q _; cbn [colTimes vget]; rsimpl; ring).
      rewrite (mv_plus (mmul (dU v) xi) (vadd (mv (dS cx) (vec_of_st3 (carried a (lsx (hlip h))))) (dK cx)) (vadd (mv (dS cx) (vec_of_st3 (lsx (hlip h)))) (dK cx)) (vfill N a))
        by (intros q _; cbn [vadd vget vfill]; rewrite (state_moved _ _ _ _ S1), S2; rsimpl; ring).
      rewrite <- (mv_mmul_get (dU v) xi (share a)).
      rewrite (mv_minus (mmul (dU v) xi) (share a) (vfill N a) (colTimes (dS (selDyn (ssel (hsup h)))) a)) by (intros q _; rewrite (sel_col _ _ _ Sh); cbn [share vfill vget]; ring). rsimpl. ring.
    + f_equal. rewrite (mv_mmul_get _ xi), (mv_mmul_get _ (dU v)), (mv_mmul_get _ (selW (ssel (hsup h)))). reflexivity.
  - intros i Hi. etransitivity; [apply (mv_minus (mmul (mtr yi) (dUT v)) _ (mv (selW (ssel (hsup h))) ey) (mv (selW (ssel (hsup h))) (mv (dU v) (mv yi (share b)))))|].
    + intros k _. apply mv_minus. intros j _. unfold ey. cbn [vsub vadd vget]. rewrite (state_moved (dS v)), V2 by exact V1.
      rewrite (mv_plus (mmul (dU v) yi) (colTimes (dS (selDyn (ssel (hsup h)))) (fy + b)) (colTimes (dS (selDyn (ssel (hsup h)))) fy) (colTimes (dS (selDyn (ssel (hsup h)))) b)) by (intros q _; cbn [colTimes vget]; rsimpl; ring).
      rewrite (mv_plus (mmul (dU v) yi) (vadd (mv (dS cy) (vec_of_st3 (carried b (lsy (hlip h))))) (dK cy)) (vadd (mv (dS cy) (vec_of_st3 (lsy (hlip h)))) (dK cy)) (vfill N b))
        by (intros q _; cbn [vadd vget vfill]; rewrite (state_moved _ _ _ _ S3), S4; rsimpl; ring).
      rewrite <- (mv_mmul_get (dU v) yi (share b)).
      rewrite (mv_minus (mmul (dU v) yi) (share b) (vfill N b) (colTimes (dS (selDyn (ssel (hsup h)))) b)) by (intros q _; rewrite (sel_col _ _ _ Sh); cbn [share vfill vget]; ring). rsimpl. ring.
    + f_equal. rewrite (mv_mmul_get _ yi), (mv_mmul_get _ (dU v)), (mv_mmul_get _ (selW (ssel (hsup h)))). reflexivity.
Qed.
Lemma copGradient_moved X X' g : moved_steps a b (2 * N) X X' -> vlen X = (2 * N + 2 * M)%nat -> h_copGradient (hlip h) (hsup h) X = Ok g -> h_copGradient l' s' X' = Ok g.
Proof.
  intros (m & L & L' & E & _) LX H. destruct same_fields as (F1 & F2 & F3 & F4 & F5 & _). unfold h_copGradient, h_copHessian in *. rewrite F1, F3, F5. replace (vlen X') with (vlen X) by lia. fold N M in H.
  apply guard_ok in H. destruct H as (H0 & H). rewrite H0. cbn [guard bind]. apply guard_ok in H. destruct H as (H1 & H). rewrite H1. cbn [guard bind]. injection H as <-. f_equal. apply vec_ext; [reflexivity|].
  intros i. cbn [mv vget msetblock mget mcols mrows mid mzero]. apply ssum_ext. intros k Hk. destruct (Nat.lt_ge_cases k (2 * N)) as [Lk|Lk]; [rewrite E by exact Lk; reflexivity|].
  bools; rsimpl; try (exfalso; lia); ring.
Qed.

(** ** The constraints *)
Hypothesis Lsv : vlen (sstepVec (hsup h)) = (2 * M)%nat.
Lemma copRows_moved r : copRows N (hsup h) = Ok r -> copRows N s' = Ok r.
Proof.
  unfold copRows. intros H. apply bind_ok in H. destruct H as (l & Hl & H). erewrite tab_same; [exact H| |exact Hl].
  intros i x Hi Hx. cbn beta in *. apply bind_ok in Hx. destruct Hx as (p & Hp & Hx). rewrite (cop_moved a b _ _ _ _ Ms Lsv Hp). exact Hx.
Qed.
Lemma copBounds_moved len X X' bd : (forall k, (k < len)%nat -> vget X' k = vget X k) -> copBounds N len (hsup h) X = Ok bd ->
  exists bd', copBounds N len s' X' = Ok bd' /\ vsame (fst bd) (fst bd') /\ vsame (snd bd) (snd bd').
Proof.
  unfold copBounds. intros E H. apply bind_ok in H. destruct H as (l & Hl & H). rewrite (tab_same _ _ _ _ _ (fun i x Hi Hx => cop_moved a b _ _ _ _ Ms Lsv Hx) Hl). cbn [bind].
  apply guard_ok in H. destruct H as (H0 & H). rewrite H0. cbn [guard bind]. injection H as <-. eexists. split; [reflexivity|]. split; (split; [reflexivity|]); cbn [fst snd vlen vget]; intros k Hk; rewrite E by exact Hk; reflexivity.
Qed.
Definition row_moved (X X' : vec R) (c c' : crow (K:=R)) : Prop :=
  fst c' = fst c /\ ssum (2 * N + 2 * M) (fun k => fst c k * vget X' k) + snd c' = ssum (2 * N + 2 * M) (fun k => fst c k * vget X k) + snd c.
Lemma footRow_moved X X' i fx fy c : moved_steps a b (2 * N) X X' -> vlen X = (2 * N + 2 * M)%nat -> (i < M)%nat -> row_moved X X' (footRow N M i fx fy c) (footRow N M i (fx + a) (fy + b) c).
Proof.
  intros (m & L & L' & E & Ex & Ey) LX Hi. assert (m = M) by lia. subst m. split; [destruct c as ((ax, ay), k); destruct i; reflexivity|].
  destruct (footRow_apply N M (2 * N + 2 * M) i fx fy c (vget X) Hi (Nat.le_refl _)) as (-> & ->). destruct (footRow_apply N M (2 * N + 2 * M) i fx fy c (vget X') Hi (Nat.le_refl _)) as (-> & _).
  destruct (footRow_apply N M (2 * N + 2 * M) i (fx + a) (fy + b) c (vget X') Hi (Nat.le_refl _)) as (_ & ->).
  unfold slope_value, dStepX, dStepY. rewrite Ex, Ey by exact Hi. destruct i as [|i]; cbn [from_step]; [ring|]. rewrite (Ex i), (Ey i) by lia. ring.
Qed.
Lemma footRow_later i fx fy c : footRow N M (S i) fx fy c = footRow N M (S i) 0 0 c.
Proof. destruct c as ((ax, ay), k). reflexivity. Qed.
Lemma footRows_moved X X' r : moved_steps a b (2 * N) X X' -> vlen X = (2 * N + 2 * M)%nat -> footRows N (hsup h) = Ok r -> exists r', footRows N s' = Ok r' /\ Forall2 (row_moved X X') r r'.
Proof.
  intros MX LX H. unfold footRows in *. destruct same_fields as (F1 & _). rewrite F1. fold M in H. apply bind_ok in H. destruct H as (l & Hl & H). injection H as <-.
  match type of Hl with tabulateM ?f _ = _ => match goal with |- context [tabulateM ?g M] => assert (Q : forall i x, (i < M)%nat -> f i = Ok x -> exists y, g i = Ok y /\ Forall2 (row_moved X X') x y) end end.
  { intros i x Hi Hx. cbn beta in *. rewrite (kin_moved a b _ _ _ Ms). apply bind_ok in Hx. destruct Hx as (p & Hp & Hx). rewrite Hp. cbn [bind].
    destruct (Nat.eqb i 0 && _)%bool eqn:Eb.
    - apply bind_ok in Hx. destruct Hx as (vx & Hvx & Hx). apply bind_ok in Hx. destruct Hx as (fx & Hfx & Hx). destruct (supportX_at _ _ Hvx Hfx) as (vx' & Hvx' & Hfx'). rewrite Hvx'. cbn [bind]. rewrite Hfx'. cbn [bind].
      apply bind_ok in Hx. destruct Hx as (vy & Hvy & Hx). apply bind_ok in Hx. destruct Hx as (fy & Hfy & Hx). destruct (supportY_at _ _ Hvy Hfy) as (vy' & Hvy' & Hfy'). rewrite Hvy'. cbn [bind]. rewrite Hfy'. cbn [bind].
      injection Hx as <-. eexists. split; [reflexivity|]. apply Forall2_map_same. intros c. apply footRow_moved; assumption.
    - injection Hx as <-. eexists. split; [reflexivity|]. destruct i as [|i].
      + cbn [Nat.eqb andb] in Eb. apply negb_false_iff in Eb. apply Nat.eqb_eq in Eb. destruct (pgen p); [constructor|discriminate].
      + apply Forall2_map_same. intros c. pose proof (footRow_moved X X' (S i) 0 0 c MX LX Hi) as Q. rewrite (footRow_later i (0 + a)) in Q. exact Q. }
  destruct (tab_rel _ _ (fun _ => Forall2 (row_moved X X')) _ _ _ Q _ Hl) as (l1 & H1 & L1 & N1). rewrite H1. cbn [bind]. eexists. split; [reflexivity|].
  apply Forall2_concat. apply Forall2_nth; [exact L1|]. intros i d d' Hi. apply N1. rewrite (tabulateM_length _ _ _ _ Hl) in Hi. exact Hi.
Qed.
Lemma rowsA_moved X X' r r' size : Forall2 (row_moved X X') r r' -> rowsA size r' = rowsA size r.
Proof.
  intros H. unfold rowsA. rewrite (F2_length _ _ _ _ _ H). f_equal. apply functional_extensionality. intros i. apply functional_extensionality. intros k.
  assert (Q : fst (nth i r' (zrow, s0)) = fst (nth i r (zrow, s0))); [|rewrite Q; reflexivity].
  assert (H' : Forall2 (fun c c' => fst c' = fst c) r r') by (eapply F2_impl; [|exact H]; intros c c' (A & _); exact A).
  apply (Forall2_nth_inv _ _ _ _ _ _ _ i H'). reflexivity.
Qed.
Lemma rowsF_moved X X' r r' : vlen X = (2 * N + 2 * M)%nat -> vlen X' = vlen X -> Forall2 (row_moved X X') r r' -> vsame (rowsF r X) (rowsF r' X').
Proof.
  intros LX LX' H. split; [cbn [rowsF vadd mv rowsA mrows vlen]; symmetry; exact (F2_length _ _ _ _ _ H)|]. intros k Hk. cbn [rowsF vadd mv rowsA rowsB mrows mcols mget vlen vget]. rewrite LX', LX.
  assert (Hd : row_moved X X' (zrow, s0) (zrow, s0)) by (split; [reflexivity|]; cbn [fst]; rewrite !ssum_zrow; reflexivity).
  destruct (Forall2_nth_inv _ _ _ _ _ _ _ k H Hd) as (A & B). rewrite A. exact B.
Qed.
Lemma footBounds_moved X X' bd : moved_steps a b (2 * N) X X' -> vlen X = (2 * N + 2 * M)%nat -> footBounds (hsup h) (vseg X (2 * N) (2 * M)) = Ok bd ->
  exists bd', footBounds s' (vseg X' (2 * N) (2 * M)) = Ok bd' /\ vsame (fst bd) (fst bd') /\ vsame (snd bd) (snd bd').
Proof.
  intros (m & L & L' & E & Ex & Ey) LX H. assert (m = M) by lia. subst m. unfold footBounds in *. destruct same_fields as (F1 & _). rewrite F1. fold M in H. apply bind_ok in H. destruct H as (l & Hl & H).
  rewrite (tab_same _ _ (fun i => s_getKinematicConvexPolygon i s') _ _ (fun i x Hi Hx => eq_trans (kin_moved a b _ _ _ Ms) Hx) Hl). cbn [bind].
  apply bind_ok in H. destruct H as ((fx & fy) & Hf & H). cbv beta iota in H. injection H as <-.
  assert (Q : exists fx' fy', (match M with
             | O => Ok (s0, s0)
             | S _ => do vx <- s_getSupportFootStateX s'; do fx <- vread vx 0;
                      do vy <- s_getSupportFootStateY s'; do fy <- vread vy 0; Ok (fx, fy)
             end) = Ok (fx', fy') /\ (M <> 0%nat -> fx' = fx + a /\ fy' = fy + b)).
  { destruct M as [|M']; [exists s0, s0; split; [reflexivity|congruence]|]. apply bind_ok in Hf. destruct Hf as (vx & Hvx & Hf). apply bind_ok in Hf. destruct Hf as (fx0 & Hfx & Hf). destruct (supportX_at _ _ Hvx Hfx) as (vx' & Hvx' & Hfx').
    apply bind_ok in Hf. destruct Hf as (vy & Hvy & Hf). apply bind_ok in Hf. destruct Hf as (fy0 & Hfy & Hf). destruct (supportY_at _ _ Hvy Hfy) as (vy' & Hvy' & Hfy'). injection Hf as <- <-.
    exists (fx0 + a), (fy0 + b). split; [|auto]. rewrite Hvx'. cbn [bind]. rewrite Hfx'. cbn [bind]. rewrite Hvy'. cbn [bind]. rewrite Hfy'. reflexivity. }
  destruct Q as (fx' & fy' & -> & Q). cbn [bind]. eexists. split; [reflexivity|]. split; (split; [reflexivity|]); cbn [fst snd vlen vget vseg]; intros k Hk; (destruct Q as (-> & ->); [lia|]); destruct (Nat.ltb_spec k M) as [Lk|Lk].
  all: change (N + (N + 0))%nat with (2 * N)%nat; set (n2 := (2 * N)%nat) in *; clearbody n2; try (rewrite (Ex k Lk); destruct k as [|k]; [rsimpl; ring|rewrite (Ex k) by lia; rsimpl; ring]).
  all: replace (n2 + k)%nat with (n2 + M + (k - M))%nat by lia; rewrite (Ey (k - M)%nat) by lia; destruct (k - M)%nat as [|k'] eqn:Ek; [rsimpl; ring|]; replace (n2 + (M + k'))%nat with (n2 + M + k')%nat by lia; rewrite (Ey k') by lia; rsimpl; ring.
Qed.

(** ** The whole problem *)
Definition at_place (X : vec R) (t : vec R) : hum R :=
  MkHum s' l' (hvelRef h) (hcopLen h) (hsolvers h) (hmats h) (hdX h) X t (hw h) (hcopC h) (hfeetC h) (hmaxC h) (hmaxS h) (hmove h) (hfirst h).
Lemma addObj_same w (H H' : res (mat R)) (g g' : res (vec R)) q r : H' = H -> (forall x, g = Ok x -> g' = Ok x) -> addObj w H g q = Ok r -> addObj w H' g' q = Ok r.
Proof.
  intros -> E Q. unfold addObj in *. destruct (sltb s0 w); [|exact Q]. apply bind_ok in Q. destruct Q as (Hm0 & -> & Q). cbn [bind]. apply guard_ok in Q. destruct Q as (Q0 & Q). rewrite Q0. cbn [guard bind].
  apply bind_ok in Q. destruct Q as (x & Hx & Q). rewrite (E x Hx). cbn [bind]. exact Q.
Qed.
Lemma nbCtr_moved X t c : h_nbCtr h = Ok c -> moved_steps a b (2 * N) (hX h) X -> vlen (hX h) = (2 * N + 2 * M)%nat -> h_nbCtr (at_place X t) = Ok c.
Proof.
  intros H MX LX. unfold h_nbCtr in *. cbn [at_place hcopC hfeetC hlip hsup]. destruct same_fields as (_ & _ & _ & _ & -> & _). fold N in H.
  apply bind_ok in H. destruct H as (c1 & H1 & H). apply bind_ok in H. destruct H as (c2 & H2 & H).
  assert (E1 : (if hcopC h then do r <- copRows N s'; Ok (length r) else Ok 0%nat) = Ok c1).
  { destruct (hcopC h); [|exact H1]. apply bind_ok in H1. destruct H1 as (r & Hr & H1). rewrite (copRows_moved _ Hr). exact H1. }
  assert (E2 : (if hfeetC h then do r <- footRows N s'; Ok (length r) else Ok 0%nat) = Ok c2).
  { destruct (hfeetC h); [|exact H2]. apply bind_ok in H2. destruct H2 as (r & Hr & H2). destruct (footRows_moved _ _ _ MX LX Hr) as (r' & Hr' & F). rewrite Hr'. cbn [bind]. rewrite <- (F2_length _ _ _ _ _ F). exact H2. }
  rewrite E1. cbn [bind]. rewrite E2. cbn [bind]. exact H.
Qed.
Lemma problem_moved X t q : moved_steps a b (2 * N) (hX h) X -> vlen (hX h) = (2 * N + 2 * M)%nat -> h_problem h = Ok q -> h_problem (at_place X t) = Ok q.
Proof.
  intros MX LX H. assert (LX' : vlen X = vlen (hX h)) by (destruct MX as (m & A & B & _); congruence). unfold h_problem in *. apply bind_ok in H. destruct H as ((nc & nf) & Hc & H). rewrite (nbCtr_moved X t _ Hc MX LX). cbn [bind].
  cbn [at_place hlip hsup hX hmaxC hmats hw hvelRef hcopC hfeetC hcopLen]. destruct same_fields as (F1 & _ & _ & _ & F5 & _). rewrite F1, F5, LX'. fold N M in H.
  apply bind_ok in H. destruct H as (e & He & H). rewrite He. cbn [bind].
  apply bind_ok in H. destruct H as (q1 & H1 & H). erewrite addObj_same; [|exact same_velHessian|intros x Hx; exact (velGradient_moved _ _ _ _ MX LX Hx)|exact H1]. cbn [bind].
  apply bind_ok in H. destruct H as (q2 & H2 & H). erewrite addObj_same; [|exact same_jerkHessian|intros x Hx; exact (jerkGradient_moved _ _ _ MX LX Hx)|exact H2]. cbn [bind].
  apply bind_ok in H. destruct H as (q3 & H3 & H). erewrite addObj_same; [|unfold h_copHessian; rewrite F1, F5; reflexivity|intros x Hx; exact (copGradient_moved _ _ _ MX LX Hx)|exact H3]. cbn [bind].
  apply bind_ok in H. destruct H as (q4 & H4 & H). apply bind_ok in H. destruct H as (q5 & H5 & H).
  assert (E4 : (if hcopC h then do _ <- guard (Nat.eqb (vlen (hX h)) (2 * N + 2 * M)); do r <- copRows N s'; do bd <- copBounds N (hcopLen h) s' (vseg X 0 (2 * N));
                  addCtr 0 nc 0 (2 * N) (2 * N + 2 * M) (rowsA (vlen (hX h)) r) (rowsF r X) bd q3 else Ok q3) = Ok q4).
  { destruct (hcopC h); [|exact H4]. apply guard_ok in H4. destruct H4 as (Q0 & H4). rewrite Q0. cbn [guard bind]. apply bind_ok in H4. destruct H4 as (r & Hr & H4). rewrite (copRows_moved _ Hr). cbn [bind].
    apply bind_ok in H4. destruct H4 as (bd & Hb & H4). pose proof Hb as Hb0. unfold copBounds in Hb0. apply bind_ok in Hb0. destruct Hb0 as (? & _ & Hb0). apply guard_ok in Hb0. destruct Hb0 as (Hlen & _). apply Nat.eqb_eq in Hlen.
    destruct MX as (m & L & L' & E & Ex & Ey).
    assert (Ev : forall k, (k < hcopLen h)%nat -> vget (vseg X 0 (2 * N)) k = vget (vseg (hX h) 0 (2 * N)) k) by (intros k Hk; cbn [vseg vget]; apply E; lia).
    destruct (copBounds_moved _ _ _ _ Ev Hb) as (bd' & Hb' & B1 & B2). rewrite Hb'. cbn [bind].
    apply (addCtr_same _ _ _ _ _ _ (rowsF r (hX h)) _ bd); try assumption. split; [reflexivity|]. intros k Hk. cbn [rowsF vadd mv rowsA rowsB mrows mcols mget vlen vget] in *. rewrite LX'. f_equal. apply ssum_ext. intros j Hj.
    destruct (Nat.lt_ge_cases j (2 * N)) as [Lj|Lj]; [rewrite E by exact Lj; reflexivity|].
    assert (Z0 : fst (nth k r (zrow, s0)) j = 0).
    { assert (Fz : Forall (fun c => fst c j = 0) r). { apply (copRows_Forall _ _ _ _ Hr). intros i p Hi Hp. apply Forall_forall. intros ((ax, ay), kk) _. cbn [copRow fst]. rewrite !upd_other by lia. reflexivity. }
      rewrite Forall_forall in Fz. apply Fz. apply nth_In. exact Hk. }
    rewrite Z0. rsimpl. ring. }
  assert (E5 : (if hfeetC h then do _ <- guard (Nat.eqb (vlen (hX h)) (2 * N + 2 * M)); do r <- footRows N s'; do bd <- footBounds s' (vseg X (2 * N) (2 * M));
                  addCtr nc nf (2 * N) (2 * M) (2 * N + 2 * M) (rowsA (vlen (hX h)) r) (rowsF r X) bd q4 else Ok q4) = Ok q5).
  { destruct (hfeetC h); [|exact H5]. apply guard_ok in H5. destruct H5 as (Q0 & H5). rewrite Q0. cbn [guard bind]. apply bind_ok in H5. destruct H5 as (r & Hr & H5).
    destruct (footRows_moved _ _ _ MX LX Hr) as (r' & Hr' & F). rewrite Hr'. cbn [bind]. apply bind_ok in H5. destruct H5 as (bd & Hb & H5). destruct (footBounds_moved _ _ _ MX LX Hb) as (bd' & Hb' & B1 & B2). rewrite Hb'. cbn [bind].
    rewrite (rowsA_moved _ _ _ _ _ F). apply (addCtr_same _ _ _ _ _ _ (rowsF r (hX h)) _ bd); try assumption. apply rowsF_moved; assumption. }
  rewrite E4. cbn [bind]. rewrite E5. cbn [bind]. exact H.
Qed.

(** ** The conversion and the end of the call *)
Lemma fresh_moved n : lip_fresh (hlip h) n -> lip_fresh l' n.
Proof. intros F. rewrite Ml. destruct F. constructor; assumption. Qed.
Lemma inv_moved X t : hinv (at_place X t).
Proof.
  destruct I as [(n & F) A HN HM HS HL]. destruct same_fields as (F1 & _ & F3 & _ & F5 & _). constructor; cbn [at_place hlip hsup hmats hmaxS hmaxC hcopLen]; rewrite ?F5; auto.
  - exists n. apply fresh_moved. exact F.
  - rewrite Ml. exact A.
  - rewrite F3. exact HN.
Qed.
Lemma shapes_moved : shapes s'.
Proof. destruct same_fields as (F1 & F2 & F3 & _). destruct Sh as [A B C D E]. constructor; rewrite ?F1, ?F2, ?F3; assumption. Qed.
Lemma foot_at_moved c f st st' k : (forall j, (j < M)%nat -> st' j = st j + c) -> (k < N)%nat -> foot_at s' (f + c) st' k = foot_at (hsup h) f st k + c.
Proof.
  intros E Hk. destruct same_fields as (F1 & F2 & _). unfold foot_at. rewrite F1, F2. fold M. rewrite (steps_share c st st' k E Hk). cbn [share vget]. ring.
Qed.
Lemma convert_moved X X' t : moved_steps a b (2 * N) X X' -> vlen X = (2 * N + 2 * M)%nat -> h_convert (hlip h) (hsup h) X = Ok t ->
  exists t', h_convert l' s' X' = Ok t' /\ moved_steps a b (2 * N) t t'.
Proof.
  intros MX LX H. assert (LX' : vlen X' = vlen X) by (destruct MX as (m & A & B & _); congruence). destruct (convert_inv h X t I Sh H) as (z & cx & cy & Vx & Vy & fx & fy & C).
  assert (Q : exists t', h_convert l' s' X' = Ok t').
  { destruct C as [Cz Ccx Ccy CVx CVy Cf Cl _ _ _]. destruct Cf as (vx & vy & S1 & S2 & S3 & S4 & S5 & S6). unfold h_convert. destruct same_fields as (F1 & F2 & F3 & F4 & F5 & _). rewrite F4, Cz. cbn [bind].
    destruct (same_getters z) as (G1 & G2 & _). rewrite G1, G2, Ccx, Ccy. cbn [bind]. rewrite F1, F5, LX', LX, Nat.leb_refl. cbn [guard bind].
    assert (R1 : vread vx 0 = Ok fx) by (unfold vread; apply Nat.ltb_lt in S3; rewrite S3, S5; reflexivity). assert (R2 : vread vy 0 = Ok fy) by (unfold vread; apply Nat.ltb_lt in S4; rewrite S4, S6; reflexivity).
    destruct (supportX_at _ _ S1 R1) as (vx' & -> & T1). cbn [bind]. rewrite T1. cbn [bind]. destruct (supportY_at _ _ S2 R2) as (vy' & -> & T2). cbn [bind]. rewrite T2. cbn [bind]. rewrite CVx, CVy. cbn [oinv bind]. eexists. reflexivity. }
  destruct Q as (t' & Ht'). exists t'. split; [exact Ht'|].
  destruct (convert_inv (at_place X' (htX h)) X' t' (inv_moved _ _) shapes_moved Ht') as (z' & cx' & cy' & Vx' & Vy' & fx' & fy' & C').
  destruct C as [Cz Ccx Ccy CVx CVy Cf Cl Cx Cy Cr]. destruct C' as [Dz Dcx Dcy DVx DVy Df Dl Dx Dy Dr]. cbn [at_place hsup hlip] in *. destruct same_fields as (F1 & F2 & F3 & F4 & F5 & F6 & F7). rewrite F4, Cz in Dz. injection Dz as <-.
  destruct (same_getters z) as (G1 & G2 & _). rewrite G1, Ccx in Dcx. injection Dcx as <-. rewrite G2, Ccy in Dcy. injection Dcy as <-. rewrite CVx in DVx. injection DVx as <-. rewrite CVy in DVy. injection DVy as <-.
  assert (Ef : fx' = fx + a /\ fy' = fy + b).
  { destruct Cf as (vx & vy & S1 & S2 & S3 & S4 & S5 & S6). destruct Df as (vx' & vy' & T1 & T2 & T3 & T4 & T5 & T6). destruct (supportX_moved a b _ _ _ Ms S1) as (w & W1 & (_ & W2)). rewrite T1 in W1. injection W1 as <-.
    destruct (supportY_moved a b _ _ _ Ms S2) as (w & W1 & (_ & W3)). rewrite T2 in W1. injection W1 as <-. rewrite <- T5, <- T6, W2, W3 by assumption. cbn [Nat.eqb]. rewrite S5, S6. auto. }
  destruct Ef as (-> & ->). rewrite F5, F6, F7, ?F1 in *. fold N M in Cx, Cy, Cr, Cl.
  destruct (copS_col _ _ _ (hi_fresh _ I) Hm (or_introl Ccx)) as (S1 & S2 & _). destruct (copS_col _ _ _ (hi_fresh _ I) Hm (or_intror Ccy)) as (S3 & S4 & _).
  destruct MX as (m & L & L' & E & Ex & Ey). assert (m = M) by lia. subst m. exists M. split; [lia|]. split; [lia|]. split; [|split].
  - intros k Hk. destruct (Nat.lt_ge_cases k N) as [Lk|Lk].
    + rewrite Cx, Dx by exact Lk. apply ssum_ext. intros j Hj. rewrite (foot_at_moved a fx (dStepX N (vget X)) (dStepX N (vget X')) j Ex Hj), (state_moved _ _ _ _ S1), S2, E by lia. ring.
    + replace k with (N + (k - N))%nat by lia. rewrite Cy, Dy by lia. apply ssum_ext. intros j Hj. rewrite (foot_at_moved b fy (dStepY N M (vget X)) (dStepY N M (vget X')) j Ey Hj), (state_moved _ _ _ _ S3), S4, E by lia. ring.
  - intros k Hk. rewrite Cr, Dr by lia. apply Ex. exact Hk.
  - intros k Hk. rewrite Cr, Dr by lia. apply Ey. exact Hk.
Qed.
Lemma updateState_moved c j T x y : updateState j T x = Ok y -> updateState j T (carried c x) = Ok (carried c y).
Proof. unfold updateState. intros H. apply guard_ok in H. destruct H as (H & Q). rewrite H. cbn [guard bind]. injection Q as <-. unfold updateState_raw, carried. cbn [pos vel acc]. f_equal. f_equal. rsimpl. ring. Qed.
Lemma finish_moved o fb q idx X t found g : moved_steps a b (2 * N) (hX h) X -> h_finish o fb q idx h = Ok (found, g) -> (0 < N)%nat ->
  exists g', h_finish o fb q idx (at_place X t) = Ok (found, g') /\ moved_hum a b g g'.
Proof.
  intros MX H HN0. unfold h_finish in *. destruct same_fields as (F1 & F2 & F3 & F4 & F5 & F6 & F7). cbn [at_place hlip hsup hsolvers hdX hX hvelRef hcopLen hmats hw hcopC hfeetC hmaxC hmaxS hmove hfirst]. rewrite F1, F5. fold N M in H.
  apply bind_ok in H. destruct H as (e & He & H). rewrite He. cbn [bind]. apply bind_ok in H. destruct H as (((sv & dX) & fo) & Hs & H). rewrite Hs. cbn [bind].
  apply bind_ok in H. destruct H as (X2 & HX2 & H). unfold vaddE in HX2. apply guard_ok in HX2. destruct HX2 as (Ln & HX2). injection HX2 as <-. apply Nat.eqb_eq in Ln.
  assert (LX : vlen (hX h) = (2 * N + 2 * M)%nat). { rewrite Ln. unfold solver_solve in Hs. apply guard_ok in Hs. destruct Hs as (_ & Hs). destruct (o _ _) as (x & su). apply ubguard_ok in Hs. destruct Hs as (_ & Hs). destruct (_ && _)%bool; injection Hs as _ <- _; reflexivity. }
  assert (LX' : vlen X = vlen (hX h)) by (destruct MX as (m & A & B & _); congruence). unfold vaddE. rewrite LX', Ln, Nat.eqb_refl. cbn [guard bind].
  assert (M2 : moved_steps a b (2 * N) (vadd (hX h) dX) (vadd X dX)).
  { destruct MX as (m & L & L' & E & Ex & Ey). exists m. cbn [vadd vlen vget]. split; [exact L|]. split; [exact L'|]. split; [|split]; intros k Hk; [rewrite E|rewrite Ex|rewrite Ey]; try exact Hk; rsimpl; ring. }
  apply bind_ok in H. destruct H as (tt0 & Ht & H). destruct (convert_moved _ _ _ M2 LX Ht) as (t' & Ht' & Mt). rewrite Ht'. cbn [bind].
  assert (Lt : vlen tt0 = (2 * N + 2 * M)%nat). { destruct (convert_inv h _ _ I Sh Ht) as (? & ? & ? & ? & ? & ? & ? & [_ _ _ _ _ _ (Cl & _) _ _ _]). cbn [vadd vlen] in Cl. lia. }
  destruct Mt as (m & L & L' & E & Ex & Ey). assert (m = M) by lia. subst m. rewrite !E by lia.
  apply bind_ok in H. destruct H as (l1 & Hl1 & H). apply bind_ok in H. destruct H as (l2 & Hl2 & H). apply bind_ok in H. destruct H as (s2 & Hs2 & H). injection H as <- <-.
  unfold l_updateStateX, l_updateStateY in *. rewrite F6. apply bind_ok in Hl1. destruct Hl1 as (x1 & Hx1 & Hl1). injection Hl1 as <-. rewrite (updateState_moved _ _ _ _ _ Hx1). cbn [bind].
  cbn [l_setStates lsy lsyaw lsx] in *. apply bind_ok in Hl2. destruct Hl2 as (y1 & Hy1 & Hl2). injection Hl2 as <-. rewrite F7. rewrite (updateState_moved _ _ _ _ _ Hy1). cbn [bind].
  assert (Mv : moved_steps a b 0 (vseg tt0 (2 * N) (2 * M)) (vseg t' (2 * N) (2 * M))).
  { exists M. cbn [vseg vlen vget]. split; [reflexivity|]. split; [reflexivity|]. split; [intros k Hk; lia|]. split; intros k Hk; [exact (Ex k Hk)|]. replace (2 * N + (0 + M + k))%nat with (2 * N + M + k)%nat by lia. exact (Ey k Hk). }
  destruct (updateFeet_moved a b _ _ _ _ _ _ Ms Mv eq_refl Hs2) as (s2' & Hs2' & Ms2). rewrite Hs2'. cbn [bind]. eexists. split; [reflexivity|]. eexists _, _, _, _. split; [reflexivity|]. cbn [hsup hlip hX].
  split; [exact Ms2|]. split.
  - unfold moved_lip. cbn [l_setStates lsx lsy lsyaw]. rewrite Ml. reflexivity.
  - assert (EN : sN s2 = N). { destruct (s_updateFeet_N _ _ _ _ Hs2) as (-> & _). exact (hi_N _ I). }
    rewrite EN. exact M2.
Qed.
End Problem.
End HShift.
