(** The feet supervisor in rounded arithmetic follows the feet supervisor in exact arithmetic: simulation. *)

From Coq Require Import Reals List ZArith Arith Bool Lra Lia.
From Verif Require Import Scalar LinAlg LinAlgFacts ToolsModel InterpModel PolygonModel FootModel SupModel RoundModel RoundSpec.
Import ListNotations.
Local Open Scope R_scope.

(** ** Outcomes *)
Lemma rres_bind {A B A' B'} (P : A -> B -> Prop) (Q : A' -> B' -> Prop) r q f h :
  rres P r q -> (forall a b, P a b -> rres Q (f a) (h b)) -> rres Q (bind r f) (bind q h).
Proof. destruct r, q; cbn; try contradiction; intros H K; try exact K; auto. Qed.
Lemma rres_bind_eq {A B A' B'} (P : A -> B -> Prop) (Q : A' -> B' -> Prop) r q f h :
  rres P r q -> (forall a b, r = Ok a -> q = Ok b -> P a b -> rres Q (f a) (h b)) -> rres Q (bind r f) (bind q h).
Proof. destruct r, q; cbn; try contradiction; intros H K; try exact K; auto. Qed.
Lemma rres_guard b b' : b = b' -> rres eq (guard b) (guard b').
Proof. intros <-. destruct b; cbn; reflexivity. Qed.
Lemma rres_ubguard b b' : b = b' -> rres eq (ubguard b) (ubguard b').
Proof. intros <-. destruct b; cbn; trivial. Qed.
Lemma rres_nanguard b b' : b = b' -> rres eq (nanguard b) (nanguard b').
Proof. intros <-. destruct b; cbn; trivial. Qed.
Lemma rres_impl {A B} (P Q : A -> B -> Prop) r q : (forall a b, P a b -> Q a b) -> rres P r q -> rres Q r q.
Proof. destruct r, q; cbn; auto. Qed.
Lemma Forall2_nth {A B} (P : A -> B -> Prop) l m i : Forall2 P l m -> rres P (rd l i) (rd m i).
Proof.
  intros H. revert i. unfold rd. induction H as [|x y l m Hxy H IH]; intros [|i]; cbn; try exact Logic.I; [exact Hxy|apply IH].
Qed.

Section Keep.
Context {K : Type} {SK : Scalar K}.
Lemma phase_change_ttnp (s s' : sup K) i : phase_change s i = Ok s' -> sttnp s' = sttnp s.
Proof.
  unfold phase_change. destruct (cb_at (stl s) i); cbn [bind]; try discriminate. destruct (processFSM s (phType a) (snb s)). destruct (Nat.eqb _ _); [intros [= <-]; reflexivity|].
  destruct (cb_set _ _ _); cbn [bind]; try discriminate. intros [= <-]. reflexivity.
Qed.
Lemma timeline_loop_ttnp n : forall (s s' : sup K) i i' pt h v v', timeline_loop n s i pt h v = Ok (s', i', v') -> sttnp s' = sttnp s.
Proof.
  induction n as [|n IH]; intros s s' i i' pt h v v' H; cbn [timeline_loop] in H; destruct (sltb _ h); try discriminate; try (injection H as <- _ _; reflexivity).
  destruct (sltb pt EPS).
  - destruct (phase_change s i) as [s1| | | |] eqn:E; cbn [bind] in H; try discriminate. destruct (cb_at (stl s1) (S i)); cbn [bind] in H; try discriminate.
    destruct (enlarge_loop _ _ _); cbn [bind] in H; try discriminate. apply IH in H. apply phase_change_ttnp in E. congruence.
  - cbn [bind] in H. destruct (enlarge_loop _ _ _); cbn [bind] in H; try discriminate. apply IH in H. exact H.
Qed.
End Keep.

Section Sim.
Variable rnd : R -> R.
Variables u eta : R.
Hypothesis Hrnd : forall x, Rabs (rnd x - x) <= u * Rabs x + eta.
Hypothesis Hu : 0 <= u.
Hypothesis Heta : 0 <= eta.
Hypothesis Hint : forall z, (Z.abs z <= 16384)%Z -> rnd (IZR z) = IZR z.
Hypothesis Hhalf : rnd (1/2) = 1/2.
Notation F := (fl rnd).

(** The grid: half a feedback period.  The sampling period is [a] feedback periods, no phase is longer than [KM]. *)
Variables (g Bd : R) (N : nat) (a KM : Z).
Definition KB : Z := (2 * (Z.of_nat N * a + KM + a + 1))%Z.
Definition d : R := u * Bd + eta * (1 + Bd).
Definition ZZ : R := d * IZR (Z.of_nat N + 18 + 2 * KM + 2 * Z.of_nat N * a).
Definition XS : Z := (Z.max KM (Z.of_nat N * a) - Z.of_nat N * a)%Z.
Definition EM : R := ZZ + d * IZR (2 * a + 2 + 2 * XS).
Definition ZS : R := d * IZR (16 + 2 * KM).
Hypothesis HN : (0 < N)%nat /\ (Z.of_nat N <= 16384)%Z.
Hypothesis Ha : (1 <= a)%Z.
Hypothesis HKM : (2 * a <= KM)%Z.
Hypothesis HB : IZR KB * g + 1/1000 <= Bd.
Hypothesis Hg : 2/10000 <= g.
Hypothesis HEM : EM + d * IZR (a + 40) < 1/10000.

Lemma Bd_pos : 0 < Bd.
Proof. assert (0 <= IZR KB) by (apply IZR_le; unfold KB; nia). nra. Qed.
Lemma d_pos : 0 <= d.
Proof. unfold d. pose proof Bd_pos. nra. Qed.
Lemma uB_d : u * Bd <= d /\ eta <= d.
Proof. unfold d. pose proof Bd_pos. assert (0 <= eta * Bd) by (apply Rmult_le_pos; lra). assert (0 <= u * Bd) by (apply Rmult_le_pos; lra). split; nra. Qed.
Lemma rnd_near x : Rabs x <= Bd -> Rabs (rnd x - x) <= d.
Proof. intros H. pose proof (Hrnd x). unfold d. pose proof Bd_pos. assert (0 <= eta * Bd) by (apply Rmult_le_pos; lra). nra. Qed.
Lemma Na_pos : (0 <= Z.of_nat N * a)%Z. Proof. nia. Qed.
Lemma XS_pos : (0 <= XS)%Z. Proof. unfold XS. lia. Qed.
Lemma EM_small : EM < 1/10000 /\ 0 <= ZZ /\ ZZ <= EM /\ d * IZR (a + 40) < 1/10000 - EM.
Proof.
  pose proof d_pos. assert (0 <= IZR (a + 40)) by (apply IZR_le; lia). pose proof XS_pos. assert (0 <= IZR (2 * a + 2 + 2 * XS)) by (apply IZR_le; lia).
  assert (0 <= IZR (Z.of_nat N + 18 + 2 * KM + 2 * Z.of_nat N * a)) by (apply IZR_le; nia).
  assert (0 <= ZZ) by (unfold ZZ; apply Rmult_le_pos; assumption).
  assert (0 <= d * IZR (2 * a + 2 + 2 * XS)) by (apply Rmult_le_pos; assumption). assert (0 <= d * IZR (a + 40)) by (apply Rmult_le_pos; assumption).
  unfold EM in *. repeat split; lra.
Qed.
Lemma d_small : 40 * d + EM < 1/10000.
Proof.
  pose proof d_pos. destruct EM_small as (_ & _ & _ & H1). rewrite plus_IZR in H1. assert (1 <= IZR a) by (apply IZR_le; lia). nra.
Qed.

(** Numbers known up to an error. *)
Definition near (E : R) (x : F) (y : R) : Prop := Rabs (val x - y) <= E.
Lemma near_bounds E x y : near E x y -> y - E <= val x <= y + E.
Proof. unfold near, Rabs. destruct (Rcase_abs (val x - y)); lra. Qed.
Lemma bounds_near E x y : y - E <= val x <= y + E -> near E x y.
Proof. intros H. unfold near. apply Rabs_le. lra. Qed.
Lemma near_weaken E E' x y : E <= E' -> near E x y -> near E' x y.
Proof. unfold near. lra. Qed.
Lemma rnd_bounds x : - Bd <= x <= Bd -> x - d <= rnd x <= x + d.
Proof. intros H. assert (H1 : Rabs x <= Bd) by (apply Rabs_le; lra). apply rnd_near in H1. revert H1. unfold Rabs. destruct (Rcase_abs (rnd x - x)); lra. Qed.
Lemma EPS_near : 1/10000 - d <= val (EPS (K:=F)) <= 1/10000 + d.
Proof.
  unfold EPS. cbn [sdiv s1 sofZ FlScalar val]. rewrite Hint by lia. apply rnd_bounds. pose proof Bd_pos.
  assert (0 <= IZR KB) by (apply IZR_le; unfold KB; nia). nra.
Qed.

(** A timer: on the grid in exact arithmetic, and the error grows by [d] for each half period it runs. *)
Definition tmz (Z0 : R) (k : Z) (x : F) (y : R) : Prop := y = IZR k * g /\ near (Z0 - d * IZR k) x y.
Definition tm := tmz ZZ.
Definition tms := tmz ZS.
Definition rng (k : Z) : Prop := (- (2 * a + 2 + 2 * XS) <= k <= KB)%Z.
Lemma ZS_ZZ : ZS <= ZZ.
Proof. unfold ZS, ZZ. apply Rmult_le_compat_l; [apply d_pos|]. apply IZR_le. pose proof Na_pos. lia. Qed.
Lemma tms_tm k x y : tms k x y -> tm k x y.
Proof. intros (E & H). split; [exact E|]. apply near_bounds in H. apply bounds_near. pose proof ZS_ZZ. lra. Qed.
Lemma tm_bounds k x y : rng k -> tm k x y -> y - EM <= val x <= y + EM.
Proof.
  intros (L & _) (_ & H). apply near_bounds in H. apply IZR_le in L. rewrite opp_IZR in L. pose proof d_pos. unfold EM in *. nra.
Qed.
Lemma grid_pos : 0 < g. Proof. lra. Qed.
(** The settings. *)
Definition setting (m : Z) (x : F) (y : R) : Prop := y = IZR m * g /\ near d x y.
Lemma KBg k : (Z.abs k <= KB)%Z -> - (Bd - 1/1000) <= IZR k * g <= Bd - 1/1000.
Proof.
  intros H. assert (H1 : (- KB <= k <= KB)%Z) by lia. destruct H1 as (H1 & H2). apply IZR_le in H1. apply IZR_le in H2. rewrite opp_IZR in H1. pose proof grid_pos. nra.
Qed.
Lemma tmz_sub Z0 k m x y X Y : Z0 <= ZZ -> tmz Z0 k x y -> setting m X Y -> rng k -> (2 <= m)%Z -> (Z.abs (k - m) <= KB)%Z -> tmz Z0 (k - m) (ssub x X) (y - Y).
Proof.
  intros HZ T (-> & HX) Hk Hm Hkm. assert (Tm : tm k x y) by (destruct T as (E & H); split; [exact E|]; apply near_bounds in H; apply bounds_near; lra).
  pose proof (tm_bounds _ _ _ Hk Tm) as Hx. destruct T as (-> & Hx'). apply near_bounds in HX. apply near_bounds in Hx'.
  pose proof (KBg _ Hkm) as Hb'. rewrite minus_IZR in Hb'. pose proof d_small. pose proof d_pos. destruct EM_small as (? & ? & ? & ?).
  assert (Hr : - Bd <= val x - val X <= Bd) by lra.
  pose proof (rnd_bounds _ Hr) as Hv. split; [rewrite minus_IZR; ring|]. apply bounds_near. cbn [ssub FlScalar val].
  rewrite minus_IZR. apply IZR_le in Hm. nra.
Qed.
Lemma tm_sub k m x y X Y : tm k x y -> setting m X Y -> rng k -> (2 <= m)%Z -> (Z.abs (k - m) <= KB)%Z -> tm (k - m) (ssub x X) (y - Y).
Proof. apply tmz_sub. lra. Qed.
(** Comparisons have the same outcome. *)
Lemma k_le0 k : (k <= 0)%Z -> IZR k * g <= 0.
Proof. intros H. apply IZR_le in H. pose proof grid_pos. nra. Qed.
Lemma k_ge1 k : (1 <= k)%Z -> g <= IZR k * g.
Proof. intros H. apply IZR_le in H. pose proof grid_pos. nra. Qed.
Lemma k_lem1 k : (k <= -1)%Z -> IZR k * g <= - g.
Proof. intros H. apply IZR_le in H. pose proof grid_pos. nra. Qed.
Lemma k_ge0 k : (0 <= k)%Z -> 0 <= IZR k * g.
Proof. intros H. apply IZR_le in H. pose proof grid_pos. nra. Qed.
Definition REPS : R := EPS (K:=R).
Lemma REPS_eq : EPS (K:=R) = 1/10000. Proof. reflexivity. Qed.
Lemma lt_EPS k x y : rng k -> tm k x y -> sltb x EPS = (k <=? 0)%Z /\ sltb y (EPS (K:=R)) = (k <=? 0)%Z.
Proof.
  intros Hk T. pose proof (tm_bounds _ _ _ Hk T) as Hx. destruct T as (-> & _). pose proof EPS_near. pose proof d_small. pose proof d_pos. destruct EM_small as (? & ? & ? & ?).
  change (sltb x EPS) with (Rltb (val x) (val (EPS (K:=F)))). change (sltb (IZR k * g) EPS) with (Rltb (IZR k * g) (1/10000)).
  destruct (Z.leb_spec k 0) as [L|L].
  - pose proof (k_le0 _ L). split; apply Rltb_true; lra.
  - pose proof (k_ge1 k ltac:(lia)). split; apply Rltb_false; lra.
Qed.
Lemma EPS_lt k x y : rng k -> tm k x y -> sltb EPS x = (0 <? k)%Z /\ sltb (EPS (K:=R)) y = (0 <? k)%Z.
Proof.
  intros Hk T. pose proof (tm_bounds _ _ _ Hk T) as Hx. destruct T as (-> & _). pose proof EPS_near. pose proof d_small. pose proof d_pos. destruct EM_small as (? & ? & ? & ?).
  change (sltb EPS x) with (Rltb (val (EPS (K:=F))) (val x)). change (sltb EPS (IZR k * g)) with (Rltb (1/10000) (IZR k * g)).
  destruct (Z.ltb_spec 0 k) as [L|L].
  - pose proof (k_ge1 k ltac:(lia)). split; apply Rltb_true; lra.
  - pose proof (k_le0 k ltac:(lia)). split; apply Rltb_false; lra.
Qed.
Lemma mEPS_lt k x y : rng k -> tm k x y -> sltb (sopp EPS) x = (0 <=? k)%Z /\ sltb (sopp (EPS (K:=R))) y = (0 <=? k)%Z.
Proof.
  intros Hk T. pose proof (tm_bounds _ _ _ Hk T) as Hx. destruct T as (-> & _). pose proof EPS_near. pose proof d_small. pose proof d_pos. destruct EM_small as (? & ? & ? & ?).
  change (sltb (sopp EPS) x) with (Rltb (- val (EPS (K:=F))) (val x)). change (sltb (sopp EPS) (IZR k * g)) with (Rltb (- (1/10000)) (IZR k * g)).
  destruct (Z.leb_spec 0 k) as [L|L].
  - pose proof (k_ge0 k L). split; apply Rltb_true; lra.
  - pose proof (k_lem1 k ltac:(lia)). split; apply Rltb_false; lra.
Qed.
(** t + EPS compared with a timer, for a number known up to 30 roundings. *)
Lemma plusEPS m X Y : Y = IZR m * g -> (Z.abs m <= KB)%Z -> near (30 * d) X Y ->
  Y + 1/10000 - 32 * d <= val (sadd X EPS) <= Y + 1/10000 + 32 * d.
Proof.
  intros E Hm HX. apply near_bounds in HX. pose proof EPS_near. pose proof d_small. pose proof d_pos. destruct EM_small as (? & ? & ? & ?).
  pose proof (KBg m Hm) as Hk. rewrite <- E in Hk. cbn [sadd FlScalar val]. assert (Hr : - Bd <= val X + val (EPS (K:=F)) <= Bd) by lra. pose proof (rnd_bounds _ Hr). lra.
Qed.
Lemma plusEPS_lt m X Y k x y : Y = IZR m * g -> (Z.abs m <= KB)%Z -> near (30 * d) X Y -> rng k -> tm k x y ->
  sltb (sadd X EPS) x = (m <? k)%Z /\ sltb (sadd Y (EPS (K:=R))) y = (m <? k)%Z.
Proof.
  intros E Hm HX Hk T. pose proof (plusEPS m X Y E Hm HX) as HP. pose proof (tm_bounds _ _ _ Hk T) as Hx. destruct T as (-> & _). pose proof d_small. pose proof d_pos. destruct EM_small as (? & ? & ? & ?).
  change (sltb (sadd X EPS) x) with (Rltb (val (sadd X EPS)) (val x)). change (sltb (sadd Y EPS) (IZR k * g)) with (Rltb (Y + 1/10000) (IZR k * g)). subst Y.
  destruct (Z.ltb_spec m k) as [L|L].
  - pose proof (k_ge1 (k - m) ltac:(lia)) as G. rewrite minus_IZR in G. split; apply Rltb_true; lra.
  - pose proof (k_le0 (k - m) ltac:(lia)) as G. rewrite minus_IZR in G. split; apply Rltb_false; lra.
Qed.
Lemma lt_plusEPS m X Y k x y : Y = IZR m * g -> (Z.abs m <= KB)%Z -> near (30 * d) X Y -> rng k -> tm k x y ->
  sltb x (sadd X EPS) = (k <=? m)%Z /\ sltb y (sadd Y (EPS (K:=R))) = (k <=? m)%Z.
Proof.
  intros E Hm HX Hk T. pose proof (plusEPS m X Y E Hm HX) as HP. pose proof (tm_bounds _ _ _ Hk T) as Hx. destruct T as (-> & _). pose proof d_small. pose proof d_pos. destruct EM_small as (? & ? & ? & ?).
  change (sltb x (sadd X EPS)) with (Rltb (val x) (val (sadd X EPS))). change (sltb (IZR k * g) (sadd Y EPS)) with (Rltb (IZR k * g) (Y + 1/10000)). subst Y.
  destruct (Z.leb_spec k m) as [L|L].
  - pose proof (k_le0 (k - m) ltac:(lia)) as G. rewrite minus_IZR in G. split; apply Rltb_true; lra.
  - pose proof (k_ge1 (k - m) ltac:(lia)) as G. rewrite minus_IZR in G. split; apply Rltb_false; lra.
Qed.

(** ** The loop to the next sample *)
Lemma strunc_F (x : F) : val x - 1 < IZR (Z.of_nat (Z.to_nat (strunc x))).
Proof.
  unfold strunc. cbn [sltb s0 sfloor sopp FlScalar val]. destruct (Rltb_spec (val x) 0) as [L|L].
  - assert (0 <= IZR (Z.of_nat (Z.to_nat (- Int_part (- val x))))) by (apply IZR_le; lia). lra.
  - destruct (base_Int_part (val x)) as (H1 & H2). assert (H3 : IZR (Int_part (val x)) <= IZR (Z.of_nat (Z.to_nat (Int_part (val x))))) by (apply IZR_le; lia). lra.
Qed.
Lemma strunc_R (x : R) : x - 1 < IZR (Z.of_nat (Z.to_nat (strunc x))).
Proof.
  unfold strunc. rsimpl_goal. destruct (Rltb_spec x 0) as [L|L].
  - assert (0 <= IZR (Z.of_nat (Z.to_nat (- Int_part (- x))))) by (apply IZR_le; lia). lra.
  - destruct (base_Int_part x) as (H1 & H2). assert (H3 : IZR (Int_part x) <= IZR (Z.of_nat (Z.to_nat (Int_part x)))) by (apply IZR_le; lia). lra.
Qed.
Definition sampled (x : F) (y : R) : Prop := exists k, (1 <= k <= 2 * a)%Z /\ tm k x y.
Lemma sample_loop_sim X Y : setting (2 * a) X Y -> forall nF nR k x y, tm k x y -> (1 <= k <= KB)%Z ->
  (k <= 2 * a * (Z.of_nat nF + 1))%Z -> (k <= 2 * a * (Z.of_nat nR + 1))%Z ->
  rres sampled (sample_loop nF X x) (sample_loop nR Y y).
Proof.
  intros HX. induction nF as [|nF IH]; intros nR k x y T Hk KF KR.
  - assert (L : (k <= 2 * a)%Z) by lia. destruct HX as (EY & HX).
    assert (H30 : near (30 * d) X Y) by (apply bounds_near; apply near_bounds in HX; pose proof d_pos; lra).
    destruct (plusEPS_lt (2 * a) X Y k x y EY ltac:(unfold KB; pose proof Na_pos; lia) H30 ltac:(unfold rng; pose proof XS_pos; lia) T) as (E1 & E2).
    destruct nR; cbn [sample_loop]; rewrite E1, E2; destruct (Z.ltb_spec (2 * a) k); try lia; exists k; split; try lia; exact T.
  - pose proof HX as (EY & HX'). assert (H30 : near (30 * d) X Y) by (apply bounds_near; apply near_bounds in HX'; pose proof d_pos; lra).
    destruct (plusEPS_lt (2 * a) X Y k x y EY ltac:(unfold KB; pose proof Na_pos; lia) H30 ltac:(unfold rng; pose proof XS_pos; lia) T) as (E1 & E2).
    destruct nR as [|nR].
    + assert (L : (k <= 2 * a)%Z) by lia. cbn [sample_loop]; rewrite E1, E2; destruct (Z.ltb_spec (2 * a) k); try lia; exists k; split; try lia; exact T.
    + cbn [sample_loop]. rewrite E1, E2. destruct (Z.ltb_spec (2 * a) k) as [L|L]; [|exists k; split; [lia|exact T]].
      apply (IH nR (k - 2 * a)%Z); try lia. apply tm_sub; try assumption; unfold rng; pose proof XS_pos; lia.
Qed.
Lemma quotient k x y X Y : (1 <= k <= KB)%Z -> tm k x y -> setting (2 * a) X Y -> IZR k / IZR (2 * a) - 1/2 <= val (sdiv x X).
Proof.
  intros Hk T (-> & HX). pose proof (tm_bounds k x y ltac:(unfold rng; pose proof XS_pos; lia) T) as Hx. destruct T as (-> & _). apply near_bounds in HX.
  pose proof d_small as D1. pose proof d_pos as D0. destruct EM_small as (D2 & D3 & D4 & _).
  assert (A1 : 1 <= IZR a) by (apply IZR_le; lia). assert (E2 : IZR (2 * a) = 2 * IZR a) by (rewrite mult_IZR; reflexivity). rewrite E2 in *.
  assert (K1 : 1 <= IZR k) by (apply IZR_le; lia).
  assert (KE : IZR k * d <= EM).
  { assert (IZR k * d <= IZR KB * d) by (apply Rmult_le_compat_r; [exact D0|apply IZR_le; lia]).
    assert (IZR KB * d <= EM).
    { unfold EM, ZZ. rewrite <- Rmult_plus_distr_l, <- plus_IZR, Rmult_comm. apply Rmult_le_compat_l; [exact D0|]. apply IZR_le. unfold KB. pose proof XS_pos. lia. }
    lra. }
  assert (UK : u * IZR k <= 1/70).
  { assert (u * IZR k * g <= d).
    { destruct uB_d as (UB & _). assert (IZR k * g <= Bd). { assert (IZR k * g <= IZR KB * g) by (apply Rmult_le_compat_r; [lra|apply IZR_le; lia]). lra. }
      replace (u * IZR k * g) with (u * (IZR k * g)) by ring. pose proof (Rmult_le_compat_l u _ _ Hu H). lra. }
    assert (0 <= u * IZR k) by (apply Rmult_le_pos; lra). nra. }
  assert (Xp : 0 < val X) by nra. assert (xp : 0 < val x) by nra.
  set (q := val x / val X). assert (Eq : q * val X = val x) by (unfold q; field; lra).
  assert (q0 : 0 <= q) by (unfold q; apply Rlt_le, Rdiv_lt_0_compat; assumption).
  set (r := IZR k / (2 * IZR a)). assert (Er : r * (2 * IZR a) = IZR k) by (unfold r; field; lra). assert (r0 : 0 <= r) by (unfold r; apply Rlt_le, Rdiv_lt_0_compat; lra).
  assert (rk : 2 * r <= IZR k) by nra.
  assert (Q1 : r - 3/8 <= q).
  { destruct (Rle_lt_dec (r - 3/8) q) as [G|G]; [exact G|exfalso].
    assert (q * val X < (r - 3/8) * val X) by (apply Rmult_lt_compat_r; assumption).
    assert (0 < r - 3/8) by lra.
    assert ((r - 3/8) * val X <= (r - 3/8) * (2 * IZR a * g + d)) by (apply Rmult_le_compat_l; lra).
    assert ((r - 3/8) * (2 * IZR a * g + d) = IZR k * g + r * d - 3/8 * (2 * IZR a * g + d)) by (rewrite <- Er; ring).
    assert (r * d <= EM / 2) by nra. assert (g <= IZR a * g) by nra. lra. }
  assert (Q2 : q <= 2 * IZR k).
  { destruct (Rle_lt_dec q (2 * IZR k)) as [G|G]; [exact G|exfalso].
    assert (2 * IZR k * val X < q * val X) by (apply Rmult_lt_compat_r; assumption).
    assert (2 * IZR k * (2 * IZR a * g - d) <= 2 * IZR k * val X) by (apply Rmult_le_compat_l; lra).
    assert (IZR k * g <= IZR k * g * IZR a) by nra. assert (IZR k * d <= EM) by lra. nra. }
  cbn [sdiv FlScalar val]. fold q. pose proof (Hrnd q) as HR. rewrite (Rabs_pos_eq q q0) in HR.
  assert (u * q <= 2/70) by nra.
  assert (eta <= d) by (unfold d; pose proof Bd_pos; nra).
  assert (rnd q - q >= - (u * q + eta)) by (revert HR; unfold Rabs; destruct (Rcase_abs (rnd q - q)); lra). lra.
Qed.
Lemma timeToNextSample_sim (sF : sup F) (sR : sup R) k : setting (2 * a) (sT sF) (sT sR) -> tm k (sttnp sF) (sttnp sR) -> (1 <= k <= KB)%Z ->
  rres sampled (s_timeToNextSample sF) (s_timeToNextSample sR).
Proof.
  intros HT T Hk. unfold s_timeToNextSample. assert (A1 : (0 < a)%Z) by lia. assert (A2 : 0 < IZR (2 * a)) by (apply IZR_lt; lia).
  apply (sample_loop_sim _ _ HT _ _ k); try assumption.
  - pose proof (quotient k _ _ _ _ Hk T HT) as Q. pose proof (strunc_F (sdiv (sttnp sF) (sT sF))) as S.
    apply le_IZR. rewrite Nat2Z.inj_succ. set (n := Z.of_nat (Z.to_nat (strunc (sdiv (sttnp sF) (sT sF))))) in *. rewrite mult_IZR. replace (IZR (Z.succ n + 1)) with (IZR n + 2) by (rewrite plus_IZR, succ_IZR; ring).
    set (r := IZR k / IZR (2 * a)) in *. assert (Er : r * IZR (2 * a) = IZR k) by (unfold r; field; lra). rewrite <- Er. rewrite (Rmult_comm (IZR (2 * a))). apply Rmult_le_compat_r; lra.
  - pose proof (strunc_R (sdiv (sttnp sR) (sT sR))) as S. destruct T as (E1 & _), HT as (E2 & _).
    apply le_IZR. rewrite Nat2Z.inj_succ. set (n := Z.of_nat (Z.to_nat (strunc (sdiv (sttnp sR) (sT sR))))) in *. rewrite mult_IZR. replace (IZR (Z.succ n + 1)) with (IZR n + 2) by (rewrite plus_IZR, succ_IZR; ring).
    assert (Q : sdiv (sttnp sR) (sT sR) = IZR k / IZR (2 * a)) by (rewrite E1, E2; rsimpl_goal; field; split; [pose proof grid_pos; lra|lra]). rewrite Q in S.
    set (r := IZR k / IZR (2 * a)) in *. assert (Er : r * IZR (2 * a) = IZR k) by (unfold r; field; lra). rewrite <- Er. rewrite (Rmult_comm (IZR (2 * a))). apply Rmult_le_compat_r; lra.
Qed.

(** ** States *)
Definition duration (x : F) (y : R) : Prop := exists j, (1 <= j <= KM)%Z /\ y = IZR (2 * j) * g /\ near (16 * d) x y.
Definition prel (p : phase F) (q : phase R) : Prop := phType p = phType q /\ duration (phDur p) (phDur q).
Definition nonempty {A} (p : polygon A) : bool := negb (Nat.eqb (length (pverts p)) 0).
Definition frel (f : foot F) (h : foot R) : Prop :=
  vlen (fsx f) = vlen (fsx h) /\ vlen (fsy f) = vlen (fsy h) /\ vlen (fsz f) = vlen (fsz h) /\ nonempty (fkin f) = nonempty (fkin h).
Definition cbrel (t : cbuf (phase F)) (t' : cbuf (phase R)) : Prop := cbcap t = cbcap t' /\ Forall2 prel (cbl t) (cbl t').
Definition brel (s : sup F) (r : sup R) : Prop :=
  sN s = N /\ sN r = N /\ setting (2 * a) (sT s) (sT r) /\ frel (sleft s) (sleft r) /\ frel (sright s) (sright r)
  /\ snb s = snb r /\ duration (sstep s) (sstep r) /\ duration (sDS s) (sDS r) /\ smove s = smove r /\ cbrel (stl s) (stl r).
Definition samelen (v : vec F) (w : vec R) : Prop := vlen v = vlen w.

Lemma dur_tm x y : duration x y -> exists k, (1 <= k <= 2 * KM)%Z /\ tms k x y.
Proof.
  intros (j & Hj & E & H). exists (2 * j)%Z. split; [lia|]. split; [exact E|]. apply near_bounds in H. apply bounds_near. pose proof d_pos.
  assert (16 * d <= ZS - d * IZR (2 * j)); [|lra]. unfold ZS. rewrite <- Rmult_minus_distr_l, <- minus_IZR, Rmult_comm. apply Rmult_le_compat_l; [assumption|]. apply IZR_le. pose proof Na_pos. lia.
Qed.
Lemma F2_length {A B} (P : A -> B -> Prop) l m : Forall2 P l m -> length l = length m.
Proof. induction 1; cbn; congruence. Qed.
Lemma cb_size_rel t t' : cbrel t t' -> cb_size t = cb_size t'.
Proof. intros (_ & H). unfold cb_size. apply (F2_length _ _ _ H). Qed.
Lemma cb_at_rel t t' i : cbrel t t' -> rres prel (cb_at t i) (cb_at t' i).
Proof. intros (_ & H). apply Forall2_nth. exact H. Qed.
Lemma F2_firstn {A B} (P : A -> B -> Prop) n l m : Forall2 P l m -> Forall2 P (firstn n l) (firstn n m).
Proof. intros H. revert n. induction H; intros [|n]; cbn; constructor; auto. Qed.
Lemma F2_lset {A B} (P : A -> B -> Prop) x y l m i : Forall2 P l m -> P x y -> Forall2 P (lset l i x) (lset m i y).
Proof. intros H Hp. revert i. induction H; intros [|i]; cbn; constructor; auto. Qed.
Lemma cap_rel n t t' : cbrel t t' -> cbrel (cb_set_capacity n t) (cb_set_capacity n t').
Proof. intros (_ & H). split; [reflexivity|]. apply F2_firstn. exact H. Qed.
Lemma push_rel x y t t' : prel x y -> cbrel t t' -> cbrel (cb_push_back x t) (cb_push_back y t').
Proof.
  intros Hp Ht. pose proof (cb_size_rel _ _ Ht) as E. destruct Ht as (C & H). unfold cb_push_back. rewrite E, C.
  assert (H1 : Forall2 prel [x] [y]) by (constructor; [exact Hp|constructor]).
  destruct (Nat.ltb (cb_size t') (cbcap t')); [split; [reflexivity|apply Forall2_app; [exact H|exact H1]]|].
  destruct (Nat.eqb (cbcap t') 0); [split; assumption|]. split; [reflexivity|]. apply Forall2_app; [|exact H1]. destruct H; cbn [tl]; [constructor|assumption].
Qed.
Lemma cbset_rel x y t t' i : prel x y -> cbrel t t' -> rres cbrel (cb_set t i x) (cb_set t' i y).
Proof.
  intros Hp Ht. pose proof (cb_size_rel _ _ Ht) as E. destruct Ht as (C & H). unfold cb_set. rewrite E. destruct (Nat.ltb _ _); cbn; [|exact Logic.I].
  split; [exact C|]. apply F2_lset; assumption.
Qed.
Lemma pop_rel t t' : cbrel t t' -> rres cbrel (cb_pop_front t) (cb_pop_front t').
Proof. destruct t as [l n], t' as [l' n']. intros (C & H). unfold cb_pop_front. cbn [cbl cbcap] in *. destruct H; cbn; [exact Logic.I|]. split; assumption. Qed.
Lemma front_sim s r : brel s r -> rres prel (s_front s) (s_front r).
Proof. intros H. apply cb_at_rel. apply H. Qed.
Lemma isInDS_sim s r : brel s r -> rres eq (s_isInDS s) (s_isInDS r).
Proof. intros H. unfold s_isInDS. eapply rres_bind; [apply front_sim; exact H|]. intros p q (E & _). cbn. rewrite E. reflexivity. Qed.
Lemma kin_sim s r i : brel s r -> rres (fun p q => nonempty p = nonempty q) (s_getKinematicConvexPolygon i s) (s_getKinematicConvexPolygon i r).
Proof.
  intros H. pose proof H as (_ & _ & _ & (_ & _ & _ & FL) & (_ & _ & _ & FR) & E1 & _ & _ & E2 & Ht). unfold s_getKinematicConvexPolygon. rewrite E1, E2.
  eapply rres_bind; [apply rres_guard; reflexivity|]. intros _ _ _. eapply rres_bind; [apply isInDS_sim; exact H|]. intros ds ds' <-.
  eapply rres_bind; [apply cb_at_rel; exact Ht|]. intros p q (E & _). rewrite E. destruct (phType q); [exact Logic.I|exact FL|exact FR].
Qed.
Lemma vread_sim v w i : samelen v w -> rres (fun _ _ => True) (vread v i) (vread w i).
Proof. intros E. unfold vread. rewrite E. destruct (Nat.ltb _ _); exact Logic.I. Qed.
Lemma enlargeStepVec_sim s r v w : brel s r -> samelen v w -> rres samelen (enlargeStepVec s v) (enlargeStepVec r w).
Proof.
  intros H Hv. pose proof H as (N1 & N2 & _ & (X & Y & _) & _ & E1 & _ & _ & E2 & _). unfold samelen in Hv. unfold enlargeStepVec. cbv zeta. rewrite N1, N2, Hv.
  eapply rres_bind; [apply rres_guard; reflexivity|]. intros _ _ _. eapply rres_bind; [apply kin_sim; exact H|]. intros p q E.
  eapply rres_bind; [apply rres_guard; exact E|]. intros _ _ _. eapply rres_bind; [apply isInDS_sim; exact H|]. intros ds ds' <-. rewrite E1.
  destruct (ds && Nat.eqb (snb r) 1)%bool; [|reflexivity].
  eapply rres_bind; [apply vread_sim; exact X|]. intros x x' _. eapply rres_bind; [apply vread_sim; exact Y|]. intros y y' _. reflexivity.
Qed.
Lemma enlarge_loop_sim n : forall s r v w, brel s r -> samelen v w -> rres samelen (enlarge_loop n s v) (enlarge_loop n r w).
Proof.
  induction n as [|n IH]; intros s r v w H Hv; cbn [enlarge_loop]; pose proof H as (N1 & N2 & _ & _ & _ & E1 & _); rewrite N1, N2, E1, Hv; destruct (Nat.ltb _ _); try exact Logic.I; try exact Hv.
  eapply rres_bind; [apply enlargeStepVec_sim; assumption|]. intros v' w' Hv'. apply IH; assumption.
Qed.
Lemma reduce_len m n v w : samelen v w -> samelen (reduceStepVec m n v) (reduceStepVec m n w).
Proof. intros E. unfold samelen, reduceStepVec. rewrite E. destruct (negb m && Nat.ltb (2 * n + 2) (vlen w))%bool; [reflexivity|exact E]. Qed.
Lemma setTl_rel s r nb nb' t t' : brel s r -> nb = nb' -> cbrel t t' -> brel (s_setTl s nb t) (s_setTl r nb' t').
Proof. intros (N1 & N2 & A1 & A2 & A3 & A4 & A5 & A6 & A7 & A8) <- Ht. exact (conj N1 (conj N2 (conj A1 (conj A2 (conj A3 (conj eq_refl (conj A5 (conj A6 (conj A7 Ht))))))))). Qed.
Lemma durationOf_rel s r p : brel s r -> duration (durationOf s p) (durationOf r p).
Proof. intros (_ & _ & _ & _ & _ & _ & A & B & _). destruct p; assumption. Qed.
Lemma phase_change_sim s r i : brel s r -> rres brel (phase_change s i) (phase_change r i).
Proof.
  intros H. pose proof H as (_ & _ & _ & _ & _ & E1 & _ & _ & E2 & Ht). unfold phase_change. eapply rres_bind; [apply cb_at_rel; exact Ht|]. intros p q (E & _).
  unfold processFSM. rewrite E, E1, E2, (cb_size_rel _ _ Ht). pose proof Ht as (C & _). rewrite C.
  assert (Hp : prel (MkPhase (nextType (smove r) (phType q)) (durationOf s (nextType (smove r) (phType q)))) (MkPhase (nextType (smove r) (phType q)) (durationOf r (nextType (smove r) (phType q)))))
    by (split; [reflexivity|apply durationOf_rel; exact H]).
  destruct (Nat.eqb _ _).
  - apply setTl_rel; [exact H|reflexivity|]. apply push_rel; [exact Hp|]. apply cap_rel. exact Ht.
  - eapply rres_bind; [apply cbset_rel; [exact Hp|exact Ht]|]. intros t t' Ht'. apply setTl_rel; [exact H|reflexivity|exact Ht'].
Qed.
Definition looprel (x : sup F * nat * vec F) (y : sup R * nat * vec R) : Prop :=
  let '(s, i, v) := x in let '(r, j, w) := y in brel s r /\ i = j /\ samelen v w.
Lemma timeline_loop_sim n : forall s r i k kh pt pt' h h' v w, brel s r -> samelen v w ->
  tm k pt pt' -> (- (2 * a) < k <= 2 * KM)%Z -> tm kh h h' -> (- (2 * a) <= kh <= 2 * Z.of_nat N * a)%Z ->
  rres looprel (timeline_loop n s i pt h v) (timeline_loop n r i pt' h' w).
Proof.
  induction n as [|n IH]; intros s r i k kh pt pt' h h' v w H Hv Tk Hk Th Hh; cbn [timeline_loop];
    destruct (mEPS_lt kh h h' ltac:(unfold rng, KB; pose proof XS_pos; lia) Th) as (-> & ->); destruct (Z.leb_spec 0 kh) as [L|L]; try exact Logic.I;
    try (cbn [rres looprel]; split; [exact H|]; split; [reflexivity|exact Hv]).
  destruct (lt_EPS k pt pt' ltac:(unfold rng, KB; pose proof XS_pos; pose proof Na_pos; lia) Tk) as (-> & ->).
  eapply rres_bind with (P := fun x y => brel (fst (fst x)) (fst (fst y)) /\ snd (fst x) = snd (fst y) /\ exists k', tm k' (snd x) (snd y) /\ (1 <= k' <= 2 * KM)%Z).
  - destruct (Z.leb_spec k 0) as [K|K].
    + eapply rres_bind; [apply phase_change_sim; exact H|]. intros s' r' H'. eapply rres_bind; [apply cb_at_rel; apply H'|]. intros p q (_ & Hd).
      cbn [rres fst snd bind]. split; [exact H'|]. split; [reflexivity|]. destruct (dur_tm _ _ Hd) as (k' & Hk' & T'). exists k'. split; [apply tms_tm; exact T'|exact Hk'].
    + cbn [rres fst snd bind]. split; [exact H|]. split; [reflexivity|]. exists k. split; [exact Tk|lia].
  - intros ((s' & i') & pt1) ((r' & j') & pt2) (H' & E & k' & T' & Hk'). cbn [fst snd] in *. subst j'.
    pose proof H' as (N1 & N2 & HT & _ & _ & E1 & _ & _ & E2 & _). rewrite E1.
    eapply rres_bind; [apply enlarge_loop_sim; [exact H'|exact Hv]|]. intros v' w' Hv'. rewrite N1, N2, E2.
    apply (IH s' r' i' (k' - 2 * a)%Z (kh - 2 * a)%Z); try assumption; try lia.
    + apply reduce_len. exact Hv'.
    + apply tm_sub; try assumption; unfold rng, KB; pose proof XS_pos; pose proof Na_pos; lia.
    + apply tm_sub; try assumption; unfold rng, KB; pose proof XS_pos; lia.
Qed.
Lemma timeline_fuel_eq s r : brel s r -> timeline_fuel s = timeline_fuel r.
Proof.
  intros (N1 & N2 & HT & _). unfold timeline_fuel. rewrite N1, N2.
  assert (0 < IZR a /\ 1 <= IZR a) as (A0 & A1) by (split; [apply IZR_lt; lia|apply IZR_le; lia]).
  destruct HT as (E & HX). apply near_bounds in HX. rewrite mult_IZR in E. pose proof d_small as D1. pose proof d_pos as D0. destruct EM_small as (D2 & D3 & D4 & _). pose proof EPS_near as HE.
  assert (Tlow : 2 * g <= sT r) by (rewrite E; nra).
  assert (Q : forall z, 0 <= z < 1 -> Int_part z = 0%Z).
  { intros z Hz. destruct (base_Int_part z) as (H1 & H2). assert (-1 < Int_part z < 1)%Z by (split; apply lt_IZR; lra). lia. }
  assert (E1 : strunc (sdiv (EPS (K:=R)) (sT r)) = 0%Z).
  { unfold strunc. rsimpl_goal. assert (Hq : 0 <= 1 / 10000 / sT r < 1).
    { split; [apply Rlt_le, Rdiv_lt_0_compat; lra|]. apply Rmult_lt_reg_r with (sT r); [lra|]. replace (1 / 10000 / sT r * sT r) with (1/10000) by (field; lra). lra. }
    destruct (Rltb_spec (1 / 10000 / sT r) 0); [lra|]. apply Q. exact Hq. }
  assert (E2 : Z.to_nat (strunc (sdiv (EPS (K:=F)) (sT s))) = 0%nat).
  { unfold strunc. cbn [sltb s0 sfloor sopp sdiv FlScalar val]. set (e := val (EPS (K:=F))) in *. set (q := e / val (sT s)).
    assert (Xp : 39/100000 <= val (sT s)) by lra. assert (q0 : 0 < q) by (unfold q; apply Rdiv_lt_0_compat; lra).
    assert (q1 : q < 1/2). { apply Rmult_lt_reg_r with (val (sT s)); [lra|]. unfold q. replace (e / val (sT s) * val (sT s)) with e by (field; lra). lra. }
    pose proof (Hrnd q) as HR. rewrite (Rabs_pos_eq q) in HR by lra.
    assert (U1 : u <= 1/100). { assert (u * Bd <= d) by (unfold d; assert (0 <= eta * (1 + Bd)) by (pose proof Bd_pos; apply Rmult_le_pos; lra); lra). assert (1/1000 <= Bd) by (assert (0 <= IZR KB * g) by (apply Rmult_le_pos; [apply IZR_le; unfold KB; pose proof Na_pos; lia|lra]); lra). nra. }
    assert (eta <= d) by (unfold d; pose proof Bd_pos; nra). assert (u * q <= 1/100) by nra.
    assert (Hb : - (1/2) < rnd q < 1) by (revert HR; unfold Rabs; destruct (Rcase_abs (rnd q - q)); lra).
    destruct (Rltb_spec (rnd q) 0).
    - rewrite Q by lra. reflexivity.
    - rewrite Q by lra. reflexivity. }
  rewrite E1, E2. reflexivity.
Qed.
(** ** Selection matrices *)
Lemma v0_loop_sim X Y : setting (2 * a) X Y -> forall n k x y row V0, tm k x y -> (1 <= k <= KB)%Z -> (row <= N)%nat ->
  rres (fun p q => snd p = snd q /\ snd (fst p) = snd (fst q) /\ (row <= snd (fst p) <= N)%nat
                   /\ (snd (fst p) = N -> 1 <= k - 2 * a * (Z.of_nat (N - row)))%Z
                   /\ ((snd (fst p) < N)%nat -> k - 2 * a * (Z.of_nat (snd (fst p) - row)) <= 2 * a)%Z)
    (v0_loop n X x N row V0) (v0_loop n Y y N row V0).
Proof.
  intros HT. pose proof HT as (EY & HX). assert (HX30 : near (30 * d) X Y) by (apply near_bounds in HX; apply bounds_near; pose proof d_pos; lra).
  induction n as [|n IH]; intros k x y row V0 T Hk Hr; cbn [v0_loop];
    destruct (plusEPS_lt (2 * a) X Y k x y EY ltac:(unfold KB; pose proof Na_pos; lia) HX30 ltac:(unfold rng; pose proof XS_pos; lia) T) as (-> & ->);
    destruct (Z.ltb_spec (2 * a) k) as [L|L], (Nat.ltb_spec row N) as [M|M]; cbn [andb]; try exact Logic.I;
    try (cbn [rres fst snd]; rewrite ?Nat.sub_diag; repeat split; intros; try lia;
         replace (N - row)%nat with 0%nat by lia; lia).
  refine (rres_impl _ _ _ _ _ (IH (k - 2 * a)%Z _ _ (S row) _ _ _ _)); try lia.
  - intros p q (A & B & C & D & E). repeat split; try assumption; try lia.
    + intros G. specialize (D G). replace (Z.of_nat (N - row)) with (Z.of_nat (N - S row) + 1)%Z by lia. lia.
    + intros G. specialize (E G). replace (Z.of_nat (snd (fst p) - row)) with (Z.of_nat (snd (fst p) - S row) + 1)%Z by lia. lia.
  - apply tm_sub; try assumption; unfold rng; pose proof XS_pos; lia.
Qed.
Definition selrel (e : selst F) (e' : selst R) : Prop :=
  eV e = eV e' /\ eV0 e = eV0 e' /\ eIdx e = eIdx e' /\ eRow e = eRow e' /\ (eRow e' <= N)%nat
  /\ exists kh, tm kh (eHor e) (eHor e') /\ (2 * a * (Z.of_nat N - Z.of_nat (eRow e') - 1) <= kh <= 2 * Z.of_nat N * a)%Z.
Definition seleq (e : selst F) (e' : selst R) : Prop := eV e = eV e' /\ eV0 e = eV0 e' /\ eIdx e = eIdx e'.
Lemma sel_inner_sim s r ds i col : brel s r -> forall n k pt pt' e e', tm k pt pt' -> (- (2 * a) < k <= 2 * KM)%Z -> selrel e e' ->
  rres selrel (sel_inner n s ds i col pt e) (sel_inner n r ds i col pt' e').
Proof.
  intros H. pose proof H as (N1 & N2 & HT & _ & _ & _ & _ & _ & E2 & _).
  induction n as [|n IH]; intros k pt pt' e e' T Hk He; cbn [sel_inner]; pose proof He as (A & B & C & D & Hr & kh & Th & Hh); rewrite N1, N2, D;
    destruct (EPS_lt k pt pt' ltac:(unfold rng, KB; pose proof XS_pos; pose proof Na_pos; lia) T) as (-> & ->);
    destruct (Z.ltb_spec 0 k) as [L|L], (Nat.ltb_spec (eRow e') N) as [M|M]; cbn [andb]; try exact Logic.I; try exact He.
  assert (T' : tm (k - 2 * a) (ssub pt (sT s)) (ssub pt' (sT r))) by (apply tm_sub; try assumption; unfold rng, KB; pose proof XS_pos; pose proof Na_pos; lia).
  assert (Th' : exists kh', tm kh' (ssub (eHor e) (sT s)) (ssub (eHor e') (sT r)) /\ (2 * a * (Z.of_nat N - Z.of_nat (S (eRow e')) - 1) <= kh' <= 2 * Z.of_nat N * a)%Z).
  { exists (kh - 2 * a)%Z. split; [apply tm_sub; try assumption; unfold rng, KB; pose proof XS_pos; nia|]. rewrite Nat2Z.inj_succ. split; nia. }
  rewrite E2. destruct (ds && _)%bool.
  - apply (IH (k - 2 * a)%Z); [exact T'|lia|]. rewrite B, C. repeat split; try assumption; cbn [eV eV0 eIdx eRow eHor]; lia.
  - rewrite A. eapply rres_bind; [apply rres_guard; reflexivity|]. intros _ _ _.
    apply (IH (k - 2 * a)%Z); [exact T'|lia|]. rewrite C. repeat split; try assumption; cbn [eV eV0 eIdx eRow eHor]; lia.
Qed.
Lemma sel_outer_sim s r ds : brel s r -> forall n i col e e', selrel e e' -> rres selrel (sel_outer n s ds i col e) (sel_outer n r ds i col e').
Proof.
  intros H. pose proof H as (N1 & N2 & HT & _ & _ & _ & _ & _ & E2 & Ht).
  induction n as [|n IH]; intros i col e e' He; cbn [sel_outer]; pose proof He as (A & B & C & D & Hr & kh & Th & Hh);
    destruct (mEPS_lt kh (eHor e) (eHor e') ltac:(unfold rng, KB; pose proof XS_pos; nia) Th) as (-> & ->); destruct (Z.leb_spec 0 kh) as [L|L]; try exact Logic.I; try exact He.
  eapply rres_bind; [apply cb_at_rel; exact Ht|]. intros p q (_ & Hd). destruct (dur_tm _ _ Hd) as (k & Hk & T).
  rewrite N1, N2. eapply rres_bind; [apply (sel_inner_sim s r ds i col H N k); [apply tms_tm; exact T|lia|exact He]|]. intros f f' Hf. rewrite E2. apply IH. exact Hf.
Qed.
(** N*T: the horizon. *)
Lemma horizon X Y : setting (2 * a) X Y -> sofnat N * Y = IZR (2 * Z.of_nat N * a) * g /\ near (d * IZR (Z.of_nat N + 1)) (smul (sofnat N) X) (sofnat N * Y).
Proof.
  intros (-> & HX). unfold sofnat. rsimpl_goal. rewrite <- !INR_IZR_INZ. split.
  - rewrite !mult_IZR, <- INR_IZR_INZ. ring.
  - apply near_bounds in HX. apply bounds_near. cbn [smul FlScalar val]. change (val (sofZ (Z.of_nat N) : F)) with (rnd (IZR (Z.of_nat N))). rewrite Hint by lia. rewrite <- INR_IZR_INZ, plus_IZR, <- INR_IZR_INZ.
    pose proof (pos_INR N) as P. pose proof d_pos as D. pose proof (KBg (2 * Z.of_nat N * a)%Z ltac:(unfold KB; pose proof Na_pos; lia)) as HK.
    rewrite !mult_IZR in HK. rewrite <- INR_IZR_INZ in HK. rewrite mult_IZR in HX |- *. set (n := INR N) in *. set (ar := IZR a) in *.
    assert (NE : n * d <= EM). { unfold EM, ZZ, n. rewrite INR_IZR_INZ, <- Rmult_plus_distr_l, <- plus_IZR, (Rmult_comm (IZR _)). apply Rmult_le_compat_l; [exact D|]. apply IZR_le. pose proof XS_pos. pose proof Na_pos. lia. }
    destruct EM_small as (E1 & _). assert (Q : - (n * d) <= n * val X - n * (2 * ar * g) <= n * d) by nra.
    pose proof (rnd_bounds (n * val X) ltac:(lra)). lra.
Qed.
Lemma selectionMatrix_sim s r k : brel s r -> tms k (sttnp s) (sttnp r) -> (1 <= k <= 2 * KM)%Z -> rres seleq (selectionMatrix s) (selectionMatrix r).
Proof.
  intros H Ts Hk. pose proof (tms_tm _ _ _ Ts) as T. pose proof H as (N1 & N2 & HT & _ & _ & E1 & _ & _ & E2 & Ht). unfold selectionMatrix. rewrite N1, N2, E1, (cb_size_rel _ _ Ht).
  eapply rres_bind; [apply rres_guard; reflexivity|]. intros _ _ _. eapply rres_bind; [apply isInDS_sim; exact H|]. intros ds ds' <-.
  eapply rres_bind; [apply (v0_loop_sim _ _ HT N k); [exact T|unfold KB; pose proof Na_pos; lia|lia]|].
  intros ((pt & row) & V0) ((pt' & row') & V0') (A & B & C & D & E). cbn [fst snd] in A, B, C, D, E. subst row' V0'. rewrite Nat.sub_0_r in *.
  assert (Th : tm (2 * Z.of_nat N * a - k) (ssub (smul (sofnat N) (sT s)) (sttnp s)) (sofnat N * sT r - sttnp r)).
  { destruct (horizon _ _ HT) as (Ey & Hh). destruct Ts as (Es & Hs). split; [rewrite Ey, Es, minus_IZR; ring|].
    pose proof (KBg (2 * Z.of_nat N * a - k)%Z ltac:(unfold KB; pose proof Na_pos; lia)) as HK. rewrite minus_IZR, Rmult_minus_distr_r in HK.
    apply near_bounds in Hh. apply near_bounds in Hs. apply bounds_near. rewrite Ey in Hh |- *. rewrite Es in Hs |- *. cbn [ssub FlScalar val].
    set (h := IZR (2 * Z.of_nat N * a) * g) in *. pose proof d_pos as DD.
    assert (Q : d * IZR (Z.of_nat N + 1) + (ZS - d * IZR k) + d <= ZZ - d * IZR (2 * Z.of_nat N * a - k)).
    { unfold ZS, ZZ. rewrite <- !Rmult_minus_distr_l, <- !minus_IZR, <- Rmult_plus_distr_l, <- plus_IZR. match goal with |- ?x + d <= _ => replace (x + d) with (x + d * 1) by ring end. rewrite <- Rmult_plus_distr_l. change 1 with (IZR 1). rewrite <- plus_IZR. apply Rmult_le_compat_l; [exact DD|]. apply IZR_le. lia. }
    assert (Q1 : d * IZR (Z.of_nat N + 1) + (ZS - d * IZR k) <= EM).
    { unfold ZS, EM, ZZ. rewrite <- Rmult_minus_distr_l, <- minus_IZR, <- !Rmult_plus_distr_l, <- !plus_IZR. apply Rmult_le_compat_l; [exact DD|]. apply IZR_le. pose proof XS_pos. pose proof Na_pos. lia. }
    destruct EM_small as (Es1 & _). clearbody h. set (kg := IZR k * g) in *. clearbody kg. set (e1 := d * IZR (Z.of_nat N + 1)) in *. set (e2 := d * IZR k) in *. set (e3 := d * IZR (2 * Z.of_nat N * a - k)) in *. clearbody e1 e2 e3.
    pose proof (rnd_bounds (val (smul (sofnat N) (sT s)) - val (sttnp s)) ltac:(split; lra)). lra. }
  change (tm (2 * Z.of_nat N * a - k) (ssub (smul (sofnat N) (sT s)) (sttnp s)) (ssub (smul (sofnat N) (sT r)) (sttnp r))) in Th.
  destruct (Nat.eq_dec row N) as [->|NE].
  - specialize (D eq_refl). cbn [sel_outer eHor].
    destruct (mEPS_lt (2 * Z.of_nat N * a - k) _ _ ltac:(unfold rng, KB, XS; lia) Th) as (-> & ->). destruct (Z.leb_spec 0 (2 * Z.of_nat N * a - k)); [lia|]. cbn [rres]. repeat split.
  - eapply rres_impl; [|apply sel_outer_sim; [exact H|]]; [intros e e' (X1 & X2 & X3 & _); repeat split; assumption|].
    split; [reflexivity|]. split; [reflexivity|]. split; [reflexivity|]. split; [reflexivity|]. split; [cbn; lia|]. exists (2 * Z.of_nat N * a - k)%Z. cbn [eHor eRow]. split; [exact Th|]. specialize (E ltac:(lia)). lia.
Qed.
Definition seldrel (e : seldata F) (e' : seldata R) : Prop := selV e = selV e' /\ selVT e = selVT e' /\ selV0 e = selV0 e' /\ selIdx e = selIdx e'.
Lemma computeSelection_sim s r k : brel s r -> tms k (sttnp s) (sttnp r) -> (1 <= k <= 2 * KM)%Z -> rres seldrel (computeSelection s) (computeSelection r).
Proof.
  intros H T Hk. unfold computeSelection, sampleWeights. eapply rres_bind with (P := fun _ _ => True).
  - eapply rres_bind; [apply (timeToNextSample_sim _ _ k); [apply H|apply tms_tm; exact T|unfold KB; pose proof Na_pos; lia]|]. intros t t' _. exact Logic.I.
  - intros W W' _. eapply rres_bind; [apply (selectionMatrix_sim _ _ k); assumption|]. intros e e' (A & B & C). cbv zeta. rewrite A, B, C. repeat split.
Qed.
(** ** The start of a solve *)
Lemma shorten_sim n v w : samelen v w -> rres samelen (shortenStepVec n v) (shortenStepVec n w).
Proof.
  intros E. unfold samelen in E. unfold shortenStepVec. cbv zeta. rewrite !E. eapply rres_bind; [apply rres_guard; reflexivity|]. intros _ _ _.
  eapply rres_bind; [apply rres_guard; reflexivity|]. intros _ _ _. reflexivity.
Qed.
(** Two supervisors between calls. *)
Definition srel (s : sup F) (r : sup R) : Prop :=
  brel s r /\ (exists k, (-2 < k <= 2 * KM)%Z /\ tms k (sttnp s) (sttnp r)) /\ samelen (sstepVec s) (sstepVec r) /\ seldrel (ssel s) (ssel r).
(** Two supervisors in the middle of a solve. *)
Definition srel1 (s : sup F) (r : sup R) : Prop :=
  srel s r /\ setting 2 (sfb s) (sfb r) /\ (exists k, (1 <= k <= 2 * KM)%Z /\ tms k (sttnp s) (sttnp r)).
Lemma leavePhase_sim s r v w : srel s r -> samelen v w ->
  rres (fun p q => samelen (fst (fst p)) (fst (fst q)) /\ cbrel (snd (fst p)) (snd (fst q)) /\ exists k, (1 <= k <= 2 * KM)%Z /\ tms k (snd p) (snd q))
    (leavePhase v s) (leavePhase w r).
Proof.
  intros (H & (k & Hk & T) & _) Hv. pose proof H as (N1 & N2 & HT & _ & _ & E1 & _ & _ & E2 & Ht). unfold leavePhase.
  destruct (lt_EPS k _ _ ltac:(unfold rng, KB; pose proof XS_pos; pose proof Na_pos; lia) (tms_tm _ _ _ T)) as (-> & ->). destruct (Z.leb_spec k 0) as [L|L].
  - eapply rres_bind; [apply isInDS_sim; exact H|]. intros ds ds' <-. rewrite N1, N2.
    eapply rres_bind with (P := samelen); [destruct ds; [exact Hv|apply shorten_sim; exact Hv]|]. intros v1 w1 Hv1.
    eapply rres_bind; [apply pop_rel; exact Ht|]. intros t t' Ht'. assert (Ht2 : cbrel (cb_set_capacity (cbcap t - 1) t) (cb_set_capacity (cbcap t' - 1) t')) by (pose proof Ht' as (-> & _); apply cap_rel; exact Ht').
    eapply rres_bind; [apply cb_at_rel; exact Ht2|]. intros p q (_ & Hd). cbn [rres fst snd]. split; [exact Hv1|]. split; [exact Ht2|]. apply dur_tm. exact Hd.
  - cbn [rres fst snd]. split; [exact Hv|]. split; [exact Ht|]. exists k. split; [lia|exact T].
Qed.
Lemma updateTimeline_sim s r v w fb fb' : srel s r -> samelen v w -> setting 2 fb fb' ->
  rres (fun p q => srel1 (fst p) (fst q) /\ samelen (snd p) (snd q)) (s_updateTimeline v fb s) (s_updateTimeline w fb' r).
Proof.
  intros HS Hv Hfb. pose proof HS as (H & _ & _ & HSel). pose proof H as (N1 & N2 & HT & FL & FR & E1 & D1 & D2 & E2 & Ht). unfold s_updateTimeline. rewrite (cb_size_rel _ _ Ht), N1, N2, Hv.
  eapply rres_bind; [apply rres_guard; reflexivity|]. intros _ _ _. eapply rres_bind; [apply rres_guard; reflexivity|]. intros _ _ _.
  eapply rres_bind; [apply leavePhase_sim; eassumption|]. intros ((v1 & t1) & tn) ((w1 & t1') & tn') (Hv1 & Ht1 & k & Hk & T). cbn [fst snd] in Hv1, Ht1, T. cbv zeta.
  set (s1 := MkSup N (sT s) fb (sleft s) _ _ _ _ _ _ _ _ _). set (r1 := MkSup N (sT r) fb' (sleft r) _ _ _ _ _ _ _ _ _).
  assert (HS1 : brel s1 r1) by (repeat split; try reflexivity; try assumption; apply FL || apply FR || apply HT || apply Ht1).
  rewrite (timeline_fuel_eq _ _ HS1). eapply rres_bind_eq.
  { apply (timeline_loop_sim _ s1 r1 0 k (2 * Z.of_nat N * a)%Z); [exact HS1|exact Hv1|apply tms_tm; exact T|lia| |pose proof Na_pos; lia].
    destruct (horizon _ _ HT) as (Ey & Hh). split; [exact Ey|]. pose proof d_pos as DD. refine (near_weaken _ _ _ _ _ Hh).
    assert (Q : d * IZR (Z.of_nat N + 1) <= ZZ - d * IZR (2 * Z.of_nat N * a)) by (unfold ZZ; rewrite <- Rmult_minus_distr_l, <- minus_IZR; apply Rmult_le_compat_l; [exact DD|]; apply IZR_le; lia).
    exact Q. }
  intros ((s2 & i) & v2) ((r2 & i') & w2) L1 L2 (H2 & <- & Hv2). pose proof H2 as (N3 & N4 & HT2 & FL2 & FR2 & E3 & D3 & D4 & E4 & Ht2).
  apply timeline_loop_ttnp in L1. apply timeline_loop_ttnp in L2. cbn [sttnp] in L1, L2.
  assert (Ht3 : cbrel (cb_set_capacity (S i) (stl s2)) (cb_set_capacity (S i) (stl r2))) by (apply cap_rel; exact Ht2).
  assert (H3 : brel (s_setTl s2 (snb s2) (cb_set_capacity (S i) (stl s2))) (s_setTl r2 (snb r2) (cb_set_capacity (S i) (stl r2)))) by (apply setTl_rel; [exact H2|exact E3|exact Ht3]).
  eapply rres_bind; [apply (computeSelection_sim _ _ k H3); [cbn [s_setTl sttnp]; rewrite L1, L2; exact T|exact Hk]|]. intros e e' He.
  unfold samelen in Hv2. cbn [rres fst snd]. split; [|exact Hv2]. unfold srel1, srel, brel.
  cbn [sN sT sfb sleft sright snb sstep sDS sttnp smove sstepVec stl ssel].
  split; [|split; [exact Hfb|exists k; split; assumption]].
  split; [|split; [exists k; split; [lia|exact T]|split; [unfold samelen; rewrite Hv2; reflexivity|exact He]]].
  repeat (split; [assumption || reflexivity|]). exact (proj2 Ht3).
Qed.

(** ** The end of a solve *)
Lemma half_F : val (shalf (K:=F)) = 1/2.
Proof. unfold shalf. cbn [sdiv s1 sofZ FlScalar val]. rewrite Hint by lia. exact Hhalf. Qed.
Lemma interp_sim v w o o' (T t : F) (T' t' : R) : samelen v w -> val T <> 0 -> T' <> 0 -> rres samelen (interpolateVec v o T t) (interpolateVec w o' T' t').
Proof.
  intros E H1 H2. unfold interpolateVec, interpolateTrajectory. rewrite E. eapply rres_bind; [apply rres_guard; reflexivity|]. intros _ _ _.
  assert (seqb T s0 = false) as -> by (cbn [seqb FlScalar s0 val]; destruct (Reqb_spec (val T) 0); [contradiction|reflexivity]).
  assert (seqb T' (s0 : R) = false) as -> by (rsimpl_goal; destruct (Reqb_spec T' 0); [contradiction|reflexivity]). exact E.
Qed.
Lemma flyTo_sim f h x y z x' y' z' (T Tz t : F) (T' Tz' t' : R) : frel f h -> val T <> 0 -> T' <> 0 -> val Tz <> 0 -> Tz' <> 0 ->
  rres frel (flyTo f x y z T Tz t) (flyTo h x' y' z' T' Tz' t').
Proof.
  intros H H1 H2 H3 H4. unfold flyTo.
  assert (UX : forall f h o o' T T' t t', frel f h -> val (T : F) <> 0 -> (T' : R) <> 0 -> rres frel (f_updateStateX o T t f) (f_updateStateX o' T' t' h)).
  { clear. intros f h o o' T T' t t' (X & Y & Z & P) H1 H2. unfold f_updateStateX. eapply rres_bind; [apply interp_sim; [exact X|assumption|assumption]|].
    intros v w Hv. split; [exact Hv|]. split; [exact Y|]. split; [exact Z|exact P]. }
  assert (UY : forall f h o o' T T' t t', frel f h -> val (T : F) <> 0 -> (T' : R) <> 0 -> rres frel (f_updateStateY o T t f) (f_updateStateY o' T' t' h)).
  { clear. intros f h o o' T T' t t' (X & Y & Z & P) H1 H2. unfold f_updateStateY. eapply rres_bind; [apply interp_sim; [exact Y|assumption|assumption]|].
    intros v w Hv. split; [exact X|]. split; [exact Hv|]. split; [exact Z|exact P]. }
  assert (UZ : forall f h o o' T T' t t', frel f h -> val (T : F) <> 0 -> (T' : R) <> 0 -> rres frel (f_updateStateZ o T t f) (f_updateStateZ o' T' t' h)).
  { clear. intros f h o o' T T' t t' (X & Y & Z & P) H1 H2. unfold f_updateStateZ. eapply rres_bind; [apply interp_sim; [exact Z|assumption|assumption]|].
    intros v w Hv. split; [exact X|]. split; [exact Y|]. split; [exact Hv|exact P]. }
  eapply rres_bind; [apply UX; assumption|]. intros f1 h1 Hf1. eapply rres_bind; [apply UY; [exact Hf1|assumption|assumption]|]. intros f2 h2 Hf2. apply UZ; assumption.
Qed.
Lemma flying_near p q X Y : duration p q -> setting (2 * a) X Y ->
  exists j, (1 <= j <= KM)%Z /\ q - Y = IZR (2 * j - 2 * a) * g /\ near (18 * d) (ssub p X) (q - Y)
            /\ (q - Y) * (1/2) = IZR (j - a) * g /\ near (10 * d) (smul (ssub p X) shalf) ((q - Y) * (1/2)).
Proof.
  intros (j & Hj & Eq & Hp) (EY & HX). exists j. split; [exact Hj|]. pose proof d_pos as D. pose proof d_small as DS. destruct EM_small as (E1 & E2 & E3 & _).
  assert (G : q - Y = IZR (2 * j - 2 * a) * g) by (rewrite Eq, EY, minus_IZR; ring). split; [exact G|].
  assert (G1 : near (18 * d) (ssub p X) (q - Y)).
  { apply near_bounds in Hp. apply near_bounds in HX. apply bounds_near. cbn [ssub FlScalar val].
    pose proof (KBg (2 * j - 2 * a)%Z ltac:(unfold KB; pose proof Na_pos; lia)) as HK. rewrite <- G in HK.
    pose proof (rnd_bounds (val p - val X) ltac:(lra)). lra. }
  split; [exact G1|]. split; [rewrite G, !minus_IZR, !mult_IZR; field|].
  apply near_bounds in G1. apply bounds_near. set (fl := ssub p X) in *. cbn [smul FlScalar val]. rewrite half_F.
  pose proof (KBg (2 * j - 2 * a)%Z ltac:(unfold KB; pose proof Na_pos; lia)) as HK. rewrite <- G in HK. clearbody fl.
  pose proof (rnd_bounds (val fl * (1/2)) ltac:(lra)). lra.
Qed.
Lemma tm_nonzero k x y : (1 <= k)%Z -> rng k -> tm k x y -> val x <> 0 /\ y <> 0.
Proof.
  intros Hk Hr T. pose proof (tm_bounds _ _ _ Hr T) as Hx. destruct T as (-> & _). pose proof (k_ge1 k Hk). destruct EM_small as (E1 & _). split; lra.
Qed.
Lemma updateFeet_sim s r v w fb fb' : srel1 s r -> samelen v w -> setting 2 fb fb' -> rres srel (s_updateFeetStates v fb s) (s_updateFeetStates w fb' r).
Proof.
  intros (HS & _ & k & Hk & Ts) Hv Hfb. pose proof HS as (H & _ & _ & HSel). pose proof H as (N1 & N2 & HT & FL & FR & E1 & D1 & D2 & E2 & Ht).
  assert (Hr : rng k) by (unfold rng, KB; pose proof XS_pos; pose proof Na_pos; lia). pose proof (tms_tm _ _ _ Ts) as T. pose proof d_pos as DD.
  assert (Fin : forall l l' rr rr', frel l l' -> frel rr rr' ->
    srel (MkSup (sN s) (sT s) (sfb s) l rr (snb s) (sstep s) (sDS s) (ssub (sttnp s) fb) (smove s) v (stl s) (ssel s))
         (MkSup (sN r) (sT r) (sfb r) l' rr' (snb r) (sstep r) (sDS r) (ssub (sttnp r) fb') (smove r) w (stl r) (ssel r))).
  { intros l l' rr rr' Hl Hrr. unfold srel, brel. cbn [sN sT sfb sleft sright snb sstep sDS sttnp smove sstepVec stl ssel].
    split; [repeat (split; [assumption|]); exact Ht|]. split; [|split; [exact Hv|exact HSel]].
    exists (k - 2)%Z. split; [lia|]. apply tmz_sub; [apply ZS_ZZ|exact Ts|exact Hfb|exact Hr|lia|unfold KB; pose proof Na_pos; lia]. }
  unfold s_updateFeetStates. eapply rres_bind; [apply front_sim; exact H|]. intros p q (Ep & Hd). cbv zeta. rewrite Ep.
  destruct (flying_near _ _ _ _ Hd HT) as (j & Hj & Y1 & F1 & Y2 & F2).
  destruct (lt_plusEPS (2 * j - 2 * a) (ssub (phDur p) (sT s)) (phDur q - sT r) k _ _ Y1 ltac:(unfold KB; pose proof Na_pos; lia) (near_weaken (18 * d) (30 * d) _ _ ltac:(lra) F1) Hr T) as (C1 & C2).
  destruct (lt_plusEPS (j - a) (smul (ssub (phDur p) (sT s)) shalf) ((phDur q - sT r) * (1/2)) k _ _ Y2 ltac:(unfold KB; pose proof Na_pos; lia) (near_weaken (10 * d) (30 * d) _ _ ltac:(lra) F2) Hr T) as (C3 & C4).
  rewrite C1. change (sltb (sttnp r) (sadd (ssub (phDur q) (sT r)) EPS)) with (sltb (sttnp r) (sadd (phDur q - sT r) (EPS (K:=R)))). rewrite C2.
  destruct (negb (is_DS (phType q)) && (k <=? 2 * j - 2 * a)%Z)%bool; [|apply Fin; assumption].
  eapply rres_bind; [apply vread_sim; exact Hv|]. intros x x' _. rewrite E1 in Fin |- *. eapply rres_bind; [apply vread_sim; exact Hv|]. intros y y' _.
  destruct (tm_nonzero k _ _ ltac:(lia) Hr T) as (Z1 & Z2).
  assert (Go : forall f h, frel f h ->
    rres frel (if sltb (sttnp s) (sadd (smul (ssub (phDur p) (sT s)) shalf) EPS) then flyTo f x y s0 (sttnp s) (sttnp s) fb
               else flyTo f x y (fmaxHeight f) (sttnp s) (ssub (sttnp s) (smul (ssub (phDur p) (sT s)) shalf)) fb)
              (if sltb (sttnp r) (sadd (smul (ssub (phDur q) (sT r)) shalf) EPS) then flyTo h x' y' s0 (sttnp r) (sttnp r) fb'
               else flyTo h x' y' (fmaxHeight h) (sttnp r) (ssub (sttnp r) (smul (ssub (phDur q) (sT r)) shalf)) fb')).
  { intros f h Hf. rewrite C3. change (sltb (sttnp r) (sadd (smul (ssub (phDur q) (sT r)) shalf) EPS)) with (sltb (sttnp r) (sadd ((phDur q - sT r) * (1/2)) (EPS (K:=R)))). rewrite C4.
    destruct (Z.leb_spec k (j - a)) as [L|L]; [apply flyTo_sim; assumption|].
    assert (Q : val (ssub (sttnp s) (smul (ssub (phDur p) (sT s)) shalf)) <> 0 /\ sttnp r - (phDur q - sT r) * (1/2) <> 0).
    { rewrite Y2 in *. pose proof (tm_bounds _ _ _ Hr T) as Hx. destruct T as (ET & _). rewrite ET in *. apply near_bounds in F2.
      pose proof (k_ge1 (k - (j - a)) ltac:(lia)) as G1. rewrite minus_IZR, Rmult_minus_distr_r in G1.
      pose proof (KBg (k - (j - a))%Z ltac:(unfold KB; pose proof Na_pos; lia)) as HK. rewrite minus_IZR, Rmult_minus_distr_r in HK.
      pose proof d_small as DS. destruct EM_small as (E3 & _). split; [|lra].
      set (m := smul (ssub (phDur p) (sT s)) shalf) in *. clearbody m. cbn [ssub FlScalar val].
      set (kg := IZR k * g) in *. set (jg := IZR (j - a) * g) in *. clearbody kg jg.
      pose proof (rnd_bounds (val (sttnp s) - val m) ltac:(split; lra)). lra. }
    destruct Q as (Q1 & Q2). apply flyTo_sim; assumption. }
  destruct (phType q); [exact Logic.I| |].
  - eapply rres_bind; [apply Go; exact FR|]. intros f h Hf. apply Fin; assumption.
  - eapply rres_bind; [apply Go; exact FL|]. intros f h Hf. apply Fin; assumption.
Qed.
(** ** The number of calls before the next sample *)
Lemma trunc_R (x : R) h : (0 <= h)%Z -> IZR h <= x < IZR h + 1 -> Int_part x = h.
Proof. intros Hh Hx. destruct (base_Int_part x) as (H1 & H2). assert (h - 1 < Int_part x < h + 1)%Z; [|lia]. rewrite <- (minus_IZR h 1) || idtac. split; apply lt_IZR; rewrite ?minus_IZR, ?plus_IZR; lra. Qed.
Lemma nbOfCalls_sim s r : srel1 s r -> rres eq (s_getNbOfCallsBeforeNextSample s) (s_getNbOfCallsBeforeNextSample r).
Proof.
  intros (HS & (Efb & Hfb) & k & Hk & Ts). pose proof HS as (H & _). pose proof H as (N1 & N2 & HT & _). unfold s_getNbOfCallsBeforeNextSample.
  eapply rres_bind; [apply (timeToNextSample_sim _ _ k); [exact HT|apply tms_tm; exact Ts|unfold KB; pose proof Na_pos; lia]|]. intros t t' (m & Hm & Tm).
  assert (Hr : rng m) by (unfold rng, KB; pose proof XS_pos; pose proof Na_pos; lia). pose proof (tm_bounds _ _ _ Hr Tm) as Hx. destruct Tm as (Et & _).
  pose proof d_pos as DD. pose proof d_small as DS. destruct EM_small as (M1 & M2 & M3 & M4). pose proof EPS_near as HE. apply near_bounds in Hfb. rewrite plus_IZR in M4.
  set (h := (m / 2)%Z). assert (Hh : (0 <= h <= a)%Z /\ (2 * h <= m <= 2 * h + 1)%Z) by (unfold h; split; [|]; Z.div_mod_to_equations; lia). destruct Hh as ((h0 & h1) & h2 & h3).
  apply IZR_le in h1. pose proof (IZR_le _ _ h0) as h0'. apply IZR_le in h2. apply IZR_le in h3. rewrite plus_IZR in h3. rewrite mult_IZR in h2, h3.
  set (hr := IZR h) in *. set (mr := IZR m) in *. set (ar := IZR a) in *. assert (A1 : 1 <= ar) by (apply IZR_le; lia).
  assert (Hfb' : 2 * g - d <= val (sfb s) <= 2 * g + d) by lra. rewrite Efb.
  assert (mg1 : 2 * hr * g <= mr * g) by (pose proof grid_pos; nra). assert (mg2 : mr * g <= (2 * hr + 1) * g) by (pose proof grid_pos; nra).
  assert (KBm : mr * g <= Bd - 1/1000) by (apply (KBg m); unfold KB; pose proof Na_pos; lia).
  assert (G2 : 2 * g <= Bd) by (pose proof (KBg 2%Z ltac:(unfold KB; pose proof Na_pos; lia)); lra).
  eapply rres_bind; [apply rres_ubguard|intros _ _ _].
  { f_equal. transitivity false; [|symmetry].
    - cbn [seqb FlScalar s0 val]. destruct (Reqb_spec (val (sfb s)) 0); [lra|reflexivity].
    - rsimpl_goal. destruct (Reqb_spec (2 * g) 0); [lra|reflexivity]. }
  cbn [rres]. transitivity h; [|symmetry].
  - unfold strunc. set (num := sadd t EPS). set (q := sdiv num (sfb s)).
    assert (Hnum : mr * g + 1/10000 - EM - 2 * d <= val num <= mr * g + 1/10000 + EM + 2 * d).
    { unfold num. cbn [sadd FlScalar val]. set (e := val (EPS (K:=F))) in *. pose proof (rnd_bounds (val t + e) ltac:(pose proof grid_pos; nra)). lra. }
    set (f := val (sfb s)) in *. assert (f0 : 0 < f) by lra. set (x := val num / f). assert (Ex : x * f = val num) by (unfold x; field; lra).
    assert (Hn0 : 0 < val num) by (pose proof grid_pos; nra). assert (x0 : 0 < x) by (unfold x; apply Rdiv_lt_0_compat; lra).
    assert (Hq : x - (u * x + eta) <= val q <= x + (u * x + eta)).
    { unfold q. cbn [sdiv FlScalar val]. fold f. fold x. pose proof (Hrnd x) as HR. rewrite (Rabs_pos_eq x) in HR by lra. revert HR. unfold Rabs. destruct (Rcase_abs (rnd x - x)); lra. }
    assert (Hbd : (u * x + eta) * f <= d).
    { replace ((u * x + eta) * f) with (u * (x * f) + eta * f) by ring. rewrite Ex. unfold d. assert (val num <= Bd) by lra. assert (f <= 1 + Bd) by lra. nra. }
    assert (L : hr <= val q). { apply Rmult_le_reg_r with f; [exact f0|]. assert (hr * f <= 2 * hr * g + ar * d) by nra. nra. }
    assert (U : val q < hr + 1). { apply Rmult_lt_reg_r with f; [exact f0|]. assert (2 * hr * g + 2 * g - (ar + 1) * d <= (hr + 1) * f) by nra. nra. }
    change (sltb q s0) with (Rltb (val q) 0). destruct (Rltb_spec (val q) 0); [lra|]. apply trunc_R; [exact h0|]. split; assumption.
  - unfold strunc. rsimpl_goal. rewrite Et. fold mr. set (x := (mr * g + 1/10000) / (2 * g)). assert (Ex : x * (2 * g) = mr * g + 1/10000) by (unfold x; field; lra).
    assert (L : hr <= x) by (apply Rmult_le_reg_r with (2 * g); lra). assert (U : x < hr + 1) by (apply Rmult_lt_reg_r with (2 * g); lra).
    destruct (Rltb_spec x 0); [lra|]. apply trunc_R; [exact h0|]. split; assumption.
Qed.
(** ** The settings *)
Lemma rng_pos k : (0 <= k <= KB)%Z -> rng k.
Proof. unfold rng. pose proof XS_pos. lia. Qed.
Lemma setting_pos m X Y : (1 <= m)%Z -> setting m X Y -> 0 < val X /\ 0 < Y.
Proof.
  intros Hm (-> & HX). apply near_bounds in HX. pose proof (k_ge1 m Hm). pose proof d_small. destruct EM_small as (M1 & M2 & M3 & _). split; lra.
Qed.
(** Right after the construction: one double support phase of two sampling periods, not started. *)
Definition fresh0 (s : sup F) (r : sup R) : Prop :=
  exists x y, y = IZR (2 * (2 * a)) * g /\ near (3 * d) x y /\ stl s = MkCb [MkPhase DS x] 1 /\ sDS s = x /\ sttnp s = x
              /\ stl r = MkCb [MkPhase DS y] 1 /\ sDS r = y /\ sttnp r = y.
Lemma newSup_sim X Y : setting (2 * a) X Y -> rres (fun s r => srel s r /\ fresh0 s r) (newSup N X) (newSup N Y).
Proof.
  intros HT. destruct (setting_pos (2 * a) _ _ ltac:(lia) HT) as (P1 & P2). unfold newSup, newFoot.
  assert (sltb s0 X = true) as -> by (apply Rltb_true; exact P1). assert (sltb (s0 : R) Y = true) as -> by (apply Rltb_true; exact P2).
  assert (Nat.ltb 0 N = true) as -> by (apply Nat.ltb_lt; lia). cbn [guard bind rres].
  assert (H2 : sofZ 2 * Y = IZR (2 * (2 * a)) * g /\ near (3 * d) (smul (sofZ 2) X) (sofZ 2 * Y)).
  { destruct HT as (-> & HX). rsimpl_goal. split; [rewrite (mult_IZR 2 (2 * a)); ring|]. apply near_bounds in HX. apply bounds_near. cbn [smul FlScalar sofZ val]. rewrite Hint by lia.
    pose proof (KBg (2 * (2 * a))%Z ltac:(unfold KB; pose proof Na_pos; lia)) as HK. rewrite (mult_IZR 2 (2 * a)) in HK. pose proof d_small. pose proof d_pos. destruct EM_small as (M1 & M2 & M3 & _).
    rewrite Rmult_assoc in HK. set (tg := IZR (2 * a) * g) in *. clearbody tg. pose proof (rnd_bounds (2 * val X) ltac:(split; lra)). lra. }
  destruct H2 as (E2 & H2). pose proof d_pos as DD.
  assert (HD : duration (smul (sofZ 2) X) (smul (sofZ 2) Y)) by (exists (2 * a)%Z; split; [lia|]; split; [exact E2|]; refine (near_weaken _ _ _ _ _ H2); lra).
  split; [|exists (smul (sofZ 2) X), (smul (sofZ 2) Y); split; [exact E2|]; split; [exact H2|]; repeat split].
  split; [|split; [|split; [reflexivity|repeat split]]].
  - repeat split; try reflexivity; try assumption; try apply HT. constructor; [|constructor]. split; [reflexivity|exact HD].
  - destruct (dur_tm _ _ HD) as (k & Hk & Tk). exists k. split; [lia|exact Tk].
Qed.
Lemma setStep_sim s r j X Y : srel s r -> fresh0 s r -> (1 <= j <= KM)%Z -> setting (2 * j) X Y ->
  rres (fun s r => srel s r /\ fresh0 s r) (s_setStepPeriod X s) (s_setStepPeriod Y r).
Proof.
  intros (H & Hk & Hv & HSel) H0 Hj HX. destruct (setting_pos (2 * j) _ _ ltac:(lia) HX) as (P1 & P2). unfold s_setStepPeriod, s_isInDS, s_front.
  assert (sltb s0 X = true) as -> by (apply Rltb_true; exact P1). assert (sltb (s0 : R) Y = true) as -> by (apply Rltb_true; exact P2). cbn [guard bind].
  pose proof H0 as (x & y & Ey & Hx & A1 & A2 & A3 & B1 & B2 & B3). rewrite A1, B1. cbn [cb_at cbl rd nth_error bind phType is_DS rres].
  pose proof H as (N1 & N2 & HT & FL & FR & E1 & D1 & D2 & E2 & Ht). rewrite A1, B1 in Ht. pose proof d_pos.
  split; [|exists x, y; repeat (split; [assumption||reflexivity|]); assumption].
  split; [|split; [exact Hk|split; [exact Hv|exact HSel]]]. repeat (split; [assumption|]). split; [|repeat (split; [assumption|]); exact Ht].
  exists j. split; [exact Hj|]. destruct HX as (EX & HX). split; [exact EX|]. refine (near_weaken _ _ _ _ _ HX). lra.
Qed.
Lemma setDS_sim s r l X Y : srel s r -> fresh0 s r -> (1 <= l <= KM)%Z -> setting (2 * l) X Y ->
  rres srel (s_setInitialDoubleSupportLength X s) (s_setInitialDoubleSupportLength Y r).
Proof.
  intros (H & Hk & Hv & HSel) H0 Hl HX. destruct (setting_pos (2 * l) _ _ ltac:(lia) HX) as (P1 & P2). unfold s_setInitialDoubleSupportLength, s_isInDS, s_front.
  pose proof H0 as (x & y & Ey & Hx & A1 & A2 & A3 & B1 & B2 & B3). rewrite A1, A2, A3, B1, B2, B3. cbn [cb_at cbl rd nth_error bind phType is_DS].
  pose proof H as (N1 & N2 & HT & FL & FR & E1 & D1 & D2 & E2 & Ht). pose proof d_pos as DD. pose proof d_small as DS. destruct EM_small as (M1 & M2 & M3 & _). pose proof EPS_near as HE.
  destruct HX as (EX & HX). pose proof HX as HX1. apply near_bounds in Hx. apply near_bounds in HX.
  pose proof (KBg (2 * l)%Z ltac:(unfold KB; pose proof Na_pos; lia)) as K1. pose proof (KBg (2 * (2 * a))%Z ltac:(unfold KB; pose proof Na_pos; lia)) as K2.
  pose proof (KBg (2 * l - 2 * (2 * a))%Z ltac:(unfold KB; pose proof Na_pos; lia)) as K3. rewrite minus_IZR, Rmult_minus_distr_r in K3.
  pose proof (k_ge1 (2 * l) ltac:(lia)) as G1. rewrite <- EX, <- Ey in *.
  assert (G : 2 * g <= Y). { rewrite EX, mult_IZR. assert (1 <= IZR l) by (apply IZR_le; lia). pose proof grid_pos. nra. }
  assert (Cmp : ((2 * l < 2 * (2 * a))%Z -> Y <= y - g) /\ ((2 * (2 * a) <= 2 * l)%Z -> y <= Y)).
  { rewrite EX, Ey. split; intros Q.
    - assert (Q1 : (2 * l <= 2 * (2 * a) - 1)%Z) by lia. apply IZR_le in Q1. rewrite minus_IZR in Q1. pose proof grid_pos. nra.
    - apply IZR_le in Q. pose proof grid_pos. nra. }
  set (e := val (EPS (K:=F))) in *.
  eapply rres_bind with (P := fun _ _ => True).
  - assert (C : sltb X (ssub x EPS) = (2 * l <? 2 * (2 * a))%Z /\ sltb Y (ssub y (EPS (K:=R))) = (2 * l <? 2 * (2 * a))%Z).
    { destruct Cmp as (C1 & C2). split.
      - change (sltb X (ssub x EPS)) with (Rltb (val X) (rnd (val x - e))). pose proof (rnd_bounds (val x - e) ltac:(lra)) as Q. clearbody e.
        destruct (Z.ltb_spec (2 * l) (2 * (2 * a))) as [L|L]; [specialize (C1 L)|specialize (C2 L)]; [apply Rltb_true|apply Rltb_false]; lra.
      - rsimpl_goal. destruct (Z.ltb_spec (2 * l) (2 * (2 * a))) as [L|L]; [specialize (C1 L)|specialize (C2 L)]; [apply Rltb_true|apply Rltb_false]; lra. }
    destruct C as (-> & ->). destruct (2 * l <? 2 * (2 * a))%Z; [|exact Logic.I].
    assert (sltb (ssub x X) (sadd x EPS) = true) as ->.
    { apply Rltb_true. cbn [ssub sadd FlScalar val]. fold e. pose proof (rnd_bounds (val x - val X) ltac:(lra)) as Q. pose proof (rnd_bounds (val x + e) ltac:(lra)). lra. }
    assert (sltb (ssub y Y) (sadd y (EPS (K:=R))) = true) as -> by (apply Rltb_true; rsimpl_goal; lra). exact Logic.I.
  - intros _ _ _. cbn [cb_set cbl cb_size length Nat.ltb Nat.leb lset bind cbcap phDur rres].
    assert (HD : duration (sadd x (ssub X x)) (sadd y (ssub Y y))).
    { exists l. split; [exact Hl|]. rsimpl_goal. split; [lra|]. apply bounds_near. cbn [sadd ssub FlScalar val].
      pose proof (rnd_bounds (val X - val x) ltac:(lra)) as Q. pose proof (rnd_bounds (val x + rnd (val X - val x)) ltac:(lra)). lra. }
    split; [|split; [destruct (dur_tm _ _ HD) as (k & Hk' & Tk); exists k; split; [lia|exact Tk]|split; [exact Hv|exact HSel]]].
    do 7 (split; [assumption|]). split; [exists l; split; [exact Hl|]; split; [exact EX|]; refine (near_weaken _ _ _ _ _ HX1); lra|].
    split; [exact E2|]. split; [reflexivity|]. constructor; [|constructor]. split; [reflexivity|exact HD].
Qed.

(** ** Histories *)
Lemma setFoot_sim s r f x y : srel s r -> frel x y -> srel (s_setFoot f x s) (s_setFoot f y r).
Proof.
  intros (H & Hk & Hv & HSel) Hf. pose proof H as (N1 & N2 & HT & FL & FR & E1 & D1 & D2 & E2 & Ht).
  destruct f; (split; [|split; [exact Hk|split; [exact Hv|exact HSel]]]); repeat (split; [assumption|]); exact Ht.
Qed.
Lemma foot_rel s r f : srel s r -> frel (s_foot f s) (s_foot f r).
Proof. intros (H & _). pose proof H as (N1 & N2 & HT & FL & FR & _). destruct f; assumption. Qed.
Lemma nonempty_nil {A} (p : polygon A) : nonempty p = true <-> pverts p <> [].
Proof. unfold nonempty. destruct (pverts p); cbn; split; intros; congruence. Qed.
Lemma event_sim e e' fb fb' s r : same_shape e e' -> setting 2 fb fb' -> srel s r ->
  rres srel (ssteps (event_calls fb e) s) (ssteps (event_calls fb' e') r).
Proof.
  intros Hs Hfb H.
  assert (Rf : forall (v : vec F) (w : vec R) (k : vec F -> sup F) (k' : vec R -> sup R), vlen v = vlen w -> srel (k v) (k' w) ->
    rres srel (do s' <- (do _ <- guard (Nat.eqb (vlen v) 3); Ok (k v)); Ok s') (do s' <- (do _ <- guard (Nat.eqb (vlen w) 3); Ok (k' w)); Ok s')).
  { intros v w k k' E Hk. rewrite E. destruct (Nat.eqb (vlen w) 3); cbn [guard bind rres]; [exact Hk|exact Logic.I]. }
  destruct e, e'; cbn [same_shape] in Hs; try contradiction; cbn [event_calls ssteps sstep_call].
  - subst b0. cbn [bind rres]. destruct H as (H & Hk & Hv & HSel). pose proof H as (N1 & N2 & HT & FL & FR & E1 & D1 & D2 & E2 & Ht).
    split; [|split; [exact Hk|split; [exact Hv|exact HSel]]]. do 8 (split; [assumption|]). split; [reflexivity|exact Ht].
  - destruct Hs as (<- & Hp). cbn [bind rres]. apply setFoot_sim; [exact H|]. destruct (foot_rel _ _ f H) as (A & B & C & _). repeat (split; [assumption|]).
    cbn [f_setKinematicConvexPolygon fkin]. pose proof (nonempty_nil p) as Q1. pose proof (nonempty_nil p0) as Q2. destruct (nonempty p), (nonempty p0); intuition congruence.
  - subst f0. cbn [bind rres]. apply setFoot_sim; [exact H|]. exact (foot_rel _ _ f H).
  - subst f0. cbn [bind rres]. apply setFoot_sim; [exact H|]. exact (foot_rel _ _ f H).
  - destruct Hs as (<- & E). unfold s_setFootStateX. apply (Rf v v0 (fun v => s_setFoot f (f_setStateX v (s_foot f s)) s) (fun v => s_setFoot f (f_setStateX v (s_foot f r)) r) E).
    apply setFoot_sim; [exact H|]. destruct (foot_rel _ _ f H) as (A & B & C & D). repeat (split; [assumption|]). exact D.
  - destruct Hs as (<- & E). unfold s_setFootStateY. apply (Rf v v0 (fun v => s_setFoot f (f_setStateY v (s_foot f s)) s) (fun v => s_setFoot f (f_setStateY v (s_foot f r)) r) E).
    apply setFoot_sim; [exact H|]. destruct (foot_rel _ _ f H) as (A & B & C & D). repeat (split; [assumption|]). exact D.
  - destruct Hs as (<- & E). unfold s_setFootStateZ. apply (Rf v v0 (fun v => s_setFoot f (f_setStateZ v (s_foot f s)) s) (fun v => s_setFoot f (f_setStateZ v (s_foot f r)) r) E).
    apply setFoot_sim; [exact H|]. destruct (foot_rel _ _ f H) as (A & B & C & D). repeat (split; [assumption|]). exact D.
  - destruct Hs as (E1 & E2). eapply rres_bind with (P := srel1).
    + eapply rres_bind; [apply updateTimeline_sim; eassumption|]. intros p q (Hp & _). exact Hp.
    + intros s1 r1 H1. eapply rres_bind; [apply updateFeet_sim; eassumption|]. intros s2 r2 H2. exact H2.
Qed.
Lemma ssteps_app {K} {SK : Scalar K} (cs ds : list (scall K)) : forall s, ssteps (cs ++ ds) s = bind (ssteps cs s) (ssteps ds).
Proof. induction cs as [|c cs IH]; intros s; cbn [app ssteps bind]; [reflexivity|]. destruct (sstep_call c s); cbn [bind]; [apply IH|reflexivity..]. Qed.
Lemma events_sim fb fb' : setting 2 fb fb' -> forall es es', Forall2 same_shape es es' -> forall s r, srel s r ->
  rres srel (ssteps (flat_map (event_calls fb) es) s) (ssteps (flat_map (event_calls fb') es') r).
Proof.
  intros Hfb es es' H. induction H as [|e e' es es' He H IH]; intros s r Hs; cbn [flat_map]; [exact Hs|].
  rewrite !ssteps_app. eapply rres_bind; [apply event_sim; eassumption|]. intros s1 r1 H1. apply IH. exact H1.
Qed.
Lemma walk_sim j l T T' fb fb' step step' L L' es es' : (1 <= j <= KM)%Z -> (1 <= l <= KM)%Z ->
  setting (2 * a) T T' -> setting 2 fb fb' -> setting (2 * j) step step' -> setting (2 * l) L L' -> Forall2 same_shape es es' ->
  rres srel (walk N T fb step L es) (walk N T' fb' step' L' es').
Proof.
  intros Hj Hl HT Hfb HP HL He. unfold walk. eapply rres_bind; [apply newSup_sim; exact HT|]. intros s r (H & H0). cbn [ssteps sstep_call].
  eapply rres_bind; [apply (setStep_sim _ _ j); eassumption|]. intros s1 r1 (H1 & H10).
  eapply rres_bind; [apply (setDS_sim _ _ l); eassumption|]. intros s2 r2 H2. apply events_sim; assumption.
Qed.
Lemma srel_plan s r : srel s r -> same_plan s r.
Proof.
  intros (H & (k & Hk & Ts) & Hv & (S1 & S2 & S3 & S4)). pose proof H as (N1 & N2 & HT & FL & FR & E1 & D1 & D2 & E2 & Ht).
  split; [|split; [exact E1|]; split; [exact S1|]; split; [exact S3|]; split; [exact S4|]; split; [exact Hv|]].
  - destruct Ht as (_ & Ht). induction Ht as [|p q l m (E & _) Ht IH]; cbn [map]; [reflexivity|]. rewrite E, IH. reflexivity.
  - assert (Hr : rng k) by (unfold rng, KB; pose proof XS_pos; pose proof Na_pos; lia). pose proof (tm_bounds _ _ _ Hr (tms_tm _ _ _ Ts)) as Hx. destruct EM_small as (M1 & _). apply Rabs_def1; lra.
Qed.
End Sim.
