(** The inverses behind the tilt objectives, in closed form: all the matrices are lower triangular
    Toeplitz matrices, that is power series.  The truncation of small entries changes nothing as
    soon as the parameters are moderate. *)

From Coq Require Import Reals List ZArith Lra Lia Arith Bool FunctionalExtensionality.
From Verif Require Import Scalar LinAlg LinAlgFacts ToolsModel ToolsSpec ToolsFacts TriFacts NoDynModel PolygonModel
  QPModel QPFacts TrajModel TrajFacts LipModel BaseModel ModelsSpec ModelsFacts ZebModel HumAlg ZebAlg ZebSpec ZebFacts ZebObj ZebTilt ZebProb ZebLive ZebCalls.
Import ListNotations.
Local Open Scope R_scope.

(** ** Power series *)
Definition conv (a b : nat -> R) (n : nat) : R := ssum (S n) (fun m => a (n - m)%nat * b m).
Definition sh (a : nat -> R) (n : nat) : R := match n with O => 0 | S m => a m end.
Definition one (n : nat) : R := match n with O => 1 | S _ => 0 end.
(** multiplication by x + y E + w E^2 *)
Definition P3 (x y w : R) (a : nat -> R) (n : nat) : R := x * a n + y * sh a n + w * sh (sh a) n.

Lemma conv_one_l b : conv one b = b.
Proof.
  apply functional_extensionality. intros n. unfold conv. rewrite ssum_S. rewrite ssum_0.
  - rewrite Nat.sub_diag. cbn [one]. ring.
  - intros i Hi. destruct (n - i)%nat eqn:E; [lia|]. cbn [one]. ring.
Qed.
Lemma conv_one_r a : conv a one = a.
Proof.
  apply functional_extensionality. intros n. unfold conv. rewrite ssum_head. rewrite ssum_0.
  - rewrite Nat.sub_0_r. cbn [one]. ring.
  - intros i Hi. cbn [one]. ring.
Qed.
Lemma conv_sh_r a b : conv a (sh b) = sh (conv a b).
Proof.
  apply functional_extensionality. intros [|n].
  - unfold conv. rewrite ssum_S. cbn [sh]. rewrite ssum_0; [ring|]. intros i Hi. lia.
  - unfold conv. cbn [sh]. rewrite ssum_head. cbn [sh]. rewrite Rmult_0_r, Rplus_0_l. apply ssum_ext. intros i Hi. reflexivity.
Qed.
Lemma conv_sh_l a b : conv (sh a) b = sh (conv a b).
Proof.
  apply functional_extensionality. intros [|n].
  - unfold conv. rewrite ssum_S. cbn [sh Nat.sub]. rewrite ssum_0; [ring|]. intros i Hi. lia.
  - unfold conv. cbn [sh]. rewrite ssum_S, Nat.sub_diag. cbn [sh]. rewrite Rmult_0_l, Rplus_0_r. apply ssum_ext. intros i Hi.
    replace (S n - i)%nat with (S (n - i)) by lia. reflexivity.
Qed.
Lemma conv_lin_l x y (a b c : nat -> R) : conv (fun n => x * a n + y * b n) c = fun n => x * conv a c n + y * conv b c n.
Proof.
  apply functional_extensionality. intros n. unfold conv. rewrite <- !ssum_mul_l, <- ssum_plus. apply ssum_ext. intros. ring.
Qed.
Lemma conv_lin_r x y (a b c : nat -> R) : conv c (fun n => x * a n + y * b n) = fun n => x * conv c a n + y * conv c b n.
Proof.
  apply functional_extensionality. intros n. unfold conv. rewrite <- !ssum_mul_l, <- ssum_plus. apply ssum_ext. intros. ring.
Qed.
Lemma P3_lin x y w a : P3 x y w a = fun n => 1 * (fun n => x * a n + y * sh a n) n + w * sh (sh a) n.
Proof. apply functional_extensionality. intros n. unfold P3. ring. Qed.
Lemma conv_P3_l x y w a b : conv (P3 x y w a) b = P3 x y w (conv a b).
Proof. rewrite P3_lin, (conv_lin_l 1 w (fun n => x * a n + y * sh a n)), conv_lin_l, !conv_sh_l. apply functional_extensionality. intros n. unfold P3. ring. Qed.
Lemma conv_P3_r x y w a b : conv a (P3 x y w b) = P3 x y w (conv a b).
Proof. rewrite P3_lin, (conv_lin_r 1 w (fun n => x * b n + y * sh b n)), conv_lin_r, !conv_sh_r. apply functional_extensionality. intros n. unfold P3. ring. Qed.
Lemma P3_comm x y w x' y' w' a : P3 x y w (P3 x' y' w' a) = P3 x' y' w' (P3 x y w a).
Proof. apply functional_extensionality. intros n. unfold P3. destruct n as [|[|n]]; cbn [sh]; ring. Qed.
Lemma P3_inj x y w a b : x <> 0 -> P3 x y w a = P3 x y w b -> a = b.
Proof.
  intros Hx H. apply functional_extensionality. intros n. induction n as [n IH] using (well_founded_induction lt_wf).
  apply (f_equal (fun f => f n)) in H. unfold P3 in H.
  assert (E1 : sh a n = sh b n) by (destruct n; [reflexivity|apply IH; lia]).
  assert (E2 : sh (sh a) n = sh (sh b) n) by (destruct n as [|[|n]]; [reflexivity|reflexivity|apply IH; lia]).
  rewrite E1, E2 in H. apply (Rmult_eq_reg_l x); lra.
Qed.

(** ** Lower triangular Toeplitz matrices *)
Definition toep (N : nat) (A : mat R) (a : nat -> R) : Prop :=
  mrows A = N /\ mcols A = N /\ forall i j, (i < N)%nat -> (j < N)%nat -> mget A i j = if Nat.leb j i then a (i - j)%nat else 0.
Lemma toep_tri N A a : toep N A a -> forall i j, (i < N)%nat -> (j < N)%nat -> (i < j)%nat -> mget A i j = 0.
Proof. intros (_ & _ & H) i j Hi Hj L. rewrite H by assumption. replace (Nat.leb j i) with false by (symmetry; apply Nat.leb_gt; lia). reflexivity. Qed.
Lemma toep_mul N A B a b : toep N A a -> toep N B b -> toep N (mmul A B) (conv a b).
Proof.
  intros (A1 & A2 & HA) (B1 & B2 & HB). split; [exact A1|]. split; [exact B2|]. intros i j Hi Hj. cbn [mmul mget]. rewrite A2.
  destruct (Nat.leb_spec j i) as [L|L].
  - rewrite (ssum_trunc N (j + S (i - j))); [|lia|].
    2:{ intros k Hk. rewrite HA by lia. replace (Nat.leb k i) with false by (symmetry; apply Nat.leb_gt; lia). rsimpl. ring. }
    rewrite ssum_app, ssum_0, Rplus_0_l.
    2:{ intros k Hk. rewrite HB by lia. replace (Nat.leb j k) with false by (symmetry; apply Nat.leb_gt; lia). rsimpl. ring. }
    unfold conv. apply ssum_ext. intros k Hk. rewrite HA, HB by lia.
    replace (Nat.leb (j + k) i) with true by (symmetry; apply Nat.leb_le; lia). replace (Nat.leb j (j + k)) with true by (symmetry; apply Nat.leb_le; lia).
    replace (i - (j + k))%nat with (i - j - k)%nat by lia. replace (j + k - j)%nat with k by lia. reflexivity.
  - apply ssum_0. intros k Hk. rewrite HA, HB by lia. rsimpl. destruct (Nat.leb_spec k i), (Nat.leb_spec j k); try lia; ring.
Qed.
Lemma toep_sub N A B a b : toep N A a -> toep N B b -> toep N (msub A B) (fun n => a n - b n).
Proof.
  intros (A1 & A2 & HA) (B1 & B2 & HB). split; [exact A1|]. split; [exact A2|]. intros i j Hi Hj. cbn [msub mget]. rewrite HA, HB by assumption.
  rsimpl. destruct (Nat.leb j i); ring.
Qed.
Lemma toep_scale N A a x : toep N A a -> toep N (mscale x A) (fun n => x * a n).
Proof.
  intros (A1 & A2 & HA). split; [exact A1|]. split; [exact A2|]. intros i j Hi Hj. cbn [mscale mget]. rewrite HA by assumption.
  rsimpl. destruct (Nat.leb j i); ring.
Qed.
Lemma toep_mid N : toep N (mid N) one.
Proof.
  split; [reflexivity|]. split; [reflexivity|]. intros i j Hi Hj. cbn [mid mget]. rsimpl.
  destruct (Nat.leb_spec j i) as [L|L], (Nat.eqb_spec i j) as [E|E]; try lia; try reflexivity.
  - subst. rewrite Nat.sub_diag. reflexivity.
  - destruct (i - j)%nat eqn:D; [lia|reflexivity].
Qed.
Lemma toep_ext N A a b : toep N A a -> a = b -> toep N A b.
Proof. intros H <-. exact H. Qed.
Definition toepM (N : nat) (a : nat -> R) : mat R := MkMat N N (fun i j => if Nat.leb j i then a (i - j)%nat else 0).
Lemma toep_toepM N a : toep N (toepM N a) a.
Proof. split; [reflexivity|]. split; [reflexivity|]. reflexivity. Qed.

(** the inverse computed by the code, when the truncation does nothing *)
Definition untouched (e : R) (N : nat) (c : nat -> R) : Prop := forall n, (n < N)%nat -> c n = 0 \/ e <= Rabs (c n).
Lemma toep_inverse N A a c e v : (0 < N)%nat -> (forall i j, (i < N)%nat -> (i < j)%nat -> mget A i j = 0) -> toep N A a -> a 0%nat <> 0 -> conv a c = one ->
  inverseLU A e = Some v -> (is_inverse N A v <-> untouched e N c) /\ (untouched e N c -> toep N v c).
Proof.
  intros HN LT (A1 & A2 & HA) H0 HC HV.
  assert (DN : diag_ne0 (mget A) N). { intros i Hi. rewrite HA, Nat.leb_refl, Nat.sub_diag by assumption. exact H0. }
  destruct (inverseLU_exact A N e A1 A2 LT DN) as (b & v' & IB & EV & Ev & IFF). rewrite HV in EV. injection EV as <-.
  assert (B : forall i j, (i < N)%nat -> (j < N)%nat -> mget b i j = if Nat.leb j i then c (i - j)%nat else 0).
  { intros i j Hi Hj.
    refine (tri_inj (mget A) N (fun k => mget b k j) (fun k => if Nat.leb j k then c (k - j)%nat else 0) LT DN _ i Hi).
    clear i Hi. intros i Hi. destruct (IB i j Hi Hj) as (E & _). cbn [mmul mget] in E. rewrite A2 in E. etransitivity; [exact E|].
    assert (T2 : toep N A a) by (split; [exact A1|split; assumption]).
    pose proof (toep_mul N A (toepM N c) a c T2 (toep_toepM N c)) as (_ & _ & X). rewrite HC in X.
    specialize (X i j Hi Hj). cbn [mmul mget toepM] in X. rewrite A2 in X. symmetry. etransitivity; [exact X|].
    symmetry. apply (proj2 (proj2 (toep_mid N))); assumption. }
  split.
  - rewrite IFF. split.
    + intros H n Hn. specialize (H n 0%nat Hn HN). rewrite B in H by assumption. cbn [Nat.leb] in H. rewrite Nat.sub_0_r in H. exact H.
    + intros H i j Hi Hj. rewrite B by assumption. destruct (Nat.leb_spec j i); [apply H; lia|left; reflexivity].
  - intros H. destruct (inverse_dims _ _ _ HV) as (R1 & R2). split; [congruence|]. split; [congruence|].
    intros i j Hi Hj. rewrite Ev, B by assumption. destruct (Nat.leb_spec j i) as [L|L].
    + destruct (H (i - j)%nat) as [E|E]; [lia| |]; destruct (Rlt_dec _ _); try lra.
    + destruct (Rlt_dec _ _); reflexivity.
Qed.

(** ** The series of the tilt *)
Definition alt (n : nat) : R := (-1) ^ n.
Definition sp (T : R) (n : nat) : R := T ^ 2 * (INR n + / 2).
Definition sq (T : R) : nat -> R := P3 (2 / T ^ 2) (- (4 / T ^ 2)) (2 / T ^ 2) alt.
Definition sv (T : R) : nat -> R := P3 (/ T) (- / T) 0 one.
Fixpoint dd (w0 w1 w2 : R) (n : nat) : R * R :=
  match n with
  | O => (/ w0, 0)
  | S m => let (x, y) := dd w0 w1 w2 m in (- (w1 * x + w2 * y) / w0, x)
  end.
Definition sd (w0 w1 w2 : R) (n : nat) : R := fst (dd w0 w1 w2 n).
Lemma dd_snd w0 w1 w2 n : snd (dd w0 w1 w2 n) = sh (sd w0 w1 w2) n.
Proof. destruct n as [|n]; [reflexivity|]. cbn [dd sh]. unfold sd. destruct (dd w0 w1 w2 n). reflexivity. Qed.
Lemma sd_S w0 w1 w2 n : sd w0 w1 w2 (S n) = - (w1 * sd w0 w1 w2 n + w2 * sh (sd w0 w1 w2) n) / w0.
Proof. rewrite <- dd_snd. unfold sd at 1 2. cbn [dd]. destruct (dd w0 w1 w2 n). reflexivity. Qed.
Lemma sd_eq w0 w1 w2 : w0 <> 0 -> P3 w0 w1 w2 (sd w0 w1 w2) = one.
Proof.
  intros H. apply functional_extensionality. intros [|n]; unfold P3.
  - cbn [sh one]. unfold sd. cbn [dd fst]. field. exact H.
  - rewrite sd_S. cbn [sh one]. field. exact H.
Qed.
Lemma alt_eq : P3 1 1 0 alt = one.
Proof. apply functional_extensionality. intros [|n]; unfold P3, alt; cbn [sh one pow]; ring. Qed.
Lemma sp_eq T : P3 1 (-2) 1 (sp T) = P3 (T ^ 2 / 2) (T ^ 2 / 2) 0 one.
Proof.
  apply functional_extensionality. intros [|[|n]]; unfold P3, sp; cbn [sh one].
  - cbn [INR]. field.
  - cbn [INR]. field.
  - rewrite !S_INR. field.
Qed.
Lemma pq T : 0 < T -> conv (sp T) (sq T) = one.
Proof.
  intros HT. assert (T ^ 2 <> 0) by (apply pow_nonzero; lra). unfold sq. rewrite conv_P3_r, <- conv_P3_l.
  assert (E : P3 (2 / T ^ 2) (- (4 / T ^ 2)) (2 / T ^ 2) (sp T) = P3 1 1 0 one).
  { apply functional_extensionality. intros n. pose proof (f_equal (fun f => f n) (sp_eq T)) as E. cbn beta in E. unfold P3 in *.
    apply (Rmult_eq_reg_l (T ^ 2 / 2)); [|lra].
    transitivity (1 * sp T n + -2 * sh (sp T) n + 1 * sh (sh (sp T)) n); [field; lra|]. rewrite E. field. }
  rewrite E, conv_P3_l, conv_one_l. apply alt_eq.
Qed.
Lemma sq_untouched T N : 0 < T -> (0 < N)%nat -> (untouched (1/10000) N (sq T) <-> T ^ 2 <= 20000).
Proof.
  intros HT HN. assert (P : 0 < T ^ 2) by (apply pow_lt; assumption). assert (Q : 0 < 2 / T ^ 2) by (apply Rdiv_lt_0_compat; lra).
  assert (E0 : sq T 0 = 2 / T ^ 2) by (unfold sq, P3, alt; cbn [sh pow]; ring).
  assert (C : 1/10000 <= 2 / T ^ 2 <-> T ^ 2 <= 20000).
  { split; intros H.
    - apply (Rmult_le_compat_r (T ^ 2)) in H; [|lra]. unfold Rdiv in H. rewrite (Rmult_assoc 2), Rinv_l in H by lra. lra.
    - apply (Rmult_le_reg_r (T ^ 2)); [lra|]. unfold Rdiv. rewrite (Rmult_assoc 2), Rinv_l by lra. lra. }
  assert (A : forall n, 2 / T ^ 2 <= Rabs (sq T n)).
  { unfold sq, Rdiv in *. set (r := / T ^ 2) in *. clearbody r. intros [|[|n]]; unfold P3, alt; cbn [sh pow].
    - rewrite Rabs_right by lra. lra.
    - rewrite <- Rabs_Ropp, Rabs_right by lra. lra.
    - set (s := (-1) ^ n). replace (_ + _) with (8 * r * s) by ring. rewrite Rabs_mult. unfold s. rewrite pow_1_abs, Rmult_1_r.
      rewrite Rabs_right by lra. lra. }
  split.
  - intros H. destruct (H 0%nat HN) as [E|E]; rewrite E0 in E; [lra|]. rewrite Rabs_right in E by lra. apply C. exact E.
  - intros H n _. right. apply C in H. specialize (A n). lra.
Qed.

Section Tilt.
  Variables a1 a6 T : R.
  Hypothesis HT : 0 < T.
  Let k := 2 * a6 / T ^ 2.
  Let w0 := a1 - k.
  Let w1 := a1 + 2 * k.
  Let w2 := - k.
  Hypothesis Hw : w0 <> 0.
  Let d := sd w0 w1 w2.
  Let T2 : T ^ 2 <> 0.
  Proof. apply pow_nonzero. lra. Qed.
  (** angles *)
  Definition su (n : nat) : R := a1 * one n - a6 * sq T n.
  Definition sc : nat -> R := P3 1 1 0 d.
  Lemma su_sc : conv su sc = one.
  Proof.
    unfold sc. rewrite conv_P3_r, <- conv_P3_l.
    assert (E : P3 1 1 0 su = P3 w0 w1 w2 one).
    { unfold su. replace (P3 1 1 0 (fun n => a1 * one n - a6 * sq T n)) with (fun n => a1 * P3 1 1 0 one n - a6 * P3 1 1 0 (sq T) n).
      - unfold sq. rewrite P3_comm, alt_eq. apply functional_extensionality. intros n. unfold P3, w0, w1, w2, k. field. lra.
      - apply functional_extensionality. intros n. unfold P3. destruct n as [|[|n]]; cbn [sh]; ring. }
    rewrite E, conv_P3_l, conv_one_l. apply sd_eq. exact Hw.
  Qed.
  Lemma su_0 : su 0 = w0.
  Proof. unfold su, sq, P3, w0, k, alt. cbn [one sh pow]. field. lra. Qed.
  (** angular velocities *)
  Definition su' (n : nat) : R := conv (fun n => a1 * sp T n) (sv T) n - conv (conv (fun n => a6 * sp T n) (sv T)) (sq T) n.
  Definition sc' : nat -> R := P3 (2 / T) (- (2 / T)) 0 d.
  Lemma conv_scale x a b : conv (fun n => x * a n) b = fun n => x * conv a b n.
  Proof. apply functional_extensionality. intros n. unfold conv. rewrite <- ssum_mul_l. apply ssum_ext. intros. ring. Qed.
  Lemma su'_eq : su' = P3 (/ T) (- / T) 0 (fun n => a1 * sp T n - a6 * one n).
  Proof.
    apply functional_extensionality. intros n. unfold su', sv. rewrite !conv_P3_r, !conv_one_r, conv_P3_l, conv_scale, (pq T HT).
    unfold P3. destruct n as [|[|n]]; cbn [sh]; ring.
  Qed.
  Lemma su'_sc' : conv su' sc' = one.
  Proof.
    rewrite su'_eq. unfold sc'. rewrite conv_P3_r, <- conv_P3_l.
    assert (E : P3 (2 / T) (- (2 / T)) 0 (P3 (/ T) (- / T) 0 (fun n => a1 * sp T n - a6 * one n)) = P3 w0 w1 w2 one).
    { apply functional_extensionality. intros n. pose proof (f_equal (fun f => f n) (sp_eq T)) as E. cbn beta in E. unfold P3, w0, w1, w2, k in *.
      assert (X : sp T n = 2 * sh (sp T) n - sh (sh (sp T)) n + T ^ 2 / 2 * (one n + sh one n)) by lra.
      destruct n as [|[|n]]; cbn [sh] in *; rewrite X; field; lra. }
    rewrite E, conv_P3_l, conv_one_l. apply sd_eq. exact Hw.
  Qed.
  Lemma su'_0 : su' 0 = T / 2 * w0.
  Proof. rewrite su'_eq. unfold P3, sp, w0, k. cbn [sh one INR]. field. lra. Qed.

  (** *** Short periods: a1 < k *)
  Lemma short_d : 0 <= a1 -> a1 < k -> forall n, / (k - a1) <= - d n /\ - d n <= - d (S n) /\ / (k - a1) <= - d n + sh d n
    /\ - d n + sh d n <= - d (S n) + d n.
  Proof.
    intros H1 H2. assert (HA : 0 < / (k - a1)) by (apply Rinv_0_lt_compat; lra).
    assert (D0 : d 0 = - / (k - a1)) by (unfold d, sd; cbn [dd fst]; unfold w0; field; lra).
    assert (DS : forall n, - d (S n) * (k - a1) = (a1 + 2 * k) * - d n - k * - sh d n).
    { intros n. unfold d. rewrite sd_S. unfold w0, w1, w2. field. lra. }
    (* increments *)
    assert (G : forall n, / (k - a1) <= - d n /\ / (k - a1) <= - d n + sh d n).
    { induction n as [|n (I1 & I2)].
      - rewrite D0. cbn [sh]. lra.
      - assert (X : - d n + sh d n <= - d (S n) + d n).
        { apply (Rmult_le_reg_r (k - a1)); [lra|].
          replace ((- d (S n) + d n) * (k - a1)) with (- d (S n) * (k - a1) + d n * (k - a1)) by ring. rewrite DS.
          assert (0 <= a1 * - d n) by (apply Rmult_le_pos; lra). assert (0 <= a1 * (- d n + sh d n)) by (apply Rmult_le_pos; lra). lra. }
        cbn [sh]. split; lra. }
    intros n. destruct (G n) as (G1 & G2), (G (S n)) as (G3 & G4). cbn [sh] in G4.
    split; [assumption|]. split; [lra|]. split; [assumption|].
    apply (Rmult_le_reg_r (k - a1)); [lra|].
    replace ((- d (S n) + d n) * (k - a1)) with (- d (S n) * (k - a1) + d n * (k - a1)) by ring. rewrite DS.
    assert (0 <= a1 * - d n) by (apply Rmult_le_pos; lra). assert (0 <= a1 * (- d n + sh d n)) by (apply Rmult_le_pos; lra). lra.
  Qed.
  Lemma short_untouched e N : 0 <= a1 -> a1 < k -> (0 < N)%nat ->
    (untouched e N sc <-> e * (k - a1) <= 1) /\ (untouched e N sc' <-> e * (T * (k - a1)) <= 2).
  Proof.
    intros H1 H2 HN. pose proof (short_d H1 H2) as D. assert (HA : 0 < / (k - a1)) by (apply Rinv_0_lt_compat; lra).
    assert (D0 : d 0 = - / (k - a1)) by (unfold d, sd; cbn [dd fst]; unfold w0; field; lra).
    assert (A : forall n, Rabs (sc n) = - d n + - sh d n /\ Rabs (sc' n) = 2 / T * (- d n + sh d n)).
    { assert (QT : 0 < 2 / T) by (apply Rdiv_lt_0_compat; lra).
      intros n. destruct (D n) as (D1 & D2 & D3 & D4). assert (S0 : 0 <= - sh d n) by (destruct n as [|n]; cbn [sh]; [lra|destruct (D n); lra]).
      unfold sc, sc', P3. split.
      - rewrite <- Rabs_Ropp, Rabs_right; lra.
      - replace (_ + _) with (- (2 / T * (- d n + sh d n))) by ring. rewrite Rabs_Ropp, Rabs_right; [reflexivity|]. apply Rle_ge, Rmult_le_pos; lra. }
    split; split.
    - intros H. destruct (A 0%nat) as (A1 & _). cbn [sh] in A1. rewrite D0 in A1. destruct (H 0%nat HN) as [E|E].
      + rewrite E, Rabs_R0 in A1. lra.
      + rewrite A1 in E. apply (Rmult_le_compat_r (k - a1)) in E; [|lra]. replace ((- - / (k - a1) + - 0) * (k - a1)) with 1 in E by (field; lra). exact E.
    - intros H n _. right. destruct (A n) as (-> & _). destruct (D n) as (D1 & _). assert (S0 : 0 <= - sh d n) by (destruct n as [|n]; cbn [sh]; [lra|destruct (D n); lra]).
      apply Rle_trans with (/ (k - a1)); [|lra]. apply (Rmult_le_reg_r (k - a1)); [lra|]. rewrite Rinv_l by lra. exact H.
    - intros H. destruct (A 0%nat) as (_ & A1). cbn [sh] in A1. rewrite D0 in A1. destruct (H 0%nat HN) as [E|E].
      + rewrite E, Rabs_R0 in A1. assert (0 < 2 / T * (- - / (k - a1) + 0)) by (apply Rmult_lt_0_compat; [apply Rdiv_lt_0_compat; lra|lra]). lra.
      + rewrite A1 in E. apply (Rmult_le_compat_r (T * (k - a1))) in E; [|apply Rmult_le_pos; lra].
        replace (2 / T * (- - / (k - a1) + 0) * (T * (k - a1))) with 2 in E by (field; lra). exact E.
    - intros H n _. right. destruct (A n) as (_ & ->). destruct (D n) as (D1 & D2 & D3 & D4).
      apply Rle_trans with (2 / T * / (k - a1)).
      + apply (Rmult_le_reg_r (T * (k - a1))); [apply Rmult_lt_0_compat; lra|]. replace (2 / T * / (k - a1) * (T * (k - a1))) with 2 by (field; lra). exact H.
      + apply Rmult_le_compat_l; [apply Rlt_le, Rdiv_lt_0_compat; lra|exact D3].
  Qed.
  (** *** Long periods: k < a1 *)
  Lemma long_d : 0 <= k -> k < a1 -> forall n, / (a1 - k) <= alt n * d n /\ alt n * d n <= alt (S n) * d (S n) /\ 0 <= alt n * - sh d n
    /\ ((1 <= n)%nat -> 3 * k / (a1 - k) * / (a1 - k) <= alt n * (d n + sh d n)).
  Proof.
    intros H1 H2. assert (HA : 0 < / (a1 - k)) by (apply Rinv_0_lt_compat; lra).
    assert (D0 : d 0 = / (a1 - k)) by reflexivity.
    assert (DS : forall n, alt (S n) * d (S n) = (a1 + 2 * k) / (a1 - k) * (alt n * d n) + k / (a1 - k) * (alt n * - sh d n)).
    { intros n. unfold d. rewrite sd_S. unfold w0, w1, w2, alt. cbn [pow]. field. lra. }
    assert (Q1 : 1 <= (a1 + 2 * k) / (a1 - k)).
    { apply (Rmult_le_reg_r (a1 - k)); [lra|]. unfold Rdiv. rewrite Rmult_assoc, Rinv_l by lra. lra. }
    assert (Q2 : 0 <= k / (a1 - k)) by (unfold Rdiv; apply Rmult_le_pos; lra).
    assert (G : forall n, / (a1 - k) <= alt n * d n /\ 0 <= alt n * - sh d n).
    { induction n as [|n (I1 & I2)].
      - rewrite D0. unfold alt. cbn [sh pow]. lra.
      - cbn [sh]. replace (alt (S n) * - d n) with (alt n * d n) by (unfold alt; cbn [pow]; ring). split; [|lra].
        rewrite DS. apply Rle_trans with (1 * (alt n * d n) + 0); [lra|]. apply Rplus_le_compat.
        + apply Rmult_le_compat_r; lra.
        + apply Rmult_le_pos; lra. }
    assert (M : forall n, alt n * d n <= alt (S n) * d (S n)).
    { intros n. destruct (G n) as (G1 & G2). rewrite DS. apply Rle_trans with (1 * (alt n * d n) + 0); [lra|]. apply Rplus_le_compat.
      - apply Rmult_le_compat_r; lra.
      - apply Rmult_le_pos; lra. }
    intros n. destruct (G n) as (G1 & G2). split; [assumption|]. split; [apply M|]. split; [assumption|].
    intros Hn. destruct n as [|n]; [lia|]. cbn [sh]. rewrite Rmult_plus_distr_l, DS. destruct (G n) as (I1 & I2).
    replace (alt (S n) * d n) with (- (alt n * d n)) by (unfold alt; cbn [pow]; ring).
    replace ((a1 + 2 * k) / (a1 - k)) with (1 + 3 * k / (a1 - k)) by (field; lra).
    assert (Q3 : 0 <= 3 * k / (a1 - k)) by (unfold Rdiv; apply Rmult_le_pos; lra).
    assert (0 <= k / (a1 - k) * (alt n * - sh d n)) by (apply Rmult_le_pos; assumption).
    assert (3 * k / (a1 - k) * / (a1 - k) <= 3 * k / (a1 - k) * (alt n * d n)) by (apply Rmult_le_compat_l; assumption). lra.
  Qed.
  Lemma alt_abs n x : Rabs x = Rabs (alt n * x).
  Proof. unfold alt. rewrite Rabs_mult, pow_1_abs. ring. Qed.
  Lemma long_untouched e N : 0 <= k -> k < a1 ->
    (e * (a1 - k) <= 1 -> (k = 0 \/ e * (a1 - k) ^ 2 <= 3 * k) -> untouched e N sc) /\ (e * (T * (a1 - k)) <= 2 -> untouched e N sc').
  Proof.
    intros H1 H2. pose proof (long_d H1 H2) as D. assert (HA : 0 < / (a1 - k)) by (apply Rinv_0_lt_compat; lra).
    split.
    - intros E1 E2 n _. destruct (D n) as (D1 & D2 & D3 & D4). unfold sc, P3. replace (_ + _) with (d n + sh d n) by ring. rewrite (alt_abs n (d n + sh d n)).
      destruct n as [|n].
      + right. cbn [sh]. rewrite Rplus_0_r, Rabs_right by lra. apply Rle_trans with (/ (a1 - k)); [|assumption].
        apply (Rmult_le_reg_r (a1 - k)); [lra|]. rewrite Rinv_l by lra. exact E1.
      + destruct E2 as [E2|E2].
        * left. cbn [sh]. unfold d. rewrite sd_S. unfold w0, w1, w2. rewrite E2. field. lra.
        * right. specialize (D4 ltac:(lia)). apply Rle_trans with (3 * k / (a1 - k) * / (a1 - k)).
          -- apply (Rmult_le_reg_r ((a1 - k) ^ 2)); [apply pow_lt; lra|]. replace (3 * k / (a1 - k) * / (a1 - k) * (a1 - k) ^ 2) with (3 * k) by (field; lra). exact E2.
          -- eapply Rle_trans; [exact D4|apply Rle_abs].
    - intros E n _. right. destruct (D n) as (D1 & D2 & D3 & D4). unfold sc', P3. replace (_ + _) with (2 / T * (d n - sh d n)) by ring.
      rewrite (alt_abs n). replace (alt n * (2 / T * (d n - sh d n))) with (2 / T * (alt n * d n + alt n * - sh d n)) by ring.
      assert (QT : 0 < 2 / T) by (apply Rdiv_lt_0_compat; lra).
      rewrite Rabs_right by (apply Rle_ge, Rmult_le_pos; lra).
      apply Rle_trans with (2 / T * / (a1 - k)).
      + apply (Rmult_le_reg_r (T * (a1 - k))); [apply Rmult_lt_0_compat; lra|]. replace (2 / T * / (a1 - k) * (T * (a1 - k))) with 2 by (field; lra). exact E.
      + apply Rmult_le_compat_l; lra.
  Qed.
End Tilt.

(** ** The matrices of the code *)
Lemma ord2_toep T N d : computeOrder2PosDynamic T T N = Ok d -> toep N (dU d) (sp T).
Proof.
  unfold computeOrder2PosDynamic. rewrite !guard_ok. intros (_ & _ & _ & E). injection E as <-. cbn [dU].
  split; [reflexivity|]. split; [reflexivity|]. intros i j Hi Hj. cbn [mget lower]. unfold sp.
  destruct (Nat.eqb_spec j 0) as [->|E].
  - cbn [Nat.leb]. rewrite Nat.sub_0_r. rsimpl. unfold shalf. rsimpl. rewrite <- ?INR_IZR_INZ. field.
  - destruct (Nat.leb_spec j i); [|reflexivity]. rsimpl. unfold shalf. rsimpl. rewrite <- ?INR_IZR_INZ. field.
Qed.
Lemma ord2vel_toep T N d V : computeOrder2VelDynamic T T N = Ok d -> dUinv d = Some V -> toep N V (sv T).
Proof.
  intros E EV. apply computeOrder2VelDynamic_inv in E. destruct E as (H1 & H2 & H3 & EU & ES & EK & ET & EI).
  rewrite EI in EV. injection EV as <-. split; [reflexivity|]. split; [reflexivity|].
  intros i j Hi Hj. unfold acc_Uinv, sv, P3. cbn [mget]. rsimpl.
  destruct j as [|j].
  - cbn [Nat.leb]. rewrite Nat.sub_0_r. destruct i as [|[|i]]; cbn [sh one]; field; lra.
  - assert (X : (if Nat.eqb i (S j) then 1 / T else if Nat.eqb i (S j + 1) then - (1) / T else 0)
      = (if Nat.leb (S j) i then / T * one (i - S j)%nat + - / T * sh one (i - S j)%nat + 0 * sh (sh one) (i - S j)%nat else 0)).
    { destruct (Nat.leb_spec (S j) i) as [L|L].
      - destruct (i - S j)%nat as [|[|n]] eqn:D.
        + replace i with (S j) by lia. rewrite Nat.eqb_refl. cbn [sh one]. field. lra.
        + replace i with (S j + 1)%nat by lia. rewrite Nat.eqb_refl. replace (Nat.eqb (S j + 1) (S j)) with false by (symmetry; apply Nat.eqb_neq; lia). cbn [sh one]. field. lra.
        + replace (Nat.eqb i (S j)) with false by (symmetry; apply Nat.eqb_neq; lia). replace (Nat.eqb i (S j + 1)) with false by (symmetry; apply Nat.eqb_neq; lia). cbn [sh one]. ring.
      - replace (Nat.eqb i (S j)) with false by (symmetry; apply Nat.eqb_neq; lia). replace (Nat.eqb i (S j + 1)) with false by (symmetry; apply Nat.eqb_neq; lia). reflexivity. }
    destruct i as [|[|i]]; exact X.
Qed.
Lemma teps : @TILT_EPS R RScalar = / 10 ^ 15.
Proof. unfold TILT_EPS. rsimpl. field. Qed.
Section Code.
  Variables (z : zeb R) (gh : R) (gs : bool).
  Hypothesis I : zinv z gh gs.
  Let T := period z.
  Let N := horizon z.
  Let a1 := tilt_a1 z gh.
  Let a6 := tilt_a6 z gh.
  Let k := 2 * a6 / T ^ 2.
  Lemma pinv_facts : T ^ 2 <= 20000 -> 0 < T /\ (0 < N)%nat /\ lower_tri (mget (dU (btaD (zb z)))) N /\ toep N (dU (btaD (zb z))) (sp T)
    /\ exists P, dUinv (btaD (zb z)) = Some P /\ is_inverse N (dU (btaD (zb z))) P /\ lower_tri (mget P) N /\ toep N P (sq T).
  Proof.
    intros HS. pose proof (oi_m _ _ _ (proj1 I)) as M. destruct (ta_facts _ _ M) as (HT & HN & L & D & R1 & R2 & P & EP & P1 & P2 & LP & DP).
   
    pose proof (bf_ta _ (mo_b _ _ M)) as A. rewrite (mo_N _ _ M), (mo_T _ _ M) in A. change (lT (zl z)) with T in A. change (lN (zl z)) with N in A.
    pose proof (ord2_toep _ _ _ A) as TP. destruct (ord2_diag _ _ _ A) as (_ & _ & EI). rewrite EP in EI. symmetry in EI.
    do 4 (split; [assumption|]). exists P. split; [reflexivity || assumption|].
    assert (S0 : sp T 0 <> 0) by (unfold sp; cbn [INR]; assert (0 < T ^ 2) by (apply pow_lt; assumption); lra).
    destruct (toep_inverse N _ _ _ _ _ HN L TP S0 (pq T HT) EI) as (IFF & TI).
    assert (UN : untouched EPS N (sq T)) by (apply (sq_untouched T N HT HN); exact HS).
    split; [apply IFF; exact UN|]. split; [assumption|apply TI; exact UN].
  Qed.
  Lemma moderate_tilt : tilt_moderate T a1 a6 -> tilt_inverses z gh.
  Proof.
    intros (HS & HM). destruct (pinv_facts HS) as (HT & HN & L & TP & P & EP & IP & LP & TQ).
    pose proof (oi_m _ _ _ (proj1 I)) as M. pose proof (oo_tilt _ _ _ _ (oi_o _ _ _ (proj1 I))) as OT.
    assert (Hw : a1 - k <> 0) by (unfold k; lra).
    unfold tilt_constant in OT. cbn [withH b_setPar bN btaD btcx btcy] in OT.
    binds OT. rewrite EP in OT. 
    assert (EU : msub (mscale (tilt_A1 (zl z) (withH (zb z) gh)) (mid (bN (zb z)))) (mscale (tilt_A6 (zl z) (withH (zb z) gh)) P)
      = msub (mscale a1 (mid N)) (mscale a6 P)) by (rewrite (mo_N _ _ M); reflexivity).
    rewrite EU in OT. clear EU. set (U := msub _ _) in *.
    assert (TU : toep N U (su a1 a6 T)) by (apply toep_sub; apply toep_scale; [apply toep_mid|exact TQ]).
    assert (LU : lower_tri (mget U) N).
    { intros i j Hi Hj. unfold U. cbn [msub mscale mid mget]. rewrite (LP i j Hi Hj). replace (Nat.eqb i j) with false by (symmetry; apply Nat.eqb_neq; lia). rsimpl. ring. }
    assert (U0 : su a1 a6 T 0 <> 0) by (rewrite (su_0 a1 a6 T HT); exact Hw).
    destruct (inverseLU U TILT_EPS) as [v|] eqn:EV.
    - apply (f_equal (fun r => match r with Ok (Some t) => Some (tuInv t) | _ => None end)) in OT. cbn beta iota zeta in OT.
      exists P. destruct (otilt (zo z)) as [t|]; [|discriminate OT]. exists t. split; [assumption|]. split; [reflexivity|]. split; [assumption|].
      cbn [tilt_build tuInv] in OT. apply (f_equal (fun o => match o with Some x => x | None => v end)) in OT. cbn beta iota zeta in OT. rewrite <- OT.
      change (is_inverse N U v). apply (toep_inverse N U _ _ _ _ HN LU TU U0 (su_sc a1 a6 T HT Hw) EV).
      rewrite teps. destruct HM as [((G1 & G2) & G3)|((G1 & G2) & G3 & G4)].
      + apply (short_untouched a1 a6 T HT (/ 10 ^ 15) N G1 G2 HN). apply (Rmult_le_reg_l (10 ^ 15)); [lra|]. rewrite <- Rmult_assoc, Rinv_r by lra. lra.
      + apply (long_untouched a1 a6 T HT (/ 10 ^ 15) N G1 G2).
        * apply (Rmult_le_reg_l (10 ^ 15)); [lra|]. rewrite <- Rmult_assoc, Rinv_r by lra. lra.
        * destruct G4 as [G4|G4]; [left; exact G4|right]. apply (Rmult_le_reg_l (10 ^ 15)); [lra|]. rewrite <- Rmult_assoc, Rinv_r by lra. lra.
    - exfalso. apply (inverseLU_None U N TILT_EPS (proj1 TU)) in EV. apply EV. intros i Hi. destruct TU as (_ & _ & TU). rewrite TU, Nat.leb_refl, Nat.sub_diag by assumption. exact U0.
  Qed.
  Lemma moderate_tiltvel : tiltvel_moderate T a1 a6 -> tiltvel_inverses z gh.
  Proof.
    intros (HS & HM). destruct (pinv_facts HS) as (HT & HN & L & TP & P & EP & IP & LP & TQ).
    pose proof (oi_m _ _ _ (proj1 I)) as M. pose proof (oo_tiltV _ _ _ _ (oi_o _ _ _ (proj1 I))) as OT.
    assert (Hw : a1 - k <> 0) by (unfold k; lra).
    pose proof (bf_tv _ (mo_b _ _ M)) as TV. rewrite (mo_N _ _ M), (mo_T _ _ M) in TV. change (lT (zl z)) with T in TV. change (lN (zl z)) with N in TV.
    destruct (order2vel_inv _ _ _ TV) as (_ & _ & _ & _ & _ & _ & _ & V & EV & V1 & V2 & _). destruct (ord2vel_diag _ _ _ _ TV EV) as (LV & DV).
    pose proof (ord2vel_toep _ _ _ _ TV EV) as TVv.
    unfold tiltvel_constant in OT. cbn [withH b_setPar bN btaD btvD btcx btcy] in OT.
    binds OT. rewrite EP, EV in OT.
    change (tilt_A1 (zl z) (withH (zb z) gh)) with a1 in OT. change (tilt_A6 (zl z) (withH (zb z) gh)) with a6 in OT.
    set (U := msub (mmul (mscale a1 (dU (btaD (zb z)))) V) (mmul (mmul (mscale a6 (dU (btaD (zb z)))) V) P)) in *.
    assert (TU : toep N U (su' a1 a6 T)).
    { apply toep_sub; [apply toep_mul; [apply toep_scale; exact TP|exact TVv]|]. apply toep_mul; [|exact TQ]. apply toep_mul; [apply toep_scale; exact TP|exact TVv]. }
    assert (R2 : mcols (dU (btaD (zb z))) = N) by apply TP.
    assert (SL : forall x, lower_tri (mget (mscale x (dU (btaD (zb z))))) N).
    { intros y i j Hi Hj. cbn [mscale mget]. rewrite (L i j Hi Hj). rsimpl. ring. }
    assert (LU : lower_tri (mget U) N).
    { destruct (tri_mmul (mscale a1 (dU (btaD (zb z)))) V N R2 (SL a1) LV) as (L1 & _).
      destruct (tri_mmul (mscale a6 (dU (btaD (zb z)))) V N R2 (SL a6) LV) as (L2 & _).
      destruct (tri_mmul (mmul (mscale a6 (dU (btaD (zb z)))) V) P N V2 L2 LP) as (L3 & _).
      intros i j Hi Hj. unfold U. cbn [msub mget]. rewrite (L1 i j Hi Hj), (L3 i j Hi Hj). rsimpl. ring. }
    assert (U0 : su' a1 a6 T 0 <> 0).
    { rewrite (su'_0 a1 a6 T HT). apply Rmult_integral_contrapositive_currified; [lra|exact Hw]. }
    destruct (inverseLU U TILT_EPS) as [v|] eqn:EW.
    - apply (f_equal (fun r => match r with Ok (Some t) => Some (tuInv t) | _ => None end)) in OT. cbn beta iota zeta in OT.
      exists P, V. destruct (otiltV (zo z)) as [t|]; [|discriminate OT]. exists t. split; [assumption|]. split; [assumption|]. split; [reflexivity|]. split; [assumption|].
      cbn [tilt_build tuInv] in OT. apply (f_equal (fun o => match o with Some x => x | None => v end)) in OT. cbn beta iota zeta in OT. rewrite <- OT.
      change (is_inverse N U v). apply (toep_inverse N U _ _ _ _ HN LU TU U0 (su'_sc' a1 a6 T HT Hw) EW).
      rewrite teps. destruct HM as [((G1 & G2) & G3)|((G1 & G2) & G3)].
      + apply (short_untouched a1 a6 T HT (/ 10 ^ 15) N G1 G2 HN). apply (Rmult_le_reg_l (10 ^ 15)); [lra|]. rewrite <- Rmult_assoc, Rinv_r by lra. lra.
      + apply (long_untouched a1 a6 T HT (/ 10 ^ 15) N G1 G2).
        apply (Rmult_le_reg_l (10 ^ 15)); [lra|]. rewrite <- Rmult_assoc, Rinv_r by lra. lra.
    - exfalso. apply (inverseLU_None U N TILT_EPS (proj1 TU)) in EW. apply EW. intros i Hi. destruct TU as (_ & _ & TU). rewrite TU, Nat.leb_refl, Nat.sub_diag by assumption. exact U0.
  Qed.
End Code.
