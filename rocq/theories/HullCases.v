(** A checker for the separation hypothesis of HullFacts on integer points at integer
    distances, used only to exhibit concrete inputs. *)

From Coq Require Import Reals List Lra Lia Arith Bool ZArith.
From Verif Require Import Scalar LinAlg LinAlgFacts PolygonModel PolygonFacts HullFacts.
Import ListNotations.
Local Open Scope R_scope.

Definition zpt : Type := (Z * Z)%type.
Definition zinj (a : zpt) : pt R := (IZR (fst a), IZR (snd a)).
Definition zsub (a b : zpt) : zpt := (fst a - fst b, snd a - snd b)%Z.
Definition zopp (a : zpt) : zpt := (- fst a, - snd a)%Z.
Definition zdot (a b : zpt) : Z := (fst a * fst b + snd a * snd b)%Z.
Definition zcross (a b : zpt) : Z := (fst a * snd b - snd a * fst b)%Z.
Definition zapprox (a b : zpt) : bool :=
  (100000000 * zdot (zsub a b) (zsub a b) <=? Z.min (zdot a a) (zdot b b))%Z.
Definition zzero (a : zpt) : bool := ((fst a =? 0) && (snd a =? 0))%Z.

Lemma zinj_sub a b : psub (zinj a) (zinj b) = zinj (zsub a b).
Proof. unfold psub, zinj, zsub. cbn [fst snd]. rsimpl. rewrite !minus_IZR. reflexivity. Qed.
Lemma zinj_opp a : popp (zinj a) = zinj (zopp a).
Proof. unfold popp, zinj, zopp. cbn [fst snd]. rsimpl. rewrite !opp_IZR. reflexivity. Qed.
Lemma zinj_dot a b : pdot (zinj a) (zinj b) = IZR (zdot a b).
Proof. unfold pdot, zinj, zdot. cbn [fst snd]. rsimpl. rewrite plus_IZR, !mult_IZR. reflexivity. Qed.
Lemma zinj_sq a : sqn (zinj a) = IZR (zdot a a).
Proof. apply zinj_dot. Qed.
Lemma zinj_cross a b : pcross (zinj a) (zinj b) = IZR (zcross a b).
Proof. unfold pcross, zinj, zcross. cbn [fst snd]. rsimpl. rewrite minus_IZR, !mult_IZR. reflexivity. Qed.
Lemma zinj_approx a b : isApprox (zinj a) (zinj b) EPS = zapprox a b.
Proof.
  unfold isApprox, smin, zapprox. rewrite zinj_sub, !zinj_sq. rsimpl.
  set (x := zdot (zsub a b) (zsub a b)). set (u := zdot a a). set (v := zdot b b).
  destruct (Rltb_spec (IZR v) (IZR u)) as [H|H].
  - apply lt_IZR in H. rewrite Z.min_r by lia.
    destruct (Z.leb_spec (100000000 * x) v) as [L|L].
    + apply Rleb_true. apply IZR_le in L. rewrite mult_IZR in L. lra.
    + apply Rleb_false. apply IZR_lt in L. rewrite mult_IZR in L. lra.
  - assert (H' : (u <= v)%Z) by (apply le_IZR; lra). rewrite Z.min_l by lia.
    destruct (Z.leb_spec (100000000 * x) u) as [L|L].
    + apply Rleb_true. apply IZR_le in L. rewrite mult_IZR in L. lra.
    + apply Rleb_false. apply IZR_lt in L. rewrite mult_IZR in L. lra.
Qed.
Lemma zabs_small z : Rleb (Rabs (IZR z)) (1 / 1000000000000) = (z =? 0)%Z.
Proof.
  destruct (Z.eqb_spec z 0) as [->|H].
  - apply Rleb_true. rewrite Rabs_R0. lra.
  - apply Rleb_false. rewrite <- abs_IZR. assert (1 <= Z.abs z)%Z by lia. apply IZR_le in H0. lra.
Qed.
Lemma zinj_zero a : isZero (zinj a) = zzero a.
Proof.
  unfold isZero, zzero, ZPREC, zinj. cbn [fst snd]. rewrite !sabs_Rabs. rsimpl. rewrite !zabs_small. reflexivity.
Qed.

(** Cosines that differ by e mean angles that differ by at least e. *)
Lemma acos_gap x y e : -1 <= x <= 1 -> -1 <= y <= 1 -> e <= Rabs (x - y) -> e <= Rabs (acos x - acos y).
Proof.
  intros Hx Hy H. apply Rle_trans with (Rabs (x - y)); [assumption|].
  rewrite <- (cos_acos x) at 1 by assumption. rewrite <- (cos_acos y) at 1 by assumption.
  destruct (MVT_abs cos (fun x => - sin x) (acos y) (acos x)) as (c & E & _).
  - intros c Hc. replace (- sin c) with (-sin c) by ring. apply derivable_pt_lim_cos.
  - rewrite E. pose proof (SIN_bound c) as [B1 B2].
    rewrite Rabs_Ropp. assert (Rabs (sin c) <= 1) by (apply Rabs_le; lra).
    pose proof (Rabs_pos (acos x - acos y)). nra.
Qed.

Definition zroot (a : zpt) : Z := Z.sqrt (zdot a a).
Definition zlen (a : zpt) : bool := ((0 <? zroot a) && (zroot a * zroot a =? zdot a a))%Z.
Lemma zlen_spec a : zlen a = true ->
  0 < IZR (zroot a) /\ sqrt (sqn (zinj a)) = IZR (zroot a) /\ 0 < sqn (zinj a).
Proof.
  unfold zlen. intros H. apply andb_true_iff in H as [H1 H2].
  apply Z.ltb_lt in H1. apply Z.eqb_eq in H2. apply IZR_lt in H1.
  rewrite zinj_sq, <- H2, mult_IZR. split; [assumption|]. split; [|nra].
  rewrite sqrt_square; lra.
Qed.
Lemma same_square (u w : R) : u * u = w * w -> 0 <= u * w -> u = w.
Proof. intros E H. assert (F : (u - w) * (u + w) = 0) by lra. apply Rmult_integral in F. destruct F as [F|F]; [lra|]. assert (w = - u) by lra. subst w. nra. Qed.
Lemma opp_square (u w : R) : u * u = w * w -> u <> w -> w = - u.
Proof. intros E H. assert (F : (u - w) * (u + w) = 0) by lra. apply Rmult_integral in F. destruct F as [F|F]; lra. Qed.
(** With A = (d.v)|w| and B = (d.w)|v|, the two cosines differ by (A - B) / (|d||v||w|). *)
Definition zangle (d v w : zpt) : bool :=
  (let D := zdot d d in let V := zdot v v in let W := zdot w w in
   let A2 := zdot d v * zdot d v * W in let B2 := zdot d w * zdot d w * V in
   (0 <? D) && (0 <? V) && (0 <? W) &&
   (((A2 =? B2) && ((0 <=? zdot d v * zdot d w) || (D * V * W <=? 400000000 * A2)))
    || (2 * (D * V * W) <=? 10000 * Z.abs (A2 - B2))))%bool%Z.

Lemma zangle_spec d v w : zangle d v w = true ->
  dirangle (zinj d) (zinj v) = dirangle (zinj d) (zinj w)
  \/ 1/10000 <= Rabs (dirangle (zinj d) (zinj v) - dirangle (zinj d) (zinj w)).
Proof.
  unfold zangle. cbv zeta. intros H. apply andb_true_iff in H as [H H4]. apply andb_true_iff in H as [H H3]. apply andb_true_iff in H as [H1 H2].
  apply Z.ltb_lt, IZR_lt in H1. apply Z.ltb_lt, IZR_lt in H2. apply Z.ltb_lt, IZR_lt in H3. rewrite <- zinj_sq in H1, H2, H3.
  pose proof (cos_range _ _ H1 H2) as R1. pose proof (cos_range _ _ H1 H3) as R2. unfold dirangle.
  pose proof (sqrt_lt_R0 _ H1) as P1. pose proof (sqrt_lt_R0 _ H2) as P2. pose proof (sqrt_lt_R0 _ H3) as P3.
  pose proof (sqrt_sqrt _ (Rlt_le _ _ H1)) as S1. pose proof (sqrt_sqrt _ (Rlt_le _ _ H2)) as S2. pose proof (sqrt_sqrt _ (Rlt_le _ _ H3)) as S3.
  rewrite (zinj_sq d) in *. rewrite (zinj_sq v) in *. rewrite (zinj_sq w) in *. rewrite !zinj_dot in *.
  set (a := sqrt (IZR (zdot d d))) in *. set (b := sqrt (IZR (zdot v v))) in *. set (c := sqrt (IZR (zdot w w))) in *.
  set (x := IZR (zdot d v)) in *. set (y := IZR (zdot d w)) in *.
  assert (EX : x / (a * b) - y / (a * c) = (x * c - y * b) / (a * b * c)) by (field; repeat split; lra).
  assert (PP : 0 < a * b * c) by (repeat apply Rmult_lt_0_compat; assumption).
  assert (G : a * b * c <= 10000 * Rabs (x * c - y * b) -> 1 / 10000 <= Rabs (x / (a * b) - y / (a * c))).
  { intros G. rewrite EX. unfold Rdiv. rewrite Rabs_mult, (Rabs_right (/ _)) by (left; apply Rinv_0_lt_compat; assumption).
    apply Rmult_le_reg_r with (a * b * c); [assumption|]. match goal with |- _ <= ?u * / ?m * ?m => replace (u * / m * m) with u by (field; repeat split; lra) end. lra. }
  assert (SA : x * x * (c * c) = (x * c) * (x * c)) by ring. assert (SB : y * y * (b * b) = (y * b) * (y * b)) by ring.
  apply orb_true_iff in H4 as [H4|H4].
  - apply andb_true_iff in H4 as [E H4]. apply Z.eqb_eq, (f_equal IZR) in E. rewrite !mult_IZR, <- S2, <- S3 in E. fold x y in E. rewrite SA, SB in E.
    apply orb_true_iff in H4 as [H4|H4].
    + left. f_equal. apply Z.leb_le, IZR_le in H4. rewrite mult_IZR in H4. fold x y in H4.
      assert (F : x * c = y * b). { assert (0 <= (x * c) * (y * b)) by (replace ((x * c) * (y * b)) with ((x * y) * (b * c)) by ring; apply Rmult_le_pos; [exact H4|nra]). apply same_square; assumption. }
      assert (Z : x / (a * b) - y / (a * c) = 0); [|lra]. rewrite EX, F. unfold Rdiv. ring.
    + destruct (Req_dec (x * c) (y * b)) as [F|F].
      * left. f_equal. assert (Z : x / (a * b) - y / (a * c) = 0); [|lra]. rewrite EX, F. unfold Rdiv. ring.
      * right. apply acos_gap; [assumption|assumption|]. apply G. assert (M : y * b = - (x * c)) by (apply opp_square; assumption). rewrite M. replace (x * c - - (x * c)) with (2 * (x * c)) by ring.
        apply Z.leb_le, IZR_le in H4. rewrite !mult_IZR, <- S1, <- S2, <- S3 in H4. fold x in H4.
        apply Rsqr_incr_0; [|lra|pose proof (Rabs_pos (2 * (x * c))); lra]. unfold Rsqr.
        replace (10000 * Rabs (2 * (x * c)) * (10000 * Rabs (2 * (x * c)))) with (100000000 * (Rabs (2 * (x * c)) * Rabs (2 * (x * c)))) by ring.
        rewrite <- Rabs_mult, Rabs_right by (apply Rle_ge; nra). nra.
  - right. apply acos_gap; [assumption|assumption|]. apply G. apply Z.leb_le, IZR_le in H4. rewrite !mult_IZR, abs_IZR, minus_IZR, !mult_IZR, <- S1, <- S2, <- S3 in H4. fold x y in H4.
    rewrite SA, SB in H4. replace ((x * c) * (x * c) - (y * b) * (y * b)) with ((x * c - y * b) * (x * c + y * b)) in H4 by ring. rewrite Rabs_mult in H4.
    assert (Lx : Rabs x <= a * b) by (apply (Rmult_le_reg_r (/ (a * b))); [apply Rinv_0_lt_compat; nra|]; rewrite <- (Rabs_right (/ (a * b))) at 1 by (left; apply Rinv_0_lt_compat; nra); rewrite <- Rabs_mult, Rinv_r by nra; apply Rabs_le; exact R1).
    assert (Ly : Rabs y <= a * c) by (apply (Rmult_le_reg_r (/ (a * c))); [apply Rinv_0_lt_compat; nra|]; rewrite <- (Rabs_right (/ (a * c))) at 1 by (left; apply Rinv_0_lt_compat; nra); rewrite <- Rabs_mult, Rinv_r by nra; apply Rabs_le; exact R2).
    assert (Ls : Rabs (x * c + y * b) <= 2 * (a * b * c)).
    { eapply Rle_trans; [apply Rabs_triang|]. rewrite !Rabs_mult, (Rabs_right b), (Rabs_right c) by lra. nra. }
    assert (0 <= Rabs (x * c - y * b)) by apply Rabs_pos. assert (K : 2 * (a * b * c) * (a * b * c) <= 10000 * Rabs (x * c - y * b) * (2 * (a * b * c))).
    { eapply Rle_trans; [|eapply Rle_trans; [exact H4|]]; [right; ring|]. rewrite <- Rmult_assoc. apply Rmult_le_compat_l; [lra|exact Ls]. }
    apply Rmult_le_reg_r with (2 * (a * b * c)); lra.
Qed.

Section Check.
  Variable zs : list zpt.
  Notation n := (length zs).
  Notation Z_ i := (nth i zs (0, 0)%Z).
  Definition idx : list nat := seq 0 n.
  Definition zdirs (c : nat) : list zpt :=
    (1, 0)%Z :: map (fun l => zsub (Z_ c) (Z_ l)) (filter (fun l => negb (Nat.eqb l c)) idx).
  Definition zsep : bool :=
    forallb (fun i => forallb (fun j =>
      (Nat.eqb i j || (negb (zapprox (Z_ i) (Z_ j)) && negb (zzero (zsub (Z_ i) (Z_ j)))))
      && true) idx) idx
    && forallb (fun c => forallb (fun d => forallb (fun i =>
        Nat.eqb i c ||
        (let v := zsub (Z_ i) (Z_ c) in
         (negb (zapprox d v || zapprox d (zopp v)) || Z.eqb (zcross d v) 0)
         && forallb (fun j => Nat.eqb j c || zangle d v (zsub (Z_ j) (Z_ c))) idx)) idx) (zdirs c)) idx.

  Lemma in_idx i : (i < n)%nat <-> In i idx.
  Proof. unfold idx. rewrite in_seq. lia. Qed.
  Lemma nth_zinj i : nth i (map zinj zs) (0, 0) = zinj (Z_ i).
  Proof. change (0, 0)%R with (zinj (0, 0)%Z). apply map_nth. Qed.

  Lemma zdirs_spec c d : a_direction (map zinj zs) c d -> exists z, In z (zdirs c) /\ d = zinj z.
  Proof.
    intros [->|(l & Hl & Hlc & ->)].
    - exists (1, 0)%Z. split; [left; reflexivity|reflexivity].
    - rewrite map_length in Hl. rewrite !nth_zinj, zinj_sub. exists (zsub (Z_ c) (Z_ l)). split; [|reflexivity].
      right. apply in_map_iff. exists l. split; [reflexivity|]. apply filter_In. split; [apply in_idx; assumption|].
      destruct (Nat.eqb_spec l c); [contradiction|reflexivity].
  Qed.

  Lemma zsep_ok : zsep = true -> separated (map zinj zs).
  Proof.
    unfold zsep. intros H. apply andb_true_iff in H as [HA HB].
    rewrite forallb_forall in HA, HB.
    assert (HB' : forall c d i, (c < n)%nat -> In d (zdirs c) -> (i < n)%nat -> i <> c ->
      let v := zsub (Z_ i) (Z_ c) in
      ((zapprox d v || zapprox d (zopp v))%bool = true -> zcross d v = 0%Z)
      /\ forall j, (j < n)%nat -> j <> c -> zangle d v (zsub (Z_ j) (Z_ c)) = true).
    { intros c d i Hc Hd Hi Hic v. specialize (HB c (proj1 (in_idx c) Hc)). rewrite forallb_forall in HB.
      specialize (HB d Hd). rewrite forallb_forall in HB. specialize (HB i (proj1 (in_idx i) Hi)).
      destruct (Nat.eqb_spec i c) as [|_]; [contradiction|]. cbn [orb] in HB. fold v in HB. cbv zeta in HB.
      apply andb_true_iff in HB as [HB1 HB2]. split.
      - intros Ha. rewrite Ha in HB1. cbn in HB1. apply Z.eqb_eq. assumption.
      - intros j Hj Hjc. rewrite forallb_forall in HB2. specialize (HB2 j (proj1 (in_idx j) Hj)).
        destruct (Nat.eqb_spec j c) as [|_]; [contradiction|]. assumption. }
    constructor.
    - intros i j Hi Hj Hne. rewrite map_length in Hi, Hj. rewrite !nth_zinj, zinj_sub, zinj_approx, zinj_zero.
      specialize (HA i (proj1 (in_idx i) Hi)). rewrite forallb_forall in HA.
      specialize (HA j (proj1 (in_idx j) Hj)). rewrite andb_true_r in HA.
      destruct (Nat.eqb_spec i j) as [|_]; [contradiction|]. cbn [orb] in HA.
      apply andb_true_iff in HA as [HA1 HA2]. apply negb_true_iff in HA1. apply negb_true_iff in HA2. auto.
    - intros i j Hi Hj. rewrite !nth_zinj. unfold zinj. cbn [snd].
      destruct (Z.eq_dec (snd (Z_ i)) (snd (Z_ j))) as [->|Hne]; [left; reflexivity|right].
      rewrite <- minus_IZR, <- abs_IZR. assert (1 <= Z.abs (snd (Z_ i) - snd (Z_ j)))%Z by lia.
      apply IZR_le in H. lra.
    - intros d c i Hd Hc Hi Hic v. rewrite map_length in Hc, Hi.
      apply zdirs_spec in Hd as (z & Hz & ->). subst v. rewrite !nth_zinj, zinj_sub, zinj_opp, !zinj_approx, zinj_cross.
      intros Ha. f_equal. apply (HB' c z i Hc Hz Hi Hic). apply orb_true_iff. assumption.
    - intros d c i j Hd Hc Hi Hj Hic Hjc v w _ _. rewrite map_length in Hc, Hi, Hj.
      apply zdirs_spec in Hd as (z & Hz & ->). subst v w. rewrite !nth_zinj, !zinj_sub.
      apply zangle_spec. apply (HB' c z i Hc Hz Hi Hic); assumption.
  Qed.
End Check.

(** A rectangle with its centre. *)
Definition box_points : list zpt := [(4, 3); (8, 0); (0, 6); (0, 0); (8, 6)]%Z.
Lemma box_separated : separated (map zinj box_points).
Proof. apply zsep_ok. vm_compute. reflexivity. Qed.
Lemma box_not_collinear : ~ collinear (map zinj box_points).
Proof.
  intros H. specialize (H (0, 0) (8, 0) (0, 6)). unfold pcross, psub in H. cbn in H. rsimpl.
  assert (8 * 6 = 0); [|lra].
  assert (E : (8 - 0) * (6 - 0) - (0 - 0) * (0 - 0) = 0); [|lra].
  apply H; unfold zinj; cbn [fst snd]; auto 10.
Qed.

(** ** Inputs on which the extraction goes wrong *)
Lemma zang v w :
  angleBetweenVecs (zinj v) (zinj w)
  = if (zzero v || zzero w || zapprox v w)%bool then 0
    else if zapprox v (zopp w) then PI
    else if (0 <=? zcross v w)%Z then dirangle (zinj v) (zinj w) else - dirangle (zinj v) (zinj w).
Proof.
  unfold angleBetweenVecs. rewrite zinj_opp, !zinj_zero, !zinj_approx, zinj_cross.
  destruct (zzero v || zzero w || zapprox v w)%bool; [reflexivity|].
  destruct (zapprox v (zopp w)); [reflexivity|]. rsimpl.
  destruct (Z.leb_spec 0 (zcross v w)) as [H|H].
  - rewrite (proj2 (Rleb_true _ _)) by (apply IZR_le in H; assumption). reflexivity.
  - rewrite (proj2 (Rleb_false _ _)) by (apply IZR_lt in H; assumption). reflexivity.
Qed.

Definition dup_points : list zpt := [(0, 0); (0, 0); (4, 3); (-6, 8)]%Z.

Lemma rd_zinj zs i z : nth_error zs i = Some z -> rd (map zinj zs) i = Ok (zinj z).
Proof. intros H. unfold rd. rewrite (map_nth_error zinj _ _ H). reflexivity. Qed.

Ltac rlt t := 
  match goal with
  | |- context[Rltb ?a ?b] =>
    first [ rewrite (proj2 (Rltb_true a b)) by t | rewrite (proj2 (Rltb_false a b)) by t ]
  end.
Ltac angles :=
  repeat (rewrite ?zinj_sub; match goal with
  | |- context[angleBetweenVecs (zinj ?v) (zinj ?w)] =>
      rewrite (zang v w);
      let b := eval vm_compute in (zzero v || zzero w || zapprox v w)%bool in
      change (zzero v || zzero w || zapprox v w)%bool with b; cbv iota;
      try (let b := eval vm_compute in (zapprox v (zopp w)) in
      change (zapprox v (zopp w)) with b; cbv iota);
      try (let b := eval vm_compute in (0 <=? zcross v w)%Z in
      change (0 <=? zcross v w)%Z with b; cbv iota)
  end).
Ltac oneStep :=
  unfold ang_step at 1;
  repeat match goal with |- context[rd (map zinj ?zs) ?i] =>
     let z := eval vm_compute in (nth i zs (0, 0)%Z) in
     rewrite (rd_zinj zs i z) by reflexivity end;
  repeat match goal with |- context[rd (?h :: ?t) 0] => change (rd (h :: t) 0) with (Ok h) end;
  cbn [bind];
  rewrite ?zinj_approx;
  repeat match goal with |- context[zapprox ?a ?b] =>
     let r := eval vm_compute in (zapprox a b) in change (zapprox a b) with r end; cbv iota;
  repeat match goal with |- context[rd (map zinj ?zs) ?i] =>
     let z := eval vm_compute in (nth i zs (0, 0)%Z) in
     rewrite (rd_zinj zs i z) by reflexivity end;
  cbn [bind]; rewrite ?sabs_Rabs; rsimpl; angles.

Lemma dirangle_range d v : 0 <= dirangle d v <= PI.
Proof. unfold dirangle. apply acos_bound. Qed.
Ltac ranges :=
  repeat match goal with |- context[dirangle ?d ?v] =>
    let H := fresh "Hr" in pose proof (dirangle_range d v) as H;
    let x := fresh "th" in set (x := dirangle d v) in * end.
Lemma PI_gt_1 : 1 < PI.
Proof. pose proof PI2_1. lra. Qed.

Lemma dup_low : getIndexOfLowest (map zinj dup_points) = Ok 0%nat.
Proof.
  unfold getIndexOfLowest, dup_points. cbn [map length Nat.sub seq foldM]. unfold low_step, zinj. cbn [rd nth_error bind fst snd].
  rewrite !sabs_Rabs. rsimpl.
  replace (0 - 0) with 0 by ring. rewrite Rabs_R0.
  rlt lra. rlt lra. cbn [bind app rd nth_error fst snd]. rewrite !sabs_Rabs. rsimpl.
  rlt lra. replace (3 - 0) with 3 by ring. rewrite (Rabs_right 3) by lra. rlt lra. cbn [bind app rd nth_error fst snd].
  rewrite !sabs_Rabs. rsimpl. rlt lra. replace (8 - 0) with 8 by ring. rewrite (Rabs_right 8) by lra. rlt lra.
  cbn [bind app rd nth_error fst snd length Nat.ltb Nat.leb tl foldM]. unfold left_step. cbn [bind app rd nth_error fst snd]. rsimpl.
  rlt lra. reflexivity.
Qed.

Lemma dirangle_gap d v : zlen d = true -> zlen v = true ->
  (zroot d * zroot v <=? 10000 * (zroot d * zroot v - zdot d v))%Z = true ->
  1/10000 <= dirangle (zinj d) (zinj v).
Proof.
  intros Hd Hv H. apply zlen_spec in Hd as (P1 & S1 & Q1). apply zlen_spec in Hv as (P2 & S2 & Q2).
  pose proof (cos_range _ _ Q1 Q2) as R1. unfold dirangle. rewrite S1, S2, zinj_dot in *.
  apply Z.leb_le in H. apply IZR_le in H. rewrite !mult_IZR, minus_IZR, !mult_IZR in H.
  set (q := IZR (zroot d) * IZR (zroot v)) in *. assert (Hq : 0 < q) by (apply Rmult_lt_0_compat; assumption).
  assert (G : 1/10000 <= Rabs (acos (IZR (zdot d v) / q) - acos 1)).
  { apply acos_gap; [assumption|lra|]. rewrite Rabs_minus_sym.
    rewrite Rabs_right by lra. apply Rmult_le_reg_r with q; [assumption|].
    replace ((1 - IZR (zdot d v) / q) * q) with (q - IZR (zdot d v)) by (field; lra). lra. }
  rewrite acos_1, Rminus_0_r, Rabs_right in G; [assumption|]. apply Rle_ge, acos_bound.
Qed.

Ltac step_done := cbn [bind app rd nth_error length Nat.ltb Nat.leb tl foldM].

Lemma dup_call1 : getIndexOfSmallestAngle 0 (zinj (-1, 0)%Z) (map zinj dup_points) = Ok 1%nat.
Proof.
  unfold getIndexOfSmallestAngle. rewrite map_length. cbn [Nat.eqb length dup_points Nat.sub seq foldM].
  oneStep. cbn [bind]. oneStep.
  match goal with |- context[dirangle (zinj ?d) (zinj ?v)] =>
    assert (1/10000 <= dirangle (zinj d) (zinj v)) by (apply dirangle_gap; reflexivity) end.
  rewrite !Rminus_0_r, (Rabs_right (dirangle _ _)) by lra.
  rlt lra. rlt lra. cbn [bind]. oneStep.
  match goal with |- context[dirangle (zinj ?d) (zinj ?v)] =>
    assert (1/10000 <= dirangle (zinj d) (zinj v)) by (apply dirangle_gap; reflexivity) end.
  rewrite !Rminus_0_r, (Rabs_right (dirangle _ _)) by lra.
  rlt lra. rlt lra. reflexivity.
Qed.

Ltac far_go :=
  unfold far_step;
  repeat match goal with |- context[rd (map zinj ?zs) ?i] =>
     let z := eval vm_compute in (nth i zs (0, 0)%Z) in
     rewrite (rd_zinj zs i z) by reflexivity end;
  cbn [bind]; rewrite ?zinj_sub, ?zinj_sq; rsimpl;
  match goal with |- context[Rltb (IZR ?a) (IZR ?b)] =>
    let a' := eval vm_compute in a in let b' := eval vm_compute in b in
    change (IZR a) with (IZR a'); change (IZR b) with (IZR b') end;
  rlt lra; cbn [bind].

Lemma dup_call2 : getIndexOfSmallestAngle 1 (zinj (0, 0)%Z) (map zinj dup_points) = Ok 3%nat.
Proof.
  unfold getIndexOfSmallestAngle. rewrite map_length. cbn [Nat.eqb length dup_points Nat.sub seq foldM].
  oneStep. cbn [bind]. oneStep. rewrite Rminus_0_r, Rabs_R0. rlt lra. rlt lra. step_done. 
  oneStep. rewrite Rminus_0_r, Rabs_R0. rlt lra. rlt lra. step_done.
  far_go. far_go. reflexivity.
Qed.

Lemma dup_call3 : getIndexOfSmallestAngle 3 (zinj (0, 0)%Z) (map zinj dup_points) = Ok 2%nat.
Proof.
  pose proof PI_gt_1.
  unfold getIndexOfSmallestAngle. rewrite map_length. cbn [Nat.eqb length dup_points Nat.sub seq foldM].
  oneStep. replace (PI - PI) with 0 by ring. rewrite Rabs_R0. rlt lra. rlt lra. step_done.
  oneStep. ranges. rlt lra. step_done. oneStep. step_done. reflexivity.
Qed.

Lemma dup_call4 : getIndexOfSmallestAngle 2 (zinj (-6, 8)%Z) (map zinj dup_points) = Ok 0%nat.
Proof.
  pose proof PI_gt_1.
  unfold getIndexOfSmallestAngle. rewrite map_length. cbn [Nat.eqb length dup_points Nat.sub seq foldM].
  oneStep. ranges. replace (- th - - th) with 0 by ring. rewrite Rabs_R0. rlt lra. rlt lra. step_done.
  oneStep. step_done. oneStep. ranges. rlt lra. rewrite Rabs_right by lra. rlt lra. step_done.
  far_go. reflexivity.
Qed.

Lemma dup_extract :
  extractVertices (map zinj dup_points) = Ok (map zinj [(0, 0); (0, 0); (-6, 8); (4, 3)]%Z).
Proof.
  unfold extractVertices, extractVertices_fuel. rewrite map_length. cbn [map dup_points].
  change (zinj (0, 0)%Z :: zinj (0, 0)%Z :: zinj (4, 3)%Z :: [zinj (-6, 8)%Z]) with (map zinj dup_points).
  rewrite dup_low. cbn [bind]. rewrite (rd_zinj dup_points 0 (0,0)%Z) by reflexivity. cbn [bind].
  replace (fst (zinj (0, 0)%Z) - s1, snd (zinj (0, 0)%Z))%sc with (zinj (-1, 0)%Z).
  2:{ unfold zinj. cbn [fst snd]. rsimpl. f_equal. lra. }
  rewrite dup_call1. cbn [bind]. change (length dup_points + 1)%nat with 5%nat. cbn [hull_loop]. rewrite dup_low. cbn [bind Nat.eqb].
  rewrite map_length. cbn [length dup_points Nat.leb guard bind]. fold dup_points.
  rewrite (rd_zinj dup_points 1 (0,0)%Z) by reflexivity. cbn [bind rd nth_error].
  rewrite dup_call2. cbn [bind length Nat.eqb guard Nat.leb].
  rewrite (rd_zinj dup_points 3 (-6,8)%Z) by reflexivity. cbn [bind rd nth_error].
  rewrite dup_call3. cbn [bind length Nat.eqb guard Nat.leb].
  rewrite (rd_zinj dup_points 2 (4,3)%Z) by reflexivity. cbn [bind rd nth_error].
  rewrite dup_call4. reflexivity.
Qed.

(** Three points a few tenths of a millimetre apart, ten metres from the origin: each is
    "approximately equal" to the two others, so no angle is ever compared. *)
Definition tiny_points : list (pt R) := [(-10, 10); (-10, 10 + 3/10000); (-10 + 9/10000, 10 - 3/10000)].

Lemma tiny_low : getIndexOfLowest tiny_points = Ok 2%nat.
Proof.
  unfold getIndexOfLowest, tiny_points. cbn [map length Nat.sub seq foldM]. unfold low_step. cbn [rd nth_error bind fst snd].
  rewrite !sabs_Rabs. rsimpl. replace (10 + 3/10000 - 10) with (3/10000) by lra. rewrite (Rabs_right (3/10000)) by lra.
  rlt lra. rlt lra. cbn [bind rd nth_error fst snd]. rsimpl. rlt lra. reflexivity.
Qed.
Ltac rle t := 
  match goal with
  | |- context[Rleb ?a ?b] =>
    first [ rewrite (proj2 (Rleb_true a b)) by t | rewrite (proj2 (Rleb_false a b)) by t ]
  end.
Lemma tiny_approx i j a b :
  nth_error tiny_points i = Some a -> nth_error tiny_points j = Some b -> isApprox a b EPS = true.
Proof.
  intros Ha Hb. unfold tiny_points in *.
  destruct i as [|[|[|i]]]; cbn in Ha; try (destruct i; discriminate); injection Ha as <-;
  (destruct j as [|[|[|j]]]; cbn in Hb; try (destruct j; discriminate); injection Hb as <-);
  unfold isApprox, sqn, pdot, psub, smin; cbn [fst snd]; rsimpl; apply Rleb_true;
  match goal with |- context[Rltb ?x ?y] => destruct (Rltb x y) end; nra.
Qed.
Lemma tiny_next cur last : (cur < 3)%nat ->
  getIndexOfSmallestAngle cur last tiny_points = Ok (if Nat.eqb cur 0 then 1 else 0)%nat.
Proof.
  intros Hc. unfold getIndexOfSmallestAngle. cbn [length tiny_points Nat.sub seq foldM].
  unfold ang_step. 
  destruct (nth_error tiny_points cur) as [c|] eqn:Ec.
  2:{ apply nth_error_None in Ec. cbn in Ec. lia. }
  rewrite (rd_some _ _ _ Ec). cbn [bind].
  rewrite (rd_some tiny_points 1 (-10, 10 + 3/10000)), (rd_some tiny_points 2 (-10 + 9/10000, 10 - 3/10000)) by reflexivity.
  cbn [bind].
  rewrite (tiny_approx 1 cur), (tiny_approx 2 cur); try reflexivity; try assumption.
Qed.
Lemma extract_unfold (fuel : nat) (p : list (pt R)) : p <> [] ->
  extractVertices_fuel fuel p =
  (do index <- getIndexOfLowest p; do q <- rd p index;
   do index' <- getIndexOfSmallestAngle index (fst q - s1, snd q)%sc p; hull_loop fuel p [q] index').
Proof. destruct p; [contradiction|reflexivity]. Qed.
Lemma extract_unfold_ndebug (fuel : nat) (p : list (pt R)) : p <> [] ->
  extractVertices_ndebug fuel p =
  (do index <- getIndexOfLowest p; do q <- rd p index;
   do index' <- getIndexOfSmallestAngle index (fst q - s1, snd q)%sc p; hull_loop_ndebug fuel p [q] index').
Proof. destruct p; [contradiction|reflexivity]. Qed.
Lemma tiny_abort : extractVertices tiny_points = Abort.
Proof.
  unfold extractVertices. rewrite extract_unfold by discriminate.
  rewrite tiny_low. cbn [bind]. rewrite (rd_some tiny_points 2 (-10 + 9/10000, 10 - 3/10000)) by reflexivity. cbn [bind].
  rewrite tiny_next by lia. cbn [bind Nat.eqb]. change (length tiny_points + 1)%nat with 4%nat.
  cbn [hull_loop].
  do 3 (rewrite ?tiny_low; change (length tiny_points) with 3%nat; cbn [bind Nat.eqb length Nat.leb guard];
    first [rewrite (rd_some tiny_points 0 (-10, 10)) by reflexivity
          |rewrite (rd_some tiny_points 1 (-10, 10 + 3/10000)) by reflexivity]; cbn [bind rd nth_error];
    rewrite tiny_next by lia; cbn [bind Nat.eqb]).
  reflexivity.
Qed.
Lemma tiny_loops fuel : forall acc index, (index < 2)%nat -> acc <> [] ->
  hull_loop_ndebug fuel tiny_points acc index = OutOfFuel.
Proof.
  induction fuel as [|fuel IH]; intros acc index Hi Hacc; cbn [hull_loop_ndebug]; rewrite tiny_low; cbn [bind].
  - replace (Nat.eqb index 2) with false; [reflexivity|]. symmetry. apply Nat.eqb_neq. lia.
  - replace (Nat.eqb index 2) with false by (symmetry; apply Nat.eqb_neq; lia).
    destruct (rd_ok tiny_points index) as (q & -> & _); [cbn; lia|]. cbn [bind].
    destruct acc as [|a acc]; [contradiction|]. cbn [rd nth_error bind].
    rewrite tiny_next by lia. cbn [bind]. apply IH; [destruct (Nat.eqb index 0); lia|discriminate].
Qed.
Lemma tiny_diverges fuel : extractVertices_ndebug fuel tiny_points = OutOfFuel.
Proof.
  rewrite extract_unfold_ndebug by discriminate.
  rewrite tiny_low. cbn [bind]. rewrite (rd_some tiny_points 2 (-10 + 9/10000, 10 - 3/10000)) by reflexivity. cbn [bind].
  rewrite tiny_next by lia. cbn [bind Nat.eqb]. apply tiny_loops; [lia|discriminate].
Qed.
