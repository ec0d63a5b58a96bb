(** Correctness of the gift wrapping of extractVertices for point sets whose directions are
    separated by more than the tolerances. *)

From Coq Require Import Reals List Lra Lia Arith Bool.
From Verif Require Import Scalar LinAlg LinAlgFacts PolygonModel PolygonFacts.
Import ListNotations.
Local Open Scope R_scope.

#[global] Instance RTrig : Trig R := {
  tpi := PI;
  tacos d a b := acos (d / (sqrt a * sqrt b))
}.

Ltac punfold := unfold pcross, pdot, sqn, psub, popp, pdot in *; cbn [fst snd] in *; rsimpl.

(** ** Plane geometry *)
Lemma lagrange (d v : pt R) : pdot d v * pdot d v + pcross d v * pcross d v = sqn d * sqn v.
Proof. destruct d, v. punfold. ring. Qed.
Lemma cross_id (d v w : pt R) :
  pdot d v * pcross d w - pcross d v * pdot d w = sqn d * pcross v w.
Proof. destruct d, v, w. punfold. ring. Qed.
Lemma dot_id (d v w : pt R) :
  pdot d v * pdot d w + pcross d v * pcross d w = sqn d * pdot v w.
Proof. destruct d, v, w. punfold. ring. Qed.
Lemma sqn_nonneg (d : pt R) : 0 <= sqn d.
Proof. destruct d. punfold. nra. Qed.

(** unsigned angle between two vectors *)
Definition dirangle (d v : pt R) : R := acos (pdot d v / (sqrt (sqn d) * sqrt (sqn v))).

Lemma norm_prod_pos d v : 0 < sqn d -> 0 < sqn v -> 0 < sqrt (sqn d) * sqrt (sqn v).
Proof. intros. apply Rmult_lt_0_compat; apply sqrt_lt_R0; assumption. Qed.

Lemma cos_range d v : 0 < sqn d -> 0 < sqn v ->
  -1 <= pdot d v / (sqrt (sqn d) * sqrt (sqn v)) <= 1.
Proof.
  intros Hd Hv. pose proof (norm_prod_pos d v Hd Hv) as HP.
  assert (HQ : (sqrt (sqn d) * sqrt (sqn v)) * (sqrt (sqn d) * sqrt (sqn v)) = sqn d * sqn v).
  { replace (sqrt (sqn d) * sqrt (sqn v) * (sqrt (sqn d) * sqrt (sqn v)))
      with ((sqrt (sqn d) * sqrt (sqn d)) * (sqrt (sqn v) * sqrt (sqn v))) by ring.
    rewrite !sqrt_sqrt by lra. reflexivity. }
  set (q := sqrt (sqn d) * sqrt (sqn v)) in *. pose proof (lagrange d v) as HL.
  assert (HB : pdot d v * pdot d v <= q * q) by (rewrite HQ; nra).
  assert (H1 : - q <= pdot d v <= q) by nra.
  split.
  - apply Rmult_le_reg_r with q; [assumption|]. unfold Rdiv. rewrite Rmult_assoc, Rinv_l by lra. lra.
  - apply Rmult_le_reg_r with q; [assumption|]. unfold Rdiv. rewrite Rmult_assoc, Rinv_l by lra. lra.
Qed.

Lemma acos_le_inv x y : -1 <= x <= 1 -> -1 <= y <= 1 -> acos x <= acos y -> y <= x.
Proof.
  intros Hx Hy H. rewrite <- (cos_acos x), <- (cos_acos y) by assumption.
  pose proof (acos_bound x). pose proof (acos_bound y). apply cos_decr_1; lra.
Qed.

Lemma dirangle_le d v w :
  0 < sqn d -> 0 < sqn v -> 0 < sqn w ->
  dirangle d v <= dirangle d w -> pdot d w * sqrt (sqn v) <= pdot d v * sqrt (sqn w).
Proof.
  intros Hd Hv Hw H. apply acos_le_inv in H; try (apply cos_range; assumption).
  assert (0 < sqrt (sqn d)) by (apply sqrt_lt_R0; assumption).
  assert (0 < sqrt (sqn v)) by (apply sqrt_lt_R0; assumption).
  assert (0 < sqrt (sqn w)) by (apply sqrt_lt_R0; assumption).
  set (a := sqrt (sqn d)) in *. set (b := sqrt (sqn v)) in *. set (c := sqrt (sqn w)) in *.
  apply Rmult_le_compat_r with (r := a * b * c) in H.
  2:{ repeat apply Rmult_le_pos; lra. }
  replace (pdot d w / (a * c) * (a * b * c)) with (pdot d w * b) in H by (field; lra).
  replace (pdot d v / (a * b) * (a * b * c)) with (pdot d v * c) in H by (field; lra).
  assumption.
Qed.

Lemma angle_le_cross d v w :
  0 < sqn d -> 0 < sqn v -> 0 < sqn w -> 0 <= pcross d v -> 0 <= pcross d w ->
  dirangle d v <= dirangle d w -> 0 <= pcross v w.
Proof.
  intros Hd Hv Hw Cv Cw H. apply dirangle_le in H; try assumption.
  pose proof (cross_id d v w) as HI. pose proof (lagrange d v) as Lv. pose proof (lagrange d w) as Lw.
  assert (Hb : 0 < sqrt (sqn v)) by (apply sqrt_lt_R0; assumption).
  assert (Hc : 0 < sqrt (sqn w)) by (apply sqrt_lt_R0; assumption).
  assert (Eb : sqrt (sqn v) * sqrt (sqn v) = sqn v) by (apply sqrt_sqrt; lra).
  assert (Ec : sqrt (sqn w) * sqrt (sqn w) = sqn w) by (apply sqrt_sqrt; lra).
  set (b := sqrt (sqn v)) in *. set (c := sqrt (sqn w)) in *.
  set (dv := pdot d v) in *. set (dw := pdot d w) in *.
  set (xv := pcross d v) in *. set (xw := pcross d w) in *.
  set (D := sqn d) in *.
  assert (G : 0 <= dv * xw - xv * dw).
  { destruct (Rle_dec 0 dv) as [Hdv|Hdv].
    - destruct (Rle_dec dw 0) as [Hdw|Hdw]; [nra|].
      assert (HS : (dw * b) * (dw * b) <= (dv * c) * (dv * c)).
      { assert (0 <= dw * b) by nra. apply Rmult_le_compat; lra. }
      assert (HS2 : dw * dw * (xv * xv) <= dv * dv * (xw * xw)).
      { assert (E1 : (dw * b) * (dw * b) = dw * dw * sqn v) by (rewrite <- Eb; ring).
        assert (E2 : (dv * c) * (dv * c) = dv * dv * sqn w) by (rewrite <- Ec; ring).
        rewrite E1, E2 in HS.
        assert (D * (dw * dw * sqn v) <= D * (dv * dv * sqn w)) by (apply Rmult_le_compat_l; lra).
        replace (D * (dw * dw * sqn v)) with (dw * dw * (D * sqn v)) in H0 by ring.
        replace (D * (dv * dv * sqn w)) with (dv * dv * (D * sqn w)) in H0 by ring.
        rewrite <- Lv, <- Lw in H0. lra. }
      assert (HS3 : (xv * dw) * (xv * dw) <= (dv * xw) * (dv * xw)) by lra.
      assert (0 <= xv * dw) by nra. assert (0 <= dv * xw) by nra.
      assert (xv * dw <= dv * xw); [|lra].
      apply Rnot_lt_le. intros Hn. nra.
    - assert (Hdw : dw < 0).
      { apply Rnot_le_lt. intros Hn. assert (0 <= dw * b) by nra. nra. }
      assert (HS : (dv * c) * (dv * c) <= (dw * b) * (dw * b)).
      { replace ((dv * c) * (dv * c)) with ((- (dv * c)) * (- (dv * c))) by ring.
        replace ((dw * b) * (dw * b)) with ((- (dw * b)) * (- (dw * b))) by ring.
        assert (0 <= - (dv * c)) by nra. apply Rmult_le_compat; lra. }
      assert (HS2 : dv * dv * (xw * xw) <= dw * dw * (xv * xv)).
      { assert (E1 : (dw * b) * (dw * b) = dw * dw * sqn v) by (rewrite <- Eb; ring).
        assert (E2 : (dv * c) * (dv * c) = dv * dv * sqn w) by (rewrite <- Ec; ring).
        rewrite E1, E2 in HS.
        assert (D * (dv * dv * sqn w) <= D * (dw * dw * sqn v)) by (apply Rmult_le_compat_l; lra).
        replace (D * (dw * dw * sqn v)) with (dw * dw * (D * sqn v)) in H0 by ring.
        replace (D * (dv * dv * sqn w)) with (dv * dv * (D * sqn w)) in H0 by ring.
        rewrite <- Lv, <- Lw in H0. lra. }
      assert (0 <= - (dv * xw)) by nra. assert (0 <= - (xv * dw)) by nra.
      assert (- (dv * xw) <= - (xv * dw)); [|lra].
      apply Rnot_lt_le. intros Hn. nra. }
  apply Rmult_le_reg_l with D; [assumption|]. rewrite <- HI. lra.
Qed.

Lemma angle_eq_dir d v w :
  0 < sqn d -> 0 < sqn v -> 0 < sqn w -> 0 <= pcross d v -> 0 <= pcross d w ->
  pcross v w = 0 -> 0 < pdot v w -> dirangle d v = dirangle d w.
Proof.
  intros Hd Hv Hw Cv Cw E HD.
  (* w = (v.w/|v|^2) v *)
  set (l := pdot v w / sqn v).
  assert (Hl : 0 < l) by (apply Rdiv_lt_0_compat; assumption).
  assert (Ew : w = (l * fst v, l * snd v)).
  { destruct v as [a b], w as [x y]. unfold l. clear l Hl.
    unfold sqn, pdot, pcross in *. cbn [fst snd] in *. rsimpl.
    assert (a * a + b * b <> 0) by lra.
    f_equal; apply Rmult_eq_reg_r with (a * a + b * b); try assumption.
    - replace ((a * x + b * y) / (a * a + b * b) * a * (a * a + b * b))
        with (x * (a * a + b * b) + b * (a * y - b * x)) by (field; assumption).
      rewrite E. ring.
    - replace ((a * x + b * y) / (a * a + b * b) * b * (a * a + b * b))
        with (y * (a * a + b * b) - a * (a * y - b * x)) by (field; assumption).
      rewrite E. ring. }
  unfold dirangle. f_equal.
  assert (Edw : pdot d w = l * pdot d v) by (rewrite Ew; destruct d, v; punfold; ring).
  assert (Esw : sqn w = (l * l) * sqn v) by (rewrite Ew; destruct v; punfold; ring).
  rewrite Edw, Esw, sqrt_mult, sqrt_square by (nra || lra).
  assert (0 < sqrt (sqn d)) by (apply sqrt_lt_R0; assumption).
  assert (0 < sqrt (sqn v)) by (apply sqrt_lt_R0; assumption).
  field. lra.
Qed.

(** ** The angle computed by the code *)
Lemma isApprox_dot (d v : pt R) : isApprox d v EPS = true -> 0 < sqn d -> 0 < sqn v -> 0 < pdot d v.
Proof.
  unfold isApprox, smin. rsimpl. intros H Hd Hv.
  assert (H2 : sqn (psub d v) <= 1/10000 * (1/10000) * sqn d).
  { apply Rleb_true in H. destruct (Rltb_spec (sqn v) (sqn d)) as [Hlt|Hlt]; nra. }
  assert (E : sqn (psub d v) = sqn d + sqn v - 2 * pdot d v) by (destruct d, v; punfold; ring).
  rewrite E in H2. nra.
Qed.

Lemma parallel_cos d v :
  0 < sqn d -> 0 < sqn v -> pcross d v = 0 ->
  pdot d v / (sqrt (sqn d) * sqrt (sqn v)) = if Rlt_dec 0 (pdot d v) then 1 else -1.
Proof.
  intros Hd Hv E. pose proof (lagrange d v) as HL. rewrite E in HL.
  rewrite <- sqrt_mult by lra. rewrite <- HL.
  replace (pdot d v * pdot d v + 0 * 0) with (Rsqr (pdot d v)) by (unfold Rsqr; ring).
  rewrite sqrt_Rsqr_abs.
  assert (Hne : pdot d v <> 0) by nra.
  destruct (Rlt_dec 0 (pdot d v)) as [Hp|Hp].
  - rewrite Rabs_right by lra. field. lra.
  - rewrite Rabs_left by lra. field. lra.
Qed.

Lemma isZero_sqn (v : pt R) : isZero v = false -> 0 < sqn v.
Proof.
  unfold isZero. rewrite !sabs_Rabs. unfold ZPREC. rsimpl. destruct v as [a b]. cbn [fst snd]. punfold.
  intros H. destruct (Req_dec a 0) as [->|Ha]; [|nra]. destruct (Req_dec b 0) as [->|Hb]; [|nra].
  exfalso. rewrite Rabs_R0 in H.
  assert (E : Rleb 0 (1/1000000000000) = true) by (apply Rleb_true; lra). rewrite E in H. discriminate.
Qed.

Lemma angle_exact d v :
  isZero d = false -> isZero v = false -> 0 <= pcross d v ->
  (isApprox d v EPS = true \/ isApprox d (popp v) EPS = true -> pcross d v = 0) ->
  angleBetweenVecs d v = dirangle d v.
Proof.
  intros Zd Zv Hc Hs. pose proof (isZero_sqn _ Zd) as Hd. pose proof (isZero_sqn _ Zv) as Hv.
  unfold angleBetweenVecs. rewrite Zd, Zv. cbn [orb].
  destruct (isApprox d v EPS) eqn:E1.
  - assert (E0 : pcross d v = 0) by (apply Hs; auto).
    pose proof (isApprox_dot _ _ E1 Hd Hv) as HD. unfold dirangle.
    rewrite parallel_cos by assumption. destruct (Rlt_dec 0 (pdot d v)) as [_|Hn]; [|lra].
    rsimpl. symmetry. apply acos_1.
  - destruct (isApprox d (popp v) EPS) eqn:E2.
    + assert (E0 : pcross d v = 0) by (apply Hs; auto).
      assert (Hv' : 0 < sqn (popp v)) by (destruct v; punfold; nra).
      pose proof (isApprox_dot _ _ E2 Hd Hv') as HD.
      assert (HD2 : pdot d v < 0) by (destruct d, v; punfold; lra). unfold dirangle.
      rewrite parallel_cos by assumption. destruct (Rlt_dec 0 (pdot d v)) as [Hn|_]; [lra|].
      cbn [tpi RTrig]. symmetry.
      replace (-1) with (- (1)) by ring. rewrite acos_opp, acos_1. ring.
    + rsimpl. cbn [tacos RTrig].
      destruct (Rleb_spec 0 (pcross d v)) as [_|Hn]; [reflexivity|contradiction].
Qed.

(** ** The selection of the next vertex *)
Section Select.
  Variable p : list (pt R).
  Notation n := (length p).
  Notation P i := (nth i p (0, 0)).
  Variables (cur : nat) (last : pt R).
  Hypothesis Hn : (2 <= n)%nat.
  Hypothesis Hcur : (cur < n)%nat.
  Let A (i : nat) : R := angleBetweenVecs (psub (P cur) last) (psub (P i) (P cur)).
  Hypothesis Hsep : forall i j, (i < n)%nat -> (j < n)%nat -> i <> cur -> j <> cur ->
    A i = A j \/ 1/10000 <= Rabs (A i - A j).
  Hypothesis Hpts : forall i, (i < n)%nat -> i <> cur -> isApprox (P i) (P cur) EPS = false.

  Lemma isApprox_refl (a : pt R) : isApprox a a EPS = true.
  Proof.
    unfold isApprox, smin. rsimpl. apply Rleb_true.
    assert (E : sqn (psub a a) = 0) by (destruct a; punfold; ring). rewrite E.
    pose proof (sqn_nonneg a). destruct (Rltb (sqn a) (sqn a)); nra.
  Qed.

  Let i0 : nat := if Nat.eqb cur 0 then 1%nat else 0%nat.
  Lemma i0_ok : (i0 < n)%nat /\ i0 <> cur.
  Proof. unfold i0. destruct (Nat.eqb_spec cur 0); lia. Qed.

  (** [seen pre j]: candidate j has been considered *)
  Definition seen (pre : list nat) (j : nat) : Prop := j <> cur /\ (j = i0 \/ In j pre).
  Definition sel_inv (pre tab : list nat) : Prop :=
    exists h t, tab = h :: t /\ (forall j, In j tab -> seen pre j /\ (j < n)%nat /\ A j = A h)
      /\ (forall j, seen pre j -> A h <= A j) /\ (forall j, seen pre j -> A j = A h -> In j tab).

  Lemma sel_scan : exists tab,
    foldM (ang_step cur last p) (seq 1 (n - 1)) [i0] = Ok tab /\ sel_inv (seq 1 (n - 1)) tab.
  Proof.
    apply foldM_ind.
    - exists i0, []. split; [reflexivity|]. destruct i0_ok as [H1 H2]. split; [|split].
      + intros j [<-|[]]. split; [split; [assumption|left; reflexivity]|auto].
      + intros j [_ [->|[]]]. lra.
      + intros j [_ [->|[]]] _. left. reflexivity.
    - intros pre b suf tab E (h & t & -> & H1 & H2 & H3).
      assert (Hb : (b < n)%nat) by (apply seq_split_in in E; lia).
      unfold ang_step. rewrite (rd_nth p cur (0,0)), (rd_nth p b (0,0)) by assumption. cbn [bind].
      destruct (Nat.eq_dec b cur) as [->|Hbc].
      { rewrite isApprox_refl. exists (h :: t). split; [reflexivity|]. exists h, t.
        split; [reflexivity|]. split; [|split].
        - intros j Hj. destruct (H1 j Hj) as ((Hs1 & Hs2) & Hj2 & Hj3).
          split; [|auto]. split; [assumption|]. destruct Hs2; [left; assumption|right; apply in_or_app; left; assumption].
        - intros j [Hj1 [Hj2|Hj2]]; [apply H2; split; auto|].
          apply in_app_or in Hj2 as [Hj2|[Hj2|[]]]; [apply H2; split; auto|congruence].
        - intros j [Hj1 [Hj2|Hj2]]; [apply H3; split; auto|].
          apply in_app_or in Hj2 as [Hj2|[Hj2|[]]]; [apply H3; split; auto|congruence]. }
      rewrite (Hpts b Hb Hbc).
      change (rd (h :: t) 0) with (Ok h). cbn [bind].
      destruct (H1 h (or_introl eq_refl)) as (Hsh & Hh & _).
      rewrite (rd_nth p h (0,0)) by assumption. cbn [bind].
      fold (A b) (A h). rewrite sabs_Rabs. rsimpl.
      destruct (Rltb_spec (A b) (A h)) as [Hlt|Hge].
      + exists [b]. split; [reflexivity|]. exists b, []. split; [reflexivity|]. split; [|split].
        * intros j [<-|[]]. split; [|auto]. split; [assumption|]. right. apply in_or_app. right. left. reflexivity.
        * intros j [Hj1 [Hj2|Hj2]].
          -- assert (A h <= A j) by (apply H2; split; auto). lra.
          -- apply in_app_or in Hj2 as [Hj2|[<-|[]]]; [|lra].
             assert (A h <= A j) by (apply H2; split; auto). lra.
        * intros j [Hj1 [Hj2|Hj2]] Ej.
          -- assert (A h <= A j) by (apply H2; split; auto). lra.
          -- apply in_app_or in Hj2 as [Hj2|[<-|[]]]; [|left; reflexivity].
             assert (A h <= A j) by (apply H2; split; auto). lra.
      + destruct (Rltb_spec (Rabs (A b - A h)) (1/10000)) as [Hc|Hc].
        * assert (Eb : A b = A h).
          { destruct (Hsep b h Hb Hh Hbc (proj1 Hsh)) as [Eb|Eb]; [assumption|lra]. }
          exists ((h :: t) ++ [b]). split; [reflexivity|]. exists h, (t ++ [b]).
          split; [reflexivity|]. split; [|split].
          -- intros j Hj. apply in_app_or in Hj as [Hj|[<-|[]]].
             ++ destruct (H1 j Hj) as ((Hs1 & Hs2) & Hj2 & Hj3). split; [|auto]. split; [assumption|].
                destruct Hs2; [left; assumption|right; apply in_or_app; left; assumption].
             ++ split; [|auto]. split; [assumption|]. right. apply in_or_app. right. left. reflexivity.
          -- intros j [Hj1 [Hj2|Hj2]]; [apply H2; split; auto|].
             apply in_app_or in Hj2 as [Hj2|[<-|[]]]; [apply H2; split; auto|lra].
          -- intros j [Hj1 [Hj2|Hj2]] Ej; apply in_or_app; [left; apply H3; [split; auto|assumption]|].
             apply in_app_or in Hj2 as [Hj2|[<-|[]]]; [left; apply H3; [split; auto|assumption]|right; left; reflexivity].
        * exists (h :: t). split; [reflexivity|]. exists h, t. split; [reflexivity|]. split; [|split].
          -- intros j Hj. destruct (H1 j Hj) as ((Hs1 & Hs2) & Hj2 & Hj3). split; [|auto]. split; [assumption|].
             destruct Hs2; [left; assumption|right; apply in_or_app; left; assumption].
          -- intros j [Hj1 [Hj2|Hj2]]; [apply H2; split; auto|].
             apply in_app_or in Hj2 as [Hj2|[<-|[]]]; [apply H2; split; auto|lra].
          -- intros j [Hj1 [Hj2|Hj2]] Ej; [apply H3; [split; auto|assumption]|].
             apply in_app_or in Hj2 as [Hj2|[<-|[]]]; [apply H3; [split; auto|assumption]|].
             exfalso. apply Hc. rewrite Ej. replace (A h - A h) with 0 by ring. rewrite Rabs_R0. lra.
  Qed.

  Lemma seen_all j : (j < n)%nat -> j <> cur -> seen (seq 1 (n - 1)) j.
  Proof.
    intros Hj Hne. split; [assumption|]. destruct (Nat.eq_dec j i0) as [->|H0]; [left; reflexivity|right].
    apply in_seq. unfold i0 in H0. destruct (Nat.eqb_spec cur 0); lia.
  Qed.

  Lemma select_spec : exists r,
    getIndexOfSmallestAngle cur last p = Ok r /\ (r < n)%nat /\ r <> cur
    /\ (forall i, (i < n)%nat -> i <> cur -> A r <= A i)
    /\ (forall i, (i < n)%nat -> i <> cur -> A i = A r ->
          sqn (psub (P i) (P cur)) <= sqn (psub (P r) (P cur))).
  Proof.
    unfold getIndexOfSmallestAngle. fold i0.
    destruct sel_scan as (tab & -> & h & t & -> & H1 & H2 & H3). cbn [bind].
    change (rd (h :: t) 0) with (Ok h). cbn [bind tl].
    assert (G : exists r, (if Nat.ltb 1 (length (h :: t)) then foldM (far_step cur p) t h else Ok h) = Ok r
              /\ In r (h :: t) /\ forall j, In j (h :: t) ->
                  sqn (psub (P j) (P cur)) <= sqn (psub (P r) (P cur))).
    { destruct t as [|t0 t'].
      - exists h. split; [reflexivity|]. split; [left; reflexivity|]. intros j [<-|[]]. lra.
      - change (Nat.ltb 1 (length (h :: t0 :: t'))) with true. cbv iota.
        destruct (foldM_ind (far_step cur p)
          (fun pre r => In r (h :: pre) /\ forall j, In j (h :: pre) ->
             sqn (psub (P j) (P cur)) <= sqn (psub (P r) (P cur))) (t0 :: t') h)
          as (r & E & HI).
        + split; [left; reflexivity|]. intros j [<-|[]]. lra.
        + intros pre b suf a E (Ha1 & Ha2).
          assert (Hb : In b (h :: t0 :: t')).
          { right. rewrite E. apply in_or_app. right. left. reflexivity. }
          assert (Ha : In a (h :: t0 :: t')).
          { destruct Ha1 as [->|Ha1]; [left; reflexivity|right]. rewrite E. apply in_or_app. left. assumption. }
          unfold far_step. destruct (H1 b Hb) as (_ & Hb1 & _). destruct (H1 a Ha) as (_ & Hx & _).
          rewrite (rd_nth p cur (0,0)), (rd_nth p b (0,0)), (rd_nth p a (0,0)) by assumption. cbn [bind]. rsimpl.
          destruct (Rltb_spec (sqn (psub (P a) (P cur))) (sqn (psub (P b) (P cur)))) as [Hlt|Hge].
          * exists b. split; [reflexivity|]. split.
            -- right. apply in_or_app. right. left. reflexivity.
            -- intros j [<-|Hj].
               ++ specialize (Ha2 h (or_introl eq_refl)). lra.
               ++ apply in_app_or in Hj as [Hj|[<-|[]]]; [|lra].
                  specialize (Ha2 j (or_intror Hj)). lra.
          * exists a. split; [reflexivity|]. split.
            -- destruct Ha1 as [->|Ha1]; [left; reflexivity|right; apply in_or_app; left; assumption].
            -- intros j [<-|Hj]; [apply Ha2; left; reflexivity|].
               apply in_app_or in Hj as [Hj|[<-|[]]]; [apply Ha2; right; assumption|lra].
        + exists r. split; [assumption|]. exact HI. }
    destruct G as (r & E & Hr & Hmax). exists r. split; [exact E|].
    destruct (H1 r Hr) as ((Hr1 & _) & Hr2 & Hr3). split; [assumption|]. split; [assumption|]. split.
    - intros i Hi Hne. rewrite Hr3. apply H2, seen_all; assumption.
    - intros i Hi Hne Ei. apply Hmax, H3; [apply seen_all; assumption|congruence].
  Qed.
End Select.

(** ** The march *)
(** A direction the march can look along, and the separation of the input: every comparison
    the code makes with a tolerance is either exactly equal or clearly different. *)
Definition a_direction (p : list (pt R)) (c : nat) (d : pt R) : Prop :=
  d = (1, 0) \/ exists l, (l < length p)%nat /\ l <> c /\ d = psub (nth c p (0,0)) (nth l p (0,0)).

Record separated (p : list (pt R)) : Prop := {
  sep_pts : forall i j, (i < length p)%nat -> (j < length p)%nat -> i <> j ->
    isApprox (nth i p (0,0)) (nth j p (0,0)) EPS = false
    /\ isZero (psub (nth i p (0,0)) (nth j p (0,0))) = false;
  sep_low : forall i j, (i < length p)%nat -> (j < length p)%nat ->
    snd (nth i p (0,0)) = snd (nth j p (0,0))
    \/ 1/10000 <= Rabs (snd (nth i p (0,0)) - snd (nth j p (0,0)));
  sep_dir : forall d c i, a_direction p c d -> (c < length p)%nat -> (i < length p)%nat -> i <> c ->
    let v := psub (nth i p (0,0)) (nth c p (0,0)) in
    isApprox d v EPS = true \/ isApprox d (popp v) EPS = true -> pcross d v = 0;
  sep_angle : forall d c i j, a_direction p c d -> (c < length p)%nat ->
    (i < length p)%nat -> (j < length p)%nat -> i <> c -> j <> c ->
    let v := psub (nth i p (0,0)) (nth c p (0,0)) in
    let w := psub (nth j p (0,0)) (nth c p (0,0)) in
    0 <= pcross d v -> 0 <= pcross d w ->
    dirangle d v = dirangle d w \/ 1/10000 <= Rabs (dirangle d v - dirangle d w)
}.

Section March.
  Variable p : list (pt R).
  Notation n := (length p).
  Notation P i := (nth i p (0, 0)).
  Hypothesis Hn : (2 <= n)%nat.
  Hypothesis Hsep : separated p.

  Notation X a b c := (pcross (psub (P b) (P a)) (psub (P c) (P a))).
  Notation D a b c := (pdot (psub (P b) (P a)) (psub (P c) (P a))).

  (** q follows c on the hull *)
  Definition Next (c q : nat) : Prop :=
    (c < n)%nat /\ (q < n)%nat /\ q <> c
    /\ (forall i, (i < n)%nat -> 0 <= X c q i)
    /\ (forall i, (i < n)%nat -> X c q i = 0 -> 0 < D c q i ->
          sqn (psub (P i) (P c)) <= sqn (psub (P q) (P c))).
  (** i is not between two other points *)
  Definition Extreme (i : nat) : Prop :=
    (i < n)%nat /\ forall j k, (j < n)%nat -> (k < n)%nat -> X i j k = 0 -> 0 <= D i j k.

  Lemma sq_pos i j : (i < n)%nat -> (j < n)%nat -> i <> j -> 0 < sqn (psub (P i) (P j)).
  Proof. intros Hi Hj Hne. apply isZero_sqn. apply (sep_pts p Hsep); assumption. Qed.

  Lemma next_step d c last :
    (c < n)%nat -> psub (P c) last = d -> a_direction p c d ->
    (forall i, (i < n)%nat -> 0 <= pcross d (psub (P i) (P c))) ->
    exists q, getIndexOfSmallestAngle c last p = Ok q /\ Next c q.
  Proof.
    intros Hc Ed Hd Hleft.
    assert (Zd : isZero d = false).
    { destruct Hd as [->|(l & Hl & Hlc & ->)].
      - unfold isZero, ZPREC. rewrite !sabs_Rabs. cbn [fst snd]. rsimpl.
        rewrite Rabs_R1. replace (Rleb 1 (1/1000000000000)) with false; [reflexivity|].
        symmetry. apply Rleb_false. lra.
      - apply (sep_pts p Hsep); auto. }
    pose proof (isZero_sqn _ Zd) as Hd2.
    assert (HA : forall i, (i < n)%nat -> i <> c ->
      angleBetweenVecs (psub (P c) last) (psub (P i) (P c)) = dirangle d (psub (P i) (P c))).
    { intros i Hi Hne. rewrite Ed. apply angle_exact; [assumption| |apply Hleft; assumption|].
      - apply (sep_pts p Hsep); assumption.
      - apply (sep_dir p Hsep); assumption. }
    destruct (select_spec p c last Hn Hc) as (q & Eq & Hq & Hqc & Hmin & Hfar).
    { intros i j Hi Hj Hic Hjc. rewrite !HA by assumption. apply (sep_angle p Hsep); auto. }
    { intros i Hi Hic. apply (sep_pts p Hsep); assumption. }
    exists q. split; [assumption|]. split; [assumption|]. split; [assumption|]. split; [assumption|]. split.
    - intros i Hi. destruct (Nat.eq_dec i c) as [->|Hic].
      { assert (E : X c q c = 0) by (punfold; ring). lra. }
      apply (angle_le_cross d); [assumption|apply sq_pos; auto|apply sq_pos; auto|apply Hleft; assumption|apply Hleft; assumption|].
      rewrite <- !HA by assumption. apply Hmin; assumption.
    - intros i Hi E0 HD. destruct (Nat.eq_dec i c) as [->|Hic].
      { assert (E : D c q c = 0) by (punfold; ring). lra. }
      apply Hfar; [assumption|assumption|]. rewrite !HA by assumption. symmetry.
      apply angle_eq_dir; [assumption|apply sq_pos; auto|apply sq_pos; auto|apply Hleft; assumption|apply Hleft; assumption|assumption|assumption].
  Qed.

  (** the turn at a vertex *)
  Lemma next_after a b :
    Next a b -> exists q, getIndexOfSmallestAngle b (P a) p = Ok q /\ Next b q.
  Proof.
    intros (Ha & Hb & Hba & Hl & _).
    apply (next_step (psub (P b) (P a))); [assumption|reflexivity|right; exists a; auto|].
    intros i Hi. specialize (Hl i Hi).
    assert (E : pcross (psub (P b) (P a)) (psub (P i) (P b)) = X a b i) by (punfold; ring). lra.
  Qed.

  Lemma collinear_scale (u w : pt R) :
    0 < sqn u -> pcross u w = 0 -> exists l, w = (l * fst u, l * snd u).
  Proof.
    intros Hu E. exists (pdot u w / sqn u). destruct u as [a b], w as [x y]. punfold.
    assert (a * a + b * b <> 0) by lra.
    f_equal; apply Rmult_eq_reg_r with (a * a + b * b); try assumption.
    - replace ((a * x + b * y) / (a * a + b * b) * a * (a * a + b * b))
        with (x * (a * a + b * b) + b * (a * y - b * x)) by (field; assumption).
      rewrite E. ring.
    - replace ((a * x + b * y) / (a * a + b * b) * b * (a * a + b * b))
        with (y * (a * a + b * b) - a * (a * y - b * x)) by (field; assumption).
      rewrite E. ring.
  Qed.

  Lemma next_extreme z a : Next z a -> Extreme a.
  Proof.
    intros (Hz & Ha & Haz & Hl & Hf). split; [assumption|]. intros j k Hj Hk HX.
    apply Rnot_lt_le. intros HD.
    (* u = a - z, wj = j - a, wk = k - a; wk = l wj with l < 0 *)
    pose proof (sq_pos a z Ha Hz Haz) as Hu.
    assert (Hwj : 0 < sqn (psub (P j) (P a))).
    { destruct (Nat.eq_dec j a) as [->|Hne]; [|apply sq_pos; assumption].
      exfalso. punfold. lra. }
    destruct (collinear_scale _ _ Hwj HX) as (l & El).
    assert (Hlneg : l < 0).
    { rewrite El in HD. unfold pdot in HD. unfold sqn, pdot in Hwj. cbn [fst snd] in *. rsimpl. nra. }
    pose proof (Hl j Hj) as Lj. pose proof (Hl k Hk) as Lk.
    assert (Ej : X z a j = pcross (psub (P a) (P z)) (psub (P j) (P a))) by (punfold; ring).
    assert (Ek : X z a k = pcross (psub (P a) (P z)) (psub (P k) (P a))) by (punfold; ring).
    rewrite Ek, El in Lk. rewrite Ej in Lj.
    assert (Ek2 : pcross (psub (P a) (P z)) (l * fst (psub (P j) (P a)), l * snd (psub (P j) (P a)))
                  = l * pcross (psub (P a) (P z)) (psub (P j) (P a))) by (punfold; ring).
    rewrite Ek2 in Lk.
    assert (E0 : pcross (psub (P a) (P z)) (psub (P j) (P a)) = 0) by nra.
    destruct (collinear_scale _ _ Hu E0) as (m & Em).
    assert (Hm : m <> 0).
    { intros ->. rewrite Em in Hwj. unfold sqn, pdot in Hwj. cbn [fst snd] in Hwj. rsimpl. lra. }
    (* j - a = m (a - z), k - a = l m (a - z): one of m, l m is positive *)
    assert (Hany : forall i s, (i < n)%nat -> 0 < s ->
      psub (P i) (P a) = (s * fst (psub (P a) (P z)), s * snd (psub (P a) (P z))) -> False).
    { intros i s Hi Hs Es.
      assert (Ei : psub (P i) (P z) = ((1 + s) * fst (psub (P a) (P z)), (1 + s) * snd (psub (P a) (P z)))).
      { injection Es as E1 E2. unfold psub in *. cbn [fst snd] in *. rsimpl. f_equal; lra. }
      specialize (Hf i Hi). rewrite Ei in Hf.
      assert (F1 : pcross (psub (P a) (P z)) ((1 + s) * fst (psub (P a) (P z)), (1 + s) * snd (psub (P a) (P z))) = 0)
        by (unfold pcross; cbn [fst snd]; rsimpl; ring).
      assert (F2 : pdot (psub (P a) (P z)) ((1 + s) * fst (psub (P a) (P z)), (1 + s) * snd (psub (P a) (P z)))
                   = (1 + s) * sqn (psub (P a) (P z))) by (unfold sqn, pdot; cbn [fst snd]; rsimpl; ring).
      assert (F3 : sqn ((1 + s) * fst (psub (P a) (P z)), (1 + s) * snd (psub (P a) (P z)))
                   = (1 + s) * (1 + s) * sqn (psub (P a) (P z))) by (unfold sqn, pdot; cbn [fst snd]; rsimpl; ring).
      rewrite F2, F3 in Hf. specialize (Hf F1).
      assert (0 < (1 + s) * sqn (psub (P a) (P z))) by nra. specialize (Hf H). nra. }
    destruct (Rlt_dec 0 m) as [Hmp|Hmn].
    - apply (Hany j m Hj Hmp Em).
    - apply (Hany k (l * m) Hk); [nra|]. rewrite El, Em. cbn [fst snd]. f_equal; ring.
  Qed.

  Lemma lowest_start : exists s,
    getIndexOfLowest p = Ok s /\ (s < n)%nat /\ Extreme s
    /\ (forall i, (i < n)%nat -> snd (P s) <= snd (P i)).
  Proof.
    destruct (getIndexOfLowest_spec p) as (s & h & E & Hs & Hh & H1 & H2 & H3); [lia|].
    assert (Ey : snd (P s) = snd (P h)).
    { destruct (sep_low p Hsep s h Hs Hh) as [Ey|Ey]; [assumption|].
      pose proof (H1 s Hs). rewrite Rabs_right in Ey by lra. lra. }
    exists s. split; [assumption|]. split; [assumption|]. split.
    - split; [assumption|]. intros j k Hj Hk HX. apply Rnot_lt_le. intros HD.
      assert (Hj1 := H1 j Hj). assert (Hk1 := H1 k Hk).
      assert (Hj3 := H3 j Hj). assert (Hk3 := H3 k Hk).
      rewrite <- Ey in *. unfold pcross, pdot, psub in *. cbn [fst snd] in *. rsimpl.
      set (a := fst (P j) - fst (P s)) in *. set (b := snd (P j) - snd (P s)) in *.
      set (c := fst (P k) - fst (P s)) in *. set (e := snd (P k) - snd (P s)) in *.
      assert (0 <= b) by (unfold b; lra). assert (0 <= e) by (unfold e; lra).
      assert (b = 0 -> 0 <= a) by (unfold a, b; intros; assert (snd (P j) = snd (P s)) by lra; specialize (Hj3 H5); lra).
      assert (e = 0 -> 0 <= c) by (unfold c, e; intros; assert (snd (P k) = snd (P s)) by lra; specialize (Hk3 H6); lra).
      destruct (Req_dec b 0) as [Hb|Hb].
      + specialize (H4 Hb). rewrite Hb in *.
        assert (a * e = 0) by lra. apply Rmult_integral in H6 as [Ha|He]; [nra|].
        specialize (H5 He). nra.
      + destruct (Req_dec e 0) as [He|He].
        * specialize (H5 He). rewrite He in *. assert (b * c = 0) by lra.
          apply Rmult_integral in H6 as [?|Hc]; [contradiction|]. nra.
        * assert (0 < b * e) by (apply Rmult_lt_0_compat; lra).
          assert (Hac : 0 <= a * c); [|lra].
          assert (E2 : a * e * (a * e) = (a * c) * (b * e)) by (replace (a * e) with (b * c) at 1 by lra; ring).
          assert (0 <= (a * c) * (b * e)) by (rewrite <- E2; nra). nra.
    - intros i Hi. rewrite Ey. apply H1; assumption.
  Qed.

  Lemma next_inj a a' b : Extreme a -> Extreme a' -> Next a b -> Next a' b -> a = a'.
  Proof.
    intros (Ha & Ea) (Ha' & Ea') (_ & Hb & Hba & Hl & Hf) (_ & _ & Hba' & Hl' & _).
    destruct (Nat.eq_dec a a') as [|Hne]; [assumption|exfalso].
    pose proof (Hl a' Ha') as L1. pose proof (Hl' a Ha) as L2.
    assert (E : X a' b a = - X a b a') by (punfold; ring).
    assert (E0 : X a b a' = 0) by lra.
    pose proof (sq_pos b a Hb Ha Hba) as Hu.
    destruct (collinear_scale _ _ Hu E0) as (l & El).
    assert (Hw : 0 < sqn (psub (P a') (P a))) by (apply sq_pos; auto).
    assert (Hz : 0 < sqn (psub (P a') (P b))) by (apply sq_pos; auto).
    assert (F1 : D a b a' = l * sqn (psub (P b) (P a))).
    { rewrite El. unfold sqn, pdot. cbn [fst snd]. rsimpl. ring. }
    assert (F2 : sqn (psub (P a') (P a)) = l * l * sqn (psub (P b) (P a))).
    { rewrite El. unfold sqn, pdot. cbn [fst snd]. rsimpl. ring. }
    assert (Ez : psub (P a') (P b) = ((l - 1) * fst (psub (P b) (P a)), (l - 1) * snd (psub (P b) (P a)))).
    { injection El as E1 E2. unfold psub in *. cbn [fst snd] in *. rsimpl. f_equal; lra. }
    assert (F3 : sqn (psub (P a') (P b)) = (l - 1) * (l - 1) * sqn (psub (P b) (P a))).
    { rewrite Ez. unfold sqn, pdot. cbn [fst snd]. rsimpl. ring. }
    assert (Hl0 : l <> 0) by (intros ->; lra). assert (Hl1 : l <> 1) by (intros ->; nra).
    destruct (Rlt_dec l 0) as [Hneg|Hpos].
    - specialize (Ea b a' Hb Ha' E0). nra.
    - destruct (Rlt_dec 1 l) as [Hbig|Hsmall].
      + specialize (Hf a' Ha' E0). assert (HD : 0 < D a b a') by (rewrite F1; nra).
        specialize (Hf HD). rewrite F2 in Hf. nra.
      + assert (E3 : X a' a b = 0).
        { transitivity (X a b a'); [punfold; ring|assumption]. }
        specialize (Ea' a b Ha Hb E3).
        assert (F4 : D a' a b = - (l * (1 - l)) * sqn (psub (P b) (P a))).
        { assert (G1 : psub (P a) (P a') = (- l * fst (psub (P b) (P a)), - l * snd (psub (P b) (P a)))).
          { injection El as E1 E2. unfold psub in *. cbn [fst snd] in *. rsimpl. f_equal; lra. }
          assert (G2 : psub (P b) (P a') = ((1 - l) * fst (psub (P b) (P a)), (1 - l) * snd (psub (P b) (P a)))).
          { injection El as E1 E2. unfold psub in *. cbn [fst snd] in *. rsimpl. f_equal; lra. }
          rewrite G1, G2. unfold sqn, pdot. cbn [fst snd]. rsimpl. ring. }
        rewrite F4 in Ea'. assert (0 < l * (1 - l)) by nra. nra.
  Qed.

  (** A chain of vertices in reverse order, ending at the start. *)
  Fixpoint chain (s : nat) (is : list nat) : Prop :=
    match is with
    | [] => False
    | [a] => a = s
    | b :: ((a :: _) as l) => Next a b /\ chain s l
    end.

  Lemma chain_extreme s is : Extreme s -> chain s is -> Forall Extreme is.
  Proof.
    intros Hs. induction is as [|b [|a l] IH]; intros H.
    - destruct H.
    - cbn in H. subst. constructor; [assumption|constructor].
    - destruct H as [H1 H2]. constructor; [|apply IH; assumption]. eapply next_extreme; eassumption.
  Qed.

  Lemma chain_pred s is q : chain s is -> In q is -> q <> s ->
    exists pre a suf, is = pre ++ q :: a :: suf /\ Next a q.
  Proof.
    induction is as [|b [|a l] IH]; intros H Hin Hne.
    - destruct Hin.
    - cbn in H. destruct Hin as [->|[]]. contradiction.
    - destruct H as [H1 H2]. destruct Hin as [->|Hin].
      + exists [], a, l. auto.
      + destruct (IH H2 Hin Hne) as (pre & a' & suf & E & HN).
        exists (b :: pre), a', suf. rewrite E. auto.
  Qed.

  Lemma nodup_bound is : NoDup is -> Forall Extreme is -> (length is <= n)%nat.
  Proof.
    intros HN HE. rewrite <- (seq_length n 0). apply NoDup_incl_length; [assumption|].
    intros i Hi. rewrite Forall_forall in HE. destruct (HE i Hi) as [H _]. apply in_seq. lia.
  Qed.

  (** all edges of a list of vertices, not closed *)
  Definition supporting (a b : pt R) : Prop := forall q, In q p -> inner (a, b) q.

  Lemma next_supporting a b : Next a b -> supporting (P a) (P b).
  Proof.
    intros (_ & _ & _ & H & _) q Hq. apply (In_nth _ _ (0,0)) in Hq as (i & Hi & <-).
    unfold inner. cbn [fst snd]. apply Rle_ge, H; assumption.
  Qed.

  (** outcome of the loop *)
  Definition closed (s : nat) (is : list nat) : Prop :=
    chain s is /\ NoDup is /\ exists c, hd_error is = Some c /\ Next c s.

  Lemma march_loop s : getIndexOfLowest p = Ok s -> Extreme s ->
    forall fuel is index c,
    chain s is -> NoDup is -> hd_error is = Some c -> Next c index ->
    (n + 1 <= fuel + length is)%nat ->
    exists is', hull_loop fuel p (map (fun i => P i) is) index = Ok (rev (map (fun i => P i) is'))
      /\ closed s is' /\ exists pre, is' = pre ++ is.
  Proof.
    intros Es Hs. induction fuel as [|fuel IH]; intros is index c Hch Hnd Hhd Hnx Hf.
    - cbn [hull_loop]. rewrite Es. cbn [bind].
      pose proof (nodup_bound is Hnd (chain_extreme s is Hs Hch)). lia.
    - cbn [hull_loop]. rewrite Es. cbn [bind]. destruct (Nat.eqb_spec index s) as [->|Hne].
      + exists is. split; [reflexivity|]. split; [|exists []; reflexivity]. split; [assumption|].
        split; [assumption|]. exists c. auto.
      + pose proof (chain_extreme s is Hs Hch) as Hex.
        assert (Hlen : (length is <= n)%nat) by (apply nodup_bound; assumption).
        rewrite map_length. rewrite (proj2 (Nat.leb_le _ _) Hlen). cbn [guard bind].
        assert (Hin : (index < n)%nat) by apply Hnx.
        rewrite (rd_nth p index (0,0)) by assumption. cbn [bind].
        destruct is as [|c' is]; [discriminate|]. cbn in Hhd. injection Hhd as ->.
        cbn [map]. change (rd (P index :: P c :: map (fun i => P i) is) 1) with (Ok (P c)). cbn [bind].
        destruct (next_after c index Hnx) as (q & -> & Hq). cbn [bind].
        change (P index :: P c :: map (fun i => P i) is) with (map (fun i => P i) (index :: c :: is)).
        destruct (IH (index :: c :: is) q index) as (is' & E & HC & pre & Ep).
        * split; assumption.
        * constructor; [|assumption]. intros Hbad.
          destruct (chain_pred s (c :: is) index Hch Hbad Hne) as (pre & a & suf & E & HN).
          assert (Hac : a = c).
          { rewrite Forall_forall in Hex. apply (next_inj a c index); try assumption.
            - apply Hex. rewrite E. apply in_or_app. right. right. left. reflexivity.
            - apply Hex. left. reflexivity. }
          subst a. destruct pre as [|c0 pre]; cbn in E.
          -- injection E as E1 E2. apply (proj1 (proj2 (proj2 Hnx))). symmetry. assumption.
          -- injection E as E1 E2. inversion Hnd as [|? ? Hni _]; subst.
             apply Hni. apply in_or_app. right. right. left. reflexivity.
        * reflexivity.
        * assumption.
        * cbn [length] in *. lia.
        * exists is'. split; [exact E|]. split; [assumption|].
          exists (pre ++ [index]). rewrite Ep, <- app_assoc. reflexivity.
  Qed.

  Lemma extract_chain : exists s is,
    extractVertices p = Ok (rev (map (fun i => P i) is)) /\ closed s is
    /\ getIndexOfLowest p = Ok s /\ Extreme s.
  Proof.
    destruct lowest_start as (s & Es & Hs & Hx & Hlow).
    unfold extractVertices, extractVertices_fuel.
    destruct p as [|p0 p'] eqn:Ep; [cbn in Hn; lia|]. rewrite <- Ep in *.
    rewrite Es. cbn [bind]. rewrite (rd_nth p s (0,0)) by assumption. cbn [bind].
    destruct (next_step (1, 0) s (fst (P s) - s1, snd (P s))%sc) as (q & -> & Hq).
    - assumption.
    - unfold psub. cbn [fst snd]. rsimpl. f_equal; ring.
    - left; reflexivity.
    - intros i Hi. specialize (Hlow i Hi). unfold pcross, psub. cbn [fst snd]. rsimpl. lra.
    - cbn [bind].
      destruct (march_loop s Es Hx (n + 1) [s] q s) as (is & E & HC & _).
      + reflexivity.
      + constructor; [intros []|constructor].
      + reflexivity.
      + assumption.
      + cbn [length]. lia.
      + exists s, is. split; [exact E|]. auto.
  Qed.


  (** consecutive pairs of the reversed chain *)
  Lemma chain_edges s is : chain s is ->
    forall a b, (exists pre suf, rev is = pre ++ a :: b :: suf) -> Next a b.
  Proof.
    induction is as [|c [|d l] IH]; intros H a b (pre & suf & E).
    - destruct H.
    - cbn in E. destruct pre as [|? [|? ?]]; discriminate.
    - destruct H as [H1 H2]. cbn [rev] in E. destruct suf as [|z suf].
      + (* last pair *)
        assert (E2 : (rev l ++ [d]) ++ [c] = (pre ++ [a]) ++ [b]) by (rewrite E, <- app_assoc; reflexivity).
        apply app_inj_tail in E2 as [E2 ->]. apply app_inj_tail in E2 as [_ ->]. assumption.
      + apply IH; [assumption|].
        destruct (exists_last (l := z :: suf)) as (suf' & y & Es); [discriminate|].
        rewrite Es in E. exists pre, suf'.
        replace (pre ++ a :: b :: suf' ++ [y]) with ((pre ++ a :: b :: suf') ++ [y]) in E
          by (rewrite <- app_assoc; reflexivity).
        apply app_inj_tail in E as [E _]. exact E.
  Qed.
End March.

(** In a cyclic list of edges, every edge is a consecutive pair or the closing one. *)
Lemma edges_cases {A : Type} (q : A) (l : list A) e :
  In e (combine (q :: l) (l ++ [q])) ->
  (exists pre suf, q :: l = pre ++ fst e :: snd e :: suf)
  \/ (snd e = q /\ exists pre, q :: l = pre ++ [fst e]).
Proof.
  destruct e as [a b]. cbn [fst snd]. intros H.
  assert (G : forall l q0, In (a, b) (combine (q0 :: l) (l ++ [q])) ->
            (exists pre suf, q0 :: l = pre ++ a :: b :: suf) \/ (b = q /\ exists pre, q0 :: l = pre ++ [a])).
  { clear H l. induction l as [|x l IH]; intros q0 H.
    - destruct H as [E|[]]. injection E as <- <-. right. split; [reflexivity|]. exists []. reflexivity.
    - cbn [app combine] in H. destruct H as [E|H].
      + injection E as <- <-. left. exists [], l. reflexivity.
      + destruct (IH x H) as [(pre & suf & E)|(E1 & pre & E2)].
        * left. exists (q0 :: pre), suf. cbn. rewrite <- E. reflexivity.
        * right. split; [assumption|]. exists (q0 :: pre). cbn. rewrite <- E2. reflexivity. }
  apply G; assumption.
Qed.

(** The hull: extraction succeeds; every input point is on the inner side of every edge;
    every vertex is an input point; no vertex is repeated. *)
Lemma hull_correct p :
  (2 <= length p)%nat -> separated p ->
  exists v, extractVertices p = Ok v /\ (2 <= length v)%nat
    /\ NoDup v /\ (forall q, In q v -> In q p)
    /\ (forall e q, In e (edges v) -> In q p -> inner e q).
Proof.
  intros Hn Hsep. destruct (extract_chain p Hn Hsep) as (s & is & E & (Hch & Hnd & c & Hc & Hnx) & Es & Hx).
  exists (rev (map (fun i => nth i p (0,0)) is)). split; [exact E|].
  pose proof (chain_extreme p Hsep s is Hx Hch) as Hex. rewrite Forall_forall in Hex.
  assert (Hlen : (2 <= length is)%nat).
  { destruct is as [|b [|a l]]; cbn in Hc; [discriminate| |cbn; lia].
    injection Hc as ->. cbn in Hch. subst c. exfalso. apply (proj1 (proj2 (proj2 Hnx))). reflexivity. }
  split; [rewrite rev_length, map_length; assumption|]. split; [|split].
  - apply NoDup_rev. 
    assert (Hinj : forall i j, In i is -> In j is -> nth i p (0,0) = nth j p (0,0) -> i = j).
    { intros i j Hi Hj Eij. destruct (Nat.eq_dec i j) as [|Hne]; [assumption|exfalso].
      destruct (Hex i Hi) as [Hi' _]. destruct (Hex j Hj) as [Hj' _].
      pose proof (sq_pos p Hsep i j Hi' Hj' Hne) as H. rewrite Eij in H.
      unfold sqn, pdot, psub in H. cbn [fst snd] in H. rsimpl. lra. }
    clear - Hnd Hinj. induction is as [|i is IH]; [constructor|]. cbn [map].
    inversion Hnd; subst. constructor.
    + intros Hin. apply in_map_iff in Hin as (j & Ej & Hj).
      assert (i = j) by (apply Hinj; [left; reflexivity|right; assumption|symmetry; assumption]). subst. contradiction.
    + apply IH; [assumption|]. intros a b Ha Hb. apply Hinj; right; assumption.
  - intros q Hq. apply in_rev in Hq. apply in_map_iff in Hq as (i & <- & Hi).
    destruct (Hex i Hi) as [Hi' _]. apply nth_In. assumption.
  - intros e q He Hq. rewrite <- map_rev in He.
    destruct (rev is) as [|r0 rs] eqn:Er.
    { apply (f_equal (@length nat)) in Er. rewrite rev_length in Er. cbn in Er. lia. }
    cbn [map edges] in He.
    assert (Hs0 : r0 = s).
    { clear - Hch Er. revert r0 rs Er. induction is as [|b [|a l] IH]; intros r0 rs Er.
      - destruct Hch.
      - cbn in Er, Hch. injection Er as <- _. assumption.
      - destruct Hch as [_ H2]. cbn [rev] in Er.
        destruct (rev (a :: l)) as [|x xs] eqn:Ex; [cbn in Ex; destruct (rev l); discriminate|].
        cbn [rev] in Ex. rewrite Ex in Er. cbn in Er. injection Er as <- _. apply (IH H2 x xs). reflexivity. }
    subst r0.
    assert (Hc2 : exists pre, s :: rs = pre ++ [c]).
    { destruct is as [|c' l]; [discriminate|]. cbn in Hc. injection Hc as ->. exists (rev l). rewrite <- Er. reflexivity. }
    assert (Hpair : forall e0 : nat * nat, In e0 (combine (s :: rs) (rs ++ [s])) -> Next p (fst e0) (snd e0)).
    { intros e0 He0. apply edges_cases in He0 as [(pre & suf & Ep)|(E1 & pre & E2)].
      - apply (chain_edges p s is Hch). exists pre, suf. rewrite Er. exact Ep.
      - rewrite E1. destruct Hc2 as (pre' & E3). rewrite E3 in E2. apply app_inj_tail in E2 as [_ <-]. assumption. }
    assert (HM : combine (nth s p (0, 0) :: map (fun i => nth i p (0, 0)) rs)
                         (map (fun i => nth i p (0, 0)) rs ++ [nth s p (0, 0)])
                 = map (fun e0 => (nth (fst e0) p (0,0), nth (snd e0) p (0,0))) (combine (s :: rs) (rs ++ [s]))).
    { change (nth s p (0, 0) :: map (fun i => nth i p (0, 0)) rs) with (map (fun i => nth i p (0, 0)) (s :: rs)).
      change [nth s p (0, 0)] with (map (fun i => nth i p (0, 0)) [s]). rewrite <- map_app.
      generalize (s :: rs) (rs ++ [s]). induction l as [|x l IH]; intros [|y m]; try reflexivity.
      cbn. rewrite IH. reflexivity. }
    rewrite HM in He. apply in_map_iff in He as (e0 & <- & He0).
    apply Hpair in He0. apply (next_supporting p _ _ He0). assumption.
Qed.

(** ** The region is the convex hull *)
Definition convex_set (C : pt R -> Prop) : Prop :=
  forall a b t, C a -> C b -> 0 <= t <= 1 ->
    C ((1 - t) * fst a + t * fst b, (1 - t) * snd a + t * snd b).
(** in the convex hull: in every convex set containing the points *)
Definition in_hull (p : list (pt R)) (x : pt R) : Prop :=
  forall C, convex_set C -> (forall q, In q p -> C q) -> C x.
Definition collinear (p : list (pt R)) : Prop :=
  forall a b c, In a p -> In b p -> In c p -> pcross (psub b a) (psub c a) = 0.

Lemma half_planes_convex (es : list (pt R * pt R)) :
  convex_set (fun x => forall e, In e es -> inner e x).
Proof.
  intros a b t Ha Hb Ht e He. specialize (Ha e He). specialize (Hb e He).
  unfold inner in *. destruct e as [u v]. cbn [fst snd] in *.
  assert (E : pcross (psub v u) (psub ((1 - t) * fst a + t * fst b, (1 - t) * snd a + t * snd b) u)
              = (1 - t) * pcross (psub v u) (psub a u) + t * pcross (psub v u) (psub b u)).
  { punfold. ring. }
  rewrite E. nra.
Qed.

Lemma sign_change {A} (f : A -> R) (l : list A) : forall h z pre,
  h :: l = pre ++ [z] -> l <> [] -> 0 <= f h -> f z <= 0 ->
  exists pre' a b suf, h :: l = pre' ++ a :: b :: suf /\ 0 <= f a /\ f b <= 0.
Proof.
  induction l as [|x l IH]; intros h z pre E Hne Hh Hz; [contradiction|].
  destruct (Rle_dec (f x) 0) as [Hx|Hx].
  - exists [], h, x, l. auto.
  - destruct l as [|y l].
    + destruct pre as [|p0 [|p1 pre]]; cbn in E.
      * discriminate.
      * injection E as _ ->. contradiction.
      * injection E as _ _ E. destruct pre; discriminate.
    + destruct pre as [|p0 pre]; [discriminate|]. cbn in E. injection E as -> E.
      destruct (IH x z pre E) as (pre' & a & b & suf & E' & Ha & Hb); [discriminate|lra|assumption|].
      exists (p0 :: pre'), a, b, suf. cbn. rewrite E'. auto.
Qed.

Lemma in_triangle (C : pt R -> Prop) o a b x :
  convex_set C -> C o -> C a -> C b ->
  0 < pcross (psub b a) (psub o a) ->
  0 <= pcross (psub a o) (psub x o) -> pcross (psub b o) (psub x o) <= 0 ->
  0 <= pcross (psub b a) (psub x a) -> C x.
Proof.
  intros HC Ho Ha Hb HA H1 H2 H3.
  set (A := pcross (psub b a) (psub o a)) in *.
  set (ga := pcross (psub a o) (psub x o)) in *.
  set (be := - pcross (psub b o) (psub x o)).
  set (al := pcross (psub b a) (psub x a)) in *.
  assert (Hbe : 0 <= be) by (unfold be; lra).
  assert (HS : al + be + ga = A) by (unfold al, be, ga, A; punfold; ring).
  assert (Ex : A * fst x = al * fst o + be * fst a + ga * fst b) by (unfold al, be, ga, A; punfold; ring).
  assert (Ey : A * snd x = al * snd o + be * snd a + ga * snd b) by (unfold al, be, ga, A; punfold; ring).
  clearbody al be ga A. clear H2.
  destruct (Req_dec al A) as [E|E].
  - assert (be = 0) by lra. assert (ga = 0) by lra. subst.
    assert (Eq : x = o). { destruct x, o; cbn [fst snd] in *. f_equal; nra. }
    rewrite Eq. assumption.
  - assert (Hbg : 0 < be + ga) by lra.
    assert (HC2 : C ((1 - ga / (be + ga)) * fst a + ga / (be + ga) * fst b,
                     (1 - ga / (be + ga)) * snd a + ga / (be + ga) * snd b)).
    { apply HC; [assumption|assumption|]. split.
      - apply Rmult_le_pos; [assumption|]. left. apply Rinv_0_lt_compat. assumption.
      - apply Rmult_le_reg_r with (be + ga); [assumption|]. unfold Rdiv. rewrite Rmult_assoc, Rinv_l by lra. lra. }
    assert (HC3 := HC _ _ ((be + ga) / A) Ho HC2). cbn [fst snd] in HC3.
    match type of HC3 with _ -> C ?z => assert (Eq : x = z) end.
    { destruct x as [x1 x2]. cbn [fst snd] in *.
      f_equal; apply Rmult_eq_reg_l with A; try lra.
      - rewrite Ex. replace al with (A - be - ga) by lra. field. split; lra.
      - rewrite Ey. replace al with (A - be - ga) by lra. field. split; lra. }
    rewrite Eq. apply HC3. split.
    + apply Rmult_le_pos; [lra|]. left. apply Rinv_0_lt_compat. assumption.
    + apply Rmult_le_reg_r with A; [assumption|]. unfold Rdiv. rewrite Rmult_assoc, Rinv_l by lra. lra.
Qed.

(** three distinct extreme points are not on a line *)
Lemma extreme_not_collinear p (Hsep : separated p) i j k :
  Extreme p i -> Extreme p j -> Extreme p k -> i <> j -> i <> k -> j <> k ->
  pcross (psub (nth j p (0,0)) (nth i p (0,0))) (psub (nth k p (0,0)) (nth i p (0,0))) <> 0.
Proof.
  intros (Hi & Ei) (Hj & Ej) (Hk & Ek) Nij Nik Njk E.
  specialize (Ei j k Hj Hk). specialize (Ej i k Hi Hk). specialize (Ek i j Hi Hj).
  pose proof (sq_pos p Hsep j i Hj Hi (not_eq_sym Nij)) as Sji.
  pose proof (sq_pos p Hsep k i Hk Hi (not_eq_sym Nik)) as Ski.
  pose proof (sq_pos p Hsep k j Hk Hj (not_eq_sym Njk)) as Skj.
  destruct (collinear_scale _ _ Sji E) as (l & El).
  specialize (Ei E).
  assert (Ej0 : pcross (psub (nth i p (0,0)) (nth j p (0,0))) (psub (nth k p (0,0)) (nth j p (0,0))) = 0).
  { match goal with |- ?L = 0 => assert (EE : L = - pcross (psub (nth j p (0,0)) (nth i p (0,0))) (psub (nth k p (0,0)) (nth i p (0,0)))) by (clear; punfold; ring) end.
    rewrite EE, E. ring. }
  assert (Ek0 : pcross (psub (nth i p (0,0)) (nth k p (0,0))) (psub (nth j p (0,0)) (nth k p (0,0))) = 0).
  { match goal with |- ?L = 0 => assert (EE : L = pcross (psub (nth j p (0,0)) (nth i p (0,0))) (psub (nth k p (0,0)) (nth i p (0,0)))) by (clear; punfold; ring) end.
    rewrite EE. exact E. }
  specialize (Ej Ej0). specialize (Ek Ek0).
  set (u := psub (nth j p (0,0)) (nth i p (0,0))) in *.
  assert (E1 : psub (nth i p (0,0)) (nth j p (0,0)) = (- fst u, - snd u)).
  { unfold u, psub. cbn [fst snd]. rsimpl. f_equal; ring. }
  assert (E2 : psub (nth k p (0,0)) (nth j p (0,0)) = ((l - 1) * fst u, (l - 1) * snd u)).
  { injection El as F1 F2. unfold u, psub in *. cbn [fst snd] in *. rsimpl. f_equal; lra. }
  assert (E3 : psub (nth i p (0,0)) (nth k p (0,0)) = (- l * fst u, - l * snd u)).
  { injection El as F1 F2. unfold u, psub in *. cbn [fst snd] in *. rsimpl. f_equal; lra. }
  assert (E4 : psub (nth j p (0,0)) (nth k p (0,0)) = ((1 - l) * fst u, (1 - l) * snd u)).
  { injection El as F1 F2. unfold u, psub in *. cbn [fst snd] in *. rsimpl. f_equal; lra. }
  rewrite El in *. rewrite E1, E2 in *. rewrite E3, E4 in *.
  set (w := sqn u).
  assert (Hw : 0 < w) by exact Sji.
  replace (pdot u (l * fst u, l * snd u)) with (l * w) in Ei by (unfold w; punfold; ring).
  replace (pdot (- fst u, - snd u) ((l - 1) * fst u, (l - 1) * snd u)) with ((1 - l) * w) in Ej by (unfold w; punfold; ring).
  replace (pdot (- l * fst u, - l * snd u) ((1 - l) * fst u, (1 - l) * snd u)) with (- (l * (1 - l)) * w) in Ek by (unfold w; punfold; ring).
  replace (sqn (l * fst u, l * snd u)) with (l * l * w) in Ski by (unfold w; punfold; ring).
  replace (sqn ((l - 1) * fst u, (l - 1) * snd u)) with ((l - 1) * (l - 1) * w) in Skj by (unfold w; punfold; ring).
  clearbody w. clear - Ei Ej Ek Ski Skj Hw.
  assert (0 <= l) by nra. assert (0 <= 1 - l) by nra.
  assert (l <> 0) by (intros ->; lra). assert (l <> 1) by (intros ->; lra).
  assert (0 < l * (1 - l)) by nra. nra.
Qed.

Lemma rev_chain_head p s is r0 rs : chain p s is -> rev is = r0 :: rs -> r0 = s.
Proof.
  revert r0 rs. induction is as [|b [|a l] IH]; intros r0 rs Hch Er.
  - destruct Hch.
  - cbn in Er, Hch. injection Er as <- _. assumption.
  - destruct Hch as [_ H2]. cbn [rev] in Er.
    destruct (rev (a :: l)) as [|x xs] eqn:Ex; [cbn in Ex; destruct (rev l); discriminate|].
    cbn [rev] in Ex. rewrite Ex in Er. cbn in Er. injection Er as <- _. apply (IH x xs H2). reflexivity.
Qed.

Lemma edges_map (p : list (pt R)) s rs :
  edges (map (fun i => nth i p (0, 0)) (s :: rs))
  = map (fun e0 => (nth (fst e0) p (0,0), nth (snd e0) p (0,0))) (combine (s :: rs) (rs ++ [s])).
Proof.
  cbn [map edges].
  change (nth s p (0, 0) :: map (fun i => nth i p (0, 0)) rs) with (map (fun i => nth i p (0, 0)) (s :: rs)).
  change [nth s p (0, 0)] with (map (fun i => nth i p (0, 0)) [s]). rewrite <- map_app.
  generalize (s :: rs) (rs ++ [s]). induction l as [|x l IH]; intros [|y m]; try reflexivity.
  cbn. rewrite IH. reflexivity.
Qed.

Lemma pair_in_edges {A} (q : A) l pre a b suf :
  q :: l = pre ++ a :: b :: suf -> In (a, b) (combine (q :: l) (l ++ [q])).
Proof.
  assert (G : forall l q0 pre, q0 :: l = pre ++ a :: b :: suf -> In (a, b) (combine (q0 :: l) (l ++ [q]))).
  { clear l pre. induction l as [|x l IH]; intros q0 pre E.
    - destruct pre as [|? [|? ?]]; discriminate.
    - destruct pre as [|p0 pre]; cbn in E.
      + injection E as -> -> _. left. reflexivity.
      + injection E as _ E. right. apply (IH x pre). exact E. }
  apply G.
Qed.
Lemma closing_in_edges {A} (q : A) l pre z :
  q :: l = pre ++ [z] -> In (z, q) (combine (q :: l) (l ++ [q])).
Proof.
  assert (G : forall l q0 pre, q0 :: l = pre ++ [z] -> In (z, q) (combine (q0 :: l) (l ++ [q]))).
  { clear l pre. induction l as [|x l IH]; intros q0 pre E.
    - destruct pre as [|? [|? ?]]; try discriminate. injection E as ->. left. reflexivity.
    - destruct pre as [|p0 pre]; [discriminate|]. cbn in E.
      injection E as _ E. right. apply (IH x pre). exact E. }
  apply G.
Qed.

Lemma hull_exact p :
  (2 <= length p)%nat -> separated p -> ~ collinear p ->
  exists v, extractVertices p = Ok v /\ (3 <= length v)%nat
    /\ forall x, (forall e, In e (edges v) -> inner e x) <-> in_hull p x.
Proof.
  intros Hn Hsep Hnc. destruct (extract_chain p Hn Hsep) as (s & is & E & (Hch & Hnd & c & Hc & Hnx) & Es & Hx).
  pose proof (chain_extreme p Hsep s is Hx Hch) as Hex. rewrite Forall_forall in Hex.
  destruct (hull_correct p Hn Hsep) as (v & Ev & Hv2 & Hvd & Hvin & Hve).
  rewrite E in Ev. injection Ev as Ev.
  assert (Hlen : (3 <= length is)%nat).
  { rewrite <- Ev, rev_length, map_length in Hv2.
    destruct is as [|b [|a [|z l]]]; cbn in Hv2; try lia; [|cbn; lia]. exfalso.
    destruct Hch as [Hab Ea]. cbn in Ea. subst a. cbn in Hc. injection Hc as ->.
    apply Hnc. destruct Hab as (Hs & Hc & Hcs & H1 & _). destruct Hnx as (_ & _ & _ & H2 & _).
    pose proof (sq_pos p Hsep c s Hc Hs Hcs) as Hu.
    assert (Hon : forall q, In q p -> exists l, psub q (nth s p (0,0)) =
      (l * fst (psub (nth c p (0,0)) (nth s p (0,0))), l * snd (psub (nth c p (0,0)) (nth s p (0,0))))).
    { intros q Hq. destruct (@In_nth (pt R) _ _ (0,0) Hq) as (i & Hi & <-). apply collinear_scale; [assumption|].
      specialize (H1 i Hi). specialize (H2 i Hi).
      assert (EE : pcross (psub (nth s p (0,0)) (nth c p (0,0))) (psub (nth i p (0,0)) (nth c p (0,0)))
                   = - pcross (psub (nth c p (0,0)) (nth s p (0,0))) (psub (nth i p (0,0)) (nth s p (0,0)))) by (punfold; ring).
      lra. }
    intros a b d Ha Hb Hd. destruct (Hon a Ha) as (la & Ea). destruct (Hon b Hb) as (lb & Eb). destruct (Hon d Hd) as (ld & Ed).
    set (u := psub (nth c p (0, 0)) (nth s p (0, 0))) in *. clearbody u.
    injection Ea as Ea1 Ea2. injection Eb as Eb1 Eb2. injection Ed as Ed1 Ed2.
    unfold psub, pcross in *. cbn [fst snd] in *. rsimpl.
    replace (fst b - fst a) with ((lb - la) * fst u) by lra.
    replace (snd b - snd a) with ((lb - la) * snd u) by lra.
    replace (fst d - fst a) with ((ld - la) * fst u) by lra.
    replace (snd d - snd a) with ((ld - la) * snd u) by lra. ring. }
  exists v. split; [congruence|]. split; [rewrite <- Ev, rev_length, map_length; assumption|].
  intros x. split.
  2:{ intros H. apply (H _ (half_planes_convex (edges v))). intros q Hq e He. apply Hve; assumption. }
  intros H C HC HCp.
  rewrite <- Ev, <- map_rev in H.
  destruct (rev is) as [|r0 rs] eqn:Er.
  { apply (f_equal (@length nat)) in Er. rewrite rev_length in Er. cbn in Er. lia. }
  assert (r0 = s) by (eapply rev_chain_head; eassumption). subst r0.
  rewrite edges_map in H.
  assert (He : forall i j, In (i, j) (combine (s :: rs) (rs ++ [s])) -> inner (nth i p (0,0), nth j p (0,0)) x).
  { intros i j Hij. apply H. apply in_map_iff. exists (i, j). auto. }
  assert (Hlen2 : (2 <= length rs)%nat).
  { apply (f_equal (@length nat)) in Er. rewrite rev_length in Er. cbn in Er. lia. }
  assert (Hc2 : exists pre, s :: rs = pre ++ [c]).
  { destruct is as [|c' l]; [discriminate|]. cbn in Hc. injection Hc as ->. exists (rev l). rewrite <- Er. reflexivity. }
  destruct Hc2 as (pre & Ec).
  destruct rs as [|h rs]; [cbn in Hlen2; lia|]. destruct rs as [|h2 rs]; [cbn in Hlen2; lia|].
  destruct pre as [|s' pre]; [discriminate|]. cbn [app] in Ec. injection Ec as <- Ec.
  assert (Hh : inner (nth s p (0,0), nth h p (0,0)) x) by (apply He; left; reflexivity).
  assert (Hz : inner (nth c p (0,0), nth s p (0,0)) x).
  { apply He. apply (closing_in_edges s (h :: h2 :: rs) (s :: pre)). cbn. rewrite Ec. reflexivity. }
  destruct (sign_change (fun i => pcross (psub (nth i p (0,0)) (nth s p (0,0))) (psub x (nth s p (0,0))))
              (h2 :: rs) h c pre Ec) as (pre' & a & b & suf & Eab & Ha & Hb).
  - discriminate.
  - unfold inner in Hh. cbn [fst snd] in Hh. lra.
  - unfold inner in Hz. cbn [fst snd] in Hz.
    assert (EE : pcross (psub (nth s p (0,0)) (nth c p (0,0))) (psub x (nth c p (0,0)))
                 = - pcross (psub (nth c p (0,0)) (nth s p (0,0))) (psub x (nth s p (0,0)))) by (punfold; ring).
    lra.
  - assert (Hall : Forall (Extreme p) (s :: h :: h2 :: rs)).
    { apply Forall_forall. intros i Hi. apply Hex. apply in_rev. rewrite Er. assumption. }
    assert (Hnd2 : NoDup (s :: h :: h2 :: rs)) by (rewrite <- Er; apply NoDup_rev; assumption).
    rewrite Eab in Hall, Hnd2. rewrite Forall_forall in Hall.
    assert (Ia : In a (s :: pre' ++ a :: b :: suf)) by (right; apply in_or_app; right; left; reflexivity).
    assert (Ib : In b (s :: pre' ++ a :: b :: suf)) by (right; apply in_or_app; right; right; left; reflexivity).
    assert (Xs := Hall s (or_introl eq_refl)). assert (Xa := Hall a Ia). assert (Xb := Hall b Ib).
    inversion Hnd2 as [|? ? Nsa Hnd3]; subst.
    assert (s <> a) by (intros ->; apply Nsa, in_or_app; right; left; reflexivity).
    assert (s <> b) by (intros ->; apply Nsa, in_or_app; right; right; left; reflexivity).
    assert (a <> b).
    { apply NoDup_remove_2 in Hnd3. intros ->. apply Hnd3, in_or_app. right. left. reflexivity. }
    assert (Hab : Next p a b).
    { apply (chain_edges p s is Hch). exists (s :: pre'), suf. rewrite Er, Eab. reflexivity. }
    assert (Iin : inner (nth a p (0,0), nth b p (0,0)) x).
    { apply He. apply (pair_in_edges s (h :: h2 :: rs) (s :: pre') a b suf). cbn. rewrite Eab. reflexivity. }
    apply (in_triangle C (nth s p (0,0)) (nth a p (0,0)) (nth b p (0,0))); try assumption.
    + apply HCp, nth_In, Xs.
    + apply HCp, nth_In, Xa.
    + apply HCp, nth_In, Xb.
    + destruct Hab as (_ & _ & _ & HL & _). specialize (HL s (proj1 Xs)).
      pose proof (extreme_not_collinear p Hsep a b s Xa Xb Xs) as NC.
      assert (pcross (psub (nth b p (0,0)) (nth a p (0,0))) (psub (nth s p (0,0)) (nth a p (0,0))) <> 0) by (apply NC; auto).
      lra.
    + unfold inner in Iin. cbn [fst snd] in Iin. lra.
Qed.
