(** The feasible set of the problem that Zebulon hands to the solver. *)

From Coq Require Import Reals List ZArith Lra Lia Arith Bool.
From Verif Require Import Scalar LinAlg LinAlgFacts ToolsModel ToolsSpec ToolsFacts TriFacts NoDynModel PolygonModel
  QPModel QPFacts TrajModel TrajFacts LipModel BaseModel ModelsSpec ModelsFacts ZebModel HumAlg ZebAlg ZebSpec ZebFacts ZebObj ZebTilt ZebProb.
Import ListNotations.
Local Open Scope R_scope.

Lemma tilt_rows z G f x0 : models_ok (zl z) (zb z) -> tmotion_gradient (zl z) (zb z) = Ok G -> vlen x0 = (4 * horizon z)%nat ->
  tmotion_function (zl z) (zb z) G x0 = Ok f -> forall d i, (i < horizon z)%nat ->
  let N := horizon z in
  let Y := fun k => vget x0 k + d k in
  let t := pos (bsyaw (zb z)) in
  let row r := ssum (4 * N) (fun k => mget G r k * d k) in
  row i - vget f i = sin t * vel (comX z Y i) - cos t * vel (comY z Y i)
  /\ row (N + i)%nat - vget f (N + i)%nat = sin t * vel (baseX z Y i) - cos t * vel (baseY z Y i).
Proof.
  intros M HG HL HF d i Hi N Y t row. pose proof (models_dyns _ _ M) as D.
  destruct (dy_v _ _ D) as (c & Lc & Dc & Kc), (dy_bv _ _ D) as (Dv & Kv). fold (horizon z) in *. fold N in Dc, Kc, Dv, Kv, HL, Hi.
  shapes. assert (EN : bN (zb z) = N) by exact (mo_N _ _ M).
  unfold tmotion_gradient in HG. apply bind_ok in HG. destruct HG as (_ & _ & HG). rewrite Lc, EN in HG. cbn [bind] in HG.
  unfold tmotion_function in HF. apply guard_ok in HF. destruct HF as (_ & HF). apply bind_ok in HF. destruct HF as (_ & _ & HF). rewrite Lc, EN in HF. cbn [bind] in HF.
  fold t in HG, HF. change (tsin t) with (sin t) in *. change (tcos t) with (cos t) in *.
  assert (R1 : forall W, ssum (4 * N) (fun k => mget G i k * W k) = sin t * ssum N (fun k => mget (dU c) i k * W k) - cos t * ssum N (fun k => mget (dU c) i k * W (N + k)%nat)).
  { intros W. injection HG as <-. rewrite ssum_4N. rewrite <- !ssum_mul_l.
    rewrite (ssum_0 N (fun k => _ * W (2 * N + k)%nat)), (ssum_0 N (fun k => _ * W (3 * N + k)%nat)), !Rplus_0_r, <- ssum_minus, <- ssum_plus.
    - apply ssum_ext. intros k Hk. cbn [msetblock mget mzero mrows mcols mscale mopp]. rewrite H, H0, H4, H5.
      bools; rewrite ?Nat.sub_0_r; try (exfalso; lia). replace (N + k - N)%nat with k by lia. rsimpl. ring.
    - intros k Hk. cbn [msetblock mget mzero mrows mcols mscale mopp]. rewrite H, H0, H4, H5. bools; try (exfalso; lia). rsimpl. ring.
    - intros k Hk. cbn [msetblock mget mzero mrows mcols mscale mopp]. rewrite H, H0, H4, H5. bools; try (exfalso; lia). rsimpl. ring. }
  assert (R2 : forall W, ssum (4 * N) (fun k => mget G (N + i)%nat k * W k)
    = sin t * ssum N (fun k => mget (dU (bvelD (zb z))) i k * W (2 * N + k)%nat) - cos t * ssum N (fun k => mget (dU (bvelD (zb z))) i k * W (3 * N + k)%nat)).
  { intros W. injection HG as <-. rewrite ssum_4N. rewrite <- !ssum_mul_l.
    rewrite (ssum_0 N (fun k => _ * W k)), (ssum_0 N (fun k => _ * W (N + k)%nat)), !Rplus_0_l, <- ssum_minus, <- ssum_plus.
    - apply ssum_ext. intros k Hk. cbn [msetblock mget mzero mrows mcols mscale mopp]. rewrite H, H0, H4, H5.
      replace (N + i - N)%nat with i by lia.
      bools; rewrite ?Nat.sub_0_r; try (exfalso; lia). replace (2 * N + k - (N + (N + 0)))%nat with k by lia. replace (3 * N + k - (N + (N + (N + 0))))%nat with k by lia. rsimpl. ring.
    - intros k Hk. cbn [msetblock mget mzero mrows mcols mscale mopp]. rewrite H, H0, H4, H5. bools; try (exfalso; lia). rsimpl. ring.
    - intros k Hk. cbn [msetblock mget mzero mrows mcols mscale mopp]. rewrite H, H0, H4, H5. bools; try (exfalso; lia). rsimpl. ring. }
  assert (CG : mcols G = (4 * N)%nat) by (injection HG as <-; reflexivity).
  assert (FG : forall r, vget (mv (mopp G) x0) r = - ssum (4 * N) (fun k => mget G r k * vget x0 k)).
  { intros r. rewrite mv_opp. cbn [mv vget]. rewrite CG. reflexivity. }
  clear HG.
  set (cx := mv (dS c) (vec_of_st3 (lsx (zl z)))) in *. set (cy := mv (dS c) (vec_of_st3 (lsy (zl z)))) in *.
  set (bx := mv (dS (bvelD (zb z))) (vec_of_st3 (bsx (zb z)))) in *. set (by' := mv (dS (bvelD (zb z))) (vec_of_st3 (bsy (zb z)))) in *.
  assert (Lcx : vlen cx = N) by (unfold cx; dims). assert (Lcy : vlen cy = N) by (unfold cy; dims).
  assert (Lbx : vlen bx = N) by (unfold bx; dims). assert (Lby : vlen by' = N) by (unfold by'; dims).
  set (g := mv (mopp G) x0) in *.
  assert (FV : forall r, vget f r = vget (vaddseg (vaddseg (vaddseg (vaddseg g 0 (vopp (vscale (sin t) cx))) 0 (vscale (cos t) cy)) N (vopp (vscale (sin t) bx))) N (vscale (cos t) by')) r).
  { intros r. apply (f_equal (fun x => match x with Ok v => vget v r | _ => 0 end)) in HF. rewrite <- HF. reflexivity. }
  clear HF. cbn [vaddseg vget vlen vopp vscale] in FV. rewrite Lcx, Lcy, Lbx, Lby in FV.
  assert (SUM : forall (u : nat -> R) (W W' : nat -> R), ssum N (fun k => u k * (W k + W' k)) = ssum N (fun k => u k * W k) + ssum N (fun k => u k * W' k)).
  { intros u W W'. rewrite <- ssum_plus. apply ssum_ext. intros. ring. }
  unfold row. split.
  - rewrite FV, FG, !R1. unfold comX, comY. rewrite <- (Dc _ _ i Hi), <- (Dc _ _ i Hi), Kc. cbn [vzero vget]. fold cx cy. unfold jComX, jComY, Y. fold N.
    rewrite !SUM. rsimpl. rewrite ?Nat.sub_0_r. bools; try (exfalso; lia). ring.
  - rewrite FV, FG, !R2. unfold baseX, baseY. rewrite <- (Dv _ _ i Hi), <- (Dv _ _ i Hi), Kv. cbn [vzero vget]. fold bx by'. unfold jBaseX, jBaseY, Y. fold N.
    rewrite !SUM. rsimpl. replace (N + i - N)%nat with i by lia. bools; try (exfalso; lia). ring.
Qed.

(** The rows of the whole constraint matrix *)
Section ZA.
  Variables (z : zeb R) (gh : R) (gs : bool).
  Hypothesis I : zinv z gh gs.
  Let N := horizon z.
  Let M1 := z_M1 z. Let M2 := z_M2 z. Let M3 := z_M3 z. Let M4 := z_M4 z.
  Let o := zo z.
  Lemma con_dims : mrows (pcG (ocopC o)) = (length (pverts (bcopPoly (zb z))) * N)%nat /\ mcols (pcG (ocopC o)) = (4 * N)%nat
    /\ mrows (pcG (ocomC o)) = (length (pverts (bcomPoly (zb z))) * N)%nat /\ mcols (pcG (ocomC o)) = (4 * N)%nat
    /\ mrows (omotG o) = (4 * N)%nat /\ mcols (omotG o) = (2 * N)%nat /\ mrows (otmG o) = (2 * N)%nat /\ mcols (otmG o) = (4 * N)%nat
    /\ bN (zb z) = N.
  Proof.
    destruct I as ([M O _ _ _] & _). pose proof (mo_N _ _ M) as EN. change (lN (zl z)) with N in EN.
    destruct O as [_ _ _ _ _ O6 O7 O8 O9 _ _].
    unfold copc_constant in O6. apply bind_ok in O6. destruct O6 as (_ & _ & O6). apply bind_ok in O6. destruct O6 as (cx & _ & O6). apply bind_ok in O6. destruct O6 as (cy & _ & O6).
    apply (f_equal (fun r => match r with Ok c => pcG c | _ => pcG (ocopC (zo z)) end)) in O6.
    unfold comc_constant in O7. apply bind_ok in O7. destruct O7 as (_ & _ & O7). apply bind_ok in O7. destruct O7 as (cc & _ & O7).
    apply (f_equal (fun r => match r with Ok c => pcG c | _ => pcG (ocomC (zo z)) end)) in O7.
    unfold tmotion_gradient in O9. apply bind_ok in O9. destruct O9 as (_ & _ & O9). apply bind_ok in O9. destruct O9 as (cv & _ & O9).
    apply (f_equal (fun r => match r with Ok c => c | _ => otmG (zo z) end)) in O9.
    unfold o. rewrite <- O6, <- O7, O8, <- O9. cbn [pcG mmul mrows mcols]. unfold bmotion_gradient. cbn [msetblock mzero mrows mcols]. rewrite EN.
    destruct (sltb EPS (bm (zb z))); repeat split; try reflexivity; lia.
  Qed.
  Lemma M_eq : M1 = (if zcCop (zc z) then length (pverts (bcopPoly (zb z))) * N else 0)%nat
    /\ M2 = (if zcBase (zc z) then 4 * N else 0)%nat
    /\ M3 = (if zcCom (zc z) then length (pverts (bcomPoly (zb z))) * N else 0)%nat
    /\ M4 = (if zcTilt (zc z) then 2 * N else 0)%nat.
  Proof.
    destruct con_dims as (_ & _ & _ & _ & _ & _ & _ & _ & EN). unfold M1, M2, M3, M4, z_M1, z_M2, z_M3, z_M4. rewrite EN.
    destruct (zcCop (zc z)), (zcBase (zc z)), (zcCom (zc z)), (zcTilt (zc z)); repeat split; lia.
  Qed.
  Lemma zA_cop r c : zcCop (zc z) = true -> (r < M1)%nat -> (c < 4 * N)%nat -> mget (zA z) r c = mget (pcG (ocopC o)) r c.
  Proof.
    intros F Hr Hc. destruct con_dims as (A1 & A2 & A3 & A4 & A5 & A6 & A7 & A8 & EN). destruct M_eq as (E1 & E2 & E3 & E4).
    unfold zA. fold M1 M2 M3 M4 o. change (lN (zl z)) with N.
    destruct (zcCop (zc z)); [|discriminate].
    destruct (zcBase (zc z)), (zcCom (zc z)), (zcTilt (zc z)); cbn [msetblock mget mrows mcols]; rewrite ?A1, ?A2, ?A3, ?A4, ?A5, ?A6, ?A7, ?A8; bools; rewrite ?Nat.sub_0_r; try reflexivity; exfalso; lia.
  Qed.
  Lemma zA_base r c : zcBase (zc z) = true -> (r < M2)%nat -> (c < 4 * N)%nat ->
    mget (zA z) (M1 + r) c = if Nat.leb (2 * N) c then mget (omotG o) r (c - 2 * N) else 0.
  Proof.
    intros F Hr Hc. destruct con_dims as (A1 & A2 & A3 & A4 & A5 & A6 & A7 & A8 & EN). destruct M_eq as (E1 & E2 & E3 & E4).
    unfold zA. fold M1 M2 M3 M4 o. change (lN (zl z)) with N.
    replace (M1 + r - M1)%nat with r by lia.
    destruct (zcBase (zc z)); [|discriminate].
    destruct (zcCop (zc z)), (zcCom (zc z)), (zcTilt (zc z)); cbn [msetblock mget mrows mcols mzero]; rewrite ?A1, ?A2, ?A3, ?A4, ?A5, ?A6, ?A7, ?A8; replace (M1 + r - M1)%nat with r by lia; bools; try reflexivity; exfalso; lia.
  Qed.
  Lemma zA_com r c : zcCom (zc z) = true -> (r < M3)%nat -> (c < 4 * N)%nat -> mget (zA z) (M1 + M2 + r) c = mget (pcG (ocomC o)) r c.
  Proof.
    intros F Hr Hc. destruct con_dims as (A1 & A2 & A3 & A4 & A5 & A6 & A7 & A8 & EN). destruct M_eq as (E1 & E2 & E3 & E4).
    unfold zA. fold M1 M2 M3 M4 o. change (lN (zl z)) with N.
    destruct (zcCom (zc z)); [|discriminate].
    destruct (zcCop (zc z)), (zcBase (zc z)), (zcTilt (zc z)); cbn [msetblock mget mrows mcols mzero]; rewrite ?A1, ?A2, ?A3, ?A4, ?A5, ?A6, ?A7, ?A8; replace (M1 + M2 + r - (M1 + M2))%nat with r by lia; bools; rewrite ?Nat.sub_0_r; try reflexivity; exfalso; lia.
  Qed.
  Lemma zA_tilt r c : zcTilt (zc z) = true -> (r < M4)%nat -> (c < 4 * N)%nat -> mget (zA z) (M1 + M2 + M3 + r) c = mget (otmG o) r c.
  Proof.
    intros F Hr Hc. destruct con_dims as (A1 & A2 & A3 & A4 & A5 & A6 & A7 & A8 & EN). destruct M_eq as (E1 & E2 & E3 & E4).
    unfold zA. fold M1 M2 M3 M4 o. change (lN (zl z)) with N.
    destruct (zcTilt (zc z)); [|discriminate].
    cbn [msetblock mget mrows mcols mzero]; rewrite ?A7, ?A8; replace (M1 + M2 + M3 + r - (M1 + M2 + M3))%nat with r by lia; bools; rewrite ?Nat.sub_0_r; try reflexivity; exfalso; lia.
  Qed.
  Lemma zA_rows : mrows (zA z) = (M1 + M2 + M3 + M4)%nat.
  Proof. unfold zA. destruct (zcCop (zc z)), (zcBase (zc z)), (zcCom (zc z)), (zcTilt (zc z)); reflexivity. Qed.
End ZA.

Lemma blocks_split M1 M2 M3 M4 (P : nat -> Prop) :
  (forall k, (k < M1 + M2 + M3 + M4)%nat -> P k) <->
  (forall k, (k < M1)%nat -> P k) /\ (forall k, (k < M2)%nat -> P (M1 + k)%nat)
  /\ (forall k, (k < M3)%nat -> P (M1 + M2 + k)%nat) /\ (forall k, (k < M4)%nat -> P (M1 + M2 + M3 + k)%nat).
Proof.
  split.
  - intros H. repeat split; intros k Hk; apply H; lia.
  - intros (A & B & C & D) k Hk. destruct (lt_dec k M1) as [L|L]; [apply A; assumption|].
    destruct (lt_dec k (M1 + M2)) as [L2|L2]; [replace k with (M1 + (k - M1))%nat by lia; apply B; lia|].
    destruct (lt_dec k (M1 + M2 + M3)) as [L3|L3]; [replace k with (M1 + M2 + (k - (M1 + M2)))%nat by lia; apply C; lia|].
    replace k with (M1 + M2 + M3 + (k - (M1 + M2 + M3)))%nat by lia. apply D; lia.
Qed.
Lemma rows_split m N (P : nat -> Prop) : (forall k, (k < m * N)%nat -> P k) <-> (forall e j, (e < m)%nat -> (j < N)%nat -> P (e * N + j)%nat).
Proof.
  split.
  - intros H e j He Hj. apply H. nia.
  - intros H k Hk. assert (N0 : N <> 0%nat) by lia. rewrite (Nat.div_mod k N N0), Nat.mul_comm. apply H.
    + apply Nat.div_lt_upper_bound; [assumption|]. lia.
    + apply Nat.mod_upper_bound. assumption.
Qed.
Lemma quarters_split N (P : nat -> Prop) : (forall k, (k < 4 * N)%nat -> P k) <->
  forall i, (i < N)%nat -> P i /\ P (N + i)%nat /\ P (2 * N + i)%nat /\ P (3 * N + i)%nat.
Proof.
  split.
  - intros H i Hi. repeat split; apply H; lia.
  - intros H k Hk. apply quarter in Hk. destruct Hk as (q & i & Hi & -> & Hq). specialize (H i Hi).
    assert (Cq : (q = 0 \/ q = 1 \/ q = 2 \/ q = 3)%nat) by lia. destruct Cq as [->|[->|[->| ->]]]; cbn [Nat.mul Nat.add]; rewrite ?Nat.add_0_r.
    + apply H.
    + apply H.
    + replace (N + N + i)%nat with (2 * N + i)%nat by lia. apply H.
    + replace (N + (N + N) + i)%nat with (3 * N + i)%nat by lia. apply H.
Qed.
Lemma halves_split N (P : nat -> Prop) : (forall k, (k < 2 * N)%nat -> P k) <-> forall i, (i < N)%nat -> P i /\ P (N + i)%nat.
Proof.
  split.
  - intros H i Hi. split; apply H; lia.
  - intros H k Hk. destruct (lt_dec k N) as [L|L]; [apply H; assumption|]. replace k with (N + (k - N))%nat by lia. apply H. lia.
Qed.

Lemma zeb_feasible z gh gs q : zinv z gh gs -> z_problem z = Ok q -> forall d,
  qfeasible q d <-> zadmissible z (fun k => vget (zX z) k + d k) /\ zmoderate z d.
Proof.
  intros I H d. pose proof I as ([M O Rf LX LdX] & QI). pose proof (z_problem_shape _ _ QI H) as (_ & SA & Sp & _).
  destruct QI as [_ QA Qfc Qp Qxl Qxu Qbl Qbu _ _ _].
  pose proof (models_dyns _ _ M) as D. pose proof (con_dims z gh gs I) as (C1 & C2 & C3 & C4 & C5 & C6 & C7 & C8 & EN).
  pose proof (M_eq z gh gs I) as (E1 & E2 & E3 & E4).
  destruct O as [O1 O2 O3 O4 O5 O6 O7 O8 O9 O10 O11].
  set (N := horizon z) in *. change (lN (zl z)) with N in *.
  set (M1 := z_M1 z) in *. set (M2 := z_M2 z) in *. set (M3 := z_M3 z) in *. set (M4 := z_M4 z) in *.
  unfold z_problem in H. change (lN (zl z)) with N in H. fold M1 M2 M3 M4 in H. apply guard_ok in H. destruct H as (_ & H).
  do 7 (apply bind_ok in H; destruct H as (? & _ & H); apply guard_ok in H; destruct H as (_ & H)).
  do 7 (apply bind_ok in H; destruct H as (? & _ & H)).
  apply bind_ok in H. destruct H as (bl1 & B1 & H). apply bind_ok in H. destruct H as (bl2 & B2 & H).
  apply bind_ok in H. destruct H as (bu1 & B3 & H). apply bind_ok in H. destruct H as (xu1 & B4 & H).
  apply bind_ok in H. destruct H as (xl1 & B5 & H). apply bind_ok in H. destruct H as (bl3 & B6 & H).
  apply bind_ok in H. destruct H as (bl4 & B7 & H). apply bind_ok in H. destruct H as (bu2 & B8 & H).
  assert (F1 : zcCop (zc z) = false -> M1 = 0%nat) by (intros E; rewrite E in E1; exact E1).
  assert (F2 : zcBase (zc z) = false -> M2 = 0%nat) by (intros E; rewrite E in E2; exact E2).
  assert (F3 : zcCom (zc z) = false -> M3 = 0%nat) by (intros E; rewrite E in E3; exact E3).
  assert (F4 : zcTilt (zc z) = false -> M4 = 0%nat) by (intros E; rewrite E in E4; exact E4).
  apply cond_get in B1; [|assumption]. apply cond_get in B2; [|assumption]. apply cond_get in B3; [|assumption].
  apply cond_get in B6; [|assumption]. apply cond_get in B7; [|assumption]. apply cond_get in B8; [|assumption].
  destruct B1 as (f1 & P1 & G1), B2 as (f2 & P2 & G2), B3 as (f3 & P3 & G3), B6 as (f6 & P6 & G6), B7 as (f7 & P7 & G7), B8 as (f8 & P8 & G8).
  assert (XU : forall k, (k < 4 * N)%nat -> vget xu1 k = if (zcBase (zc z) && Nat.leb (2 * N) k)%bool then bjerkLim (zb z) - vget (zX z) k else MAXB).
  { intros k Hk. destruct (zcBase (zc z)).
    - unfold vputE in B4. do 2 (apply guard_ok in B4; destruct B4 as (_ & B4)). injection B4 as <-. cbn [vsetseg vget vlen vsub vfill vseg andb].
      bools; try (exfalso; lia); try reflexivity. rsimpl. do 2 f_equal. lia.
    - injection B4 as <-. reflexivity. }
  assert (XL : forall k, (k < 4 * N)%nat -> vget xl1 k = if (zcBase (zc z) && Nat.leb (2 * N) k)%bool then - bjerkLim (zb z) - vget (zX z) k else - MAXB).
  { intros k Hk. destruct (zcBase (zc z)).
    - unfold vputE in B5. do 2 (apply guard_ok in B5; destruct B5 as (_ & B5)). injection B5 as <-. cbn [vsetseg vget vlen vsub vfill vseg andb].
      bools; try (exfalso; lia); try reflexivity. rsimpl. do 2 f_equal. lia.
    - injection B5 as <-. reflexivity. }
  clear B4 B5. apply (f_equal (fun r => match r with Ok m => m | _ => q end)) in H.
  set (fc := zfc z) in *.
  assert (FP : 0 < fc) by (rewrite Qfc; pose proof (getNormalizationFactor_pos (zA z) EPS) as X; assert (0 <= EPS) by (unfold EPS; rsimpl; lra); specialize (X H0); lra).
  set (row := fun k => ssum (4 * N) (fun j => mget (zA z) k j * d j)).
  assert (QF : qfeasible q d <-> (forall i, (i < 4 * N)%nat -> vget xl1 i <= d i <= vget xu1 i)
    /\ (forall k, (k < M1 + M2 + M3 + M4)%nat -> vget bl4 k <= row k <= vget bu2 k)).
  { unfold qfeasible. rewrite Sp, SA, QA. change (mrows (mscale fc (zA z))) with (mrows (zA z)). rewrite zA_rows. fold M1 M2 M3 M4.
    assert (RS : forall k, ssum (4 * N) (fun j => mget (mscale fc (zA z)) k j * d j) = fc * row k).
    { intros k. unfold row. rewrite <- ssum_mul_l. apply ssum_ext. intros j _. cbn [mscale mget]. rsimpl. ring. }
    rewrite <- H. cbn [qxl qxu qbl qbu vscale vget]. rsimpl. fold fc.
    split; intros (X1 & X2); (split; [exact X1|]); intros k Hk; specialize (X2 k Hk); rewrite RS in *.
    - split; apply Rmult_le_reg_l with fc; lra.
    - split; apply Rmult_le_compat_l; lra. }
  rewrite QF, blocks_split. clear QF H.
  set (X := vget (zX z)) in *. set (Y := fun k => X k + d k).
  assert (BL1 : forall k, (k < M1)%nat -> vget bl4 k = vget f1 k /\ vget bu2 k = MAXB).
  { intros k Hk. rewrite G7, G6, G2, G1, G8, G3. bools; try (exfalso; lia). rewrite Nat.sub_0_r. split; reflexivity. }
  assert (BL2 : forall k, (k < M2)%nat -> vget bl4 (M1 + k)%nat = vget f2 k /\ vget bu2 (M1 + k)%nat = vget f3 k).
  { intros k Hk. rewrite G7, G6, G2, G8, G3. replace (M1 + k - M1)%nat with k by lia. bools; try (exfalso; lia). split; reflexivity. }
  assert (BL3 : forall k, (k < M3)%nat -> vget bl4 (M1 + M2 + k)%nat = vget f6 k /\ vget bu2 (M1 + M2 + k)%nat = MAXB).
  { intros k Hk. rewrite G7, G6, G8, G3. replace (M1 + M2 + k - (M1 + M2))%nat with k by lia. bools; try (exfalso; lia). split; reflexivity. }
  assert (BL4 : forall k, (k < M4)%nat -> vget bl4 (M1 + M2 + M3 + k)%nat = vget f7 k /\ vget bu2 (M1 + M2 + M3 + k)%nat = vget f8 k).
  { intros k Hk. rewrite G7, G8. replace (M1 + M2 + M3 + k - (M1 + M2 + M3))%nat with k by lia. bools; try (exfalso; lia). split; reflexivity. }
  clear G1 G2 G3 G6 G7 G8.
  assert (BD : (forall i, (i < 4 * N)%nat -> vget xl1 i <= d i <= vget xu1 i) <->
    (forall k, (k < (if zcBase (zc z) then 2 * N else 4 * N))%nat -> Rabs (d k) <= MAXB)
    /\ (zcBase (zc z) = true -> forall i, (i < N)%nat -> Rabs (jBaseX N Y i) <= bjerkLim (zb z) /\ Rabs (jBaseY N Y i) <= bjerkLim (zb z))).
  { unfold jBaseX, jBaseY, Y. split.
    - intros A. split.
      + intros k Hk. assert (Hk4 : (k < 4 * N)%nat) by (destruct (zcBase (zc z)); lia). specialize (A k Hk4). rewrite XL, XU in A by assumption.
        apply Rabs_le_iff. destruct (zcBase (zc z)); cbn [andb] in A; [|exact A]. destruct (Nat.leb_spec (2 * N) k); [lia|exact A].
      + intros F i Hi. rewrite F in XL, XU. cbn [andb] in XL, XU.
        pose proof (A (2 * N + i)%nat ltac:(lia)) as A1. pose proof (A (3 * N + i)%nat ltac:(lia)) as A2.
        rewrite XL, XU in A1, A2 by lia. rewrite (proj2 (Nat.leb_le (2 * N) (2 * N + i))) in A1 by lia. rewrite (proj2 (Nat.leb_le (2 * N) (3 * N + i))) in A2 by lia. rewrite !Rabs_le_iff. lra.
    - intros (A & B) i Hi. rewrite XL, XU by assumption. destruct (zcBase (zc z)); cbn [andb].
      + destruct (Nat.leb_spec (2 * N) i) as [L|L].
        * specialize (B eq_refl). destruct (lt_dec i (3 * N)) as [L3|L3].
          -- destruct (B (i - 2 * N)%nat ltac:(lia)) as (B1 & _). replace (2 * N + (i - 2 * N))%nat with i in B1 by lia. apply Rabs_le_iff in B1. lra.
          -- destruct (B (i - 3 * N)%nat ltac:(lia)) as (_ & B1). replace (3 * N + (i - 3 * N))%nat with i in B1 by lia. apply Rabs_le_iff in B1. lra.
        * apply Rabs_le_iff. apply A. assumption.
      + apply Rabs_le_iff. apply A. assumption. }
  assert (K1 : (forall k, (k < M1)%nat -> vget bl4 k <= row k <= vget bu2 k) <->
    (zcCop (zc z) = true -> forall e j, (e < length (pverts (bcopPoly (zb z))))%nat -> (j < N)%nat ->
      0 <= left_of (nth e (pverts (bcopPoly (zb z))) (0, 0)) (nth (Nat.modulo (e + 1) (length (pverts (bcopPoly (zb z))))) (pverts (bcopPoly (zb z))) (0, 0)) (- copX z Y j) (- copY z Y j)
      /\ left_slope (nth e (pverts (bcopPoly (zb z))) (0, 0)) (nth (Nat.modulo (e + 1) (length (pverts (bcopPoly (zb z))))) (pverts (bcopPoly (zb z))) (0, 0))
           (copX z X j - copX z Y j) (copY z X j - copY z Y j) <= MAXB)).
  { destruct (zcCop (zc z)) eqn:EC.
    - rewrite E1, rows_split. split.
      + intros A _ e j He Hj. specialize (A e j He Hj).
        assert (Hr : (e * N + j < M1)%nat) by (rewrite E1; nia). rewrite (proj1 (BL1 _ Hr)), (proj2 (BL1 _ Hr)) in A.
        assert (ER : row (e * N + j)%nat = ssum (4 * N) (fun k => mget (pcG (ocopC (zo z))) (e * N + j) k * d k)).
        { apply ssum_ext. intros c Hc. rewrite (zA_cop z gh gs I _ _ EC) by assumption. reflexivity. }
        rewrite ER in A. destruct (cop_rows z _ f1 (zX z) D O6 LX (P1 eq_refl) d e j Hj) as (R1 & R2). fold N X Y in R1, R2.
        rewrite R1 in A. rewrite R2 in A. exact A.
      + intros A e j He Hj. specialize (A eq_refl e j He Hj).
        assert (Hr : (e * N + j < M1)%nat) by (rewrite E1; nia). rewrite (proj1 (BL1 _ Hr)), (proj2 (BL1 _ Hr)).
        assert (ER : row (e * N + j)%nat = ssum (4 * N) (fun k => mget (pcG (ocopC (zo z))) (e * N + j) k * d k)).
        { apply ssum_ext. intros c Hc. rewrite (zA_cop z gh gs I _ _ EC) by assumption. reflexivity. }
        rewrite ER. destruct (cop_rows z _ f1 (zX z) D O6 LX (P1 eq_refl) d e j Hj) as (R1 & R2). fold N X Y in R1, R2.
        rewrite R1. rewrite R2. exact A.
    - rewrite E1. split; [discriminate|]. intros _ k Hk. lia. }
  assert (K3 : (forall k, (k < M3)%nat -> vget bl4 (M1 + M2 + k)%nat <= row (M1 + M2 + k)%nat <= vget bu2 (M1 + M2 + k)%nat) <->
    (zcCom (zc z) = true -> forall e j, (e < length (pverts (bcomPoly (zb z))))%nat -> (j < N)%nat ->
      0 <= left_of (nth e (pverts (bcomPoly (zb z))) (0, 0)) (nth (Nat.modulo (e + 1) (length (pverts (bcomPoly (zb z))))) (pverts (bcomPoly (zb z))) (0, 0)) (- relX z Y j) (- relY z Y j)
      /\ left_slope (nth e (pverts (bcomPoly (zb z))) (0, 0)) (nth (Nat.modulo (e + 1) (length (pverts (bcomPoly (zb z))))) (pverts (bcomPoly (zb z))) (0, 0))
           (relX z X j - relX z Y j) (relY z X j - relY z Y j) <= MAXB)).
  { destruct (zcCom (zc z)) eqn:EC.
    - rewrite E3, (rows_split _ _ (fun k => vget bl4 (M1 + M2 + k)%nat <= row (M1 + M2 + k)%nat <= vget bu2 (M1 + M2 + k)%nat)). split.
      + intros A _ e j He Hj. specialize (A e j He Hj).
        assert (Hr : (e * N + j < M3)%nat) by (rewrite E3; nia). rewrite (proj1 (BL3 _ Hr)), (proj2 (BL3 _ Hr)) in A.
        assert (ER : row (M1 + M2 + (e * N + j))%nat = ssum (4 * N) (fun k => mget (pcG (ocomC (zo z))) (e * N + j) k * d k)).
        { apply ssum_ext. intros c Hc. unfold M1, M2. rewrite (zA_com z gh gs I _ _ EC) by assumption. reflexivity. }
        rewrite ER in A. destruct (com_rows z _ f6 (zX z) D O7 LX (P6 eq_refl) d e j Hj) as (R1 & R2). fold N X Y in R1, R2.
        rewrite R1 in A. rewrite R2 in A. exact A.
      + intros A e j He Hj. specialize (A eq_refl e j He Hj).
        assert (Hr : (e * N + j < M3)%nat) by (rewrite E3; nia). rewrite (proj1 (BL3 _ Hr)), (proj2 (BL3 _ Hr)).
        assert (ER : row (M1 + M2 + (e * N + j))%nat = ssum (4 * N) (fun k => mget (pcG (ocomC (zo z))) (e * N + j) k * d k)).
        { apply ssum_ext. intros c Hc. unfold M1, M2. rewrite (zA_com z gh gs I _ _ EC) by assumption. reflexivity. }
        rewrite ER. destruct (com_rows z _ f6 (zX z) D O7 LX (P6 eq_refl) d e j Hj) as (R1 & R2). fold N X Y in R1, R2.
        rewrite R1. rewrite R2. exact A.
    - rewrite E3. split; [discriminate|]. intros _ k Hk. lia. }
  assert (K2 : (forall k, (k < M2)%nat -> vget bl4 (M1 + k)%nat <= row (M1 + k)%nat <= vget bu2 (M1 + k)%nat) <->
    (zcBase (zc z) = true -> forall i, (i < N)%nat ->
       Rabs (vel (baseX z Y i)) <= bvelLim (zb z) /\ Rabs (vel (baseY z Y i)) <= bvelLim (zb z)
       /\ Rabs (acc (baseX z Y i)) <= baccLim (zb z) /\ Rabs (acc (baseY z Y i)) <= baccLim (zb z))).
  { destruct (zcBase (zc z)) eqn:EC.
    - assert (ER : forall r, (r < 4 * N)%nat -> row (M1 + r)%nat = ssum (2 * N) (fun k => mget (omotG (zo z)) r k * d (2 * N + k)%nat)).
      { intros r Hr. unfold row. replace (4 * N)%nat with (2 * N + 2 * N)%nat by lia. rewrite ssum_app.
        rewrite ssum_0; [|intros c Hc; unfold M1; rewrite (zA_base z gh gs I _ _ EC) by (fold N M2; lia); fold N; destruct (Nat.leb_spec (2 * N) c); [lia|ring]].
        rewrite Rplus_0_l. apply ssum_ext. intros c Hc. unfold M1. rewrite (zA_base z gh gs I _ _ EC) by (fold N M2; lia). fold N.
        destruct (Nat.leb_spec (2 * N) (2 * N + c)); [|lia]. do 2 f_equal. lia. }
      pose proof (fun i Hi => base_rows z _ f2 (zX z) _ _ M O8 LX (P2 eq_refl) d i Hi) as RL.
      pose proof (fun i Hi => base_rows z _ f3 (zX z) _ _ M O8 LX (P3 eq_refl) d i Hi) as RU.
      fold N X Y in RL, RU. cbv zeta in RL, RU. fold N in RL, RU.
      rewrite E2, (quarters_split N (fun k => vget bl4 (M1 + k)%nat <= row (M1 + k)%nat <= vget bu2 (M1 + k)%nat)).
      split.
      + intros A _ i Hi. specialize (A i Hi). rewrite !(fun r Hr => proj1 (BL2 r Hr)), !(fun r Hr => proj2 (BL2 r Hr)) in A by lia. rewrite !ER in A by lia.
        destruct (RL i Hi) as (L1 & L2 & L3 & L4), (RU i Hi) as (U1 & U2 & U3 & U4). rsimpl. rewrite !Rabs_le_iff. lra.
      + intros A i Hi. specialize (A eq_refl i Hi). rewrite !(fun r Hr => proj1 (BL2 r Hr)), !(fun r Hr => proj2 (BL2 r Hr)) by lia. rewrite !ER by lia.
        destruct (RL i Hi) as (L1 & L2 & L3 & L4), (RU i Hi) as (U1 & U2 & U3 & U4). rsimpl. rewrite !Rabs_le_iff in A. lra.
    - rewrite E2. split; [discriminate|]. intros _ k Hk. lia. }
  assert (K4 : (forall k, (k < M4)%nat -> vget bl4 (M1 + M2 + M3 + k)%nat <= row (M1 + M2 + M3 + k)%nat <= vget bu2 (M1 + M2 + M3 + k)%nat) <->
    (zcTilt (zc z) = true -> along_heading z Y)).
  { destruct (zcTilt (zc z)) eqn:EC.
    - assert (ER : forall r, (r < 2 * N)%nat -> row (M1 + M2 + M3 + r)%nat = ssum (4 * N) (fun k => mget (otmG (zo z)) r k * d k)).
      { intros r Hr. apply ssum_ext. intros c Hc. unfold M1, M2, M3. rewrite (zA_tilt z gh gs I _ _ EC) by (fold N M4; lia). reflexivity. }
      pose proof (P7 eq_refl) as P7'. pose proof (P8 eq_refl) as P8'. rewrite P7' in P8'. injection P8' as <-.
      pose proof (fun i Hi => tilt_rows z _ f7 (zX z) M O9 LX P7' d i Hi) as RL.
      fold N X Y in RL. cbv zeta in RL. fold N in RL.
      unfold along_heading. cbv zeta. fold N.
      rewrite E4, (halves_split N (fun k => vget bl4 (M1 + M2 + M3 + k)%nat <= row (M1 + M2 + M3 + k)%nat <= vget bu2 (M1 + M2 + M3 + k)%nat)).
      split.
      + intros A _ i Hi. specialize (A i Hi). rewrite !(fun r Hr => proj1 (BL4 r Hr)), !(fun r Hr => proj2 (BL4 r Hr)) in A by lia. rewrite !ER in A by lia.
        destruct (RL i Hi) as (L1 & L2). lra.
      + intros A i Hi. specialize (A eq_refl i Hi). rewrite !(fun r Hr => proj1 (BL4 r Hr)), !(fun r Hr => proj2 (BL4 r Hr)) by lia. rewrite !ER by lia.
        destruct (RL i Hi) as (L1 & L2). lra.
    - rewrite E4. split; [discriminate|]. intros _ k Hk. lia. }
  rewrite BD, K1, K2, K3, K4.
  unfold zadmissible, zmoderate, base_limits, cop_reflected, com_reflected, inside. cbv zeta. fold N X Y.
  split.
  - intros ((A1 & A2) & B & C & E & F). split; [split; [|split; [|split]]|split; [|split]].
    + intros K i Hi. specialize (A2 K i Hi). specialize (C K i Hi). tauto.
    + intros K i Hi e He. apply (B K e i He Hi).
    + intros K i Hi e He. apply (E K e i He Hi).
    + exact F.
    + exact A1.
    + intros K i e Hi He. apply (B K e i He Hi).
    + intros K i e Hi He. apply (E K e i He Hi).
  - intros ((A & B & C & F) & (G & HH & J)). split; [split|split; [|split; [|split]]].
    + exact G.
    + intros K i Hi. specialize (A K i Hi). tauto.
    + intros K e j He Hj. split; [apply (B K j Hj e He)|apply (HH K j e Hj He)].
    + intros K i Hi. specialize (A K i Hi). tauto.
    + intros K e j He Hj. split; [apply (C K j Hj e He)|apply (J K j e Hj He)].
    + exact F.
Qed.
