(** Algebra for the Zebulon objectives: block matrices and sums of squares over two axes. *)

From Coq Require Import Reals List Lra Lia Arith Bool.
From Verif Require Import Scalar LinAlg LinAlgFacts ToolsModel PolygonModel QPModel QPFacts LipModel BaseModel ZebModel.
From Verif Require Import HumAlg.
Local Open Scope R_scope.

#[export] Instance RSinCos : SinCos R := {| tsin := sin; tcos := cos |}.

Lemma ssum_4N N (f : nat -> R) :
  ssum (4 * N) f = ssum N f + ssum N (fun i => f (N + i)%nat) + ssum N (fun i => f (2 * N + i)%nat) + ssum N (fun i => f (3 * N + i)%nat).
Proof.
  replace (4 * N)%nat with (2 * N + 2 * N)%nat by lia. rewrite ssum_app, !ssum_2N.
  rewrite !Rplus_assoc. do 2 f_equal. f_equal. apply ssum_ext. intros i _. f_equal. lia.
Qed.
Lemma quarter N j : (j < 4 * N)%nat ->
  exists q k, (k < N)%nat /\ j = (q * N + k)%nat /\ (q < 4)%nat.
Proof.
  intros H. assert (HN : N <> 0%nat) by (intros ->; lia). exists (j / N)%nat, (j mod N)%nat.
  split; [apply Nat.mod_upper_bound; assumption|]. split; [rewrite Nat.mul_comm; apply Nat.div_mod; assumption|].
  apply Nat.div_lt_upper_bound; lia.
Qed.

Section Pair.
  Variable N : nat.
  Variables u0 u1 u2 u3 : nat -> nat -> R.
  Definition ux (i k : nat) : R :=
    if Nat.ltb k N then u0 i k else if (Nat.leb (2 * N) k && Nat.ltb k (3 * N))%bool then u2 i (k - 2 * N)%nat else 0.
  Definition uy (i k : nat) : R :=
    if (Nat.leb N k && Nat.ltb k (2 * N))%bool then u1 i (k - N)%nat else if Nat.leb (3 * N) k then u3 i (k - 3 * N)%nat else 0.
  Lemma ux_apply i (Y : nat -> R) :
    ssum (4 * N) (fun k => ux i k * Y k) = ssum N (fun k => u0 i k * Y k) + ssum N (fun k => u2 i k * Y (2 * N + k)%nat).
  Proof.
    rewrite ssum_4N. rewrite (ssum_0 N (fun k => ux i (N + k)%nat * _)), (ssum_0 N (fun k => ux i (3 * N + k)%nat * _)).
    - rewrite Rplus_0_r, Rplus_0_r. f_equal; apply ssum_ext; intros k Hk; unfold ux; bools; try reflexivity. do 2 f_equal. lia.
    - intros k Hk. unfold ux. bools; ring.
    - intros k Hk. unfold ux. bools; ring.
  Qed.
  Lemma uy_apply i (Y : nat -> R) :
    ssum (4 * N) (fun k => uy i k * Y k) = ssum N (fun k => u1 i k * Y (N + k)%nat) + ssum N (fun k => u3 i k * Y (3 * N + k)%nat).
  Proof.
    rewrite ssum_4N. rewrite (ssum_0 N (fun k => uy i k * _)), (ssum_0 N (fun k => uy i (2 * N + k)%nat * _)).
    - rewrite Rplus_0_l, Rplus_0_r. f_equal; apply ssum_ext; intros k Hk; unfold uy; bools; do 2 f_equal; lia.
    - intros k Hk. unfold uy. bools; ring.
    - intros k Hk. unfold uy. bools; ring.
  Qed.

  Definition entries (b : mat R) (f g : nat -> nat -> R) : Prop :=
    mrows b = N /\ mcols b = N /\ forall j k, (j < N)%nat -> (k < N)%nat -> mget b j k = ssum N (fun i => f i j * g i k).
  Definition ventries (v : vec R) (f : nat -> nat -> R) (c : nat -> R) : Prop :=
    vlen v = N /\ forall j, (j < N)%nat -> vget v j = ssum N (fun i => f i j * c i).

  Variables b00 b11 b22 b33 b20 b31 b02 b13 : mat R.
  Hypothesis H00 : entries b00 u0 u0. Hypothesis H11 : entries b11 u1 u1.
  Hypothesis H22 : entries b22 u2 u2. Hypothesis H33 : entries b33 u3 u3.
  Hypothesis H20 : entries b20 u2 u0. Hypothesis H31 : entries b31 u3 u1.
  Hypothesis H02 : entries b02 u0 u2. Hypothesis H13 : entries b13 u1 u3.
  Let H := blocks8 N b00 b11 b22 b33 b20 b31 b02 b13.

  Lemma blocks8_entry j k : (j < 4 * N)%nat -> (k < 4 * N)%nat ->
    mget H j k = ssum N (fun i => ux i j * ux i k) + ssum N (fun i => uy i j * uy i k).
  Proof.
    destruct H00 as (A1 & A2 & A3), H11 as (B1 & B2 & B3), H22 as (C1 & C2 & C3), H33 as (D1 & D2 & D3).
    destruct H20 as (E1 & E2 & E3), H31 as (F1 & F2 & F3), H02 as (G1 & G2 & G3), H13 as (I1 & I2 & I3).
    intros Hj Hk. unfold H, blocks8, msetblock. cbn [mget mrows mcols mzero]. rewrite A1, A2, B1, B2, C1, C2, D1, D2, E1, E2, F1, F2, G1, G2, I1, I2.
    apply quarter in Hj, Hk. destruct Hj as (p & j' & Hj & -> & Hp), Hk as (q & k' & Hk & -> & Hq).
    assert (Cp : (p = 0 \/ p = 1 \/ p = 2 \/ p = 3)%nat) by lia. assert (Cq : (q = 0 \/ q = 1 \/ q = 2 \/ q = 3)%nat) by lia.
    clear Hp Hq. unfold ux, uy.
    destruct Cp as [->|[->|[->| ->]]]; destruct Cq as [->|[->|[->| ->]]];
      bools; rsimpl;
      repeat match goal with
             | |- context [(?m * N + ?x - ?n * N)%nat] => replace (m * N + x - n * N)%nat with x by lia
             | |- context [(?m * N + ?x - N)%nat] => replace (m * N + x - N)%nat with x by lia
             | |- context [(?m * N + ?x - 0)%nat] => replace (m * N + x - 0)%nat with x by lia
             | |- context [(0 * N + ?x)%nat] => replace (0 * N + x)%nat with x by lia
             end;
      rewrite ?A3, ?B3, ?C3, ?D3, ?E3, ?F3, ?G3, ?I3 by assumption;
      repeat match goal with
             | |- context [ssum N (fun i => 0 * @?f i)] => rewrite (ssum_0 N (fun i => 0 * f i)) by (intros; ring)
             | |- context [ssum N (fun i => @?f i * 0)] => rewrite (ssum_0 N (fun i => f i * 0)) by (intros; ring)
             end; try ring.
  Qed.

  Variables v0 v1 v2 v3 : vec R.
  Variables cx cy : nat -> R.
  Hypothesis V0 : ventries v0 u0 cx. Hypothesis V1 : ventries v1 u1 cy.
  Hypothesis V2 : ventries v2 u2 cx. Hypothesis V3 : ventries v3 u3 cy.
  Lemma addblocks4_entry (g : vec R) j : vlen g = (4 * N)%nat -> (j < 4 * N)%nat ->
    vget (addblocks4 N g v0 v1 v2 v3) j = vget g j + (ssum N (fun i => ux i j * cx i) + ssum N (fun i => uy i j * cy i)).
  Proof.
    destruct V0 as (A1 & A2), V1 as (B1 & B2), V2 as (C1 & C2), V3 as (D1 & D2).
    intros Hg Hj. unfold addblocks4, vaddseg. cbn [vget vlen]. rewrite A1, B1, C1, D1.
    apply quarter in Hj. destruct Hj as (p & j' & Hj & -> & Hp).
    assert (Cp : (p = 0 \/ p = 1 \/ p = 2 \/ p = 3)%nat) by lia. clear Hp. unfold ux, uy.
    destruct Cp as [->|[->|[->| ->]]]; bools; rsimpl;
      repeat match goal with
             | |- context [(?m * N + ?x - ?n * N)%nat] => replace (m * N + x - n * N)%nat with x by lia
             | |- context [(?m * N + ?x - N)%nat] => replace (m * N + x - N)%nat with x by lia
             | |- context [(?m * N + ?x - 0)%nat] => replace (m * N + x - 0)%nat with x by lia
             | |- context [(0 * N + ?x)%nat] => replace (0 * N + x)%nat with x by lia
             end;
      rewrite ?A2, ?B2, ?C2, ?D2 by assumption;
      repeat match goal with
             | |- context [ssum N (fun i => 0 * @?f i)] => rewrite (ssum_0 N (fun i => 0 * f i)) by (intros; ring)
             end; try ring.
  Qed.

  Definition axX (Y : nat -> R) (i : nat) : R := ssum N (fun k => u0 i k * Y k) + ssum N (fun k => u2 i k * Y (2 * N + k)%nat) + cx i.
  Definition axY (Y : nat -> R) (i : nat) : R := ssum N (fun k => u1 i k * Y (N + k)%nat) + ssum N (fun k => u3 i k * Y (3 * N + k)%nat) + cy i.
  Lemma pair_quad (x0 : vec R) d :
    quad (4 * N) (mget H) (vget (addblocks4 N (mv H x0) v0 v1 v2 v3)) d
    = / 2 * (ssum N (fun i => axX (fun k => vget x0 k + d k) i ^ 2) + ssum N (fun i => axY (fun k => vget x0 k + d k) i ^ 2))
      - / 2 * (ssum N (fun i => axX (vget x0) i ^ 2) + ssum N (fun i => axY (vget x0) i ^ 2)).
  Proof.
    rewrite (quad_ext (4 * N) _ (fun j k => ssum N (fun i => ux i j * ux i k) + 1 * ssum N (fun i => uy i j * uy i k)) _
      (fun j => ssum N (fun i => ux i j * (ssum (4 * N) (fun k => ux i k * vget x0 k) + cx i))
              + 1 * ssum N (fun i => uy i j * (ssum (4 * N) (fun k => uy i k * vget x0 k) + cy i))) d d).
    - rewrite quad_add, !quad_lsq. unfold axX, axY.
      rewrite (ssum_ext N (fun i => (ssum (4 * N) (fun k => ux i k * (vget x0 k + d k)) + cx i) ^ 2)
        (fun i => (ssum N (fun k => u0 i k * (vget x0 k + d k)) + ssum N (fun k => u2 i k * (vget x0 (2 * N + k)%nat + d (2 * N + k)%nat)) + cx i) ^ 2))
        by (intros; rewrite (ux_apply _ (fun k => vget x0 k + d k)); reflexivity).
      rewrite (ssum_ext N (fun i => (ssum (4 * N) (fun k => ux i k * vget x0 k) + cx i) ^ 2)
        (fun i => (ssum N (fun k => u0 i k * vget x0 k) + ssum N (fun k => u2 i k * vget x0 (2 * N + k)%nat) + cx i) ^ 2))
        by (intros; rewrite ux_apply; reflexivity).
      rewrite (ssum_ext N (fun i => (ssum (4 * N) (fun k => uy i k * (vget x0 k + d k)) + cy i) ^ 2)
        (fun i => (ssum N (fun k => u1 i k * (vget x0 (N + k)%nat + d (N + k)%nat)) + ssum N (fun k => u3 i k * (vget x0 (3 * N + k)%nat + d (3 * N + k)%nat)) + cy i) ^ 2))
        by (intros; rewrite (uy_apply _ (fun k => vget x0 k + d k)); reflexivity).
      rewrite (ssum_ext N (fun i => (ssum (4 * N) (fun k => uy i k * vget x0 k) + cy i) ^ 2)
        (fun i => (ssum N (fun k => u1 i k * vget x0 (N + k)%nat) + ssum N (fun k => u3 i k * vget x0 (3 * N + k)%nat) + cy i) ^ 2))
        by (intros; rewrite uy_apply; reflexivity).
      ring.
    - intros i j Hi Hj. rewrite blocks8_entry by assumption. ring.
    - intros j Hj. rewrite addblocks4_entry by (assumption || reflexivity). rewrite <- !lsq_grad.
      assert (E : vget (mv H x0) j = ssum (4 * N) (fun k => ssum N (fun i => ux i j * ux i k) * vget x0 k) + ssum (4 * N) (fun k => ssum N (fun i => uy i j * uy i k) * vget x0 k)).
      { cbn [mv vget]. change (mcols H) with (4 * N)%nat. rewrite <- ssum_plus. apply ssum_ext. intros k Hk. rewrite blocks8_entry by assumption. rsimpl. ring. }
      rewrite E. ring.
    - reflexivity.
  Qed.
End Pair.
