(** Proofs: every sample of the horizon is attributed to exactly one foot. *)

From Coq Require Import Reals List ZArith Arith Bool Lia Lra.
From Verif Require Import Scalar LinAlg LinAlgFacts ToolsModel InterpModel PolygonModel FootModel SupModel SupSpec SupFacts LipModel QPModel HumModel.
Import ListNotations.
Local Open Scope R_scope.

(** Row r of the two selection matrices: the support foot counts, and the steps. *)
Definition attributed (n : nat) (V : mat Z) (V0 : vec Z) (r : nat) : R := ssum n (fun c => IZR (mget V r c)) + IZR (vget V0 r).
Definition rows_inv (n : nat) (V : mat Z) (V0 : vec Z) (row : nat) : Prop :=
  (forall r, (r < row)%nat -> attributed n V V0 r = 1) /\ (forall r, (row <= r)%nat -> (forall c, mget V r c = 0%Z) /\ vget V0 r = 0%Z).

Section Cover.
Context {TK : Trig R}.
Lemma v0_cover fuel T n N : forall pt row V0 pt' row' V0', rows_inv n (MkMat N n (fun _ _ => 0%Z)) V0 row ->
  v0_loop fuel T pt N row V0 = Ok (pt', row', V0') ->
  rows_inv n (MkMat N n (fun _ _ => 0%Z)) V0' row' /\ pt' + INR row' * T = pt + INR row * T /\ (pt' <= T + EPS \/ (N <= row')%nat).
Proof.
  induction fuel as [|fuel IH]; intros pt row V0 pt' row' V0' I H; cbn [v0_loop] in H.
  - destruct (_ && _)%bool eqn:Eb; [discriminate|]. injection H as <- <- <-. split; [exact I|]. split; [reflexivity|]. apply andb_false_iff in Eb. destruct Eb as [Eb|Eb].
    + left. change (Rltb (T + EPS) pt = false) in Eb. apply Rltb_false in Eb. lra.
    + right. apply Nat.ltb_ge in Eb. exact Eb.
  - destruct (_ && _)%bool eqn:Eb.
    + apply IH in H; [|clear IH H Eb].
      * destruct H as (A & B & C). split; [exact A|]. split; [|exact C]. rewrite S_INR in B. change (pt - T)%sc with (pt - T) in B. lra.
      * destruct I as (I1 & I2). split; intros r Hr.
        -- destruct (Nat.eq_dec r row) as [->|Hne].
           ++ unfold attributed. cbn [vget mget]. rewrite Nat.eqb_refl. rewrite ssum_0 by reflexivity. ring.
           ++ unfold attributed. cbn [vget mget]. destruct (Nat.eqb_spec r row); [exfalso; lia|]. apply I1. lia.
        -- cbn [vget mget]. destruct (Nat.eqb_spec r row); [exfalso; lia|]. split; [reflexivity|]. apply I2. lia.
    + injection H as <- <- <-. split; [exact I|]. split; [reflexivity|]. apply andb_false_iff in Eb. destruct Eb as [Eb|Eb].
      * left. change (Rltb (T + EPS) pt = false) in Eb. apply Rltb_false in Eb. lra.
      * right. apply Nat.ltb_ge in Eb. exact Eb.
Qed.
Definition sel_inv (n : nat) (s : sup R) (x : R) (k : nat) (e : selst R) : Prop :=
  rows_inv n (eV e) (eV0 e) (eRow e) /\ mcols (eV e) = n /\ (k <= eRow e)%nat /\ eHor e + INR (eRow e) * sT s = x.
Lemma inner_cover n s x k0 ds j c fuel : forall pt e e', sel_inv n s x k0 e -> sel_inner fuel s ds j c pt e = Ok e' -> sel_inv n s x k0 e'.
Proof.
  induction fuel as [|fuel IH]; intros pt e e' I H; cbn [sel_inner] in H; destruct (_ && _)%bool; try discriminate; try (injection H as <-; exact I).
  destruct I as ((I1 & I2) & I3 & Ik & I4). destruct (ds && _)%bool.
  - apply IH in H; [exact H|]. clear IH H. split; [|split; [exact I3|split; [cbn [eRow]; lia|]]].
    + split; intros r Hr; cbn [eV eV0 eRow] in *.
      * destruct (Nat.eq_dec r (eRow e)) as [->|Hne].
        -- unfold attributed. cbn [vget]. rewrite Nat.eqb_refl. rewrite ssum_0 by (intros k _; rewrite (proj1 (I2 (eRow e) (Nat.le_refl _))); reflexivity). ring.
        -- unfold attributed. cbn [vget]. destruct (Nat.eqb_spec r (eRow e)); [exfalso; lia|]. apply I1. lia.
      * cbn [vget]. destruct (Nat.eqb_spec r (eRow e)); [exfalso; lia|]. apply I2. lia.
    + cbn [eHor eRow]. rewrite S_INR. change (eHor e - sT s)%sc with (eHor e - sT s). lra.
  - apply guard_ok in H. destruct H as (Hc & H). apply Nat.ltb_lt in Hc. rewrite I3 in Hc. apply IH in H; [exact H|]. clear IH H. split; [|split; [exact I3|split; [cbn [eRow]; lia|]]].
    + split; intros r Hr; cbn [eV eV0 eRow] in *.
      * destruct (Nat.eq_dec r (eRow e)) as [->|Hne].
        -- unfold attributed. destruct (I2 (eRow e) (Nat.le_refl _)) as (Z1 & Z2). rewrite Z2. rewrite (ssum_single n c); [|exact Hc|].
           ++ cbn [mset mget]. rewrite !Nat.eqb_refl. cbn [andb]. ring.
           ++ intros k _ Hk. cbn [mset mget]. destruct (Nat.eqb_spec k c); [lia|]. rewrite andb_false_r. rewrite Z1. reflexivity.
        -- unfold attributed. rewrite (ssum_ext n _ (fun k => IZR (mget (eV e) r k))); [apply I1; lia|]. intros k _. cbn [mset mget]. destruct (Nat.eqb_spec r (eRow e)); [exfalso; lia|]. reflexivity.
      * destruct (I2 r ltac:(lia)) as (Z1 & Z2). split; [|exact Z2]. intros k. cbn [mset mget]. destruct (Nat.eqb_spec r (eRow e)); [exfalso; lia|]. apply Z1.
    + cbn [eHor eRow]. rewrite S_INR. change (eHor e - sT s)%sc with (eHor e - sT s). lra.
Qed.
Lemma outer_cover n s x k0 ds fuel : forall j c e e', sel_inv n s x k0 e -> sel_outer fuel s ds j c e = Ok e' -> sel_inv n s x k0 e' /\ eHor e' <= - EPS.
Proof.
  induction fuel as [|fuel IH]; intros j c e e' I H; cbn [sel_outer] in H; destruct (sltb _ _) eqn:Eb; try discriminate;
    try (injection H as <-; split; [exact I|change (Rltb (- EPS) (eHor e) = false) in Eb; apply Rltb_false in Eb; lra]).
  apply bind_ok in H. destruct H as (p & _ & H). apply bind_ok in H. destruct H as (e1 & H1 & H). apply (inner_cover n s x k0) in H1; [|exact I]. exact (IH _ _ _ _ H1 H).
Qed.
(** Every sample is attributed to one foot, except, perhaps, the last one, when the time before the next
    phase is a whole number of periods and the tolerance. *)
Lemma selection_cover s e : selectionMatrix s = Ok e -> 0 < sT s ->
  (forall k, sttnp s <> INR k * sT s + EPS) -> forall r, (r < sN s)%nat -> attributed (snb s) (eV e) (eV0 e) r = 1.
Proof.
  unfold selectionMatrix. intros H HT Hk r Hr. apply guard_ok in H. destruct H as (_ & H). apply bind_ok in H. destruct H as (ds & _ & H).
  apply bind_ok in H. destruct H as (((pt & row) & V0) & H1 & H).
  apply (v0_cover _ _ (snb s)) in H1.
  - destruct H1 as (I & Ept & Hor). cbn [INR] in Ept.
    apply (outer_cover (snb s) s (INR (sN s) * sT s - sttnp s + INR row * sT s) row) in H.
    + destruct H as (((I1 & _) & _ & Hrow & E) & Hh). apply I1. destruct Hor as [Hor|Hor].
      * destruct (Nat.lt_ge_cases r (eRow e)) as [L|L]; [exact L|exfalso]. pose proof (Hk (S row)) as Hk'. rewrite S_INR in Hk'.
        assert (L1 : INR (eRow e) + 1 <= INR (sN s)) by (rewrite <- S_INR; apply le_INR; lia). apply Hk'. 
        assert (INR (sN s) * sT s - INR (eRow e) * sT s >= sT s) by nra. lra.
      * lia.
    + split; [exact I|]. split; [reflexivity|]. split; [apply Nat.le_refl|]. cbn [eHor eRow]. rewrite sofnat_INR. rsimpl. ring.
  - split; intros r' Hr'; [lia|]. split; reflexivity.
Qed.
End Cover.
