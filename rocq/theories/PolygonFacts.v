(** Facts about the convex polygon: memory safety, termination, membership (for any angle
    function), and the meaning of the generated constraints. *)

From Coq Require Import Reals List Lra Lia Arith Bool.
From Verif Require Import Scalar LinAlg LinAlgFacts PolygonModel.
Import ListNotations.
Local Open Scope R_scope.

Lemma foldM_ind {A B} (f : A -> B -> res A) (Inv : list B -> A -> Prop) l a :
  Inv [] a ->
  (forall pre b suf a, l = pre ++ b :: suf -> Inv pre a ->
     exists a', f a b = Ok a' /\ Inv (pre ++ [b]) a') ->
  exists r, foldM f l a = Ok r /\ Inv l r.
Proof.
  intros H0 HS.
  assert (G : forall suf pre a, l = pre ++ suf -> Inv pre a ->
            exists r, foldM f suf a = Ok r /\ Inv l r).
  { induction suf as [|b suf IH]; intros pre a1 E HI.
    - exists a1. split; [reflexivity|]. rewrite app_nil_r in E. subst l. assumption.
    - cbn [foldM]. destruct (HS pre b suf a1 E HI) as (a2 & -> & H2). cbn [bind].
      apply (IH (pre ++ [b])); [rewrite <- app_assoc; exact E|assumption]. }
  apply (G l []); auto.
Qed.

Lemma rd_ok {A} (l : list A) i : (i < length l)%nat -> exists a, rd l i = Ok a /\ nth_error l i = Some a.
Proof.
  intros H. unfold rd. destruct (nth_error l i) as [a|] eqn:E; [exists a; auto|].
  apply nth_error_None in E. lia.
Qed.
Lemma rd_inv {A} (l : list A) i a : rd l i = Ok a -> nth_error l i = Some a.
Proof. unfold rd. destruct (nth_error l i); [intros E; injection E as ->; reflexivity|discriminate]. Qed.
Lemma rd_some {A} (l : list A) i a : nth_error l i = Some a -> rd l i = Ok a.
Proof. unfold rd. intros ->. reflexivity. Qed.

Lemma seq_split_in pre b suf s n : seq s n = pre ++ b :: suf -> (s <= b < s + n)%nat.
Proof.
  intros E. assert (H : In b (seq s n)) by (rewrite E; apply in_or_app; right; left; reflexivity).
  apply in_seq in H. lia.
Qed.

Section Generic.
  Context {K : Type} {SK : Scalar K} {TK : Trig K}.
  Variable p : list (pt K).
  Notation n := (length p).

  Definition tabok (tab : list nat) : Prop := tab <> [] /\ Forall (fun i => (i < n)%nat) tab.

  Lemma tabok_hd tab : tabok tab -> exists h, rd tab 0 = Ok h /\ (h < n)%nat /\ tab = h :: tl tab.
  Proof.
    intros [H1 H2]. destruct tab as [|h t]; [contradiction|]. inversion H2; subst.
    exists h. auto.
  Qed.

  Lemma tabok_app tab i : tabok tab -> (i < n)%nat -> tabok (tab ++ [i]).
  Proof.
    intros [H1 H2] Hi. split.
    - destruct tab; discriminate.
    - apply Forall_app. split; [assumption|]. constructor; [assumption|constructor].
  Qed.
  Lemma tabok_single i : (i < n)%nat -> tabok [i].
  Proof. intros. split; [discriminate|]. constructor; [assumption|constructor]. Qed.

  Lemma low_step_ok tab i : tabok tab -> (i < n)%nat -> exists tab', low_step p tab i = Ok tab' /\ tabok tab'.
  Proof.
    intros HT Hi. unfold low_step. destruct (tabok_hd _ HT) as (h & -> & Hh & _). cbn [bind].
    destruct (rd_ok p i Hi) as (pi & -> & _). cbn [bind].
    destruct (rd_ok p h Hh) as (ph & -> & _). cbn [bind].
    destruct (sltb _ _); [exists [i]; split; [reflexivity|apply tabok_single; assumption]|].
    destruct (sltb _ _); [exists (tab ++ [i]); split; [reflexivity|apply tabok_app; assumption]|].
    exists tab; auto.
  Qed.

  Lemma pick_ok (g : nat -> nat -> res nat) tab :
    (forall a b, (a < n)%nat -> (b < n)%nat -> g a b = Ok a \/ g a b = Ok b) ->
    tabok tab ->
    exists h, rd tab 0 = Ok h /\ exists r, foldM g (tl tab) h = Ok r /\ (r < n)%nat.
  Proof.
    intros Hg HT. destruct (tabok_hd _ HT) as (h & E & Hh & Et). exists h. split; [assumption|].
    destruct HT as [_ HF]. rewrite Et in HF. inversion HF as [|? ? _ HF2]; subst.
    destruct (foldM_ind g (fun _ r => (r < n)%nat) (tl tab) h) as (r & E1 & E2); [assumption| |eauto].
    intros pre b suf a Esplit Ha. rewrite Esplit in HF2. apply Forall_app in HF2 as [_ HF3].
    inversion HF3; subst. destruct (Hg a b) as [-> | ->]; try assumption; eauto.
  Qed.

  Lemma getIndexOfLowest_ok : (0 < n)%nat -> exists i, getIndexOfLowest p = Ok i /\ (i < n)%nat.
  Proof.
    intros Hn. unfold getIndexOfLowest.
    destruct (foldM_ind (low_step p) (fun _ tab => tabok tab) (seq 1 (n - 1)) [0%nat]) as (tab & -> & HT).
    - apply tabok_single; assumption.
    - intros pre b suf tab E HT. apply low_step_ok; [assumption|].
      apply seq_split_in in E. lia.
    - cbn [bind].
      destruct (pick_ok (left_step p) tab) as (h & -> & r & Er & Hr); [|assumption|].
      + intros a b Ha Hb. unfold left_step. destruct (rd_ok p b Hb) as (pb & -> & _).
        destruct (rd_ok p a Ha) as (pa & -> & _). cbn [bind]. destruct (sltb _ _); auto.
      + cbn [bind]. destruct (Nat.ltb_spec 1 (length tab)) as [Hl|Hl].
        * rewrite Er. cbn [bind]. rewrite (proj2 (Nat.ltb_lt _ _) Hr). cbn. eauto.
        * cbn [bind]. assert (Ht : tl tab = []).
          { destruct tab as [|? [|? ?]]; cbn in *; try reflexivity. lia. }
          rewrite Ht in Er. cbn in Er. injection Er as ->.
          rewrite (proj2 (Nat.ltb_lt _ _) Hr). cbn. eauto.
  Qed.

  Lemma getIndexOfSmallestAngle_ok cur last :
    (2 <= n)%nat -> (cur < n)%nat ->
    exists i, getIndexOfSmallestAngle cur last p = Ok i /\ (i < n)%nat.
  Proof.
    intros Hn Hc. unfold getIndexOfSmallestAngle.
    destruct (foldM_ind (ang_step cur last p) (fun _ tab => tabok tab) (seq 1 (n - 1))
                [if Nat.eqb cur 0 then 1%nat else 0%nat]) as (tab & -> & HT).
    - apply tabok_single. destruct (Nat.eqb cur 0); lia.
    - intros pre b suf tab E HT. apply seq_split_in in E.
      unfold ang_step. destruct (rd_ok p cur Hc) as (c & -> & _). cbn [bind].
      assert (Hb : (b < n)%nat) by lia.
      destruct (rd_ok p b Hb) as (pb & -> & _). cbn [bind].
      destruct (isApprox pb c EPS); [eauto|].
      destruct (tabok_hd _ HT) as (h & -> & Hh & _). cbn [bind].
      destruct (rd_ok p h Hh) as (ph & -> & _). cbn [bind].
      destruct (sltb _ _); [exists [b]; split; [reflexivity|apply tabok_single; assumption]|].
      destruct (sltb _ _); [exists (tab ++ [b]); split; [reflexivity|apply tabok_app; assumption]|].
      exists tab; auto.
    - cbn [bind].
      destruct (pick_ok (far_step cur p) tab) as (h & -> & r & Er & Hr); [|assumption|].
      + intros a b Ha Hb. unfold far_step. destruct (rd_ok p cur Hc) as (c & -> & _).
        destruct (rd_ok p b Hb) as (pb & -> & _).
        destruct (rd_ok p a Ha) as (pa & -> & _). cbn [bind]. destruct (sltb _ _); auto.
      + cbn [bind]. destruct (Nat.ltb_spec 1 (length tab)) as [Hl|Hl]; [eauto|].
        assert (Ht : tl tab = []).
        { destruct tab as [|? [|? ?]]; cbn in *; try reflexivity. lia. }
        rewrite Ht in Er. cbn in Er. injection Er as ->. eauto.
  Qed.

  (** The loop never reads out of range and never needs more than n + 1 turns; every vertex
      it returns is an input point. *)
  Lemma hull_loop_safe fuel : forall acc index,
    (2 <= n)%nat -> (index < n)%nat -> acc <> [] ->
    (length acc <= n + 1)%nat -> (n + 2 <= fuel + length acc)%nat ->
    (forall q, In q acc -> In q p) ->
    (exists v, hull_loop fuel p acc index = Ok v /\ (forall q, In q v -> In q p)
               /\ exists tl, v = rev acc ++ tl)
    \/ hull_loop fuel p acc index = Abort.
  Proof.
    induction fuel as [|fuel IH]; intros acc index Hn Hi Ha Hl Hf Hin; [lia|].
    cbn [hull_loop]. destruct getIndexOfLowest_ok as (s & -> & Hs); [lia|]. cbn [bind].
    destruct (Nat.eqb_spec index s) as [E0|E0].
    - left. exists (rev acc). split; [reflexivity|]. split.
      + intros q Hq. apply Hin. apply in_rev. assumption.
      + exists []. rewrite app_nil_r. reflexivity.
    - destruct (Nat.leb_spec (length acc) n) as [Hle|Hgt]; [|right; reflexivity].
      cbn [guard bind]. destruct (rd_ok p index Hi) as (q & -> & Eq). cbn [bind].
      destruct acc as [|a0 acc]; [contradiction|].
      change (rd (q :: a0 :: acc) 1) with (Ok a0). cbn [bind].
      destruct (getIndexOfSmallestAngle_ok index a0 Hn Hi) as (i' & -> & Hi'). cbn [bind].
      destruct (IH (q :: a0 :: acc) i') as [(v & Ev & Hv & tl' & Et)|E].
      + assumption.
      + assumption.
      + discriminate.
      + cbn [length] in *. lia.
      + cbn [length] in *. lia.
      + intros x [<-|Hx]; [apply nth_error_In in Eq; assumption|apply Hin; assumption].
      + left. exists v. split; [assumption|]. split; [assumption|].
        exists (q :: tl'). rewrite Et. cbn [rev]. rewrite <- !app_assoc. reflexivity.
      + right. assumption.
  Qed.

  Lemma extractVertices_safe :
    (2 <= n)%nat ->
    (exists v i q, extractVertices p = Ok v /\ (forall x, In x v -> In x p)
       /\ getIndexOfLowest p = Ok i /\ nth_error p i = Some q /\ hd_error v = Some q)
    \/ extractVertices p = Abort.
  Proof.
    intros Hn. unfold extractVertices, extractVertices_fuel.
    destruct p as [|p0 p'] eqn:Ep; [cbn in Hn; lia|]. rewrite <- Ep in *.
    destruct getIndexOfLowest_ok as (i & Ei & Hi); [lia|]. rewrite Ei. cbn [bind].
    destruct (rd_ok p i Hi) as (q & Eq & Eq2). rewrite Eq. cbn [bind].
    destruct (getIndexOfSmallestAngle_ok i (fst q - s1, snd q)%sc Hn Hi) as (i' & -> & Hi'). cbn [bind].
    destruct (hull_loop_safe (n + 1) [q] i') as [(v & Ev & Hv & tl' & Et)|E]; try assumption.
    - discriminate.
    - cbn [length]; lia.
    - cbn [length]; lia.
    - intros x [<-|[]]. apply nth_error_In in Eq2. assumption.
    - left. exists v, i, q. repeat split; try assumption.
      rewrite Et. reflexivity.
    - right. assumption.
  Qed.
End Generic.

Lemma extractVertices_one {K} {SK : Scalar K} {TK : Trig K} (a : pt K) : extractVertices [a] = UB.
Proof. reflexivity. Qed.

(** The first vertex: lowest up to the tolerance, leftmost among the exactly lowest ones. *)
Section Lowest.
  Variable p : list (pt R).
  Notation n := (length p).
  Notation Y i := (snd (nth i p (0, 0))).
  Notation X i := (fst (nth i p (0, 0))).

  Lemma rd_nth i (d : pt R) : (i < n)%nat -> rd p i = Ok (nth i p d).
  Proof.
    intros Hi. unfold rd. rewrite (nth_error_nth' p d Hi). reflexivity.
  Qed.

  Definition low_inv (m : nat) (tab : list nat) : Prop :=
    exists h t, tab = h :: t /\ (h < m)%nat /\ (forall j, (j < m)%nat -> Y h <= Y j)
      /\ (forall j, In j tab -> (j < m)%nat /\ Y j < Y h + 1/10000)
      /\ (forall j, (j < m)%nat -> Y j = Y h -> In j tab).

  Lemma low_scan_inv : (0 < n)%nat ->
    exists tab, foldM (low_step p) (seq 1 (n - 1)) [0%nat] = Ok tab /\ low_inv n tab.
  Proof.
    intros Hn.
    destruct (foldM_ind (low_step p) (fun pre tab => low_inv (1 + length pre) tab)
                (seq 1 (n - 1)) [0%nat]) as (tab & E & HI).
    - exists 0%nat, []. split; [reflexivity|]. split; [cbn; lia|]. split; [|split].
      + intros j Hj. cbn in Hj. replace j with 0%nat by lia. lra.
      + intros j [<-|[]]. split; [cbn; lia|lra].
      + intros j Hj _. left. cbn in Hj. lia.
    - intros pre b suf tab E (h & t & -> & Hh & H1 & H2 & H3).
      assert (Hb : b = (1 + length pre)%nat).
      { assert (Hlen : (length pre < n - 1)%nat).
        { apply (f_equal (@length nat)) in E. rewrite seq_length, app_length in E. cbn in E. lia. }
        apply (f_equal (fun l => nth (length pre) l 0%nat)) in E.
        rewrite seq_nth in E by assumption. rewrite app_nth2, Nat.sub_diag in E by lia. cbn in E. lia. }
      assert (Hbn : (b < n)%nat) by (apply seq_split_in in E; lia).
      unfold low_step. change (rd (h :: t) 0) with (Ok h). cbn [bind].
      rewrite (rd_nth b (0,0)), (rd_nth h (0,0)) by lia. cbn [bind].
      rewrite app_length. cbn [length]. replace (1 + (length pre + 1))%nat with (1 + b)%nat by lia.
      rsimpl. rewrite sabs_Rabs.
      destruct (Rltb_spec (Y b) (Y h)) as [Hlt|Hge].
      + exists [b]. split; [reflexivity|]. exists b, []. split; [reflexivity|]. split; [lia|]. split; [|split].
        * intros j Hj. destruct (Nat.eq_dec j b) as [->|Hne]; [lra|].
          assert (Y h <= Y j) by (apply H1; lia). lra.
        * intros j [<-|[]]. split; [lia|lra].
        * intros j Hj Ej. destruct (Nat.eq_dec j b) as [->|Hne]; [left; reflexivity|].
          assert (Y h <= Y j) by (apply H1; lia). lra.
      + destruct (Rltb_spec (Rabs (Y b - Y h)) (1/10000)) as [Hc|Hc].
        * exists ((h :: t) ++ [b]). split; [reflexivity|]. exists h, (t ++ [b]).
          split; [reflexivity|]. split; [lia|]. split; [|split].
          -- intros j Hj. destruct (Nat.eq_dec j b) as [->|Hne]; [lra|apply H1; lia].
          -- intros j Hj. apply in_app_or in Hj as [Hj|[<-|[]]].
             ++ destruct (H2 j Hj). split; [lia|assumption].
             ++ split; [lia|]. pose proof (Rle_abs (Y b - Y h)). lra.
          -- intros j Hj Ej. apply in_or_app. destruct (Nat.eq_dec j b) as [->|Hne]; [right; left; reflexivity|].
             left. apply H3; [lia|assumption].
        * exists (h :: t). split; [reflexivity|]. exists h, t. split; [reflexivity|]. split; [lia|]. split; [|split].
          -- intros j Hj. destruct (Nat.eq_dec j b) as [->|Hne]; [lra|apply H1; lia].
          -- intros j Hj. destruct (H2 j Hj). split; [lia|assumption].
          -- intros j Hj Ej. destruct (Nat.eq_dec j b) as [->|Hne]; [|apply H3; [lia|assumption]].
             exfalso. apply Hc. rewrite Ej. replace (Y h - Y h) with 0 by ring. rewrite Rabs_R0. lra.
    - exists tab. split; [assumption|]. rewrite seq_length in HI.
      replace (1 + (n - 1))%nat with n in HI by lia. assumption.
  Qed.

  Lemma getIndexOfLowest_spec : (0 < n)%nat ->
    exists i h, getIndexOfLowest p = Ok i /\ (i < n)%nat /\ (h < n)%nat
      /\ (forall j, (j < n)%nat -> Y h <= Y j) /\ Y i < Y h + 1/10000
      /\ (forall j, (j < n)%nat -> Y j = Y h -> X i <= X j).
  Proof.
    intros Hn. unfold getIndexOfLowest.
    destruct (low_scan_inv Hn) as (tab & -> & h & t & -> & Hh & H1 & H2 & H3). cbn [bind].
    change (rd (h :: t) 0) with (Ok h). cbn [bind tl].
    assert (G : exists r, (if Nat.ltb 1 (length (h :: t)) then foldM (left_step p) t h else Ok h) = Ok r
              /\ In r (h :: t) /\ forall j, In j (h :: t) -> X r <= X j).
    { destruct t as [|t0 t'].
      - exists h. split; [reflexivity|]. split; [left; reflexivity|]. intros j [<-|[]]. lra.
      - change (Nat.ltb 1 (length (h :: t0 :: t'))) with true. cbv iota.
        destruct (foldM_ind (left_step p)
          (fun pre r => In r (h :: pre) /\ forall j, In j (h :: pre) -> X r <= X j) (t0 :: t') h)
          as (r & E & HI).
        + split; [left; reflexivity|]. intros j [<-|[]]. lra.
        + intros pre b suf a E (Ha1 & Ha2).
          assert (Hb : In b (h :: t0 :: t')).
          { right. rewrite E. apply in_or_app. right. left. reflexivity. }
          assert (Ha : In a (h :: t0 :: t')).
          { destruct Ha1 as [->|Ha1]; [left; reflexivity|right]. rewrite E. apply in_or_app. left. assumption. }
          unfold left_step. destruct (H2 b Hb) as [Hb1 _]. destruct (H2 a Ha) as [Hx _].
          rewrite (rd_nth b (0,0)), (rd_nth a (0,0)) by lia. cbn [bind]. rsimpl.
          destruct (Rltb_spec (X b) (X a)) as [Hlt|Hge].
          * exists b. split; [reflexivity|]. split.
            -- right. apply in_or_app. right. left. reflexivity.
            -- intros j [<-|Hj].
               ++ assert (X a <= X h) by (apply Ha2; left; reflexivity). lra.
               ++ apply in_app_or in Hj as [Hj|[<-|[]]]; [|lra].
                  assert (X a <= X j) by (apply Ha2; right; assumption). lra.
          * exists a. split; [reflexivity|]. split.
            -- destruct Ha1 as [->|Ha1]; [left; reflexivity|right; apply in_or_app; left; assumption].
            -- intros j [<-|Hj]; [apply Ha2; left; reflexivity|].
               apply in_app_or in Hj as [Hj|[<-|[]]]; [apply Ha2; right; assumption|lra].
        + exists r. split; [assumption|]. exact HI. }
    destruct G as (r & -> & Hr & Hmin). cbn [bind].
    destruct (H2 r Hr) as [Hrn Hry]. rewrite (proj2 (Nat.ltb_lt _ _) Hrn). cbn [guard bind].
    exists r, h. repeat split; try assumption.
    intros j Hj Ej. apply Hmin. apply H3; assumption.
  Qed.
End Lowest.

(** ** The constraints of a polygon *)

(** Inner side of the directed edge a -> b. *)
Definition inner (e : pt R * pt R) (x : pt R) : Prop :=
  pcross (psub (snd e) (fst e)) (psub x (fst e)) >= 0.
(** What the polygon's accessors express. *)
Definition satisfies (g : polygon R) (x : pt R) : Prop :=
  xInf g <= fst x <= xSup g /\ yInf g <= snd x <= ySup g
  /\ Forall (fun c => let '(a, b, k) := c in a * fst x + b * snd x + k <= 0) (pgen g).

(** Edges that are axis aligned up to the tolerance are exactly axis aligned, and not reduced
    to a point. *)
Definition sharp_edge (e : pt R * pt R) : Prop :=
  let dx := fst (snd e) - fst (fst e) in let dy := snd (snd e) - snd (fst e) in
  (Rabs dx < 1/10000 -> dx = 0 /\ dy <> 0) /\ (Rabs dy < 1/10000 -> dy = 0 /\ dx <> 0).

(** In terms of one edge. *)
Inductive ekind := KUp | KDown | KLeft | KRight | KGen.
Definition kind (e : pt R * pt R) : ekind :=
  let dx := fst (snd e) - fst (fst e) in let dy := snd (snd e) - snd (fst e) in
  if Rlt_dec (Rabs dx) (1/10000) then (if Rlt_dec dy 0 then KDown else KUp)
  else if Rlt_dec (Rabs dy) (1/10000) then (if Rlt_dec dx 0 then KLeft else KRight)
  else KGen.

(** The constraint added for one edge. *)
Definition econstr (e : pt R * pt R) (x : pt R) : Prop :=
  let a := fst e in let b := snd e in
  match kind e with
  | KUp => fst x <= fst a
  | KDown => fst a <= fst x
  | KLeft => snd x <= snd a
  | KRight => snd a <= snd x
  | KGen => (snd b - snd a) * fst x + (fst a - fst b) * snd x
            + ((fst b - fst a) * snd a - (snd b - snd a) * fst a) <= 0
  end.

Lemma edge_step_kind g a b :
  edge_step g a b =
  match kind (a, b) with
  | KUp => MkPoly (pverts g) (fst a) (xInf g) (ySup g) (yInf g) (pgen g)
  | KDown => MkPoly (pverts g) (xSup g) (fst a) (ySup g) (yInf g) (pgen g)
  | KLeft => MkPoly (pverts g) (xSup g) (xInf g) (snd a) (yInf g) (pgen g)
  | KRight => MkPoly (pverts g) (xSup g) (xInf g) (ySup g) (snd a) (pgen g)
  | KGen => MkPoly (pverts g) (xSup g) (xInf g) (ySup g) (yInf g)
              (pgen g ++ [(snd b - snd a, fst a - fst b,
                           (fst b - fst a) * snd a - (snd b - snd a) * fst a)])
  end.
Proof.
  unfold edge_step, kind. cbn [psub fst snd]. rewrite !sabs_Rabs. rsimpl.
  unfold Rltb. destruct (Rlt_dec (Rabs (fst b - fst a)) (1/10000)).
  - destruct (Rlt_dec (snd b - snd a) 0); reflexivity.
  - destruct (Rlt_dec (Rabs (snd b - snd a)) (1/10000)); [|reflexivity].
    destruct (Rlt_dec (fst b - fst a) 0); reflexivity.
Qed.

Lemma econstr_inner e x : sharp_edge e -> (econstr e x <-> inner e x).
Proof.
  destruct e as [[ax ay] [bx by_]], x as [x y].
  unfold sharp_edge, econstr, inner, kind, pcross, psub. cbn [fst snd]. rsimpl. intros [H1 H2].
  destruct (Rlt_dec (Rabs (bx - ax)) (1/10000)) as [Hx|Hx].
  - destruct (H1 Hx) as [E1 E2]. rewrite E1.
    destruct (Rlt_dec (by_ - ay) 0) as [Hd|Hd].
    + split; intros H; nra.
    + assert (0 < by_ - ay) by lra. split; intros H0; nra.
  - destruct (Rlt_dec (Rabs (by_ - ay)) (1/10000)) as [Hy|Hy].
    + destruct (H2 Hy) as [E1 E2]. rewrite E1.
      destruct (Rlt_dec (bx - ax) 0) as [Hd|Hd].
      * split; intros H; nra.
      * assert (0 < bx - ax) by lra. split; intros H0; nra.
    + split; intros H; nra.
Qed.

(** Bounds and constraints after processing the edges [es]: a bound is either the initial one
    or the value of some edge of the matching kind. *)
Definition cstep (g : polygon R) (e : pt R * pt R) := edge_step g (fst e) (snd e).

Lemma cfold_sound es : forall g x,
  satisfies (fold_left cstep es g) x -> 
  Forall (fun c => let '(a, b, k) := c in a * fst x + b * snd x + k <= 0) (pgen g)
  /\ Forall (fun e => kind e = KGen -> econstr e x) es.
Proof.
  induction es as [|[a b] es IH]; intros g x H; cbn [fold_left] in H.
  - split; [apply H|constructor].
  - destruct (IH _ _ H) as [H1 H2]. unfold cstep in H1. cbn [fst snd] in H1.
    rewrite edge_step_kind in H1.
    destruct (kind (a, b)) eqn:Ek; cbn [pgen] in H1;
      try (split; [assumption|constructor; [rewrite Ek; discriminate|assumption]]).
    apply Forall_app in H1 as [H1 H3]. split; [assumption|]. constructor; [|assumption].
    intros _. unfold econstr. rewrite Ek. cbn [fst snd]. inversion H3; subst. assumption.
Qed.

(** Final value of each bound. *)
Definition last_of (k : ekind) (f : pt R -> R) (es : list (pt R * pt R)) (d : R) : R :=
  fold_left (fun acc e => match kind e, k with
                          | KUp, KUp => f (fst e) | KDown, KDown => f (fst e)
                          | KLeft, KLeft => f (fst e) | KRight, KRight => f (fst e)
                          | _, _ => acc end) es d.

Lemma cfold_bounds es : forall g,
  let r := fold_left cstep es g in
  xSup r = last_of KUp fst es (xSup g) /\ xInf r = last_of KDown fst es (xInf g)
  /\ ySup r = last_of KLeft snd es (ySup g) /\ yInf r = last_of KRight snd es (yInf g)
  /\ pverts r = pverts g
  /\ pgen r = pgen g ++ flat_map (fun e => match kind e with KGen =>
        [(snd (snd e) - snd (fst e), fst (fst e) - fst (snd e),
          (fst (snd e) - fst (fst e)) * snd (fst e) - (snd (snd e) - snd (fst e)) * fst (fst e))]
        | _ => [] end) es.
Proof.
  induction es as [|[a b] es IH]; intros g; cbn [fold_left].
  - cbn. rewrite app_nil_r. auto 10.
  - destruct (IH (cstep g (a, b))) as (E1 & E2 & E3 & E4 & E5 & E6). cbv zeta in *.
    rewrite E1, E2, E3, E4, E5, E6. unfold last_of. cbn [fold_left flat_map]. unfold cstep. cbn [fst snd].
    rewrite edge_step_kind.
    destruct (kind (a, b)) eqn:Ek; cbn [xSup xInf ySup yInf pverts pgen fst snd app];
      rewrite <- ?app_assoc; auto 10.
Qed.

Lemma last_of_cases k f es d :
  last_of k f es d = d /\ (forall e, In e es -> kind e <> k \/ k = KGen)
  \/ exists e, In e es /\ kind e = k /\ last_of k f es d = f (fst e).
Proof.
  revert d. induction es as [|e es IH]; intros d.
  - left. split; [reflexivity|]. intros e [].
  - unfold last_of. cbn [fold_left].
    match goal with |- context [fold_left ?F es ?D] => change (fold_left F es D) with (last_of k f es D) end.
    destruct (IH (match kind e, k with
                          | KUp, KUp => f (fst e) | KDown, KDown => f (fst e)
                          | KLeft, KLeft => f (fst e) | KRight, KRight => f (fst e)
                          | _, _ => d end)) as [[E H]|(e' & H1 & H2 & H3)].
    + destruct k; destruct (kind e) eqn:Ek; rewrite E;
        try (right; exists e; split; [left; reflexivity|]; split; [assumption|reflexivity]);
        (left; split; [reflexivity|]; intros e' [<-|He']; [first [left; congruence|right; reflexivity]|apply H; assumption]).
    + right. exists e'. split; [right; assumption|]. split; assumption.
Qed.

(** A vertex that is the start of an axis aligned edge, seen by all inner edges. *)
Lemma kind_agree es k f :
  (k = KUp /\ f = fst \/ k = KDown /\ f = fst \/ k = KLeft /\ f = snd \/ k = KRight /\ f = snd) ->
  (forall e, In e es -> sharp_edge e) ->
  (forall e e', In e es -> In e' es -> inner e (fst e')) ->
  forall e e', In e es -> In e' es -> kind e = k -> kind e' = k -> f (fst e) = f (fst e' : pt R) :> R.
Proof.
  intros Hk Hs Hc e e' He He' Ek Ek'.
  pose proof (proj2 (econstr_inner e (fst e') (Hs e He)) (Hc e e' He He')) as H1.
  pose proof (proj2 (econstr_inner e' (fst e) (Hs e' He')) (Hc e' e He' He)) as H2.
  unfold econstr in H1, H2. rewrite Ek in H1. rewrite Ek' in H2.
  destruct Hk as [[-> ->]|[[-> ->]|[[-> ->]|[-> ->]]]]; lra.
Qed.

Lemma Rabs_le_both x b : Rabs x <= b -> - b <= x <= b.
Proof.
  intros H. pose proof (Rle_abs x). pose proof (Rle_abs (- x)) as H2. rewrite Rabs_Ropp in H2. lra.
Qed.

Definition in_box (x : pt R) : Prop :=
  Rabs (fst x) <= 100000000000 /\ Rabs (snd x) <= 100000000000.

(** A closed polygon given by its vertices is convex and counter clockwise when every vertex
    is on the inner side of every edge. *)
Definition convex_ccw (v : list (pt R)) : Prop :=
  forall e q, In e (edges v) -> In q v -> inner e q.

Lemma edges_fst (v : list (pt R)) e : In e (edges v) -> In (fst e) v.
Proof.
  destruct v as [|q l]; [intros []|]. unfold edges. destruct e as [a b]. intros H.
  apply in_combine_l in H. assumption.
Qed.

Lemma polygon_constraints v x :
  (forall e, In e (edges v) -> sharp_edge e) -> convex_ccw v -> in_box x ->
  (satisfies (polygon_of_vertices v) x <-> forall e, In e (edges v) -> inner e x).
Proof.
  intros Hs Hc Hb. unfold polygon_of_vertices, computeBounds. cbn [pverts].
  change (fun g e => edge_step g (fst e) (snd e)) with cstep.
  pose proof (cfold_bounds (edges v) (MkPoly v MAXB (- MAXB)%sc MAXB (- MAXB)%sc [])) as HB.
  cbv zeta in HB. destruct HB as (E1 & E2 & E3 & E4 & _ & E6).
  assert (Hcc : forall e e', In e (edges v) -> In e' (edges v) -> inner e (fst e')).
  { intros e e' He He'. apply Hc; [assumption|apply edges_fst; assumption]. }
  unfold satisfies. rewrite E1, E2, E3, E4, E6. cbn [xSup xInf ySup yInf pgen app]. rsimpl. clear E1 E2 E3 E4 E6.
  destruct Hb as [Hb1 Hb2]. apply Rabs_le_both in Hb1. apply Rabs_le_both in Hb2.
  split.
  - intros ((H1 & H2) & (H3 & H4) & H5) e He. apply econstr_inner; [apply Hs; assumption|].
    unfold econstr. destruct (kind e) eqn:Ek.
    + destruct (last_of_cases KUp fst (edges v) 100000000000) as [[_ H]|(e' & He' & Ek' & E)].
      { destruct (H e He); congruence. }
      rewrite E in H2. rewrite (kind_agree (edges v) KUp fst ltac:(auto) Hs Hcc e e'); assumption.
    + destruct (last_of_cases KDown fst (edges v) (Ropp 100000000000)) as [[_ H]|(e' & He' & Ek' & E)].
      { destruct (H e He); congruence. }
      rewrite E in H1. rewrite (kind_agree (edges v) KDown fst ltac:(auto) Hs Hcc e e'); assumption.
    + destruct (last_of_cases KLeft snd (edges v) 100000000000) as [[_ H]|(e' & He' & Ek' & E)].
      { destruct (H e He); congruence. }
      rewrite E in H4. rewrite (kind_agree (edges v) KLeft snd ltac:(auto) Hs Hcc e e'); assumption.
    + destruct (last_of_cases KRight snd (edges v) (Ropp 100000000000)) as [[_ H]|(e' & He' & Ek' & E)].
      { destruct (H e He); congruence. }
      rewrite E in H3. rewrite (kind_agree (edges v) KRight snd ltac:(auto) Hs Hcc e e'); assumption.
    + rewrite Forall_forall in H5. 
      specialize (H5 (snd (snd e) - snd (fst e), fst (fst e) - fst (snd e),
          (fst (snd e) - fst (fst e)) * snd (fst e) - (snd (snd e) - snd (fst e)) * fst (fst e))).
      apply H5. apply in_flat_map. exists e. split; [assumption|]. rewrite Ek. left. reflexivity.
  - intros H.
    assert (HE : forall e, In e (edges v) -> econstr e x).
    { intros e He. apply econstr_inner; [apply Hs|apply H]; assumption. }
    assert (A1 : fst x <= last_of KUp fst (edges v) 100000000000).
    { destruct (last_of_cases KUp fst (edges v) 100000000000) as [[-> _]|(e' & He' & Ek' & ->)]; [lra|].
      specialize (HE e' He'). unfold econstr in HE. rewrite Ek' in HE. assumption. }
    assert (A2 : last_of KDown fst (edges v) (Ropp 100000000000) <= fst x).
    { destruct (last_of_cases KDown fst (edges v) (Ropp 100000000000)) as [[-> _]|(e' & He' & Ek' & ->)]; [lra|].
      specialize (HE e' He'). unfold econstr in HE. rewrite Ek' in HE. assumption. }
    assert (A3 : snd x <= last_of KLeft snd (edges v) 100000000000).
    { destruct (last_of_cases KLeft snd (edges v) 100000000000) as [[-> _]|(e' & He' & Ek' & ->)]; [lra|].
      specialize (HE e' He'). unfold econstr in HE. rewrite Ek' in HE. assumption. }
    assert (A4 : last_of KRight snd (edges v) (Ropp 100000000000) <= snd x).
    { destruct (last_of_cases KRight snd (edges v) (Ropp 100000000000)) as [[-> _]|(e' & He' & Ek' & ->)]; [lra|].
      specialize (HE e' He'). unfold econstr in HE. rewrite Ek' in HE. assumption. }
    split; [split; assumption|]. split; [split; assumption|].
    apply Forall_forall. intros [[a b] k] Hin. apply in_flat_map in Hin as (e & He & Hin).
    specialize (HE e He). unfold econstr in HE.
    destruct (kind e) eqn:Ek; try (destruct Hin; fail).
    destruct Hin as [E|[]]. injection E as <- <- <-. assumption.
Qed.
