(** Property C72: the humanoid walk generator always has an admissible motion. *)

From Coq Require Import Reals List ZArith Arith Bool Lra Lia FunctionalExtensionality Classical_Prop.
From Verif Require Import Scalar LinAlg LinAlgFacts ToolsModel ToolsSpec NoDynModel PolygonModel PolygonFacts QPModel QPFacts TrajModel LipModel FootModel
  ModelsSpec ModelsFacts SupModel SupSpec SupFacts SupTime SupWalk PropQP PropSup HumModel HumAlg HumSpec HumFacts HumObj HumProb HumWorld HumRunSpec HumRun PropHum PropHumSolve PropHumStart
  HumOptSpec PropHumOpt HumSafeSpec PropHumSafe HullFacts HumPlanSpec.
From Verif Require PropPolygon.
Import ListNotations.
Local Open Scope R_scope.

Section Plan.
Context {TK : Trig R}.

Lemma finite_choice {A} (P : nat -> A -> Prop) n : (forall i, (i < n)%nat -> exists a, P i a) -> A -> exists f, forall i, (i < n)%nat -> P i (f i).
Proof.
  intros H a0. induction n as [|n IH]; [exists (fun _ => a0); intros; lia|]. destruct IH as (f & Hf); [intros i Hi; apply H; lia|]. destruct (H n) as (a & Ha); [lia|].
  exists (fun i => if Nat.eqb i n then a else f i). intros i Hi. destruct (Nat.eqb_spec i n) as [->|Ne]; [exact Ha|]. apply Hf. lia.
Qed.
(** A decision vector from its centres of pressure and steps *)
Definition assemble (N M : nat) (c z : nat -> pt R) (k : nat) : R :=
  if Nat.ltb k N then fst (c k) else if Nat.ltb k (2 * N) then snd (c (k - N)%nat)
  else if Nat.ltb k (2 * N + M) then fst (z (k - 2 * N)%nat) else snd (z (k - (2 * N + M))%nat).
Lemma assembled N M c z : (forall i, (i < N)%nat -> dCopX (assemble N M c z) i = fst (c i) /\ dCopY N (assemble N M c z) i = snd (c i))
  /\ (forall k, (k < M)%nat -> dStepX N (assemble N M c z) k = fst (z k) /\ dStepY N M (assemble N M c z) k = snd (z k)).
Proof.
  split; intros i Hi; unfold dCopX, dCopY, dStepX, dStepY, assemble; repeat match goal with |- context [Nat.ltb ?a ?b] => destruct (Nat.ltb_spec a b); try lia end; split; repeat f_equal; try lia.
Qed.
Lemma slope_small a b x y m d : Rabs a <= m -> Rabs b <= m -> Rabs x <= d -> Rabs y <= d -> Rabs (a * x + b * y) <= 2 * m * d.
Proof.
  intros Ha Hb Hx Hy. pose proof (Rabs_triang (a * x) (b * y)) as T. rewrite !Rabs_mult in T. pose proof (Rabs_pos a). pose proof (Rabs_pos b). pose proof (Rabs_pos x). pose proof (Rabs_pos y). nra.
Qed.
Lemma near2 x y a b : Rabs x <= a -> Rabs y <= b -> Rabs (x - y) <= a + b.
Proof. intros Hx Hy. pose proof (Rabs_triang x (- y)) as T. rewrite Rabs_Ropp in T. unfold Rminus. lra. Qed.
Lemma near3 x y a b : Rabs x <= a -> Rabs y <= b -> Rabs (x + y) <= a + b.
Proof. intros Hx Hy. pose proof (Rabs_triang x y). lra. Qed.

(** ** Polygons *)
Lemma edges_snd (v : list (pt R)) e : In e (edges v) -> In (snd e) v.
Proof.
  destruct v as [|q l]; [intros []|]. unfold edges. destruct e as (a & b). intros H. apply in_combine_r in H. apply in_app_or in H. destruct H as [H|[<-|[]]]; [right; exact H|left; reflexivity].
Qed.
Lemma fold_gen es : forall (g : polygon R) s, In s (pgen (fold_left (fun g e => edge_step g (fst e) (snd e)) es g)) ->
  In s (pgen g) \/ exists e, In e es /\ s = (snd (snd e) - snd (fst e), fst (fst e) - fst (snd e), (fst (snd e) - fst (fst e)) * snd (fst e) - (snd (snd e) - snd (fst e)) * fst (fst e)).
Proof.
  induction es as [|e es IH]; intros g s H; cbn [fold_left] in H; [left; exact H|]. apply IH in H. destruct H as [H|(e' & H & E)]; [|right; exists e'; split; [right; exact H|exact E]].
  unfold edge_step in H. destruct (sltb _ _) in H; [destruct (sltb _ _) in H; left; exact H|]. destruct (sltb _ _) in H; [destruct (sltb _ _) in H; left; exact H|].
  cbn [pgen] in H. apply in_app_or in H. destruct H as [H|[<-|[]]]; [left; exact H|]. right. exists e. split; [left; reflexivity|]. rsimpl. reflexivity.
Qed.
Lemma good_sides p s : good_polygon p -> In s (pgen p) -> Rabs (fst (fst s)) <= 10000 /\ Rabs (snd (fst s)) <= 10000.
Proof.
  intros (v & -> & _ & _ & _ & B) H. unfold polygon_of_vertices, computeBounds in H. apply fold_gen in H. destruct H as [H|(e & H & ->)]; [destruct H|]. cbn [pverts] in H.
  pose proof (edges_fst _ _ H) as H1. pose proof (edges_snd _ _ H) as H2. destruct (B _ H1) as (B1 & B2), (B _ H2) as (B3 & B4). cbn [fst snd].
  split; eapply Rle_trans; try (apply near2; eassumption); lra.
Qed.
Definition holds_a_point (p : polygon R) : Prop := exists q, Rabs (fst q) <= 10000 /\ Rabs (snd q) <= 10000 /\ satisfies p q.
Lemma good_holds p : good_polygon p -> holds_a_point p.
Proof.
  intros (v & -> & N & C & S & B). destruct v as [|q v]; [contradiction|]. destruct (B q (or_introl eq_refl)) as (B1 & B2). exists q. split; [lra|]. split; [lra|].
  apply polygon_constraints; [exact S|exact C|split; lra|]. intros e He. apply C; [exact He|left; reflexivity].
Qed.

(** ** C72 *)
Theorem C72_admissible_motion : forall h fx fy, ordinary h fx fy -> good_polygons h -> can_step h fx fy -> exists Y, permitted_plan h fx fy Y.
Proof.
  intros h fx fy (OX & Of) (GC & GK) Hst.
  assert (PC : hcopC h = true -> forall i p, (i < lN (hlip h))%nat -> s_getCopConvexPolygon i (hsup h) = Ok p -> holds_a_point p) by (intros E i p Hi Hp; exact (good_holds _ (GC E i p Hi Hp))).
  assert (PK : hfeetC h = true -> forall k p, (k < snb (hsup h))%nat -> s_getKinematicConvexPolygon k (hsup h) = Ok p -> holds_a_point p) by (intros E i p Hi Hp; exact (good_holds _ (GK E i p Hi Hp))).
  assert (Oc : hcopC h = true -> forall i p, (i < lN (hlip h))%nat -> s_getCopConvexPolygon i (hsup h) = Ok p -> forall s, In s (pgen p) -> Rabs (fst (fst s)) <= 10000 /\ Rabs (snd (fst s)) <= 10000) by (intros E i p Hi Hp s; exact (good_sides _ _ (GC E i p Hi Hp))).
  assert (Os : hfeetC h = true -> forall k p, (k < snb (hsup h))%nat -> s_getKinematicConvexPolygon k (hsup h) = Ok p -> forall s, In s (pgen p) -> Rabs (fst (fst s)) <= 10000 /\ Rabs (snd (fst s)) <= 10000) by (intros E i p Hi Hp s; exact (good_sides _ _ (GK E i p Hi Hp))).
  clear GC GK. set (N := lN (hlip h)) in *. set (M := snb (hsup h)) in *. set (X := vget (hX h)) in *. set (D := 10000) in *.
  assert (OXc : forall i, (i < N)%nat -> Rabs (dCopX X i) <= D /\ Rabs (dCopY N X i) <= D) by (intros i Hi; split; apply OX; lia).
  assert (OXs : forall k, (k < M)%nat -> Rabs (dStepX N X k) <= D /\ Rabs (dStepY N M X k) <= D) by (intros k Hk; split; apply OX; lia).
  assert (Ofr : forall k, (k < M)%nat -> Rabs (from_step fx (dStepX N X) k) <= D /\ Rabs (from_step fy (dStepY N M X) k) <= D) by (intros [|k] Hk; cbn [from_step]; [exact Of|apply OXs; lia]).
  destruct (finite_choice (fun i c => (Rabs (fst c) <= D /\ Rabs (snd c) <= D) /\ (hcopC h = true -> forall p, s_getCopConvexPolygon i (hsup h) = Ok p -> satisfies p c)) N) as (c & Hc); [|exact (0, 0)|].
  { intros i Hi. destruct (hcopC h) eqn:E.
    - destruct (s_getCopConvexPolygon i (hsup h)) as [p| | | |] eqn:Ep; [|exists (0, 0); cbn [fst snd]; rewrite Rabs_R0; split; [unfold D; lra|intros; discriminate]..].
      destruct (PC eq_refl i p Hi Ep) as (q & Q1 & Q2 & Q3). exists q. split; [auto|]. intros _ p' Hp'. injection Hp' as <-. exact Q3.
    - exists (dCopX X i, dCopY N X i). split; [apply OXc; exact Hi|discriminate]. }
  destruct (finite_choice (fun k z => (Rabs (fst z) <= 2 * D /\ Rabs (snd z) <= 2 * D) /\ (hfeetC h = true ->
      (((S k < M)%nat /\ (forall k' p, s_getKinematicConvexPolygon k' (hsup h) = Ok p -> (k' < M)%nat -> pgen p = []) \/ S k = M)
         /\ exists c, z = (from_step fx (dStepX N X) k + fst c, from_step fy (dStepY N M X) k + snd c) /\ forall p, s_getKinematicConvexPolygon k (hsup h) = Ok p -> satisfies p c)
      \/ ((S k < M)%nat /\ z = (dStepX N X k, dStepY N M X k) /\ forall p, s_getKinematicConvexPolygon k (hsup h) = Ok p -> satisfies p (dStepX N X k - from_step fx (dStepX N X) k, dStepY N M X k - from_step fy (dStepY N M X) k)))) M) as (z & Hz); [|exact (0, 0)|].
  { intros k Hk. destruct (Ofr k Hk) as (F1 & F2). destruct (hfeetC h) eqn:E.
    - assert (Cc : exists q, Rabs (fst q) <= D /\ Rabs (snd q) <= D /\ forall p, s_getKinematicConvexPolygon k (hsup h) = Ok p -> satisfies p q).
      { destruct (s_getKinematicConvexPolygon k (hsup h)) as [p| | | |] eqn:Ep; [|exists (0, 0); cbn [fst snd]; rewrite Rabs_R0; split; [unfold D; lra|split; [unfold D; lra|intros; discriminate]]..].
        destruct (PK eq_refl k p Hk Ep) as (q & Q1 & Q2 & Q3). exists q. split; [exact Q1|]. split; [exact Q2|]. intros p' Hp'. injection Hp' as <-. exact Q3. }
      destruct Cc as (q & Q1 & Q2 & Q3). destruct (Nat.eq_dec (S k) M) as [L|L]; [|destruct (Hst E) as [Rc|Rc]].
      + exists (from_step fx (dStepX N X) k + fst q, from_step fy (dStepY N M X) k + snd q). cbn [fst snd]. split; [split; replace (2 * D) with (D + D) by ring; apply near3; assumption|]. intros _. left. split; [right; exact L|]. exists q. auto.
      + exists (from_step fx (dStepX N X) k + fst q, from_step fy (dStepY N M X) k + snd q). cbn [fst snd]. split; [split; replace (2 * D) with (D + D) by ring; apply near3; assumption|]. intros _. left. split; [left; split; [lia|intros k' p Hp Hk'; exact (Rc k' p Hk' Hp)]|]. exists q. auto.
      + exists (dStepX N X k, dStepY N M X k). cbn [fst snd]. destruct (OXs k Hk). split; [unfold D in *; lra|]. intros _. right. split; [lia|]. split; [reflexivity|]. intros p Hp. exact (Rc k p ltac:(lia) Hp).
    - exists (dStepX N X k, dStepY N M X k). cbn [fst snd]. destruct (OXs k Hk). split; [unfold D in *; lra|discriminate]. }
  destruct (assembled N M c z) as (AC & AS). set (Y := assemble N M c z) in *. exists Y.
  assert (BC : forall i, (i < N)%nat -> Rabs (Y i - X i) <= 3 * D /\ Rabs (Y (N + i)%nat - X (N + i)%nat) <= 3 * D).
  { intros i Hi. destruct (AC i Hi) as (E1 & E2). unfold dCopX, dCopY in E1, E2. rewrite E1, E2. destruct (Hc i Hi) as ((B1 & B2) & _). destruct (OXc i Hi) as (B3 & B4). unfold dCopX, dCopY in B3, B4. pose proof (near2 _ _ _ _ B1 B3). pose proof (near2 _ _ _ _ B2 B4). unfold D in *. lra. }
  assert (BS : forall k, (k < M)%nat -> Rabs (Y (2 * N + k)%nat - X (2 * N + k)%nat) <= 3 * D /\ Rabs (Y (2 * N + M + k)%nat - X (2 * N + M + k)%nat) <= 3 * D).
  { intros k Hk. destruct (AS k Hk) as (E1 & E2). unfold dStepX, dStepY in E1, E2. rewrite E1, E2. destruct (Hz k Hk) as ((B1 & B2) & _). destruct (OXs k Hk) as (B3 & B4). unfold dStepX, dStepY in B3, B4. pose proof (near2 _ _ _ _ B1 B3). pose proof (near2 _ _ _ _ B2 B4). unfold D in *. lra. }
  split; [|split].
  - split; [|split].
    + intros j Hj. fold N M X in Hj |- *. assert (B : Rabs (Y j - X j) <= 3 * D); [|unfold D in *; unfold MAXB; rsimpl; lra].
      destruct (Nat.lt_ge_cases j N) as [L|L]; [apply (BC j L)|]. destruct (Nat.lt_ge_cases j (2 * N)) as [L2|L2]; [destruct (BC (j - N)%nat ltac:(lia)) as (_ & B); replace (N + (j - N))%nat with j in B by lia; exact B|].
      destruct (Nat.lt_ge_cases j (2 * N + M)) as [L3|L3]; [destruct (BS (j - 2 * N)%nat ltac:(lia)) as (B & _); replace (2 * N + (j - 2 * N))%nat with j in B by lia; exact B|].
      destruct (BS (j - (2 * N + M))%nat ltac:(lia)) as (_ & B); replace (2 * N + M + (j - (2 * N + M)))%nat with j in B by lia; exact B.
    + intros E i p Hi Hp. apply Forall_forall. intros s Hs. fold N X in Hi |- *. destruct (BC i Hi) as (B1 & B2). destruct (Oc E i p Hi Hp s Hs) as (B3 & B4).
      unfold slope_value, dCopX, dCopY. pose proof (slope_small _ _ _ _ _ _ B3 B4 B1 B2). unfold D in *. unfold MAXB. rsimpl. lra.
    + intros E k p Hk Hp. apply Forall_forall. intros s Hs. fold N M X in Hk |- *. destruct (Os E k p Hk Hp s Hs) as (B3 & B4).
      assert (G : forall v w, Rabs v <= 3 * D -> Rabs w <= 3 * D -> Rabs (v - w) <= 6 * D) by (intros v w V W; pose proof (near2 _ _ _ _ V W); lra).
      assert (G0 : Rabs 0 <= 3 * D) by (rewrite Rabs_R0; unfold D; lra).
      unfold slope_value. eapply Rle_trans; [apply (slope_small _ _ _ _ D (6 * D) B3 B4)|unfold D, MAXB; rsimpl; lra]; apply G; try (apply (BS k Hk)); destruct k as [|k]; cbn [from_step]; try exact G0; apply (BS k ltac:(lia)).
  - intros E i p Hi Hp. fold N in Hi |- *. destruct (AC i Hi) as (-> & ->). destruct (Hc i Hi) as (_ & Q). rewrite <- surjective_pairing. exact (Q E p Hp).
  - intros E. split; intros k p Hk Hp; fold N M X in Hk |- *; destruct (AS k Hk) as (-> & ->); destruct (Hz k Hk) as (_ & Q); specialize (Q E).
    + destruct Q as [(Q1 & q & -> & Q2)|(Q1 & -> & Q2)].
      * cbn [fst snd]. destruct (Q2 p Hp) as (_ & _ & Q3). destruct Q1 as [(_ & Q1)|L]; [rewrite (Q1 k p Hp Hk); constructor|].
        destruct k as [|k]; cbn [from_step] in *.
        -- eapply Forall_impl; [|exact Q3]. intros ((a & b) & e) Hs. unfold side_value. cbn [fst snd] in *. replace (fx + fst q - fx) with (fst q) by ring. replace (fy + snd q - fy) with (snd q) by ring. exact Hs.
        -- (* previous step unchanged, or no oblique side at all *)
           destruct (AS k ltac:(lia)) as (-> & ->). destruct (Hz k ltac:(lia)) as (_ & Qk). destruct (Qk E) as [(Qa & _)|(_ & Ek & _)].
           { destruct Qa as [(_ & Qa)|Qa]; [rewrite (Qa (S k) p Hp Hk); constructor|lia]. }
           rewrite Ek. cbn [fst snd]. eapply Forall_impl; [|exact Q3]. intros ((a & b) & e) Hs. unfold side_value. cbn [fst snd] in *.
           replace (dStepX N X k + fst q - dStepX N X k) with (fst q) by ring. replace (dStepY N M X k + snd q - dStepY N M X k) with (snd q) by ring. exact Hs.
      * cbn [fst snd]. destruct (Q2 p Hp) as (_ & _ & Q3). destruct k as [|k]; cbn [from_step] in *.
        -- eapply Forall_impl; [|exact Q3]. intros ((a & b) & e) Hs. exact Hs.
        -- destruct (AS k ltac:(lia)) as (-> & ->). destruct (Hz k ltac:(lia)) as (_ & Qk). destruct (Qk E) as [(Qa & _)|(_ & Ek & _)].
           { destruct Qa as [(_ & Qa)|Qa]; [rewrite (Qa (S k) p Hp Hk); constructor|lia]. }
           rewrite Ek. cbn [fst snd]. eapply Forall_impl; [|exact Q3]. intros ((a & b) & e) Hs. exact Hs.
    + destruct Q as [(_ & q & -> & Q2)|(_ & -> & Q2)]; cbn [fst snd]; destruct (Q2 p Hp) as (Q3 & Q4 & _); cbn [fst snd] in Q3, Q4; lra.
Qed.
End Plan.
(** What the program makes of points is such a polygon, if they are separated and no side of their hull is almost along an axis. *)
Theorem C72_hulls_are_good : forall p g, (2 <= length p)%nat -> separated p -> makePolygon p = Ok g ->
  (forall e, In e (edges (pverts g)) -> sharp_edge e) -> (forall q, In q p -> Rabs (fst q) <= 5000 /\ Rabs (snd q) <= 5000) -> good_polygon g.
Proof.
  intros p g Hp Hs Hg Hsh Hb. destruct (PropPolygon.C52_encloses p Hp Hs) as (v & E & _ & Hi & Hcc & _). unfold makePolygon in Hg. rewrite E in Hg. cbn [bind] in Hg. injection Hg as <-.
  assert (Ev : pverts (polygon_of_vertices v) = v) by (unfold polygon_of_vertices, computeBounds; rewrite PropPolygon.pverts_fold; reflexivity). rewrite Ev in Hsh.
  exists v. split; [reflexivity|]. split; [|split; [exact Hcc|split; [exact Hsh|intros q Hq; apply Hb, Hi, Hq]]].
  intros ->. destruct p as [|q p]; [cbn in Hp; lia|]. destruct (PropPolygon.C14_starts_lowest (q :: p) [] ltac:(discriminate) E) as (r & Hr & _). discriminate Hr.
Qed.

Section Walk.
Context {TK : Trig R}.
Lemma solve_support n c fb tn h0 h o r : about_to_solve n c fb tn h0 -> h_prepare fb h0 = Ok h -> h_solve o fb h0 = Ok r -> exists fx fy, support_is (hsup h) fx fy.
Proof.
  intros A Hp E. unfold h_solve in E. rewrite Hp in E. cbn [bind] in E. apply bind_ok in E. destruct E as ((q & idx) & _ & E). cbn [fst snd] in E. apply finish_cases in E. destruct E as (dX & Y & t & l1 & l2 & s & _ & _ & _ & Et & _).
  destruct (prepared _ _ _ (as_reached _ _ _ _ _ A) Hp) as (I & Sh & _). destruct (convert_inv _ _ _ I Sh Et) as (z & cx & cy & Vx & Vy & fx & fy & G). exists fx, fy. exact (cv_foot _ _ _ _ _ _ _ _ _ _ G).
Qed.
(** So an exact solver makes the generator apply the best motion (C67), *)
Theorem C72_best_motion_is_applied : forall n c fb tn h0 h o found h' fx fy,
  about_to_solve n c fb tn h0 -> h_prepare fb h0 = Ok h -> h_solve o fb h0 = Ok (found, h') ->
  support_is (hsup h) fx fy -> exact_inverses h -> exact_for o h -> ordinary h fx fy -> good_polygons h -> can_step h fx fy ->
  let N := lN (hlip h) in best_motion h tn (INR c * fb) fx fy (vget (hX h')) (vget (htX h')) (fun i => vget (htX h') (N + i)).
Proof.
  intros n c fb tn h0 h o found h' fx fy A Hp Hs Hf Hi Ho Hor Hg Hc N.
  exact (proj1 (C67_solve_applies_the_best_motion _ _ _ _ _ _ _ _ _ _ _ A Hp Hs Hf Hi Ho (C72_admissible_motion h fx fy Hor Hg Hc))).
Qed.
(** and keeps the centre of pressure under the feet and lands the feet within reach (C68). *)
Definition well_posed (o : oracle R) (h : hum R) : Prop :=
  exact_for o h /\ good_polygons h /\ forall fx fy, support_is (hsup h) fx fy -> ordinary h fx fy /\ can_step h fx fy.
Theorem C72_exact_walks_are_safe : forall n a b fb h0 o found h', walked n a b fb h0 -> (2 <= a)%nat -> ~ hull_fails fb h0 ->
  (forall h, h_prepare fb h0 = Ok h -> well_posed o h) -> h_solve o fb h0 = Ok (found, h') ->
  (hcopC h0 = true -> (forall h, h_prepare fb h0 = Ok h -> exact_inverses h) -> at_sample (hsup h') ->
     exists ph, phase_now (hsup h') ph /\ ((exists t, step_over (hsup h') t /\ phType ph = DS) \/ under_the_feet (hsup h') (phType ph) (robot_cop (hlip h'))))
  /\ (hfeetC h0 = true -> forall t, step_over (hsup h') t ->
     let s := hsup h' in satisfies (fkin (standing t s)) (seen_from (foot_pos (standing t s)) (foot_pos (moving t s)))).
Proof.
  intros n a b fb h0 o found h' Wd Ha Hh Hw Hs.
  assert (Rs : forall h, h_prepare fb h0 = Ok h -> respects o h).
  { intros h Hp. destruct (walked_walk _ _ _ _ _ Wd) as (N & HN & Hn0 & Ha0 & HaN & Hb & Hfb & Rc & W). destruct (walk_about n a b fb N h0 HN Hn0 Ha0 HaN Hb Hfb Rc W) as (tn & c & A).
    destruct (solve_support _ _ _ _ _ _ _ _ A Hp Hs) as (fx & fy & Hf). destruct (Hw h Hp) as (Ho & Hg & Q). destruct (Q fx fy Hf) as (Hor & Hc).
    exact (C68_exact_solvers_respect _ _ _ _ _ _ _ _ _ A Hp Hf Ho (C72_admissible_motion h fx fy Hor Hg Hc)). }
  split.
  - intros Hc Hi Hat. apply (C68_cop_under_the_feet n a b fb h0 o found h' Wd Ha Hh Hc); try assumption. intros h Hp. split; [exact (Hi h Hp)|exact (Rs h Hp)].
  - intros Hc t Ht. exact (C68_steps_land_within_reach n a b fb h0 o found h' t Wd Ha Hh Hc Rs Hs Ht).
Qed.
End Walk.
Print Assumptions C72_admissible_motion.
Print Assumptions C72_hulls_are_good.
Print Assumptions C72_best_motion_is_applied.
Print Assumptions C72_exact_walks_are_safe.
