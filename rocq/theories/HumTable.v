(** The table of prebuilt problems and solvers of the humanoid walk generator. *)

From Coq Require Import Reals List ZArith Arith Bool Lra Lia.
From Verif Require Import Scalar LinAlg LinAlgFacts ToolsModel ToolsSpec ToolsFacts NoDynModel PolygonModel PolygonFacts QPModel QPFacts TrajModel LipModel FootModel
  ModelsSpec ModelsFacts SupModel SupSpec SupFacts PropTools PropSup HumModel HumAlg HumSpec HumFacts HumObj HumProb HumWorld HullFacts.
Import ListNotations.
Local Open Scope R_scope.

Section Table.
Context {TK : Trig R}.

(** ** Number of constraints *)
Lemma edges_length (v : list (pt R)) : length (edges v) = length v.
Proof. destruct v as [|a l]; [reflexivity|]. cbn [edges]. rewrite combine_length, app_length. cbn [length]. lia. Qed.
Lemma cfold_length es : forall g : polygon R, (length (pgen (fold_left (fun g e => edge_step g (fst e) (snd e)) es g)) <= length (pgen g) + length es)%nat
  /\ pverts (fold_left (fun g e => edge_step g (fst e) (snd e)) es g) = pverts g.
Proof.
  induction es as [|e es IH]; intros g; cbn [fold_left length]; [split; [lia|reflexivity]|].
  destruct (IH (edge_step g (fst e) (snd e))) as (A & B).
  assert (C : (length (pgen (edge_step g (fst e) (snd e))) <= S (length (pgen g)))%nat /\ pverts (edge_step g (fst e) (snd e)) = pverts g).
  { unfold edge_step. repeat match goal with |- context [if ?b then _ else _] => destruct b end; cbn [pgen pverts]; rewrite ?app_length; cbn [length]; split; (lia || reflexivity). }
  destruct C as (C1 & C2). split; [lia|congruence].
Qed.
(** A polygon built from vertices has at most one general constraint per vertex... *)
Lemma polygon_counted (v : list (pt R)) : (length (pgen (polygon_of_vertices v)) <= length (pverts (polygon_of_vertices v)))%nat /\ pverts (polygon_of_vertices v) = v.
Proof.
  unfold polygon_of_vertices, computeBounds.
  destruct (cfold_length (edges (pverts (MkPoly v (MAXB (K:=R)) (- MAXB)%sc MAXB (- MAXB)%sc []))) (MkPoly v MAXB (- MAXB)%sc MAXB (- MAXB)%sc [])) as (A & B).
  rewrite B. cbn [pverts pgen length] in *. rewrite edges_length in A. split; [lia|reflexivity].
Qed.

Lemma concat_length_le A (f : nat -> res (list A)) b : forall n l, tabulateM f n = Ok l ->
  (forall i r, (i < n)%nat -> f i = Ok r -> (length r <= b)%nat) -> (length (concat l) <= n * b)%nat.
Proof.
  intros n l H Hb. assert (L : length l = n /\ forall r, In r l -> (length r <= b)%nat).
  { split; [exact (tabulateM_length _ _ _ _ H)|]. intros r Hr. apply In_nth_error in Hr. destruct Hr as (i & Hi).
    assert (Hin : (i < n)%nat) by (rewrite <- (tabulateM_length _ _ _ _ H); apply nth_error_Some; congruence).
    destruct (tabulateM_nth _ _ _ _ _ H Hin) as (r' & Hr' & Hf). rewrite Hi in Hr'. injection Hr' as <-. eapply Hb; eassumption. }
  destruct L as (<- & L). clear H Hb. induction l as [|r l IH]; cbn [concat length]; [lia|]. rewrite app_length.
  pose proof (L r (or_introl eq_refl)). specialize (IH (fun r' Hr => L r' (or_intror Hr))). lia.
Qed.
(** The polygons have at most one general constraint per vertex, and the double support polygon at
    most one per vertex of the two feet. *)
Definition counted (s : sup R) : Prop :=
  (length (pgen (fcop (sleft s))) <= length (pverts (fcop (sleft s))))%nat
  /\ (length (pgen (fcop (sright s))) <= length (pverts (fcop (sright s))))%nat
  /\ (length (pgen (fkin (sleft s))) <= length (pverts (fkin (sleft s))))%nat
  /\ (length (pgen (fkin (sright s))) <= length (pverts (fkin (sright s))))%nat
  /\ (forall g, s_computeDSCopConvexPolygon s = Ok g -> (length (pgen g) <= length (pverts (fcop (sleft s))) + length (pverts (fcop (sright s))))%nat).
Lemma copRows_le N (s : sup R) rc : counted s -> copRows N s = Ok rc -> (length rc <= N * s_getMaximumNbOfCopConstraints s)%nat.
Proof.
  intros (C1 & C2 & _ & _ & C3) H. unfold copRows in H. apply bind_ok in H. destruct H as (l & Hl & H). injection H as <-.
  eapply concat_length_le; [exact Hl|]. intros i r _ Hr. apply bind_ok in Hr. destruct Hr as (p & Hp & Hr). injection Hr as <-. rewrite map_length.
  unfold s_getMaximumNbOfCopConstraints, s_getCopConvexPolygon in *. apply guard_ok in Hp. destruct Hp as (_ & Hp). apply bind_ok in Hp. destruct Hp as (ph & _ & Hp).
  destruct (phType ph); [apply C3; exact Hp| |]; injection Hp as <-; lia.
Qed.
Lemma footRows_sides_le N (s : sup R) rf : (length (pgen (fkin (sleft s))) <= length (pverts (fkin (sleft s))))%nat ->
  (length (pgen (fkin (sright s))) <= length (pverts (fkin (sright s))))%nat ->
  footRows N s = Ok rf -> (length rf <= snb s * s_getMaximumNbOfKinematicConstraints s)%nat.
Proof.
  intros C1 C2 H. unfold footRows in H. apply bind_ok in H. destruct H as (l & Hl & H). injection H as <-.
  eapply concat_length_le; [exact Hl|]. intros i r _ Hr. apply bind_ok in Hr. destruct Hr as (p & Hp & Hr).
  assert (L : (length (pgen p) <= s_getMaximumNbOfKinematicConstraints s)%nat).
  { unfold s_getMaximumNbOfKinematicConstraints, s_getKinematicConvexPolygon in *. apply guard_ok in Hp. destruct Hp as (_ & Hp). apply bind_ok in Hp. destruct Hp as (ds & _ & Hp).
    apply bind_ok in Hp. destruct Hp as (ph & _ & Hp). destruct (phType ph); [discriminate| |]; injection Hp as <-; lia. }
  destruct (_ && _)%bool; [binds Hr|]; injection Hr as <-; rewrite map_length; exact L.
Qed.

Lemma footRows_le N (s : sup R) rf : counted s -> footRows N s = Ok rf -> (length rf <= snb s * s_getMaximumNbOfKinematicConstraints s)%nat.
Proof. intros (_ & _ & C1 & C2 & _). apply footRows_sides_le; assumption. Qed.

(** ** What the table can hold *)
Definition room (h : hum R) : Prop :=
  ((if hcopC h then s_getMaximumNbOfCopConstraints (hsup h) * sN (hsup h) else 0)
   + (if hfeetC h then s_getMaximumNbOfKinematicConstraints (hsup h) * sN (hsup h) else 0) <= hmaxC h)%nat.
Lemma const_room h : room (h_computeConstantPart h).
Proof. unfold room, h_computeConstantPart. cbn [hcopC hfeetC hsup hmaxC]. destruct (hcopC h), (hfeetC h); lia. Qed.
Definition sets_polygon (c : hcall R) : Prop := match c with HSetKin _ _ | HSetCop _ _ => True | _ => False end.

Definition same_polygons (s s' : sup R) : Prop :=
  fcop (sleft s') = fcop (sleft s) /\ fcop (sright s') = fcop (sright s) /\ fkin (sleft s') = fkin (sleft s) /\ fkin (sright s') = fkin (sright s) /\ sN s' = sN s.
Lemma room_same h h' : same_polygons (hsup h) (hsup h') -> hcopC h' = hcopC h -> hfeetC h' = hfeetC h -> hmaxC h' = hmaxC h -> room h -> room h'.
Proof. intros (E1 & E2 & E3 & E4 & E5) C1 C2 C3. unfold room, s_getMaximumNbOfCopConstraints, s_getMaximumNbOfKinematicConstraints. rewrite E1, E2, E3, E4, E5, C1, C2, C3. auto. Qed.
Lemma same_polygons_refl s : same_polygons s s.
Proof. repeat split. Qed.
Lemma timeline_same v fb (s s' : sup R) v' : s_updateTimeline v fb s = Ok (s', v') -> same_polygons s s' /\ sleft s' = sleft s /\ sright s' = sright s.
Proof.
  intros Hu. unfold s_updateTimeline in Hu. apply guard_ok in Hu. destruct Hu as (_ & Hu). apply guard_ok in Hu. destruct Hu as (_ & Hu).
  apply bind_ok in Hu. destruct Hu as (((v1 & t1) & tn) & _ & Hu).
  apply bind_ok in Hu. destruct Hu as (((s2 & i) & v2) & _ & Hu). apply bind_ok in Hu. destruct Hu as (sel & _ & Hu). injection Hu as <- _. repeat split.
Qed.
Lemma fly_same f f' x y z T Tz fb : flyTo (K:=R) f x y z T Tz fb = Ok f' -> fcop f' = fcop f /\ fkin f' = fkin f.
Proof.
  unfold flyTo, f_updateStateX, f_updateStateY, f_updateStateZ. intros H. binds H. injection H as <-.
  repeat match goal with E : bind _ _ = Ok _ |- _ => binds E; injection E as <- end. auto.
Qed.
Lemma feet_same v fb (s s' : sup R) : s_updateFeetStates v fb s = Ok s' -> same_polygons s s'.
Proof.
  unfold s_updateFeetStates. intros H. apply bind_ok in H. destruct H as (p & _ & H). destruct (negb _ && _)%bool.
  - apply bind_ok in H. destruct H as (a & _ & H). apply bind_ok in H. destruct H as (b & _ & H).
    destruct (phType p); [discriminate| |]; apply bind_ok in H; destruct H as (q & Hq & H); injection H as <-;
      (match type of Hq with context [if ?b then _ else _] => destruct b end; apply fly_same in Hq; destruct Hq as (Q1 & Q2); unfold same_polygons; cbn; auto).
  - injection H as <-. repeat split.
Qed.
Lemma prepare_same fb h h' : h_prepare fb h = Ok h' -> same_polygons (hsup h) (hsup h') /\ hcopC h' = hcopC h /\ hfeetC h' = hfeetC h /\ hmaxC h' = hmaxC h /\ hsolvers h' = hsolvers h.
Proof.
  intros H. destruct (h_prepare_cases _ _ _ H) as (s & X & l & Hu & _ & _ & _ & E & _ & _ & _ & E1 & _ & _ & E2 & E3 & E4 & _).
  rewrite E, E1, E2, E3, E4. split; [apply (timeline_same _ _ _ _ _ Hu)|auto].
Qed.
(** What every call but setNbSamples, setConfig and the polygon setters keeps *)
Definition kept (h h' : hum R) : Prop :=
  same_polygons (hsup h) (hsup h') /\ hcopC h' = hcopC h /\ hfeetC h' = hfeetC h /\ hmaxC h' = hmaxC h /\ hsolvers h' = hsolvers h /\ lN (hlip h') = lN (hlip h).
Definition rebuilds (c : hcall R) : Prop := match c with HSetNbSamples _ | HSetConfig _ _ => True | _ => False end.
Lemma setFoot_same d f (s : sup R) : fcop f = fcop (s_foot d s) -> fkin f = fkin (s_foot d s) -> same_polygons s (s_setFoot d f s).
Proof. intros. destruct d; unfold same_polygons; cbn; auto. Qed.
Lemma l_auto_N (l l' : lip R) : l_auto l = Ok l' -> lN l' = lN l.
Proof. unfold l_auto, l_computeDynamics. intros H. destruct (lauto l); [|injection H as <-; reflexivity]. binds H. injection H as <-. reflexivity. Qed.
Lemma step_kept c h h' : hstep c h = Ok h' -> ~ rebuilds c -> ~ sets_polygon c -> kept h h'.
Proof.
  intros H Hc Hp. unfold kept. destruct c; cbn [rebuilds sets_polygon hstep] in *; try (exfalso; tauto).
  - unfold h_setSamplingPeriod in H. apply guard_ok in H. destruct H as (_ & H). apply bind_ok in H. destruct H as (l & Hl & H).
    apply bind_ok in H. destruct H as (s & Hs & H). injection H as <-. cbn [hsup hlip hcopC hfeetC hmaxC hsolvers].
    unfold l_setSamplingPeriod in Hl. binds Hl. apply l_auto_N in Hl. rewrite Hl. unfold s_setSamplingPeriod in Hs. apply guard_ok in Hs. destruct Hs as (_ & Hs).
    apply bind_ok in Hs. destruct Hs as (fl & Hfl & Hs). apply bind_ok in Hs. destruct Hs as (fr & Hfr & Hs). injection Hs as <-.
    unfold f_setSamplingPeriod in *. binds Hfl. binds Hfr. injection Hfl as <-. injection Hfr as <-. repeat split.
  - unfold h_setStepPeriod in H. apply guard_ok in H. destruct H as (_ & H). apply guard_ok in H. destruct H as (_ & H). apply bind_ok in H. destruct H as (s & Hs & H). injection H as <-.
    cbn [hsup hlip h_setSup h_setModels hcopC hfeetC hmaxC hsolvers].
    unfold s_setStepPeriod in Hs. binds Hs. destruct x; [injection Hs as <-|binds Hs; injection Hs as <-]; repeat split.
  - unfold h_setInitialDoubleSupportLength in H. apply bind_ok in H. destruct H as (s & Hs & H). injection H as <-. cbn [hsup hlip h_setSup h_setModels hcopC hfeetC hmaxC hsolvers].
    unfold s_setInitialDoubleSupportLength in Hs. apply bind_ok in Hs. destruct Hs as (ds & _ & Hs).
    destruct ds; [|injection Hs as <-; repeat split]. apply bind_ok in Hs. destruct Hs as (? & _ & Hs). binds Hs. injection Hs as <-. repeat split.
  - injection H as <-. cbn [hsup hlip h_setSup h_setModels h_setMaxHeight hcopC hfeetC hmaxC hsolvers]. split; [|auto]. apply setFoot_same; reflexivity.
  - unfold h_setVelRef in H. binds H. injection H as <-. repeat split.
  - unfold h_setFootStateX, s_setFootStateX in H. binds H. injection H as <-. match goal with E : bind _ _ = Ok _ |- _ => binds E; injection E as <- end. cbn [hsup hlip h_setSup h_setModels hcopC hfeetC hmaxC hsolvers]. split; [|auto]. apply setFoot_same; reflexivity.
  - unfold h_setFootStateY, s_setFootStateY in H. binds H. injection H as <-. match goal with E : bind _ _ = Ok _ |- _ => binds E; injection E as <- end. cbn [hsup hlip h_setSup h_setModels hcopC hfeetC hmaxC hsolvers]. split; [|auto]. apply setFoot_same; reflexivity.
  - unfold h_setFootStateZ, s_setFootStateZ in H. binds H. injection H as <-. match goal with E : bind _ _ = Ok _ |- _ => binds E; injection E as <- end. cbn [hsup hlip h_setSup h_setModels hcopC hfeetC hmaxC hsolvers]. split; [|auto]. apply setFoot_same; reflexivity.
  - unfold h_setComStateX, l_setStateX in H. binds H. injection H as <-. match goal with E : bind _ _ = Ok _ |- _ => binds E; injection E as <- end. repeat split.
  - unfold h_setComStateY, l_setStateY in H. binds H. injection H as <-. match goal with E : bind _ _ = Ok _ |- _ => binds E; injection E as <- end. repeat split.
  - unfold h_setComStateZ in H. apply guard_ok in H. destruct H as (_ & H). apply guard_ok in H. destruct H as (_ & H). apply guard_ok in H. destruct H as (_ & H).
    apply bind_ok in H. destruct H as (l & Hl & H). injection H as <-. cbn [hsup hlip h_setLip h_setModels hcopC hfeetC hmaxC hsolvers].
    assert (E : lN l = lN (hlip h)). { unfold l_setComHeight, l_autoCop in Hl. binds Hl. match type of Hl with context [if ?b then _ else _] => destruct b end; [|injection Hl as <-; reflexivity]. binds Hl. injection Hl as <-. reflexivity. }
    rewrite E. repeat split.
  - unfold h_setWeightings in H. binds H. injection H as <-. repeat split.
  - unfold h_setMove in H. apply bind_ok in H. destruct H as (ds & _ & H). injection H as <-. repeat split.
  - apply bind_ok in H. destruct H as (r & Hr & H). injection H as <-. unfold h_solve in Hr. apply bind_ok in Hr. destruct Hr as (h1 & H1 & Hr). apply bind_ok in Hr. destruct Hr as ((q & i) & _ & Hr).
    destruct (prepare_same _ _ _ H1) as ((P1 & P2 & P3 & P4 & P5) & Q1 & Q2 & Q3 & Q4). destruct (h_prepare_cases _ _ _ H1) as (s & X & l & Hu & Hl & _ & _ & _ & E' & _). cbn [fst snd] in Hr. apply finish_cases in Hr.
    destruct Hr as (dX & Y & t & l1 & l2 & s2 & _ & _ & _ & _ & E1 & E2 & E3 & _ & ER). rewrite ER. cbn [hsup hlip hcopC hfeetC hmaxC hsolvers].
    destruct (feet_same _ _ _ _ E3) as (F1 & F2 & F3 & F4 & F5).
    split; [unfold same_polygons; rewrite F1, F2, F3, F4, F5; auto|]. repeat (split; [assumption|]).
    unfold l_updateStateX in E1. unfold l_updateStateY in E2. binds E1. injection E1 as <-. binds E2. injection E2 as <-. cbn [lN l_setStates]. rewrite E'.
    destruct (Rltb _ _); [|injection Hl as <-; reflexivity]. unfold l_setFeedbackPeriod in Hl. binds Hl. apply l_auto_N in Hl. rewrite Hl. reflexivity.
Qed.
Lemma step_room c h h' : hstep c h = Ok h' -> rebuilds c \/ (~ sets_polygon c /\ room h) -> room h'.
Proof.
  intros H Hc. assert (D : rebuilds c \/ ~ rebuilds c) by (destruct c; cbn; auto). destruct D as [D|D].
  - destruct c; cbn [rebuilds] in D; try contradiction; cbn [hstep] in H.
    + unfold h_setNbSamples in H. binds H. injection H as <-. apply const_room.
    + injection H as <-. apply const_room.
  - destruct Hc as [Hc|(Hc & R)]; [contradiction|]. destruct (step_kept _ _ _ H D Hc) as (S1 & S2 & S3 & S4 & _). eapply room_same; eassumption.
Qed.

(** ** The solvers *)
(** The first two solvers are those of the constructor, for ever. *)
Inductive api_reached : hum R -> Prop :=
| api_new h : newHum = Ok h -> api_reached h
| api_call c h h' : api_reached h -> hstep c h = Ok h' -> api_reached h'.
Lemma api_is_reached h : api_reached h -> reached h.
Proof. induction 1; [apply reached_new|eapply reached_call]; eassumption. Qed.
Lemma new_solvers h : newHum = Ok h -> hsolvers h = [(2, 0); (4, 0)]%nat /\ hmaxC h = 0%nat /\ hcopC h = false /\ hfeetC h = false.
Proof.
  unfold newHum. intros H. apply bind_ok in H. destruct H as (s & Hs & H). apply bind_ok in H. destruct H as (l & Hl & H). injection H as <-.
  unfold newLipDefault, newLip in Hl. apply l_auto_N in Hl. cbn [lN] in Hl.
  unfold newSupDefault, newSup in Hs. apply bind_ok in Hs. destruct Hs as (a & _ & Hs). apply bind_ok in Hs. destruct Hs as (b & _ & Hs). injection Hs as <-.
  cbn [h_computeConstantPart hsolvers hmaxC hcopC hfeetC hsup hlip sN]. rewrite Hl. auto.
Qed.
Lemma sets_polygon_kept c h h' : hstep c h = Ok h' -> sets_polygon c -> hsolvers h' = hsolvers h /\ hmaxC h' = hmaxC h /\ hcopC h' = hcopC h /\ hfeetC h' = hfeetC h /\ sN (hsup h') = sN (hsup h) /\ lN (hlip h') = lN (hlip h).
Proof. intros H Hc. destruct c; cbn [sets_polygon] in Hc; try contradiction; cbn [hstep] in H; injection H as <-; destruct d; repeat split. Qed.
Lemma api_solvers h : api_reached h -> exists t, hsolvers h = ([(2, 0); (4, 0)] ++ t)%nat.
Proof.
  induction 1 as [h H|c h h' _ (t & IH) H]; [exists []; apply new_solvers; exact H|].
  destruct c; try (match type of H with hstep ?c _ = _ => assert (D : ~ rebuilds c /\ ~ sets_polygon c) by (cbn; auto) end;
     destruct D as (D1 & D2); destruct (step_kept _ _ _ H D1 D2) as (_ & _ & _ & _ & E & _); rewrite E; eexists; exact IH).
  - cbn [hstep] in H. unfold h_setNbSamples in H. binds H. injection H as <-. cbn [h_computeConstantPart hsolvers]. rewrite IH. eexists. rewrite <- app_assoc. reflexivity.
  - destruct (sets_polygon_kept _ _ _ H I) as (E & _). rewrite E. eexists; exact IH.
  - destruct (sets_polygon_kept _ _ _ H I) as (E & _). rewrite E. eexists; exact IH.
  - cbn [hstep] in H. injection H as <-. cbn [h_computeConstantPart h_setConfig hsolvers]. rewrite IH. eexists. rewrite <- app_assoc. reflexivity.
Qed.
(** solve succeeds only if the solver at the index has the sizes of the problem. *)
Lemma solve_solver o fb h0 r : reached h0 -> h_solve o fb h0 = Ok r ->
  exists h q idx, h_prepare fb h0 = Ok h /\ h_problem h = Ok (q, idx)
    /\ nth_error (hsolvers h0) idx = Some (vlen (qp q), mrows (qA q)).
Proof.
  intros H0 H. unfold h_solve in H. apply bind_ok in H. destruct H as (h & Hp & H). apply bind_ok in H. destruct H as ((q & idx) & Hq & H). exists h, q, idx.
  split; [exact Hp|]. split; [exact Hq|]. cbn [fst snd] in H. apply finish_cases in H. destruct H as (dX & X & t & l1 & l2 & s & _ & _ & _ & _ & _ & _ & _ & ((nv & nc) & He & sv & Hs) & _).
  destruct (prepare_same _ _ _ Hp) as (_ & _ & _ & _ & <-). cbn [fst snd] in *. rewrite He. unfold solver_solve in Hs. apply guard_ok in Hs. destruct Hs as (Hd & _).
  destruct (prepared _ _ _ H0 Hp) as (I & _ & _). destruct (problem_inv _ _ _ I Hq) as (rc & rf & bc & bf & _ & _ & _ & _ & _ & _ & _ & D1 & D2 & D3 & D4 & D5 & _).
  unfold dimensionsAreConsistent, normalizeMatrices, scale_qp in Hd. cbn in Hd. repeat (apply andb_prop in Hd; destruct Hd as (Hd & ?)).
  repeat match goal with E : Nat.eqb _ _ = true |- _ => apply Nat.eqb_eq in E end. f_equal. f_equal; congruence.
Qed.
End Table.
