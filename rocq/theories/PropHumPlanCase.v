(** A walk that meets the hypotheses of C72 and C68: constraints on the centre of pressure and on the steps, an exact
    solver and a call of solve that ends at a sample. *)

From Coq Require Import Reals List ZArith Arith Bool Lra Lia FunctionalExtensionality.
From Verif Require Import Scalar LinAlg LinAlgFacts ToolsModel ToolsSpec NoDynModel PolygonModel PolygonFacts QPModel QPFacts TrajModel LipModel FootModel
  ModelsSpec ModelsFacts SupModel SupSpec SupFacts SupTime SupWalk PropQP PropSup HumModel HumAlg HumSpec HumFacts HumObj HumProb HumWorld HumRunSpec HumRun PropHum PropHumSolve PropHumStart
  HumOptSpec PropHumOpt HumSafeSpec PropHumSafe HullFacts HullCases PropHumRun HumPlanSpec PropHumPlan.
From Verif Require Import HumTable.
From Verif Require PropPolygon QPExist ZebCalls.
Import ListNotations.
Local Open Scope R_scope.

(** One sample of 1 s; solve is called every second; the right foot is 8 below the left one.  The reach is a square
    of side 20, the centre of pressure is within a square of side 2 around each foot. *)
Definition plan_calls : list (hcall R) :=
  [HSetKin SLeft (square 10); HSetKin SRight (square 10); HSetCop SLeft (square 1); HSetCop SRight (square 1);
   HSetFootY SRight (MkVec 3 (fun i => if Nat.eqb i 0 then -8 else 0)); HSetConfig true true].
Lemma axes_gen es : forall (g : polygon R), (forall e, In e es -> fst (fst e) = fst (snd e) \/ snd (fst e) = snd (snd e)) -> pgen g = [] ->
  pgen (fold_left (fun g e => edge_step g (fst e) (snd e)) es g) = [].
Proof.
  induction es as [|e es IH]; intros g H Hg; cbn [fold_left]; [exact Hg|]. apply IH; [intros e' He'; apply H; right; exact He'|].
  pose proof (H e (or_introl eq_refl)) as D. destruct e as ((a1 & a2) & (b1 & b2)). cbn [fst snd] in *. unfold edge_step, psub. cbn [fst snd]. rewrite !sabs_Rabs. rsimpl. destruct D as [->| ->].
  - replace (b1 - b1) with 0 by ring. rewrite Rabs_R0, (proj2 (Rltb_true 0 (1/10000))) by lra. destruct (Rltb _ _); exact Hg.
  - replace (b2 - b2) with 0 by ring. rewrite Rabs_R0, (proj2 (Rltb_true 0 (1/10000))) by lra. repeat destruct (Rltb _ _); exact Hg.
Qed.
Lemma square_good d : 1 <= d <= 5000 -> good_polygon (square d) /\ pgen (square d) = [].
Proof.
  intros Hd. assert (E : edges [(- d, - d); (d, - d); (d, d); (- d, d)] = [((- d, - d), (d, - d)); ((d, - d), (d, d)); ((d, d), (- d, d)); ((- d, d), (- d, - d))]) by reflexivity.
  split.
  - exists [(- d, - d); (d, - d); (d, d); (- d, d)]. split; [reflexivity|]. split; [discriminate|]. split; [|split].
    + intros e q He Hq. rewrite E in He. unfold inner. cbn [In] in He, Hq. intuition (subst; unfold pcross, psub; cbn [fst snd]; rsimpl; nra).
    + intros e He. rewrite E in He. unfold sharp_edge. cbn [In] in He. intuition (subst; cbn [fst snd] in *; try lra; repeat match goal with H : Rabs _ < _ |- _ => apply Rabs_def2 in H end; lra).
    + intros q Hq. cbn [In] in Hq. intuition (subst; cbn [fst snd]; apply Rabs_le; lra).
  - unfold square, polygon_of_vertices, computeBounds. cbn [pverts]. rewrite E. apply axes_gen; [|reflexivity]. intros e He. cbn [In] in He. intuition (subst; cbn [fst snd]; lra).
Qed.
Definition hull_points : list zpt := [(-1, -1); (1, -1); (1, 1); (-1, 1); (-1, -9); (1, -9); (1, -7); (-1, -7)]%Z.
Lemma zinj_sharp zs e : NoDup zs -> (forall q, In q [fst e; snd e] -> In q (map zinj zs)) -> fst e <> snd e -> sharp_edge e.
Proof.
  intros _ H Ne. destruct e as (a & b). cbn [fst snd] in *. pose proof (H a (or_introl eq_refl)) as Ha. pose proof (H b (or_intror (or_introl eq_refl))) as Hb.
  apply in_map_iff in Ha. destruct Ha as (x & <- & _). apply in_map_iff in Hb. destruct Hb as (y & <- & _). unfold zinj, sharp_edge in *. cbn [fst snd] in *.
  assert (Q : forall u w, Rabs (IZR u - IZR w) < 1/10000 -> u = w).
  { intros u w L. rewrite <- minus_IZR in L. apply Rabs_def2 in L. destruct L as (L1 & L2). assert (-1 < u - w < 1)%Z by (split; apply lt_IZR; lra). lia. }
  split; intros L; apply Q in L; rewrite L in *; (split; [ring|]); intros E; apply Ne; f_equal; lra.
Qed.
Lemma hull_good : exists g, makePolygon (map zinj hull_points) = Ok g /\ good_polygon g /\ (length (pverts g) <= 8)%nat.
Proof.
  assert (Hs : separated (map zinj hull_points)) by (apply zsep_ok; vm_compute; reflexivity).
  destruct (PropPolygon.C52_encloses (map zinj hull_points)) as (v & E & Nd & Inc & Hcc & _); [cbn; lia|exact Hs|]. exists (polygon_of_vertices v). unfold makePolygon. rewrite E. cbn [bind].
  assert (Ev : pverts (polygon_of_vertices v) = v) by (unfold polygon_of_vertices, computeBounds; rewrite PropPolygon.pverts_fold; reflexivity).
  assert (Hl : (2 <= length v)%nat).
  { destruct v as [|q [|q' v]]; [| |cbn; lia]; exfalso.
    - destruct (PropPolygon.C14_starts_lowest (map zinj hull_points) [] ltac:(discriminate) E) as (r & Hr & _). discriminate Hr.
    - assert (Hc : ~ collinear (map zinj hull_points)).
      { intros C. assert (H1 : In (zinj (-1, -1)%Z) (map zinj hull_points)) by (apply in_map; cbn; auto). assert (H2 : In (zinj (1, -1)%Z) (map zinj hull_points)) by (apply in_map; cbn; auto). assert (H3 : In (zinj (1, 1)%Z) (map zinj hull_points)) by (apply in_map; cbn; auto).
        pose proof (C _ _ _ H1 H2 H3) as Q. rewrite !zinj_sub, zinj_cross in Q. cbn in Q. lra. }
      destruct (hull_exact (map zinj hull_points) ltac:(cbn; lia) Hs Hc) as (v' & E' & L & _). rewrite E in E'. injection E' as <-. cbn in L. lia. }
  split; [reflexivity|]. split.
  - apply (C72_hulls_are_good (map zinj hull_points)); [cbn; lia|exact Hs|unfold makePolygon; rewrite E; reflexivity| |].
    + rewrite Ev. intros e He. apply (zinj_sharp hull_points); [repeat constructor; cbn; intuition congruence| |].
      * intros q [<-|[<-|[]]]; apply Inc; [apply edges_fst|apply edges_snd]; exact He.
      * clear - He Nd Hl. destruct v as [|q l]; [destruct He|]. unfold edges in He. destruct e as (a & b). cbn [fst snd]. intros <-.
        apply In_nth_error in He. destruct He as (i & He).
        assert (Hi : nth_error (q :: l) i = Some a /\ nth_error (l ++ [q]) i = Some a).
        { clear Nd Hl. revert He. generalize (q :: l) (l ++ [q]). intros u w. revert i w. induction u as [|x u IH]; intros [|i] [|y w] H; try discriminate H; [injection H as -> ->; auto|]. cbn. apply IH. exact H. }
        destruct Hi as (H1 & H2). assert (Li : (i < S (length l))%nat) by (change (S (length l)) with (length (q :: l)); apply nth_error_Some; congruence).
        destruct (Nat.lt_ge_cases i (length l)) as [L|L].
        -- rewrite nth_error_app1 in H2 by exact L. change (nth_error l i) with (nth_error (q :: l) (S i)) in H2. pose proof (proj1 (NoDup_nth_error (q :: l)) Nd i (S i) Li ltac:(congruence)). lia.
        -- assert (i = length l) by lia. subst i. rewrite nth_error_app2, Nat.sub_diag in H2 by lia. injection H2 as <-.
           pose proof (proj1 (NoDup_nth_error (q :: l)) Nd 0%nat (length l) ltac:(cbn; lia) ltac:(cbn [nth_error]; congruence)). cbn in Hl. lia.
    + intros q Hq. apply in_map_iff in Hq. destruct Hq as (x & <- & Hx). unfold zinj. cbn [fst snd]. cbn in Hx. intuition (subst; cbn [fst snd]; apply Rabs_le; lra).
  - rewrite Ev. replace 8%nat with (length (map zinj hull_points)) by reflexivity. apply NoDup_incl_length; [exact Nd|exact Inc].
Qed.

Lemma plan_height : regular_height 1 1 1.
Proof. intros j Hj. assert (j = 1)%nat as -> by lia. cbn [INR]. lra. Qed.
Lemma plan_base (TK : Trig R) : exists h : hum R, newHum = Ok h
  /\ (exists mh, hsup h = MkSup 1 1 1 (MkFoot 1 1 (vzero 3) (vzero 3) (vzero 3) (vzero 3) mh emptyPolygon emptyPolygon [true])
       (MkFoot 1 1 (vzero 3) (vzero 3) (vzero 3) (vzero 3) mh emptyPolygon emptyPolygon [true]) 0 (2 * 1) (2 * 1) (2 * 1) false (vzero 0) (MkCb [MkPhase DS (2 * 1)] 1) noSel)
  /\ hw h = MkHW 0 0 0 /\ vlen (hvelRef h) = 2%nat /\ hfirst h = true
  /\ lsx (hlip h) = St3 0 0 0 /\ lsy (hlip h) = St3 0 0 0 /\ lN (hlip h) = 1%nat /\ lT (hlip h) = 1 /\ lh (hlip h) = 1 /\ lm (hlip h) = 1 /\ lM (hlip h) = 1 /\ lg (hlip h) = GRAVITY /\ lfb (hlip h) = 1.
Proof.
  destruct ZebCalls.newLipDefault_ok as (l & Hl). unfold newHum, newSupDefault, newSup, FootModel.newFoot. rsimpl. rewrite (proj2 (Rltb_true 0 1)) by lra.
  cbn [Nat.ltb Nat.leb guard bind]. rewrite Hl. cbn [bind]. eexists. split; [reflexivity|]. cbn [h_computeConstantPart hsup hlip hvelRef hw hfirst vlen vzero].
  assert (Q : lsx l = St3 0 0 0 /\ lsy l = St3 0 0 0 /\ lN l = 1%nat /\ lT l = 1 /\ lh l = 1 /\ lm l = 1 /\ lM l = 1 /\ lg l = GRAVITY /\ lfb l = 1).
  { unfold newLipDefault, newLip, l_auto, l_computeDynamics in Hl. cbn [lauto] in Hl. binds Hl. injection Hl as <-. repeat split. }
  destruct Q as (Q1 & Q2 & Q3 & Q). rewrite Q3. split; [eexists; reflexivity|]. auto 10.
Qed.
(** The generator after these calls *)
Lemma square_made d : pverts (square d) <> [] /\ built (square d) /\ pverts (square d) = [(- d, - d); (d, - d); (d, d); (- d, d)].
Proof. unfold built, square. rewrite (proj2 (polygon_counted _)). split; [discriminate|]. split; reflexivity. Qed.
Local Strategy opaque [square].
Lemma plan_ready (TK : Trig R) : exists h0 h : hum R, newHum = Ok h0 /\ hsteps plan_calls h0 = Ok h /\ ready_to_walk 1 2 2 1 (h_setSolvers (hmats h) h)
  /\ (exists mh, hsup h = MkSup 1 1 1 (MkFoot 1 1 (vzero 3) (vzero 3) (vzero 3) (vzero 3) mh (square 10) (square 1) [true])
       (MkFoot 1 1 (vzero 3) (MkVec 3 (fun i => if Nat.eqb i 0 then -8 else 0)) (vzero 3) (vzero 3) mh (square 10) (square 1) [true]) 0 (2 * 1) (2 * 1) (2 * 1) false (vzero 0) (MkCb [MkPhase DS (2 * 1)] 1) noSel)
  /\ hcopC h = true /\ hfeetC h = true /\ hlip h = hlip h0 /\ hw h = hw h0 /\ hfirst h = true.
Proof.
  destruct (plan_base TK) as (h0 & E & (mh & Es) & Ew & Ev & Ei & _ & _ & EN & ET & Eh & _ & _ & _ & Ef). exists h0.
  set (v := MkVec 3 (fun i => if Nat.eqb i 0 then -8 else 0)).
  set (h4 := h_setCopConvexPolygon SRight (square 1) (h_setCopConvexPolygon SLeft (square 1) (h_setKinematicConvexPolygon SRight (square 10) (h_setKinematicConvexPolygon SLeft (square 10) h0)))).
  set (h5 := h_setSup h4 (s_setFoot SRight (f_setStateY v (s_foot SRight (hsup h4))) (hsup h4))).
  assert (E5 : h_setFootStateY SRight v h4 = Ok h5) by reflexivity.
  exists (h_setConfig true true h5). split; [exact E|]. split; [reflexivity|].
  assert (U : set_up h5).
  { eapply up_call with (c := HSetFootY SRight v); [|exact (fun f => f)|exact E5].
    eapply up_call with (c := HSetCop SRight (square 1)); [|exact (fun f => f)|reflexivity]. eapply up_call with (c := HSetCop SLeft (square 1)); [|exact (fun f => f)|reflexivity].
    eapply up_call with (c := HSetKin SRight (square 10)); [|exact (fun f => f)|reflexivity]. eapply up_call with (c := HSetKin SLeft (square 10)); [|exact (fun f => f)|reflexivity]. apply up_new. exact E. }
  assert (S : settled (h_setConfig true true h5)) by (eapply settled_rebuild with (c := HSetConfig true true); [exact U|exact Logic.I|reflexivity]).
  assert (ES : hsup (h_setConfig true true h5) = MkSup 1 1 1 (MkFoot 1 1 (vzero 3) (vzero 3) (vzero 3) (vzero 3) mh (square 10) (square 1) [true])
       (MkFoot 1 1 (vzero 3) v (vzero 3) (vzero 3) mh (square 10) (square 1) [true]) 0 (2 * 1) (2 * 1) (2 * 1) false (vzero 0) (MkCb [MkPhase DS (2 * 1)] 1) noSel).
  { unfold h5, h4. cbn [h_setConfig h_computeConstantPart h_setSup h_setModels h_setCopConvexPolygon h_setKinematicConvexPolygon hsup]. rewrite Es. reflexivity. }
  assert (EL : hlip (h_setConfig true true h5) = hlip h0) by reflexivity. assert (EV : hvelRef (h_setConfig true true h5) = hvelRef h0) by reflexivity.
  assert (P : forall d, pverts (square d) <> []) by (intros d; apply square_made).
  assert (B : forall d, built (square d)) by (intros d; apply square_made).
  assert (EI : hfirst (h_setConfig true true h5) = hfirst h0) by reflexivity.
  split; [|split; [exists mh; exact ES|]].
  - set (h := h_setConfig true true h5) in *. constructor.
    + exists h, (hmats h). auto.
    + unfold EPS; rsimpl; lra.
    + lia.
    + cbn [h_setSolvers hsup]. rewrite ES. cbn [sN]. lia.
    + lia.
    + cbn [h_setSolvers hsup]. rewrite ES. cbn; lra.
    + cbn [h_setSolvers hsup]. rewrite ES. cbn; lra.
    + cbn [h_setSolvers hsup]. rewrite ES. cbn; lra.
    + cbn [h_setSolvers hsup]. rewrite ES. cbn [sleft sright fkin]. auto.
    + cbn [h_setSolvers hsup]. rewrite ES. cbn [sleft sright fkin fcop]. auto.
    + cbn [h_setSolvers hsup hvelRef]. rewrite ES, EV, Ev. reflexivity.
    + cbn [h_setSolvers hlip]. rewrite EL, Eh. exact plan_height.
    + cbn [h_setSolvers hlip]. rewrite EL. left. exact Ef.
  - rewrite EI. auto 10.
Qed.
Lemma plan_hull (s : sup R) p mh : smove s = true -> nth_error (cbl (stl s)) 0 = Some p ->
  sleft s = MkFoot 1 1 (vzero 3) (vzero 3) (vzero 3) (vzero 3) mh (square 10) (square 1) [true] ->
  sright s = MkFoot 1 1 (vzero 3) (MkVec 3 (fun i => if Nat.eqb i 0 then -8 else 0)) (vzero 3) (vzero 3) mh (square 10) (square 1) [true] ->
  s_computeDSCopConvexPolygon s = makePolygon (map zinj hull_points).
Proof.
  intros Hm Hp El Er. unfold s_computeDSCopConvexPolygon. rewrite El, Er. cbn [fsx fsy fcop vread vlen vzero Nat.ltb Nat.leb guard bind vget Nat.eqb].
  assert (Ef : s_front s = Ok p) by (unfold s_front, cb_at; rewrite (rd_some _ _ _ Hp); reflexivity). rewrite Ef, Hm. cbn [bind].
  destruct (phType p); cbn [bind]; unfold shiftPoly; destruct (square_made 1) as (_ & _ & ->); f_equal; unfold hull_points, zinj, psub; cbn [map app fst snd]; rsimpl;
    repeat (apply f_equal2; [apply f_equal2; ring|]); reflexivity.
Qed.
(** It starts to walk. *)
Example C72_case : exists (hs h0 h' : hum R) o found, ready_to_walk 1 2 2 1 hs /\ hsteps [HSetMove true] hs = Ok h0 /\ walked 1 2 2 1 h0 /\ ~ hull_fails 1 h0
  /\ hcopC h0 = true /\ hfeetC h0 = true
  /\ (forall h, h_prepare 1 h0 = Ok h -> well_posed o h /\ exact_inverses h /\ respects o h) /\ h_solve o 1 h0 = Ok (found, h') /\ at_sample (hsup h').
Proof.
  destruct (plan_ready RTrig) as (n0 & h & En & Es & Rw & (mh & EH) & Ec & Ef & EL & Ew & Ei). destruct (plan_base RTrig) as (n1 & En' & _ & Bw & _ & _ & Bx & By & BN & BT & Bh & Bm & BM & Bg & Bf).
  rewrite En in En'. injection En' as <-. rewrite <- EL in Bx, By, BN, BT, Bh, Bm, BM, Bg, Bf. rewrite <- Ew in Bw. clear En Es EL Ew n0.
  set (hs := h_setSolvers (hmats h) h) in *.
  assert (Hs : exists h0, hsteps [HSetMove true] hs = Ok h0 /\ hstep (HSetMove true) hs = Ok h0 /\ hsup h0 = s_setMove true (hsup h) /\ hlip h0 = hlip h /\ hcopC h0 = true /\ hfeetC h0 = true /\ hfirst h0 = true).
  { cbn [hsteps hstep]. unfold h_setMove. assert (F : s_isInDS (s_setMove true (hsup hs)) = Ok true) by (change (hsup hs) with (hsup h); rewrite EH; reflexivity).
    rewrite F. cbn [bind]. eexists. split; [reflexivity|]. split; [reflexivity|]. cbn [hsup hlip hcopC hfeetC hfirst]. unfold hs. cbn [h_setSolvers hsup hlip hcopC hfeetC hfirst]. auto 10. }
  destruct Hs as (h0 & Es & Es' & E1 & E2 & E3 & E4 & E5).
  assert (Wd : walked 1 2 2 1 h0).
  { exists hs, [HSetMove true]. split; [exact Rw|]. split; [split; [exact Logic.I|intros; exact Logic.I]|]. split; [split; [intros []|intros; exact Logic.I]|exact Es]. }
  destruct (walked_walk _ _ _ _ _ Wd) as (N & HN & Hn0 & Ha & HaN & Hb & Hfb & Rc & W). destruct (walk_about 1 2 2 1 N h0 HN Hn0 Ha HaN Hb Hfb Rc W) as (tn & c & A).
  assert (c = 1)%nat as -> by (pose proof (as_c _ _ _ _ _ A); lia). pose proof (as_ready _ _ _ _ _ A) as Rd. cbn [INR] in Rd. replace (1 * 1) with 1 in Rd by ring.
  destruct (ready_update _ _ _ _ 1 Rd) as (s1 & v1 & f & r0 & a & b & k & w & k1 & i & Eu & U & _ & _ & Ha' & Hb' & Htn & _).
  destruct (u_static _ _ _ _ _ _ _ _ _ _ _ _ _ _ _ U) as (U1 & U2 & U3 & U4 & U5 & U6 & U7 & U8 & U9). rewrite E1, EH in U1, U2, U4, U5, U8. cbn [s_setMove sN sT sleft sright smove] in U1, U2, U4, U5, U8.
  assert (Et : tn = 2).
  { destruct (ry_now _ _ _ _ Rd) as [(_ & H)|(H & _)]; rewrite E1, EH in H; cbn [s_setMove sttnp] in H; [lra|]. unfold EPS in H. rsimpl. lra. }
  assert (Er : r0 = 1%nat) by (rewrite E1, EH in Htn; cbn [s_setMove sT] in Htn; apply INR_eq; cbn [INR]; lra).
  assert (E0 : i = 0%nat).
  { destruct (u_low _ _ _ _ _ _ _ _ _ _ _ _ _ _ _ U) as [H|H]; [exact H|]. exfalso. pose proof (ends_mono (hsup h0) f r0 a b ltac:(exact (ry_N _ _ _ _ Rd)) Ha' Hb' 0%nat (i - 1)%nat ltac:(lia)) as G. cbn [ends] in G. assert (sN (hsup h0) = 1%nat) by (rewrite E1, EH; reflexivity). lia. }
  assert (EM : snb s1 = 0%nat) by (rewrite (u_nb _ _ _ _ _ _ _ _ _ _ _ _ _ _ _ U), nbs_eq, E0; unfold nbs_closed; destruct (is_DS _), (smove (hsup h0)); reflexivity).
  assert (Efr : nth_error (cbl (stl s1)) 0 = Some f) by (rewrite (u_tl _ _ _ _ _ _ _ _ _ _ _ _ _ _ _ U), E0; reflexivity).
  destruct hull_good as (g & Hg & Gg & Lg). pose proof (plan_hull s1 f mh U8 Efr U4 U5) as Hul. rewrite Hg in Hul.
  assert (Hok : hull_ok s1).
  { exists g. split; [exact Hul|]. rewrite U4, U5. cbn [fcop]. destruct (square_made 1) as (_ & _ & ->). exact Lg. }
  assert (Nf : ~ hull_fails 1 h0) by (intros (_ & s & v & Eu' & H); rewrite Eu in Eu'; injection Eu' as <- <-; exact (H Hok)).
  assert (Sv : forall o, exists r, h_solve o 1 h0 = Ok r).
  { intros o. destruct (C55_walk_never_fails 1 2 2 1 hs [HSetMove true; HSolve o 1] Rw) as [(h' & E)|(cs1 & o1 & cs2 & h1 & Ecs & E & F)].
    - split; [exact Logic.I|]. intros k' _. split; [reflexivity|]. intros; exact Logic.I.
    - cbn [hsteps] in E. rewrite Es' in E. cbn [bind] in E. apply bind_ok in E. destruct E as (h2 & E & _). cbn [hstep] in E. apply bind_ok in E. destruct E as (r & E & _). eauto.
    - exfalso. destruct cs1 as [|c1 [|c2 [|c3 cs1]]]; try discriminate Ecs. injection Ecs as <- _ _. rewrite Es in E. injection E as <-. exact (Nf F). }
  assert (Pr : exists h1, h_prepare 1 h0 = Ok h1) by (destruct (Sv (fun q z => (fun _ => 0, true))) as (r & E); unfold h_solve in E; apply bind_ok in E; destruct E as (h1 & E & _); eauto).
  destruct Pr as (h1 & Hp).
  destruct (prepared _ _ _ Rc Hp) as (I & Sh & _). destruct (h_prepare_cases _ _ _ Hp) as (s2 & X2 & l2 & Hu & Hl & _ & EN2 & F1 & F2 & _ & _ & _ & _ & _ & F3 & F4 & _).
  rewrite Eu in Hu. injection Hu as <- <-. rewrite E3 in F3. rewrite E4 in F4.
  assert (El : hlip h1 = hlip h).
  { rewrite F2, <- E2. rewrite E2, Bf in Hl. replace (1 - 1) with 0 in Hl by ring. rewrite Rabs_R0 in Hl. rewrite (proj2 (Rltb_false EPS 0)) in Hl by (rsimpl; lra). injection Hl as <-. symmetry. exact E2. }
  assert (Gp : good_polygons h1).
  { split; intros _ j p Hj Ep; rewrite F1 in *; [|rewrite EM in Hj; lia]. unfold s_getCopConvexPolygon in Ep. apply guard_ok in Ep. destruct Ep as (_ & Ep). apply bind_ok in Ep. destruct Ep as (ph & _ & Ep).
    destruct (phType ph); [rewrite Hul in Ep|rewrite U4 in Ep|rewrite U5 in Ep]; injection Ep as <-; [exact Gg|apply (square_good 1); lra|apply (square_good 1); lra]. }
  assert (Cs : forall fx fy, can_step h1 fx fy) by (intros fx fy _; left; intros j p Hj; rewrite F1, EM in Hj; lia).
  assert (Or : forall fx fy, support_is (hsup h1) fx fy -> ordinary h1 fx fy).
  { intros fx fy Hf. rewrite F1 in Hf. pose proof (support_pos _ _ _ _ Efr Hf) as Hq. rewrite U8, U4, U5 in Hq. unfold foot_pos in Hq. cbn [fsx fsy vzero vget Nat.eqb] in Hq.
    destruct (C64_restarts_from_present_cop h0 1 h1 Rc Hp E5) as (_ & Q). rewrite E2, BN in Q. destruct (Q 0%nat ltac:(lia)) as (Q1 & Q2). rewrite El, Bx, Bh, Bm, BM, Bg, E1, EH in Q1. rewrite El, By, Bh, Bm, BM, Bg, E1, EH in Q2.
    unfold cop_of, dCopX, dCopY in Q1, Q2. cbn [s_setMove sleft fsx fsy vzero vget pos acc GRAVITY gx gy gz Nat.add] in Q1, Q2. unfold GRAVITY_NORM in Q1, Q2. rsimpl.
    split; [|destruct (phType f); injection Hq as -> ->; split; apply Rabs_le; lra].
    rewrite El, BN, F1, EM. intros j Hj. apply Rabs_le. destruct j as [|[|j]]; [lra|lra|lia]. }
  assert (Pp : forall fx fy, support_is (hsup h1) fx fy -> exists Y, permitted_plan h1 fx fy Y) by (intros fx fy Hf; apply C72_admissible_motion; auto).
  assert (EP : 0 <= EPS) by (rsimpl; lra).
  assert (Ox : exists o, exact_for o h1).
  { destruct (Sv (fun q z => (fun _ => 0, true))) as ((fd & hx) & E). destruct (solve_support _ _ _ _ _ _ _ _ A Hp E) as (fx & fy & Hf). unfold h_solve in E. rewrite Hp in E. cbn [bind] in E. apply bind_ok in E. destruct E as ((q & idx) & Hq & _).
    destruct (Pp fx fy Hf) as (Y & HY). destruct (QPExist.qp_has_minimiser (normalizeMatrices EPS q)) as (x & Hx).
    - exists (fun k => Y k - vget (hX h1) k). apply (proj2 (proj1 (C17_normalisation_preserves_solutions q EPS _ EP))). apply (plan_iff 1 1 1 tn h0 h1 A Hp fx fy Hf q idx _ Hq). rewrite moved_back. exact HY.
    - exists (fun _ _ => (x, true)). intros q' idx' it Hq' _. rewrite Hq in Hq'. injection Hq' as <- <-. exact Hx. }
  destruct Ox as (o & Ho). destruct (Sv o) as ((found & h') & Hs). exists hs, h0, h', o, found. split; [exact Rw|]. split; [exact Es|]. split; [exact Wd|]. split; [exact Nf|]. split; [exact E3|]. split; [exact E4|].
  split; [|split; [exact Hs|]].
  - intros h2 Hp2. rewrite Hp in Hp2. injection Hp2 as <-. split; [|split].
    + split; [exact Ho|]. split; [exact Gp|]. auto.
    + apply one_sample_exact; [exact I|rewrite El; exact BN|]. intros z0 Hz. cbv zeta. rewrite El, Bm, BM, Bh, Bg.
      pose proof (call_first _ _ _ _ _ _ A Hp) as (y' & Hy' & ES). unfold h_nb in Hz. apply bind_ok in Hz. destruct Hz as (y & Hy & Hz). injection Hz as <-. rewrite Hy in Hy'. injection Hy' as <-. replace (y - 1 + 1)%Z with y by lia.
      rewrite El in ES. rewrite <- ES. cbn [INR GRAVITY gz]. unfold GRAVITY_NORM. rsimpl. apply Rabs_le. lra.
    + destruct (solve_support _ _ _ _ _ _ _ _ A Hp Hs) as (fx & fy & Hf). exact (C68_exact_solvers_respect _ _ _ _ _ _ _ _ _ A Hp Hf Ho (Pp fx fy Hf)).
  - destruct (C39_solve_applies_first_jerks _ _ _ _ _ Rc Hs) as (h2 & _ & _ & _ & _ & Hp2 & _ & _ & _ & _ & _ & _ & _ & _ & _ & _ & _ & Hu). rewrite Hp in Hp2. injection Hp2 as <-.
    destruct (feet_frame _ _ _ _ Hu) as (_ & _ & _ & _ & _ & _ & FT & Fn). exists 1%nat. rewrite FT, Fn, F1, U2, U9, Et. cbn [INR]. lra.
Qed.
(** A plan of two steps, the reach being a diamond: the sides that are not along the axes bind each step to the one before. *)
Definition diamond_pts : list (pt R) := [(0, -20); (20, 0); (0, 20); (-20, 0)].
Lemma diamond_good : good_polygon (polygon_of_vertices diamond_pts) /\ satisfies (polygon_of_vertices diamond_pts) (0, 0).
Proof.
  assert (E : edges diamond_pts = [((0, -20), (20, 0)); ((20, 0), (0, 20)); ((0, 20), (-20, 0)); ((-20, 0), (0, -20))]) by reflexivity.
  assert (C : convex_ccw diamond_pts).
  { intros e q He Hq. rewrite E in He. unfold inner. cbn [In diamond_pts] in He, Hq. intuition (subst; unfold pcross, psub; cbn [fst snd]; rsimpl; lra). }
  assert (S : forall e, In e (edges diamond_pts) -> sharp_edge e).
  { intros e He. rewrite E in He. unfold sharp_edge. cbn [In] in He. intuition (subst; cbn [fst snd] in *; repeat match goal with H : Rabs _ < _ |- _ => apply Rabs_def2 in H end; lra). }
  split.
  - exists diamond_pts. split; [reflexivity|]. split; [discriminate|]. split; [exact C|]. split; [exact S|]. intros q Hq. cbn [In diamond_pts] in Hq. intuition (subst; cbn [fst snd]; apply Rabs_le; lra).
  - apply polygon_constraints; [exact S|exact C|unfold in_box; cbn [fst snd]; rewrite Rabs_R0; lra|]. intros e He. rewrite E in He. unfold inner. cbn [In] in He. intuition (subst; unfold pcross, psub; cbn [fst snd]; rsimpl; lra).
Qed.
Definition two_steps (l : lip R) : hum R :=
  let d := polygon_of_vertices diamond_pts in
  let f := MkFoot 1 1 (vzero 3) (vzero 3) (vzero 3) (vzero 3) 0 d (square 1) [true] in
  MkHum (MkSup 1 1 1 f f 2 1 1 1 true (vzero 4) (MkCb [MkPhase LeftSS 1; MkPhase RightSS 1; MkPhase LeftSS 1] 3) noSel) l (vzero 2) 2 [] [] (vzero 6) (vzero 6) (vzero 2) (MkHW 1 1 1) false true 8 8 true false.
Example C72_two_steps_case : exists h : hum R, snb (hsup h) = 2%nat /\ hfeetC h = true /\ support_is (hsup h) 0 0 /\ ordinary h 0 0 /\ good_polygons h /\ can_step h 0 0 /\ exists Y, permitted_plan h 0 0 Y.
Proof.
  destruct (plan_base RTrig) as (h0 & _ & _ & _ & _ & _ & _ & _ & BN & _). exists (two_steps (hlip h0)). destruct diamond_good as (G & S0).
  assert (O : ordinary (two_steps (hlip h0)) 0 0) by (split; [intros j _|split]; change (Rabs 0 <= 10000); rewrite Rabs_R0; lra).
  assert (K : forall k p, s_getKinematicConvexPolygon k (hsup (two_steps (hlip h0))) = Ok p -> p = polygon_of_vertices diamond_pts).
  { intros k p H. unfold s_getKinematicConvexPolygon in H. apply guard_ok in H. destruct H as (_ & H). apply bind_ok in H. destruct H as (b & _ & H). apply bind_ok in H. destruct H as (ph & _ & H). destruct (phType ph); [discriminate H|injection H as <-; reflexivity|injection H as <-; reflexivity]. }
  assert (Gp : good_polygons (two_steps (hlip h0))) by (split; [discriminate|intros _ k p _ H; rewrite (K _ _ H); exact G]).
  assert (Cs : can_step (two_steps (hlip h0)) 0 0).
  { intros _. right. cbv zeta. intros k p Hk H. cbn [two_steps hsup snb] in Hk. assert (k = 0)%nat as -> by lia. rewrite (K _ _ H). cbn [from_step]. unfold dStepX, dStepY. cbn [two_steps hX vzero vget]. rsimpl. replace (0 - 0) with 0 by ring. exact S0. }
  split; [reflexivity|]. split; [reflexivity|]. split; [exists (vzero 3), (vzero 3); cbn; repeat split; lia|]. split; [exact O|]. split; [exact Gp|]. split; [exact Cs|]. exact (C72_admissible_motion _ _ _ O Gp Cs).
Qed.
Print Assumptions C72_case.
Print Assumptions C72_two_steps_case.
