(** C55: a humanoid walk generator that is set up keeps walking. *)

From Coq Require Import Reals List ZArith Arith Bool Lra Lia.
From Verif Require Import Scalar LinAlg LinAlgFacts ToolsModel ToolsSpec NoDynModel PolygonModel PolygonFacts HullFacts HullCases QPModel TrajModel LipModel FootModel
  ModelsSpec ModelsFacts SupModel SupSpec SupFacts SupTime SupWalk PropSup PropPolygon HumModel HumSpec HumFacts HumTable HumRunSpec HumRun.
From Verif Require ZebCalls.
Import ListNotations.
Local Open Scope R_scope.

Section Run.
Context {TK : Trig R}.

(** Any sequence of permitted calls: each of them returns, unless the CoP is constrained and the hull
    of the feet in double support is not found.  Nothing else can make a call abort, read out of
    bounds, loop or divide by zero, whatever the solver answers. *)
Theorem C55_walk_never_fails : forall n a b fb h cs, ready_to_walk n a b fb h -> permitted n fb cs h ->
  (exists h', hsteps cs h = Ok h')
  \/ exists cs1 o cs2 h1, cs = cs1 ++ HSolve o fb :: cs2 /\ hsteps cs1 h = Ok h1 /\ hull_fails fb h1.
Proof.
  intros n a b fb h cs Hr Hp. destruct (ready_walks _ _ _ _ _ Hr) as (HN & W). destruct Hr as [_ Hfb Hn (Ha & HaN) Hb _ _ _ _ _ _ _ _].
  destruct (run_ok _ n a b fb HN Hn Ha HaN Hb Hfb cs h W Hp) as [(h' & E & _)|R]; [left; eauto|right; exact R].
Qed.
(** Without constraint on the CoP every call returns. *)
Lemma permitted_cop n fb c h h' : may n fb c h -> hstep c h = Ok h' -> hcopC h' = hcopC h.
Proof.
  intros Hc E. assert (D : ~ rebuilds c /\ ~ sets_polygon c) by (destruct c; cbn in *; try contradiction; auto). destruct D as (D1 & D2). apply (step_kept _ _ _ E D1 D2).
Qed.
Lemma hsteps_app (cs1 cs2 : list (hcall R)) : forall h h1, hsteps cs1 h = Ok h1 -> hsteps (cs1 ++ cs2) h = hsteps cs2 h1.
Proof.
  induction cs1 as [|c cs1 IH]; intros h h1 E; cbn [hsteps app] in *; [injection E as ->; reflexivity|]. apply bind_ok in E. destruct E as (h' & -> & E). cbn [bind]. apply IH. exact E.
Qed.
Theorem C55_unconstrained_cop : forall n a b fb h cs, ready_to_walk n a b fb h -> permitted n fb cs h -> hcopC h = false -> exists h', hsteps cs h = Ok h'.
Proof.
  intros n a b fb h cs Hr Hp Hc. destruct (C55_walk_never_fails _ _ _ _ _ _ Hr Hp) as [H|(cs1 & o & cs2 & h1 & -> & E & F)]; [exact H|exfalso].
  assert (Q : hcopC h1 = hcopC h); [|destruct F; congruence]. clear Hr Hc F. revert h Hp E. induction cs1 as [|c cs1 IH]; intros h Hp E; cbn [hsteps permitted app] in *; [injection E as ->; reflexivity|].
  destruct Hp as (Hc & Hp). apply bind_ok in E. destruct E as (h' & E1 & E). rewrite (IH h' (Hp _ E1) E). exact (permitted_cop _ _ _ _ _ Hc E1).
Qed.
(** What [ready_to_walk] asks of the solver table holds of the table that the program itself builds
    when there is one preview sample and no constraint. *)
Theorem C55_own_solvers : forall h, settled h -> sN (hsup h) = 1%nat -> hmaxC h = 0%nat ->
  exists h0 t, settled h0 /\ h = h_setSolvers t h0 /\ (forall i e, nth_error (hmats h0) i = Some e -> nth_error t i = Some e).
Proof.
  intros h Hs HN HC. exists h, (hsolvers h). split; [exact Hs|]. split; [destruct h; reflexivity|].
  assert (A : api_reached h) by (apply settled_up in Hs; clear - Hs; induction Hs as [h H|c h h' _ IH _ E]; [apply api_new; exact H|eapply api_call; eassumption]).
  destruct (api_solvers _ A) as (t & ->). pose proof (reached_inv _ (up_reached _ (settled_up _ Hs))) as J. rewrite (hi_mats _ J), (hi_maxS _ J), <- (hi_N _ J), HN, HC.
  intros i e He. change (qpTable 1 1 0) with [(2, 0); (4, 0)]%nat in He. rewrite nth_error_app1; [exact He|]. apply nth_error_Some. congruence.
Qed.
End Run.

(** The hull is found when the vertices of the two feet are separated. *)
Theorem C55_hull_found : forall (s : sup R) p lx ly rx ry,
  s_front s = Ok p -> phType p = DS ->
  (0 < vlen (fsx (sleft s)))%nat -> (0 < vlen (fsy (sleft s)))%nat -> (0 < vlen (fsx (sright s)))%nat -> (0 < vlen (fsy (sright s)))%nat ->
  vget (fsx (sleft s)) 0 = lx -> vget (fsy (sleft s)) 0 = ly -> vget (fsx (sright s)) 0 = rx -> vget (fsy (sright s)) 0 = ry ->
  pverts (fcop (sleft s)) <> [] -> pverts (fcop (sright s)) <> [] ->
  (let t := if smove s then (lx, ly) else ((rx + lx) / 2, (ry + ly) / 2) in
   separated (map (fun q => (fst q + (lx - fst t), snd q + (ly - snd t))) (pverts (fcop (sleft s)))
              ++ map (fun q => (fst q + (rx - fst t), snd q + (ry - snd t))) (pverts (fcop (sright s))))) ->
  hull_ok s.
Proof.
  intros s p lx ly rx ry Hf Hd L1 L2 R1 R2 <- <- <- <- Nl Nr Hs. cbv zeta in Hs. match type of Hs with separated ?x => set (q := x) in Hs end.
  assert (E : s_computeDSCopConvexPolygon s = makePolygon q).
  { unfold s_computeDSCopConvexPolygon, vread. rewrite (proj2 (Nat.ltb_lt _ _) L1), (proj2 (Nat.ltb_lt _ _) L2), (proj2 (Nat.ltb_lt _ _) R1), (proj2 (Nat.ltb_lt _ _) R2). cbn [guard bind]. rewrite Hf. cbn [bind]. rewrite Hd.
    destruct (smove s); reflexivity. }
  assert (Lq : length q = (length (pverts (fcop (sleft s))) + length (pverts (fcop (sright s))))%nat) by (unfold q; rewrite app_length, !map_length; reflexivity).
  assert (H2 : (2 <= length q)%nat) by (rewrite Lq; destruct (pverts (fcop (sleft s))), (pverts (fcop (sright s))); try contradiction; cbn [length]; lia).
  destruct (C52_encloses q H2 Hs) as (v & Ev & Nd & Inc & _). unfold hull_ok. rewrite E. unfold makePolygon. rewrite Ev. cbn [bind]. eexists. split; [reflexivity|].
  rewrite (proj2 (polygon_counted v)), <- Lq. apply NoDup_incl_length; [exact Nd|exact Inc].
Qed.

(** ** Concrete cases *)
(** A new generator: one sample of 1 s, steps of 2 s.  Both feet get a square as kinematic polygon and
    a smaller one for the CoP; solve is called every 0.1 s. *)
Definition square (d : R) : polygon R := polygon_of_vertices [(- d, - d); (d, - d); (d, d); (- d, d)].
Definition case_calls (cop feet : bool) : list (hcall R) :=
  [HSetKin SLeft (square 1); HSetKin SRight (square 1); HSetCop SLeft (square (1/10)); HSetCop SRight (square (1/10)); HSetConfig cop feet].
Lemma new_case (TK : Trig R) : exists h : hum R, newHum = Ok h /\ sN (hsup h) = 1%nat /\ sT (hsup h) = 1 /\ sstep (hsup h) = 2 /\ sDS (hsup h) = 2
  /\ vlen (hvelRef h) = 2%nat /\ lh (hlip h) = 1 /\ lfb (hlip h) = 1 /\ smove (hsup h) = false.
Proof.
  destruct ZebCalls.newLipDefault_ok as (l & Hl). unfold newHum, newSupDefault, newSup, FootModel.newFoot. rsimpl. rewrite (proj2 (Rltb_true 0 1)) by lra.
  cbn [Nat.ltb Nat.leb guard bind]. rewrite Hl. cbn [bind]. eexists. split; [reflexivity|]. cbn [h_computeConstantPart hsup hlip hvelRef sN sT sstep sDS smove vlen vzero].
  assert (Q : lN l = 1%nat /\ lh l = 1 /\ lfb l = 1).
  { unfold newLipDefault, newLip, l_auto, l_computeDynamics in Hl. cbn [lauto] in Hl. binds Hl. injection Hl as <-. repeat split. }
  destruct Q as (-> & -> & ->). rsimpl. repeat split; lra.
Qed.
Lemma case_height : regular_height 10 (1/10) 1.
Proof.
  intros j Hj E. assert (F : INR j * INR j = 600 * (100 / 981)) by lra. assert (B : (j * j = 61 \/ j * j <= 60 \/ 62 <= j * j)%nat) by lia. destruct B as [B|[B|B]].
  - clear E F. assert (j <= 10)%nat by lia. do 11 (destruct j as [|j]; [lia|]). lia.
  - apply le_INR in B. rewrite mult_INR, F in B. cbn in B. lra.
  - apply le_INR in B. rewrite mult_INR, F in B. cbn in B. lra.
Qed.
Example C55_case : forall (TK : Trig R) cop feet, exists h0 h : hum R, newHum = Ok h0 /\ hsteps (case_calls cop feet) h0 = Ok h
  /\ ready_to_walk 10 2 2 (1/10) (h_setSolvers (hmats h) h)
  /\ (cop = false -> feet = false -> ready_to_walk 10 2 2 (1/10) h)
  /\ forall os h', permitted 10 (1/10) (HSetMove true :: map (fun o => HSolve o (1/10)) os) h'.
Proof.
  intros TK cop feet. destruct (new_case TK) as (h0 & E & EN & ET & Es & Ed & Ev & Eh & Ef & Em). exists h0. eexists. split; [exact E|]. split; [reflexivity|].
  set (h1 := h_setCopConvexPolygon SRight _ _). 
  assert (U : set_up h1).
  { eapply up_call with (c := HSetCop SRight (square (1/10))); [|exact (fun f => f)|reflexivity]. eapply up_call with (c := HSetCop SLeft (square (1/10))); [|exact (fun f => f)|reflexivity].
    eapply up_call with (c := HSetKin SRight (square 1)); [|exact (fun f => f)|reflexivity]. eapply up_call with (c := HSetKin SLeft (square 1)); [|exact (fun f => f)|reflexivity]. apply up_new. exact E. }
  assert (S : settled (h_setConfig cop feet h1)) by (eapply settled_rebuild with (c := HSetConfig cop feet); [exact U|exact Logic.I|reflexivity]).
  assert (R : forall t, (exists k t', settled k /\ h_setSolvers t (h_setConfig cop feet h1) = h_setSolvers t' k /\ (forall i e, nth_error (hmats k) i = Some e -> nth_error t' i = Some e)) ->
            ready_to_walk 10 2 2 (1/10) (h_setSolvers t (h_setConfig cop feet h1))).
  { intros t Ht. assert (P : forall d, pverts (square d) <> []) by (intros d; unfold square; rewrite (proj2 (polygon_counted _)); discriminate).
    assert (B : forall d, built (square d)) by (intros d; unfold built, square; rewrite (proj2 (polygon_counted _)); reflexivity).
    assert (ES : hsup (h_setSolvers t (h_setConfig cop feet h1)) = hsup h1) by reflexivity. assert (EL : hlip (h_setSolvers t (h_setConfig cop feet h1)) = hlip h0) by reflexivity.
    assert (EV : hvelRef (h_setSolvers t (h_setConfig cop feet h1)) = hvelRef h0) by reflexivity.
    assert (Q : sN (hsup h1) = 1%nat /\ sT (hsup h1) = 1 /\ sstep (hsup h1) = 2 /\ sDS (hsup h1) = 2) by (auto).
    destruct Q as (Q1 & Q2 & Q3 & Q4).
    constructor; [exact Ht|..]; rewrite ?ES, ?EL, ?EV, ?Q1, ?Q2, ?Q3, ?Q4, ?Ev, ?Eh, ?Ef.
    - unfold EPS; rsimpl; lra.
    - lia.
    - lia.
    - lia.
    - cbn; lra.
    - cbn; lra.
    - cbn; lra.
    - split; exact (P 1).
    - split; [exact (B 1)|]. split; [exact (B 1)|]. split; exact (B (1/10)).
    - reflexivity.
    - exact case_height.
    - right. unfold EPS; rsimpl. rewrite Rabs_left; lra. }
  split; [|split].
  - apply R. exists (h_setConfig cop feet h1), (hmats (h_setConfig cop feet h1)). auto.
  - intros -> ->. replace (h_setConfig false false h1) with (h_setSolvers (hsolvers (h_setConfig false false h1)) (h_setConfig false false h1)) by reflexivity. apply R.
    destruct (C55_own_solvers _ S) as (k & t & A & B & C); [exact EN|exact (proj1 (proj2 (new_solvers _ E)))|]. exists k, t. split; [exact A|]. split; [rewrite <- B; reflexivity|exact C].
  - intros os. set (P := permitted 10 (1/10)). intros h'. split; [exact Logic.I|]. clear. intros k _. revert k. induction os as [|o os IH]; intros k; [exact Logic.I|]. split; [reflexivity|]. intros k' _. apply IH.
Qed.
(** Two square feet side by side, the right one 8 below the left one: four of the eight vertices are on
    one line, twice, and the hull is found. *)
Definition case_foot (y : R) : foot R := MkFoot 1 1 (vzero 3) (MkVec 3 (fun i => if Nat.eqb i 0 then y else 0)) (vzero 3) (vzero 3) 0 emptyPolygon (square 1) [true].
Example C55_hull_case : hull_ok (MkSup 1 1 1 (case_foot 0) (case_foot (-8)) 0 2 2 2 true (vzero 0) (MkCb [MkPhase DS 2] 1) noSel).
Proof.
  eapply C55_hull_found with (lx := 0) (ly := 0) (rx := 0) (ry := -8); try reflexivity; try (cbn; lia); cbn [sleft sright case_foot fcop smove]; unfold square; rewrite (proj2 (polygon_counted _)); try discriminate.
  cbn [map app fst snd]. cbv zeta. cbn [fst snd].
  replace [_; _; _; _; _; _; _; _] with (map zinj [(-1, -1); (1, -1); (1, 1); (-1, 1); (-1, -9); (1, -9); (1, -7); (-1, -7)]%Z).
  - apply zsep_ok. vm_compute. reflexivity.
  - unfold zinj. cbn [map fst snd]. repeat (apply f_equal2; [apply f_equal2; ring|]). reflexivity.
Qed.

Print Assumptions C55_walk_never_fails.
Print Assumptions C55_unconstrained_cop.
Print Assumptions C55_own_solvers.
Print Assumptions C55_hull_found.
