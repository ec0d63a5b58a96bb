(** A walk that meets the hypotheses of the theorems of C68. *)

From Coq Require Import Reals List ZArith Arith Bool Lra Lia FunctionalExtensionality.
From Verif Require Import Scalar LinAlg LinAlgFacts ToolsModel ToolsSpec NoDynModel PolygonModel PolygonFacts HullFacts HullCases QPModel QPFacts TrajModel LipModel FootModel
  ModelsSpec ModelsFacts SupModel SupSpec SupFacts SupTime SupWalk PropQP PropPolygon PropSup PropSteps HumModel HumAlg HumSpec HumFacts HumObj HumProb HumWorld HumRunSpec HumRun PropHum PropHumSolve PropHumStart
  HumOptSpec PropHumOpt HumSafeSpec PropHumSafe.
From Verif Require QPExist PropHumRun.
Import ListNotations.
Local Open Scope R_scope.

(** The polygon of points with integer coordinates *)
Lemma zhull zs : (2 <= length zs)%nat -> zsep zs = true -> exists g, makePolygon (map zinj zs) = Ok g /\ (length (pverts g) <= length zs)%nat
  /\ (forall a b, In a zs -> In b zs -> in_box (midpoint (zinj a) (zinj b)) -> satisfies g (midpoint (zinj a) (zinj b)))
  /\ (forall c, In c (pgen g) -> exists a b, In a zs /\ In b zs /\ fst c = (IZR (snd b) - IZR (snd a), IZR (fst a) - IZR (fst b))).
Proof.
  intros Hl Hz. pose proof (zsep_ok zs Hz) as Hs. assert (Hl' : (2 <= length (map zinj zs))%nat) by (rewrite map_length; exact Hl).
  destruct (C52_encloses (map zinj zs) Hl' Hs) as (v & E & Hd & Hi & Hcc & Hin). destruct (hull_correct (map zinj zs) Hl' Hs) as (v' & E' & Hlen & _). rewrite E in E'. injection E' as <-.
  unfold makePolygon. rewrite E. cbn [bind]. eexists. split; [reflexivity|]. assert (Ev : pverts (polygon_of_vertices v) = v) by (unfold polygon_of_vertices, computeBounds; rewrite pverts_fold; reflexivity).
  split. { rewrite Ev. rewrite <- (map_length zinj zs). apply NoDup_incl_length; [exact Hd|exact Hi]. }
  split.
  2: { intros c Hc. unfold polygon_of_vertices, computeBounds in Hc. cbn [pverts] in Hc. destruct (cfold_bounds (edges v) (MkPoly v MAXB (sopp MAXB) MAXB (sopp MAXB) [])) as (_ & _ & _ & _ & _ & E6). unfold cstep in E6. rewrite E6 in Hc. cbn [pgen app] in Hc.
    apply in_flat_map in Hc. destruct Hc as (e & He & Hc). assert (Ha' : In (fst e) v) by (apply edges_fst; assumption).
    assert (Hb' : In (snd e) v).
    { destruct v as [|q l]; [destruct He|]. cbn [edges] in He. destruct e as [x y]. apply in_combine_r in He. apply in_app_or in He as [He|[<-|[]]]; [right; assumption|left; reflexivity]. }
    apply Hi in Ha', Hb'. apply in_map_iff in Ha', Hb'. destruct Ha' as (a & E1 & Ia), Hb' as (b & E2 & Ib). rewrite <- E1, <- E2 in Hc. destruct (kind e); cbn [In] in Hc; try contradiction. destruct Hc as [<-|[]]. exists a, b. auto. }
  intros a b Ha Hb Hbox. apply C13_constraints_are_region; try assumption.
  - intros e He. assert (Ha' : In (fst e) v) by (apply edges_fst; assumption).
    assert (Hb' : In (snd e) v).
    { destruct v as [|q l]; [destruct He|]. cbn [edges] in He. destruct e as [x y]. apply in_combine_r in He. apply in_app_or in He as [He|[<-|[]]]; [right; assumption|left; reflexivity]. }
    assert (Hne : fst e <> snd e).
    { intros En. destruct v as [|q l]; [destruct He|]. cbn [edges] in He. apply edges_cases in He as [(pre & suf & Ep)|(Eq & pre & Ep)].
      - rewrite Ep, En in Hd. apply NoDup_remove_2 in Hd. apply Hd, in_or_app. right. left. reflexivity.
      - rewrite <- En in Eq. rewrite Eq in Ep. destruct l as [|q2 l].
        + cbn in Hlen. lia.
        + destruct pre as [|q' pre]; [discriminate|]. cbn [app] in Ep. injection Ep as <- Ep. inversion Hd; subst. apply H1. rewrite Ep. apply in_or_app. right. left. reflexivity. }
    apply Hi in Ha', Hb'. apply in_map_iff in Ha', Hb'. destruct Ha' as ((x1 & y1) & E1 & _), Hb' as ((x2 & y2) & E2 & _). destruct e as (e1 & e2). cbn [fst snd] in E1, E2, Hne. subst e1 e2. unfold sharp_edge, zinj in *. cbn [fst snd] in *.
    rewrite <- !minus_IZR, <- !abs_IZR.
    assert (Hsm : forall z, IZR (Z.abs z) < 1/10000 -> z = 0%Z).
    { intros z Hz0. destruct (Z.eq_dec z 0) as [|Hz1]; [assumption|]. assert (1 <= Z.abs z)%Z by lia. apply IZR_le in H. lra. }
    split; intros Hz0; apply Hsm in Hz0; rewrite Hz0; (split; [reflexivity|]); intros H0; apply eq_IZR in H0; apply Hne; f_equal; f_equal; lia.
  - intros e He. pose proof (Hin e (zinj a) He (in_map zinj _ _ Ha)) as I1. pose proof (Hin e (zinj b) He (in_map zinj _ _ Hb)) as I2.
    unfold inner, pcross, psub, midpoint in *. cbn [fst snd] in *. rsimpl. lra.
Qed.

Section Case.

Definition square1 : polygon R := PropHumRun.square 1.
(** Where the right foot may land, seen from the left one *)
Definition reach1 : polygon R := polygon_of_vertices [(-1, -9); (1, -9); (1, -7); (-1, -7)].
Definition zero_oracle : oracle R := fun _ _ => (fun _ => 0, true).

Record K (h : hum R) (ty : ptype) (t : nat) (mv : bool) : Prop := {
  k_walk : walked 1 2 2 1 h; k_front : new_front (hsup h) (MkPhase ty 2) (INR t); k_mv : smove (hsup h) = mv;
  k_N : sN (hsup h) = 1%nat; k_T : sT (hsup h) = 1; k_step : sstep (hsup h) = 2; k_DS : sDS (hsup h) = 2;
  k_left : foot_pos (sleft (hsup h)) = (0, 0); k_right : foot_pos (sright (hsup h)) = (0, -8);
  k_lcop : fcop (sleft (hsup h)) = square1; k_rcop : fcop (sright (hsup h)) = square1; k_kin : fkin (sleft (hsup h)) = reach1;
  k_size : vlen (hX h) = 2%nat; k_x : vget (hX h) 0 = 0; k_y : vget (hX h) 1 = 0;
  k_first : hfirst h = true -> pos (lsx (hlip h)) = 0 /\ acc (lsx (hlip h)) = 0 /\ pos (lsy (hlip h)) = 0 /\ acc (lsy (hlip h)) = 0;
  k_cop : hcopC h = true; k_feet : hfeetC h = true;
  k_lip : lh (hlip h) = 1 /\ lm (hlip h) = 1 /\ lM (hlip h) = 1 /\ lg (hlip h) = GRAVITY /\ lfb (hlip h) = 1 }.

Lemma k_about h ty t mv : K h ty t mv -> t = 1%nat \/ t = 2%nat -> about_to_solve 1 1 1 (INR t) h.
Proof.
  intros Kh Ht. destruct (walked_walk _ _ _ _ _ (k_walk _ _ _ _ Kh)) as (N & HN & Hn0 & Ha & HaN & Hb & Hfb & Rc & W).
  destruct (walk_about 1 2 2 1 N h HN Hn0 Ha HaN Hb Hfb Rc W) as (tn & c & A). assert (c = 1%nat) as -> by (pose proof (as_c _ _ _ _ _ A); lia).
  replace (INR t) with tn; [exact A|]. destruct (ready_update _ _ _ _ 1 (as_ready _ _ _ _ _ A)) as (s' & v' & f & r0 & a & b & n & w & n1 & i & _ & _ & _ & _ & _ & _ & _ & _ & Nf).
  pose proof (k_front _ _ _ _ Kh) as Kf. unfold new_front in Nf, Kf. destruct Nf as [(L & E & ->)|(L & E & ->)], Kf as [(L' & E' & ->)|(L' & E' & ->)]; try lra. rewrite E in E'. injection E' as ->. reflexivity.
Qed.
(** The timeline at the next call *)
Lemma k_planned h ty t mv : K h ty t mv -> t = 1%nat \/ t = 2%nat -> exists s v, s_updateTimeline (hX h) 1 (hsup h) = Ok (s, v)
  /\ cbl (stl s) = tlist (hsup h) (MkPhase ty 2) (2 - t) /\ snb s = nbs mv ty (2 - t) /\ sttnp s = INR t /\ smove s = mv /\ sN s = 1%nat /\ sT s = 1
  /\ sleft s = sleft (hsup h) /\ sright s = sright (hsup h) /\ sstep s = 2 /\ sDS s = 2
  /\ vlen v = (2 + 2 * snb s)%nat /\ vget v 0 = 0 /\ vget v 1 = 0 /\ sstepVec s = vseg v 2 (2 * snb s) /\ (snb s = 1%nat -> ty = LeftSS -> vget v 2 = 0 /\ vget v 3 = -8)
  /\ selRot (ssel s) = mid 2.
Proof.
  intros Kh Ht. pose proof (k_about _ _ _ _ Kh Ht) as A. destruct Kh. destruct (ready_update _ _ _ _ 1 (as_ready _ _ _ _ _ A)) as (s & v & f & r0 & a & b & n & w & n1 & i & E & U & Hs & Hd & Ha & Hb & Htn & Hv & Nf).
  rewrite k_T0, k_step0 in Hs. rewrite k_T0, k_DS0 in Hd. assert (a = 2%nat) as -> by (apply INR_eq; cbn; lra). assert (b = 2%nat) as -> by (apply INR_eq; cbn; lra). clear Hs Hd Ha Hb.
  assert (Ef : f = MkPhase ty 2).
  { unfold new_front in Nf, k_front0. destruct Nf as [(L & Ea & _)|(L & Ea & _)], k_front0 as [(L' & Ea' & _)|(L' & Ea' & _)]; try lra; rewrite Ea in Ea'; injection Ea' as ->; reflexivity. }
  subst f. rewrite k_N0, k_size0 in Hv. assert (n = 0%nat) as -> by lia.
  assert (S r0 = t). { rewrite k_T0 in Htn. apply INR_eq. rewrite S_INR. cbn [INR] in Htn. lra. }
  destruct U as [(ph & Hph & Hl) Htl _ Hnb (UN & UT & _ & Ul & Ur & Us & Ud & Um & Ut) Hsv Hlo Hhi Hsz Hg _ _ _ _ _ (Hrot & _)]. cbn [phType] in *.
  destruct (leaves_step (hsup h) ph); [destruct Hl; discriminate|]. destruct Hl as (-> & ->). rewrite k_N0 in *. rewrite k_mv0 in *.
  assert (Ei : i = (2 - t)%nat).
  { destruct i as [|[|i]]; [cbn [ends] in Hhi; lia| |].
    - destruct Hlo as [Hlo|Hlo]; [discriminate|]. cbn [Nat.sub ends] in Hlo. lia.
    - destruct Hlo as [Hlo|Hlo]; [discriminate|]. pose proof (ends_ge (hsup h) (MkPhase ty 2) r0 2 2 (S (S i) - 1) ltac:(lia) ltac:(lia)). lia. }
  subst i. assert (Eg : grown (hsup h) 0 (snb s) = snb s).
  { unfold grown. rewrite k_mv0. destruct mv; [apply Nat.max_0_l|]. rewrite Nat.max_0_l. pose proof (nbs_stop ty (2 - t)). rewrite Hnb. lia. }
  rewrite Eg in *. destruct Hg as ((Hg & _) & Hg'). rewrite k_N0 in *. exists s, v. rewrite Hsv, Hsz. replace (2 * 1 + 2 * snb s - 2 * 1)%nat with (2 * snb s)%nat by lia.
  repeat (split; [first [assumption|congruence|rewrite Hg by lia; assumption|reflexivity]|]). split; [|exact Hrot].
  intros E1 Ety. rewrite E1 in *. destruct (Hg' 0%nat) as (P1 & P2); [lia|]. unfold stepX, stepY in P1, P2. rewrite k_N0, (nb_steps_eq 1 v 1) in P2 by lia. rewrite k_N0 in P1. subst ty.
  unfold step_kin, kin_idx in P1, P2. cbn [phType is_DS andb] in P1, P2. change (typ (smove (hsup h)) LeftSS 0) with LeftSS in P1, P2. cbn [kin_of] in P1, P2. cbn [Nat.mul Nat.add Nat.sub] in P1, P2. rewrite (Hg 1%nat), k_y0, k_kin0 in P1 by lia. rewrite k_kin0 in P2.
  assert (M : midX reach1 = 0 /\ midY reach1 = -8).
  { unfold midX, midY, reach1. rewrite (proj2 (HumTable.polygon_counted _)). cbn [map fst snd extremum fold_left]. rsimpl.
    repeat match goal with |- context [Rltb (IZR ?p) (IZR ?q)] => let L := fresh in destruct (Rltb_spec (IZR p) (IZR q)) as [L|L]; [|apply Rnot_lt_le in L]; try (exfalso; lra); clear L end; lra. }
  destruct M as (M1 & M2). rewrite M1 in P1. rewrite M2 in P2. split; lra.
Qed.
Definition may_solve (ty : ptype) (t : nat) (mv : bool) : Prop := mv = true /\ ty <> RightSS /\ (ty = DS \/ t = 2%nat) \/ mv = false /\ ty = LeftSS /\ t = 1%nat.
Lemma k_hull h ty t mv s v : K h ty t mv -> t = 1%nat \/ t = 2%nat -> may_solve ty t mv -> s_updateTimeline (hX h) 1 (hsup h) = Ok (s, v) ->
  hull_ok s /\ exists g, s_computeDSCopConvexPolygon s = Ok g /\ satisfies g (0, 0).
Proof.
  intros Kh Ht Hm E. destruct (k_planned _ _ _ _ Kh Ht) as (s1 & v1 & E1 & Etl & Enb & _ & Emv & _ & _ & El & Er & _ & _ & Esz & _ & _ & Esv & Hst & _). rewrite E in E1. injection E1 as <- <-.
  destruct (walked_walk _ _ _ _ _ (k_walk _ _ _ _ Kh)) as (N & _ & _ & _ & _ & _ & _ & _ & [_ _ _ _ _ _ (s0 & f & i & m & k & Wk & _ & Es & _)]).
  pose proof (w_left _ _ _ _ _ _ _ _ _ _ _ Wk) as (La & Lb & _). pose proof (w_right _ _ _ _ _ _ _ _ _ _ _ Wk) as (Ra & Rb & _).
  assert (Fs : sleft (hsup h) = sleft s0 /\ sright (hsup h) = sright s0) by (rewrite Es; auto). destruct Fs as (Fl & Fr).
  pose proof (k_left _ _ _ _ Kh) as Pl. pose proof (k_right _ _ _ _ Kh) as Pr. pose proof (k_lcop _ _ _ _ Kh) as Cl. pose proof (k_rcop _ _ _ _ Kh) as Cr.
  assert (Q : exists g, s_computeDSCopConvexPolygon s = Ok g /\ (length (pverts g) <= 8)%nat /\ satisfies g (0, 0)).
  { unfold s_computeDSCopConvexPolygon, vread. rewrite El, Er. rewrite Fl, Fr in *. rewrite La, Lb, Ra, Rb. cbn [Nat.ltb Nat.leb guard bind].
    unfold s_front, cb_at. rewrite Etl. cbn [tlist rd nth_error bind phType]. rewrite Emv, Cl, Cr. unfold foot_pos in Pl, Pr. injection Pl as -> ->. injection Pr as -> ->.
    assert (Z0 : midpoint (zinj (-1, -1)%Z) (zinj (1, 1)%Z) = (0, 0)) by (unfold midpoint, zinj; cbn [fst snd]; f_equal; lra).
    assert (B : in_box (midpoint (zinj (-1, -1)%Z) (zinj (1, 1)%Z))) by (rewrite Z0; unfold in_box; cbn [fst snd]; rewrite Rabs_R0; lra).
    destruct Hm as [(-> & Hr & _)|(-> & -> & ->)].
    - destruct (zhull [(-1, -1); (1, -1); (1, 1); (-1, 1); (-1, -9); (1, -9); (1, -7); (-1, -7)]%Z) as (g & G1 & G2 & G3 & _); [cbn; lia|vm_compute; reflexivity|].
      exists g. split; [|split; [exact G2|rewrite <- Z0; apply G3; [cbn; auto 10|cbn; auto 10|exact B]]]. rewrite <- G1.
      destruct ty; [| |contradiction]; cbn [bind]; f_equal; unfold shiftPoly, square1, PropHumRun.square, psub, zinj; rewrite !(proj2 (HumTable.polygon_counted _)); cbn [map app fst snd]; rsimpl_goal;
      repeat (apply f_equal2; [apply f_equal2; lra|]); reflexivity.
    - cbn [Nat.sub] in Enb. change (nbs false LeftSS 1) with 1%nat in Enb. destruct (Hst Enb eq_refl) as (S1 & S2). rewrite Esv, Enb. cbn [vseg vlen vget Nat.mul Nat.add Nat.ltb Nat.leb guard bind]. rewrite S1, S2.
      destruct (zhull [(-1, 7); (1, 7); (1, 9); (-1, 9); (-1, -1); (1, -1); (1, 1); (-1, 1)]%Z) as (g & G1 & G2 & G3 & _); [cbn; lia|vm_compute; reflexivity|].
      exists g. split; [|split; [exact G2|rewrite <- Z0; apply G3; [cbn; auto 10|cbn; auto 10|exact B]]]. rewrite <- G1.
      f_equal; unfold shiftPoly, square1, PropHumRun.square, psub, zinj; rewrite !(proj2 (HumTable.polygon_counted _)); cbn [map app fst snd]; rsimpl_goal;
      repeat (apply f_equal2; [apply f_equal2; lra|]); reflexivity. }
  destruct Q as (g & Q1 & Q2 & Q3). split; [|eauto]. exists g. split; [exact Q1|]. rewrite El, Er, Cl, Cr. unfold square1, PropHumRun.square. rewrite !(proj2 (HumTable.polygon_counted _)). exact Q2.
Qed.
Lemma walked_call n a b fb c h h' : walked n a b fb h -> may n fb c h -> (is_solve c -> ~ hull_fails fb h) -> hstep c h = Ok h' -> walked n a b fb h'.
Proof.
  intros (hs & cs & Rw & Pm & Hh & E) My Hf E'. exists hs, (cs ++ [c]). split; [exact Rw|]. clear Rw. revert hs Pm Hh E.
  induction cs as [|c0 cs IH]; intros hs Pm Hh E; cbn [app permitted hulls_found hsteps] in *.
  - injection E as ->. rewrite E'. cbn [bind]. auto.
  - destruct Pm as (P1 & P2), Hh as (H1 & H2). apply bind_ok in E. destruct E as (h1 & E1 & E). rewrite E1. cbn [bind]. destruct (IH h1 (P2 _ E1) (H2 _ E1) E) as (Q1 & Q2 & Q3).
    split; [split; [exact P1|]|split; [split; [exact H1|]|exact Q3]]; intros k Ek; injection Ek as <-; assumption.
Qed.
Lemma k_prepared h ty t mo h1 : K h ty t mo -> t = 1%nat \/ t = 2%nat -> h_prepare 1 h = Ok h1 -> exists v, s_updateTimeline (hX h) 1 (hsup h) = Ok (hsup h1, v)
  /\ hlip h1 = hlip h /\ hfirst h1 = false /\ hcopC h1 = true /\ hfeetC h1 = true /\ vlen (hX h1) = vlen v /\ vget (hX h1) 0 = 0 /\ vget (hX h1) 1 = 0
  /\ forall k, (2 <= k)%nat -> vget (hX h1) k = vget v k.
Proof.
  intros Kh Ht Hp. destruct (h_prepare_cases _ _ _ Hp) as (s & v & l & Hu & Hl & _ & EN & E1 & E2 & _ & _ & _ & _ & _ & Ec & Ef & _ & _ & _ & Esz & _ & Ek & _).
  destruct (k_planned _ _ _ _ Kh Ht) as (s1 & v1 & Eu & _ & _ & _ & _ & UN & _ & Ul & _ & _ & _ & _ & V0 & V1 & _ & _ & Rot). rewrite Hu in Eu. injection Eu as <- <-.
  pose proof (k_lip _ _ _ _ Kh) as (_ & _ & _ & _ & Hfb). rewrite Hfb in Hl. replace (1 - 1) with 0 in Hl by ring. rewrite Rabs_R0 in Hl. destruct (Rltb_spec EPS 0) as [L|_]; [exfalso; rsimpl; lra|]. injection Hl as <-.
  rewrite UN in EN. exists v. rewrite E1, E2, Ec, Ef, (k_cop _ _ _ _ Kh), (k_feet _ _ _ _ Kh). rewrite <- EN in Ek. split; [exact Hu|]. split; [reflexivity|].
  assert (Q : hfirst h1 = false /\ vget (hX h1) 0 = 0 /\ vget (hX h1) 1 = 0).
  { unfold h_prepare in Hp. apply bind_ok in Hp. destruct Hp as (h2 & H2 & Hp). apply bind_ok in Hp. destruct Hp as (c & _ & Hp).
    assert (F : hfirst h2 = hfirst h /\ hX h2 = v /\ hsup h2 = s /\ hlip h2 = hlip h).
    { unfold h_updateModels in H2. rewrite Hu in H2. cbn [bind] in H2. apply bind_ok in H2. destruct H2 as (l & Hl & H2). apply guard_ok in H2. destruct H2 as (_ & H2). apply guard_ok in H2. destruct H2 as (_ & H2). injection H2 as <-. cbn.
      repeat split. rewrite sabs_Rabs, Hfb in Hl. rsimpl. replace (1 - 1) with 0 in Hl by ring. rewrite Rabs_R0 in Hl. destruct (Rltb_spec (1/10000) 0) as [L|_]; [exfalso; lra|]. injection Hl as <-. reflexivity. }
    destruct F as (F1 & F2 & F3 & F4). unfold h_firstFill in Hp. rewrite F1, F2, F3, F4 in Hp. destruct (hfirst h) eqn:Eh.
    - destruct (k_first _ _ _ _ Kh Eh) as (X1 & X2 & X3 & X4). apply bind_ok in Hp. destruct Hp as (lx & Hx & Hp). apply bind_ok in Hp. destruct Hp as (ly & Hy & Hp). apply guard_ok in Hp. destruct Hp as (_ & Hp). injection Hp as <-.
      unfold vread in Hx, Hy. apply guard_ok in Hx, Hy. destruct Hx as (_ & Hx), Hy as (_ & Hy). injection Hx as <-. injection Hy as <-. rewrite Ul. pose proof (k_left _ _ _ _ Kh) as P. unfold foot_pos in P. injection P as P1 P2. rewrite P1, P2, X1, X2, X3, X4, Rot, <- EN.
      cbn [hfirst hX]. split; [reflexivity|]. split; cbn [vsetseg vget vlen vadd mv mblock mrows mcols mget mid vfill ssum Nat.ltb Nat.leb Nat.sub Nat.add Nat.eqb andb]; rsimpl; lra.
    - injection Hp as <-. rewrite F2. auto. }
  destruct Q as (Q1 & Q2 & Q3). repeat (split; [assumption || reflexivity|]). exact Ek.
Qed.
Lemma k_no_failure h ty t mv : K h ty t mv -> t = 1%nat \/ t = 2%nat -> may_solve ty t mv -> ~ hull_fails 1 h.
Proof. intros Kh Ht Hm (_ & s & v & E & Hn). apply Hn. exact (proj1 (k_hull _ _ _ _ _ _ Kh Ht Hm E)). Qed.
Lemma k_returns h ty t mv o : K h ty t mv -> t = 1%nat \/ t = 2%nat -> may_solve ty t mv -> exists found h', h_solve o 1 h = Ok (found, h').
Proof.
  intros Kh Ht Hm. destruct (walked_walk _ _ _ _ _ (k_walk _ _ _ _ Kh)) as (N & HN & Hn0 & Ha & HaN & Hb & Hfb & Rc & W).
  destruct (HumRun.solve_ok N 1 2 2 1 HN Hn0 Ha HaN Hb Hfb o h W) as ((found & h') & E & _); [|eauto]. intros _ s v E. exact (proj1 (k_hull _ _ _ _ _ _ Kh Ht Hm E)).
Qed.
Lemma k_solve h ty t found h' : K h ty t true -> t = 1%nat \/ t = 2%nat -> may_solve ty t true -> h_solve zero_oracle 1 h = Ok (found, h') ->
  K h' (if Nat.eqb t 2 then ty else LeftSS) (if Nat.eqb t 2 then 1 else 2) true.
Proof.
  intros Kh Ht Hm Hs. pose proof (k_about _ _ _ _ Kh Ht) as A. assert (Hp : exists h1, h_prepare 1 h = Ok h1) by (unfold h_solve in Hs; apply bind_ok in Hs; destruct Hs as (h1 & E & _); eauto). destruct Hp as (h1 & Hp).
  destruct (k_prepared _ _ _ _ _ Kh Ht Hp) as (v & Eu & El & Efi & Ec & Ef & Esz & X0 & X1 & _).
  destruct (k_planned _ _ _ _ Kh Ht) as (s1 & v1 & Eu' & Etl & Enb & Etn & Emv & UN & UT & Ul & Ur & Ust & Uds & Usz & _). rewrite Eu in Eu'. injection Eu' as <- <-.
  destruct (solve_plan _ _ _ _ _ _ _ _ _ A Hp Hs) as (q & idx & d & tX & l1 & l2 & s & Hq & Lq & _ & Ed & Ht' & Hl1 & Hl2 & Hf & ->).
  assert (M0 : snb (hsup h1) = 0%nat). { rewrite Enb. destruct Hm as [(_ & _ & [-> | ->])|(Hm & _)]; [destruct Ht as [-> | ->]; reflexivity|reflexivity|discriminate]. }
  assert (EN : lN (hlip h1) = 1%nat) by (destruct (call_sizes _ _ _ _ _ _ A Hp) as (_ & S2 & _); rewrite <- S2; exact (k_N _ _ _ _ Kh)).
  rewrite M0, EN in *. rewrite Lq in Ed. cbn [Nat.mul Nat.add] in Ed, Lq, Usz, Hf.
  destruct (feet_frame _ _ _ _ Hf) as (Fl & Fr & Fkl & Fkr & Ft & Fm & FT & Fn).
  assert (Sn : sN s = sN (hsup h1) /\ sstep s = sstep (hsup h1) /\ sDS s = sDS (hsup h1) /\ sleft s = sleft (hsup h1) /\ sright s = sright (hsup h1)).
  { unfold s_updateFeetStates, s_front, cb_at in Hf. rewrite Etl in Hf. cbn [tlist rd nth_error bind phType phDur] in Hf. rewrite Etn, UT in Hf. change (sltb (INR t) (sadd (ssub 2 1) EPS)) with (Rltb (INR t) (2 - 1 + EPS)) in Hf.
    assert (Eb : (negb (is_DS ty) && Rltb (INR t) (2 - 1 + EPS))%bool = false).
    { destruct Hm as [(_ & _ & [-> | ->])|(Hm & _)]; [reflexivity| |discriminate]. destruct (Rltb_spec (INR 2) (2 - 1 + EPS)) as [L|_]; [exfalso; cbn in L; rsimpl; lra|apply Bool.andb_false_r]. }
    rewrite Eb in Hf. injection Hf as <-. cbn. auto 10. }
  destruct Sn as (Sn & Sst & Sds & Sl & Sr).
  assert (W : walked 1 2 2 1 (MkHum s l2 (hvelRef h1) (hcopLen h1) (hsolvers h1) (hmats h1) d (vadd (hX h1) d) tX (hw h1) (hcopC h1) (hfeetC h1) (hmaxC h1) (hmaxS h1) (hmove h1) (hfirst h1))).
  { eapply (walked_call 1 2 2 1 (HSolve zero_oracle 1)); [exact (k_walk _ _ _ _ Kh)|reflexivity|intros _; exact (k_no_failure _ _ _ _ Kh Ht Hm)|]. cbn [hstep]. rewrite Hs. reflexivity. }
  assert (L : lh l2 = lh (hlip h) /\ lm l2 = lm (hlip h) /\ lM l2 = lM (hlip h) /\ lg l2 = lg (hlip h) /\ lfb l2 = lfb (hlip h)).
  { unfold l_updateStateX in Hl1. unfold l_updateStateY in Hl2. apply bind_ok in Hl1, Hl2. destruct Hl1 as (? & _ & Hl1), Hl2 as (? & _ & Hl2). injection Hl1 as <-. injection Hl2 as <-. rewrite El. cbn. auto. }
  destruct L as (L1 & L2 & L3 & L4 & L5). pose proof (k_lip _ _ _ _ Kh) as (J1 & J2 & J3 & J4 & J5).
  constructor; cbn [hsup hlip hX hcopC hfeetC hfirst]; rewrite ?Sl, ?Sr, ?Ul, ?Ur; try (apply Kh); try congruence; rewrite ?L1, ?L2, ?L3, ?L4, ?L5; auto.
  - unfold new_front. rewrite Fn, Etn. unfold cb_at. rewrite Ft, Etl. assert (EP : EPS = 1/10000) by (rsimpl; reflexivity). rewrite EP. destruct Ht as [-> | ->]; cbn [Nat.eqb INR].
    + right. split; [lra|]. assert (ty = DS) as -> by (destruct Hm as [(_ & _ & [Hm | Hm])|(Hm & _)]; [exact Hm|discriminate|discriminate]).
      cbn [Nat.sub tlist seq map rd nth_error phType]. rewrite (k_mv _ _ _ _ Kh). change (typ true DS 1) with LeftSS. unfold mkph. cbn [durationOf phDur]. rewrite (k_step _ _ _ _ Kh). split; [reflexivity|lra].
    + left. split; [lra|]. split; [reflexivity|lra].
  - cbn [vadd vlen]. rewrite Esz. exact Usz.
  - cbn [vadd vget]. rewrite X0, Ed. cbn [vget Nat.ltb Nat.leb zero_oracle fst]. rsimpl. lra.
  - cbn [vadd vget]. rewrite X1, Ed. cbn [vget Nat.ltb Nat.leb zero_oracle fst]. rsimpl. lra.
Qed.
Lemma rect_in y a b x z : a = y - 1 -> b = y + 1 -> Rabs y <= 8 -> -1 <= x <= 1 -> a <= z <= b -> satisfies (polygon_of_vertices [(-1, a); (1, a); (1, b); (-1, b)]) (x, z).
Proof.
  intros Ea Eb Hy Hx Hz. subst a b. apply C13_constraints_are_region.
  - intros e He. cbn [edges combine app In] in He. repeat destruct He as [<-|He]; try contradiction; unfold sharp_edge; cbn [fst snd]; split; intros H; try (split; lra); exfalso;
      match type of H with Rabs ?r < _ => assert (Q : Rabs r = 2); [|lra] end;
      first [rewrite Rabs_right by lra; lra|rewrite Rabs_left by lra; lra].
  - intros e q He Hq. cbn [edges combine app In] in He, Hq. repeat destruct He as [<-|He]; try contradiction; repeat destruct Hq as [<-|Hq]; try contradiction;
      unfold inner, pcross, psub; cbn [fst snd]; rsimpl; lra.
  - unfold in_box. cbn [fst snd]. assert (-8 <= y <= 8) by (split; [pose proof (Rle_abs (- y)) as P; rewrite Rabs_Ropp in P; lra|pose proof (Rle_abs y); lra]). split; apply Rabs_le; lra.
  - intros e He. cbn [edges combine app In] in He. repeat destruct He as [<-|He]; try contradiction; unfold inner, pcross, psub; cbn [fst snd]; rsimpl; lra.
Qed.
Lemma rect_centre y a b : a = y - 1 -> b = y + 1 -> Rabs y <= 8 -> satisfies (polygon_of_vertices [(-1, a); (1, a); (1, b); (-1, b)]) (0, y).
Proof. intros. apply (rect_in y); lra. Qed.
Lemma square1_centre : satisfies square1 (0, 0).
Proof. unfold square1, PropHumRun.square. apply rect_centre; [lra|lra|rewrite Rabs_R0; lra]. Qed.
Lemma k_respects h ty t mv h1 : K h ty t mv -> t = 1%nat \/ t = 2%nat -> may_solve ty t mv -> h_prepare 1 h = Ok h1 -> exact_inverses h1 /\ respects zero_oracle h1.
Proof.
  intros Kh Ht Hm Hp. pose proof (k_about _ _ _ _ Kh Ht) as A. destruct (prepared _ _ _ (as_reached _ _ _ _ _ A) Hp) as (I & _ & _).
  destruct (k_prepared _ _ _ _ _ Kh Ht Hp) as (v & Eu & El & Efi & Ec & Ef & Esz & X0 & X1 & Xk).
  destruct (k_hull _ _ _ _ _ _ Kh Ht Hm Eu) as (_ & g & Hg & G0).
  destruct (k_planned _ _ _ _ Kh Ht) as (s1 & v1 & Eu' & Etl & Enb & Etn & Emv & UN & UT & Ul & Ur & Ust & Uds & Usz & _ & _ & Usv & Hst & _). rewrite Eu in Eu'. injection Eu' as <- <-.
  assert (EN : lN (hlip h1) = 1%nat) by (destruct (call_sizes _ _ _ _ _ _ A Hp) as (_ & S2 & _); rewrite <- S2; exact (k_N _ _ _ _ Kh)).
  pose proof (k_lip _ _ _ _ Kh) as (J1 & J2 & J3 & J4 & J5). pose proof (call_first _ _ _ _ _ _ A Hp) as FI. split.
  - apply one_sample_exact; [exact I|exact EN|]. intros z Hz. cbv zeta. rewrite El, J1, J2, J3, J4. unfold h_nb in Hz. apply bind_ok in Hz. destruct Hz as (y & Hy & Hz). injection Hz as <-.
    destruct FI as (y' & Hy' & ES). rewrite Hy in Hy'. injection Hy' as <-. replace (y - 1 + 1)%Z with y by lia. rewrite El in ES. rewrite <- ES. cbn [GRAVITY gz INR]. unfold GRAVITY_NORM. rsimpl. apply Rabs_le. lra.
  - intros q idx it Hq. cbn [zero_oracle fst]. assert (HE : 0 <= EPS) by (rsimpl; lra). apply (proj2 (proj1 (C17_normalisation_preserves_solutions q EPS _ HE))).
    assert (Ph : exists p, nth_error (cbl (stl (hsup h1))) 0 = Some p /\ phType p = ty) by (rewrite Etl; eexists; split; reflexivity). destruct Ph as (p0 & Hp0 & Ety).
    assert (Hsup : exists fx fy, support_is (hsup h1) fx fy).
    { destruct (k_returns _ _ _ _ zero_oracle Kh Ht Hm) as (fd & h' & Hs). destruct (solve_plan _ _ _ _ _ _ _ _ _ A Hp Hs) as (q' & idx' & d & tX & l1 & l2 & s & _ & _ & _ & _ & Ht' & _).
      destruct (prepared _ _ _ (as_reached _ _ _ _ _ A) Hp) as (_ & Sh & _). destruct (convert_inv _ _ _ I Sh Ht') as (z & cx & cy & Vx & Vy & fx & fy & G). exists fx, fy. exact (cv_foot _ _ _ _ _ _ _ _ _ _ G). }
    destruct Hsup as (fx & fy & Sp). apply (plan_iff 1 1 1 (INR t) h h1 A Hp fx fy Sp q idx _ Hq). pose proof (support_pos _ _ _ _ Hp0 Sp) as Sf.
    assert (Em : moved h1 (fun _ => 0) = vget (hX h1)) by (apply functional_extensionality; intros k; unfold moved; ring). rewrite Em.
    unfold permitted_plan. split; [|split].
    + replace (fun k => vget (hX h1) k - vget (hX h1) k) with (fun _ : nat => 0) by (apply functional_extensionality; intros; ring).
      assert (HM : 0 <= MAXB) by (unfold MAXB; rsimpl; lra). unfold moderate, slope_value, dCopX, dCopY, dStepX, dStepY, from_step. split; [intros; rewrite Rabs_R0; exact HM|]. split.
      * intros _ i p _ _. apply Forall_forall. intros ((aa & bb) & kk) _. rsimpl_goal. replace (_ + _) with 0 by ring. rewrite Rabs_R0. exact HM.
      * intros _ k p _ _. apply Forall_forall. intros ((aa & bb) & kk) _. rsimpl_goal. destruct k; replace (_ + _) with 0 by ring; rewrite Rabs_R0; exact HM.
    + intros _ i p Hi Hpp. rewrite EN in Hi |- *. assert (i = 0%nat) as -> by lia. unfold dCopX, dCopY. cbn [Nat.add]. rewrite X0, X1.
      destruct (polygon_of_phase h 1 h1 (INR t) _ 0 p Hp (as_ready _ _ _ _ _ A)) as (j & ph & _ & Hj & Hpoly); [rewrite (k_N _ _ _ _ Kh); lia|exact Hpp|].
      assert (Nr : phType ph <> RightSS).
      { rewrite Etl in Hj. rewrite (tlist_type _ _ _ _ _ Hj), (k_mv _ _ _ _ Kh). cbn [phType]. assert (Lj : (j < S (2 - t))%nat) by (rewrite <- (tlist_length (hsup h) (MkPhase ty 2)); apply nth_error_Some; congruence).
        destruct Hm as [(-> & Hr & Hd)|(-> & -> & ->)].
        - destruct j as [|[|j]]; [exact Hr| |lia]. destruct Hd as [-> | ->]; [discriminate|lia].
        - destruct j as [|[|j]]; [discriminate|discriminate|lia]. }
      destruct (phType ph); cbn [phase_polygon] in Hpoly; [| |contradiction].
      * rewrite Hg in Hpoly. injection Hpoly as <-. exact G0.
      * rewrite Hpoly, Ul, (k_lcop _ _ _ _ Kh). exact square1_centre.
    + intros _. assert (Q : forall k p, (k < snb (hsup h1))%nat -> s_getKinematicConvexPolygon k (hsup h1) = Ok p ->
         satisfies p (dStepX (lN (hlip h1)) (vget (hX h1)) k - from_step fx (dStepX (lN (hlip h1)) (vget (hX h1))) k, dStepY (lN (hlip h1)) (snb (hsup h1)) (vget (hX h1)) k - from_step fy (dStepY (lN (hlip h1)) (snb (hsup h1)) (vget (hX h1))) k)).
      { intros k p Hk Hkp. destruct Hm as [(-> & Hr & Hd)|(-> & -> & ->)].
        - exfalso. rewrite Enb in Hk. destruct Hd as [-> | ->]; [destruct Ht as [-> | ->]|]; cbn in Hk; lia.
        - change (nbs false LeftSS (2 - 1)) with 1%nat in Enb. rewrite Enb in Hk. assert (k = 0%nat) as -> by lia. destruct (Hst Enb eq_refl) as (S1 & S2).
          unfold s_getKinematicConvexPolygon, s_isInDS, s_front, cb_at in Hkp. rewrite Enb, Etl in Hkp. cbn [Nat.ltb Nat.leb guard tlist rd nth_error bind phType is_DS andb] in Hkp. injection Hkp as <-.
          rewrite Ul, (k_kin _ _ _ _ Kh). rewrite Ety, Ul, (k_left _ _ _ _ Kh) in Sf. injection Sf as -> ->. unfold dStepX, dStepY, from_step. rewrite EN, Enb. cbn [Nat.mul Nat.add]. rewrite !Xk, S1, S2 by lia.
          replace (0 - 0) with 0 by ring. replace (-8 - 0) with (-8) by ring. apply rect_centre; [lra|lra|rewrite Rabs_left; lra]. }
      split; intros k p Hk Hkp; destruct (Q k p Hk Hkp) as (Q1 & Q2 & Q3).
      * eapply Forall_impl; [|exact Q3]. intros ((aa & bb) & kk) Hc. exact Hc.
      * exact (conj Q1 Q2).
Qed.
Definition right_at (y : R) : vec R := MkVec 3 (fun i => if Nat.eqb i 0 then y else 0).
Definition case_setup : list (hcall R) :=
  [HSetKin SLeft reach1; HSetKin SRight square1; HSetCop SLeft square1; HSetCop SRight square1; HSetFootY SRight (right_at (-8)); HSetConfig true true].
Lemma k_start : exists h0 h hs hm, newHum = Ok h0 /\ hsteps case_setup h0 = Ok h /\ hs = h_setSolvers (hmats h) h /\ ready_to_walk 1 2 2 1 hs /\ h_setMove true hs = Ok hm /\ K hm DS 2 true.
Proof.
  destruct (PropHumRun.new_case RTrig) as (h0 & E & EN & ET & Es & Ed & Ev & Eh & Ef & Em).
  assert (F : exists l, newLipDefault = Ok l /\ hlip h0 = l /\ cbl (stl (hsup h0)) = [MkPhase DS 2] /\ cbcap (stl (hsup h0)) = 1%nat /\ sttnp (hsup h0) = 2 /\ foot_pos (sleft (hsup h0)) = (0, 0) /\ foot_pos (sright (hsup h0)) = (0, 0)
     /\ hX h0 = vzero 2 /\ lm l = 1 /\ lM l = 1 /\ lg l = GRAVITY /\ lfb l = 1 /\ lh l = 1 /\ pos (lsx l) = 0 /\ acc (lsx l) = 0 /\ pos (lsy l) = 0 /\ acc (lsy l) = 0).
  { pose proof E as E'. unfold newHum, newSupDefault, newSup, newFoot in E'. apply bind_ok in E'. destruct E' as (s & Hs & E'). apply bind_ok in E'. destruct E' as (l & Hl & E'). injection E' as <-.
    exists l. split; [exact Hl|]. split; [reflexivity|]. binds Hs. repeat match goal with Q : bind _ _ = Ok _ |- _ => lazymatch type of Q with newLipDefault = _ => fail | _ => binds Q; injection Q as <- end end. injection Hs as <-.
    unfold newLipDefault, newLip, l_auto, l_computeDynamics in Hl. cbn [lauto] in Hl. binds Hl. injection Hl as <-. cbn. rsimpl. repeat split; try (f_equal; f_equal; lra); lra. }
  destruct F as (l & Hl & Fl & Ftl & Fcap & Ftn & FL & FR & FX & F1 & F2 & F3 & F4 & F5 & F6 & F7 & F8 & F9).
  assert (Q : exists h5, hsteps (removelast case_setup) h0 = Ok h5 /\ hsteps case_setup h0 = Ok (h_setConfig true true h5)) by (eexists; split; reflexivity). destruct Q as (h5 & E5 & E6).
  assert (U : set_up h5).
  { assert (G : forall cs h a, set_up a -> (forall c, In c cs -> ~ is_solve c) -> hsteps cs a = Ok h -> set_up h).
    { induction cs as [|c cs IH]; intros h a Ua Hc Eh0; cbn [hsteps] in Eh0; [injection Eh0 as <-; exact Ua|]. apply bind_ok in Eh0. destruct Eh0 as (h1 & Eh1 & Eh0). apply (IH h h1); [|intros; apply Hc; right; assumption|exact Eh0].
      eapply up_call; [exact Ua|apply Hc; left; reflexivity|exact Eh1]. }
    apply (G (removelast case_setup) h5 h0); [apply up_new; exact E| |exact E5]. intros c Hc. cbn in Hc. repeat destruct Hc as [<-|Hc]; try contradiction; exact (fun f => f). }
  assert (S : settled (h_setConfig true true h5)) by (eapply settled_rebuild with (c := HSetConfig true true); [exact U|exact Logic.I|reflexivity]).
  assert (G : hlip h5 = hlip h0 /\ hX h5 = hX h0 /\ hvelRef h5 = hvelRef h0 /\ stl (hsup h5) = stl (hsup h0) /\ sttnp (hsup h5) = sttnp (hsup h0) /\ sN (hsup h5) = sN (hsup h0) /\ sT (hsup h5) = sT (hsup h0) /\ sstep (hsup h5) = sstep (hsup h0) /\ sDS (hsup h5) = sDS (hsup h0)
     /\ foot_pos (sleft (hsup h5)) = foot_pos (sleft (hsup h0)) /\ foot_pos (sright (hsup h5)) = (fst (foot_pos (sright (hsup h0))), -8)
     /\ fcop (sleft (hsup h5)) = square1 /\ fcop (sright (hsup h5)) = square1 /\ fkin (sleft (hsup h5)) = reach1 /\ fkin (sright (hsup h5)) = square1).
  { clear - E5. cbn in E5. injection E5 as <-. cbn. repeat split. }
  destruct G as (G1 & G2 & G3 & G4 & G5 & G6 & G7 & G8 & G9 & G10 & G11 & G12 & G13 & G14 & G15). rewrite FL in G10. rewrite FR in G11. cbn [fst] in G11. clear E5 U.
  set (h := h_setConfig true true h5) in *. assert (Hh : hsup h = hsup h5 /\ hlip h = hlip h5 /\ hX h = hX h5 /\ hvelRef h = hvelRef h5 /\ hcopC h = true /\ hfeetC h = true) by (unfold h; repeat split).
  destruct Hh as (K1 & K2 & K3 & K4 & K5 & K6). clearbody h.
  assert (Rw : ready_to_walk 1 2 2 1 (h_setSolvers (hmats h) h)).
  { assert (B : forall v, built (polygon_of_vertices v)) by (intros v0; unfold built; rewrite (proj2 (HumTable.polygon_counted _)); reflexivity).
    constructor; change (hsup (h_setSolvers (hmats h) h)) with (hsup h); change (hlip (h_setSolvers (hmats h) h)) with (hlip h); change (hvelRef (h_setSolvers (hmats h) h)) with (hvelRef h); rewrite ?K1, ?K2, ?K4, ?G1, ?G3, ?G6, ?G7, ?G8, ?G9, ?EN, ?ET, ?Es, ?Ed, ?G12, ?G13, ?G14, ?G15.
    - exists h, (hmats h). auto.
    - rsimpl; lra.
    - lia.
    - lia.
    - lia.
    - cbn; lra.
    - cbn; lra.
    - cbn; lra.
    - split; unfold reach1, square1, PropHumRun.square; rewrite (proj2 (HumTable.polygon_counted _)); discriminate.
    - split; [apply B|]. split; [apply B|]. split; apply B.
    - exact Ev.
    - rewrite Eh. intros j Hj H0. assert (j = 1%nat) as -> by lia. cbn in H0. lra.
    - left. exact Ef. }
  exists h0, h, (h_setSolvers (hmats h) h). assert (Mv : exists hm, h_setMove true (h_setSolvers (hmats h) h) = Ok hm).
  { unfold h_setMove, s_isInDS, s_front, cb_at. change (hsup (h_setSolvers (hmats h) h)) with (hsup h). cbn [s_setMove stl]. rewrite K1, G4, Ftl. cbn [rd nth_error bind]. eexists; reflexivity. }
  destruct Mv as (hm & Mv). exists hm. split; [exact E|]. split; [exact E6|]. split; [reflexivity|]. split; [exact Rw|]. split; [exact Mv|].
  assert (Hm : hsup hm = s_setMove true (hsup h5) /\ hlip hm = hlip h0 /\ hX hm = hX h0 /\ hcopC hm = true /\ hfeetC hm = true).
  { unfold h_setMove in Mv. apply bind_ok in Mv. destruct Mv as (ds & _ & Mv). injection Mv as <-. unfold h_setSolvers. cbn [hsup hlip hX hcopC hfeetC]. rewrite K1, K2, K3, K5, K6, G1, G2. auto. }
  destruct Hm as (M1 & M2 & M3 & M4 & M5).
  constructor; rewrite ?M1, ?M2, ?M3; cbn [s_setMove smove sN sT sstep sDS sleft sright]; try congruence.
  - exists (h_setSolvers (hmats h) h), [HSetMove true]. split; [exact Rw|]. cbn [permitted may hulls_found is_solve hsteps hstep]. rewrite Mv. cbn [bind]. repeat split; try (intros; exact Logic.I). intros [].
  - left. cbn [s_setMove sttnp stl]. rewrite G5, G4, Ftn. split; [rsimpl; lra|]. unfold cb_at. rewrite Ftl. split; [reflexivity|]. cbn. lra.
  - rewrite FX. reflexivity.
  - rewrite FX. reflexivity.
  - rewrite FX. reflexivity.
  - intros _. rewrite Fl. auto.
  - rewrite Fl. auto.
Qed.
Lemma k_stop h : K h LeftSS 1 true -> exists h', h_setMove false h = Ok h' /\ K h' LeftSS 1 false.
Proof.
  intros Kh. destruct (k_front _ _ _ _ Kh) as [(L & E0 & Et)|(_ & _ & Et)]; [|exfalso; cbn in Et; lra].
  assert (Ds : s_isInDS (hsup h) = Ok false) by (unfold s_isInDS, s_front; rewrite E0; reflexivity).
  assert (Ds' : s_isInDS (s_setMove false (hsup h)) = Ok false) by exact Ds.
  unfold h_setMove. rewrite Ds'. cbn [bind]. eexists. split; [reflexivity|].
  constructor; cbn [hsup hlip hX hcopC hfeetC hfirst s_setMove smove sN sT sstep sDS sleft sright]; try (apply Kh); try reflexivity.
  - eapply (walked_call 1 2 2 1 (HSetMove false)); [exact (k_walk _ _ _ _ Kh)|right; exact Ds|intros []|]. cbn [hstep]. unfold h_setMove. rewrite Ds'. reflexivity.
Qed.
(** The walk: move, solve three times, and stop in the middle of the step. *)
Lemma k_walks : exists h1 h4 : hum R, K h1 DS 2 true /\ K h4 LeftSS 1 false.
Proof.
  destruct k_start as (_ & _ & _ & h1 & _ & _ & _ & _ & _ & K1).
  assert (M1 : may_solve DS 2 true) by (left; repeat split; [discriminate|auto]). assert (M2 : may_solve DS 1 true) by (left; repeat split; [discriminate|auto]). assert (M3 : may_solve LeftSS 2 true) by (left; repeat split; [discriminate|auto]).
  destruct (k_returns h1 DS 2 true zero_oracle K1 (or_intror eq_refl) M1) as (f1 & h2 & E1). pose proof (k_solve h1 DS 2 f1 h2 K1 (or_intror eq_refl) M1 E1) as K2. cbn [Nat.eqb] in K2.
  destruct (k_returns h2 DS 1 true zero_oracle K2 (or_introl eq_refl) M2) as (f2 & h3 & E2). pose proof (k_solve h2 DS 1 f2 h3 K2 (or_introl eq_refl) M2 E2) as K3. cbn [Nat.eqb] in K3.
  destruct (k_returns h3 LeftSS 2 true zero_oracle K3 (or_intror eq_refl) M3) as (f3 & h4 & E3). pose proof (k_solve h3 LeftSS 2 f3 h4 K3 (or_intror eq_refl) M3 E3) as K4. cbn [Nat.eqb] in K4.
  destruct (k_stop h4 K4) as (h5 & _ & K5). exists h1, h5. auto.
Qed.
(** What a call changes in the timeline *)
Lemma k_after h ty t mv o found h' : K h ty t mv -> t = 1%nat \/ t = 2%nat -> h_solve o 1 h = Ok (found, h') ->
  cbl (stl (hsup h')) = tlist (hsup h) (MkPhase ty 2) (2 - t) /\ sttnp (hsup h') = INR t - 1 /\ sT (hsup h') = 1.
Proof.
  intros Kh Ht Hs. pose proof (k_about _ _ _ _ Kh Ht) as A. assert (Hp : exists h1, h_prepare 1 h = Ok h1) by (unfold h_solve in Hs; apply bind_ok in Hs; destruct Hs as (h1 & E & _); eauto). destruct Hp as (h1 & Hp).
  destruct (k_prepared _ _ _ _ _ Kh Ht Hp) as (v & Eu & _). destruct (k_planned _ _ _ _ Kh Ht) as (s1 & v1 & Eu' & Etl & _ & Etn & _ & _ & UT & _). rewrite Eu in Eu'. injection Eu' as <- <-.
  destruct (solve_plan _ _ _ _ _ _ _ _ _ A Hp Hs) as (q & idx & d & tX & l1 & l2 & s & _ & _ & _ & _ & _ & _ & _ & Hf & ->). destruct (feet_frame _ _ _ _ Hf) as (_ & _ & _ & _ & Ft & _ & FT & Fn).
  cbn [hsup]. rewrite Ft, FT, Fn, Etl, Etn, UT. auto.
Qed.
(** The first call of the walk is in double support: the centre of pressure stays in the hull of both feet.
    The last one ends the step of the right foot while the robot is stopping. *)
Example C68_case : exists h1 h1' f1 h4 h4' f4 ph1 ph4,
  (walked 1 2 2 1 h1 /\ ~ hull_fails 1 h1 /\ hcopC h1 = true /\ (forall h, h_prepare 1 h1 = Ok h -> exact_inverses h /\ respects zero_oracle h)
   /\ h_solve zero_oracle 1 h1 = Ok (f1, h1') /\ at_sample (hsup h1') /\ phase_now (hsup h1') ph1 /\ phType ph1 = DS /\ ~ exists t, step_over (hsup h1') t)
  /\ (walked 1 2 2 1 h4 /\ ~ hull_fails 1 h4 /\ hcopC h4 = true /\ hfeetC h4 = true /\ (exists h, h_prepare 1 h4 = Ok h) /\ (forall h, h_prepare 1 h4 = Ok h -> exact_inverses h /\ respects zero_oracle h)
   /\ h_solve zero_oracle 1 h4 = Ok (f4, h4') /\ step_over (hsup h4') LeftSS /\ phase_now (hsup h4') ph4 /\ phType ph4 = DS).
Proof.
  destruct k_walks as (h1 & h4 & K1 & K4). assert (M1 : may_solve DS 2 true) by (left; repeat split; [discriminate|auto]). assert (M4 : may_solve LeftSS 1 false) by (right; auto).
  destruct (k_returns h1 DS 2 true zero_oracle K1 (or_intror eq_refl) M1) as (f1 & h1' & E1). destruct (k_returns h4 LeftSS 1 false zero_oracle K4 (or_introl eq_refl) M4) as (f4 & h4' & E4).
  destruct (k_after _ _ _ _ _ _ _ K1 (or_intror eq_refl) E1) as (T1 & N1 & S1). destruct (k_after _ _ _ _ _ _ _ K4 (or_introl eq_refl) E4) as (T4 & N4 & S4). cbn [INR] in N1, N4. assert (EP : EPS = 1/10000) by (rsimpl; reflexivity).
  exists h1, h1', f1, h4, h4', f4, (MkPhase DS 2), (MkPhase DS 2). split.
  - split; [apply K1|]. split; [exact (k_no_failure _ _ _ _ K1 (or_intror eq_refl) M1)|]. split; [apply K1|]. split; [intros h Hp; exact (k_respects _ _ _ _ _ K1 (or_intror eq_refl) M1 Hp)|]. split; [exact E1|].
    split; [exists 1%nat; rewrite N1, S1; cbn; lra|]. split; [left; rewrite N1, T1; split; [rewrite EP; lra|reflexivity]|]. split; [reflexivity|]. intros (t & _ & L & _). rewrite N1, EP in L. lra.
  - split; [apply K4|]. split; [exact (k_no_failure _ _ _ _ K4 (or_introl eq_refl) M4)|]. split; [apply K4|]. split; [apply K4|].
    split; [unfold h_solve in E4; apply bind_ok in E4; destruct E4 as (h & Hp & _); eauto|]. split; [intros h Hp; exact (k_respects _ _ _ _ _ K4 (or_introl eq_refl) M4 Hp)|]. split; [exact E4|].
    split; [|split; [|reflexivity]].
    + split; [discriminate|]. rewrite N4, T4. split; [rewrite EP; lra|]. eexists. split; [reflexivity|reflexivity].
    + right. rewrite N4, T4. split; [rewrite EP; lra|]. cbn [Nat.sub tlist seq map nth_error phType]. rewrite (k_mv _ _ _ _ K4). change (typ false LeftSS 1) with DS. unfold mkph. cbn [durationOf]. rewrite (k_DS _ _ _ _ K4). reflexivity.
Qed.
(** Another solution of the last call: the centre of pressure goes to the border of the left foot as the
    polygon of the call has it, and the right foot lands one unit nearer than planned. *)
Definition jump : oracle R := fun _ _ => (fun k => match k with 1%nat => 9 | 3%nat => 1 | _ => 0 end, true).
Lemma k_jump_hull h s v : K h LeftSS 1 false -> s_updateTimeline (hX h) 1 (hsup h) = Ok (s, v) ->
  exists g, s_computeDSCopConvexPolygon s = Ok g /\ satisfies g (0, 9) /\ Forall (fun c => Rabs (slope_value c 0 9) <= MAXB) (pgen g).
Proof.
  intros Kh E. destruct (k_planned _ _ _ _ Kh (or_introl eq_refl)) as (s1 & v1 & E1 & Etl & Enb & _ & Emv & _ & _ & El & Er & _ & _ & Esz & _ & _ & Esv & Hst & _). rewrite E in E1. injection E1 as <- <-.
  destruct (walked_walk _ _ _ _ _ (k_walk _ _ _ _ Kh)) as (N & _ & _ & _ & _ & _ & _ & _ & [_ _ _ _ _ _ (s0 & f & i & m & k & Wk & _ & Es & _)]).
  pose proof (w_left _ _ _ _ _ _ _ _ _ _ _ Wk) as (La & Lb & _). pose proof (w_right _ _ _ _ _ _ _ _ _ _ _ Wk) as (Ra & Rb & _).
  assert (Fs : sleft (hsup h) = sleft s0 /\ sright (hsup h) = sright s0) by (rewrite Es; auto). destruct Fs as (Fl & Fr).
  pose proof (k_left _ _ _ _ Kh) as Pl. pose proof (k_right _ _ _ _ Kh) as Pr. pose proof (k_lcop _ _ _ _ Kh) as Cl. pose proof (k_rcop _ _ _ _ Kh) as Cr.
  unfold s_computeDSCopConvexPolygon, vread. rewrite El, Er. rewrite Fl, Fr in *. rewrite La, Lb, Ra, Rb. cbn [Nat.ltb Nat.leb guard bind].
  unfold s_front, cb_at. rewrite Etl. cbn [tlist rd nth_error bind phType]. rewrite Emv, Cl, Cr. unfold foot_pos in Pl, Pr. injection Pl as -> ->.
  cbn [Nat.sub] in Enb. change (nbs false LeftSS 1) with 1%nat in Enb. destruct (Hst Enb eq_refl) as (S1 & S2). rewrite Esv, Enb. cbn [vseg vlen vget Nat.mul Nat.add Nat.ltb Nat.leb guard bind]. rewrite S1, S2.
  destruct (zhull [(-1, 7); (1, 7); (1, 9); (-1, 9); (-1, -1); (1, -1); (1, 1); (-1, 1)]%Z) as (g & G1 & _ & G3 & G4); [cbn; lia|vm_compute; reflexivity|].
  assert (Z0 : midpoint (zinj (1, 9)%Z) (zinj (-1, 9)%Z) = (0, 9)) by (unfold midpoint, zinj; cbn [fst snd]; f_equal; lra).
  exists g. split; [|split].
  - rewrite <- G1. f_equal; unfold shiftPoly, square1, PropHumRun.square, psub, zinj; rewrite !(proj2 (HumTable.polygon_counted _)); cbn [map app fst snd]; rsimpl_goal;
    repeat (apply f_equal2; [apply f_equal2; lra|]); reflexivity.
  - rewrite <- Z0. apply G3; [cbn; auto 10|cbn; auto 10|]. rewrite Z0. unfold in_box. cbn [fst snd]. rewrite Rabs_R0, Rabs_right; lra.
  - apply Forall_forall. intros c Hc. destruct (G4 c Hc) as (a & b & Ia & Ib & Ec). unfold slope_value. rewrite Ec. cbn [fst snd].
    assert (Hx : forall z, In z [(-1, 7); (1, 7); (1, 9); (-1, 9); (-1, -1); (1, -1); (1, 1); (-1, 1)]%Z -> -1 <= IZR (fst z) <= 1).
    { intros z Hz. cbn [In] in Hz. repeat destruct Hz as [<-|Hz]; try contradiction; cbn [fst]; lra. }
    pose proof (Hx a Ia). pose proof (Hx b Ib). unfold MAXB. rsimpl. apply Rabs_le. nra.
Qed.
Lemma k_jump h h1 : K h LeftSS 1 false -> h_prepare 1 h = Ok h1 -> respects jump h1.
Proof.
  intros Kh Hp. assert (Ht : 1%nat = 1%nat \/ 1%nat = 2%nat) by auto. assert (Hm : may_solve LeftSS 1 false) by (right; auto). pose proof (k_about _ _ _ _ Kh Ht) as A. destruct (prepared _ _ _ (as_reached _ _ _ _ _ A) Hp) as (I & Sh & _).
  destruct (k_prepared _ _ _ _ _ Kh Ht Hp) as (v & Eu & El & Efi & Ec & Ef & Esz & X0 & X1 & Xk).
  destruct (k_jump_hull _ _ _ Kh Eu) as (g & Hg & G9 & Gp).
  destruct (k_planned _ _ _ _ Kh Ht) as (s1 & v1 & Eu' & Etl & Enb & Etn & Emv & UN & UT & Ul & Ur & Ust & Uds & Usz & _ & _ & Usv & Hst & _). rewrite Eu in Eu'. injection Eu' as <- <-.
  assert (EN : lN (hlip h1) = 1%nat) by (destruct (call_sizes _ _ _ _ _ _ A Hp) as (_ & S2 & _); rewrite <- S2; exact (k_N _ _ _ _ Kh)).
  change (nbs false LeftSS (2 - 1)) with 1%nat in Enb. destruct (Hst Enb eq_refl) as (S1 & S2).
  intros q idx it Hq. unfold jump. cbn [fst]. assert (HE : 0 <= EPS) by (rsimpl; lra). apply (proj2 (proj1 (C17_normalisation_preserves_solutions q EPS _ HE))). set (d := fun k : nat => match k with 1%nat => 9 | 3%nat => 1 | _ => 0 end).
  assert (Hp0 : nth_error (cbl (stl (hsup h1))) 0 = Some (MkPhase LeftSS 2)) by (rewrite Etl; reflexivity).
  destruct (k_returns _ _ _ _ zero_oracle Kh Ht Hm) as (fd & h' & Hs). destruct (solve_plan _ _ _ _ _ _ _ _ _ A Hp Hs) as (q' & idx' & d' & tX & l1 & l2 & s & _ & _ & _ & _ & Ht' & _).
  destruct (convert_inv _ _ _ I Sh Ht') as (z & cx & cy & Vx & Vy & fx & fy & G). pose proof (cv_foot _ _ _ _ _ _ _ _ _ _ G) as Sp.
  apply (plan_iff 1 1 1 (INR 1) h h1 A Hp fx fy Sp q idx _ Hq). pose proof (support_pos _ _ _ _ Hp0 Sp) as Sf. cbn [phType] in Sf. rewrite Ul, (k_left _ _ _ _ Kh) in Sf. injection Sf as -> ->.
  assert (HM : MAXB = 100000000000) by (unfold MAXB; rsimpl; lra).
  assert (Kin : forall k p, (k < snb (hsup h1))%nat -> s_getKinematicConvexPolygon k (hsup h1) = Ok p -> k = 0%nat /\ p = reach1).
  { intros k p Hk Hkp. rewrite Enb in Hk. assert (k = 0%nat) as -> by lia. split; [reflexivity|].
    unfold s_getKinematicConvexPolygon, s_isInDS, s_front, cb_at in Hkp. rewrite Enb, Etl in Hkp. cbn [Nat.ltb Nat.leb guard tlist rd nth_error bind phType is_DS andb] in Hkp. injection Hkp as <-. rewrite Ul. exact (k_kin _ _ _ _ Kh). }
  assert (Cop : forall i p, (i < lN (hlip h1))%nat -> s_getCopConvexPolygon i (hsup h1) = Ok p -> i = 0%nat /\ p = g).
  { intros i p Hi Hpp. rewrite EN in Hi. assert (i = 0%nat) as -> by lia. split; [reflexivity|].
    destruct (polygon_of_phase h 1 h1 (INR 1) _ 0 p Hp (as_ready _ _ _ _ _ A)) as (j & ph & Hin & Hj & Hpoly); [rewrite (k_N _ _ _ _ Kh); lia|exact Hpp|].
    destruct Hin as (Lj & Hge & Hlt). rewrite Etl in Lj, Hlt, Hj. rewrite tlist_length in Lj. cbn [Nat.sub] in *. destruct j as [|[|j]]; [|clear Hlt|lia].
    - exfalso. cbn [start_time INR] in Hlt. rewrite (k_T _ _ _ _ Kh) in Hlt. lra.
    - cbn [tlist seq map nth_error phType] in Hj. rewrite (k_mv _ _ _ _ Kh) in Hj. injection Hj as <-. cbn [mkph phType] in Hpoly. change (typ false LeftSS 1) with DS in Hpoly. cbn [phase_polygon] in Hpoly. rewrite Hg in Hpoly. injection Hpoly as <-. reflexivity. }
  assert (Pg : pgen reach1 = []).
  { unfold reach1, polygon_of_vertices, computeBounds. cbn [pverts edges app combine]. destruct (cfold_bounds (edges [(-1, -9); (1, -9); (1, -7); (-1, -7)]) (MkPoly [(-1, -9); (1, -9); (1, -7); (-1, -7)] MAXB (sopp MAXB) MAXB (sopp MAXB) [])) as (_ & _ & _ & _ & _ & E6). unfold cstep in E6. cbn [edges app combine] in E6. rewrite E6.
    cbn [pgen app flat_map]. unfold kind. cbn [fst snd].
    repeat match goal with |- context [Rlt_dec ?x (1/10000)] => let L := fresh in destruct (Rlt_dec x (1/10000)) as [L|L];
      [|first [apply Rnot_lt_le in L; exfalso; match type of L with _ <= Rabs ?r => replace r with 0 in L by lra end; rewrite Rabs_R0 in L; lra|clear L]] end;
    repeat match goal with |- context [Rlt_dec ?x 0] => destruct (Rlt_dec x 0) end; reflexivity. }
  unfold permitted_plan. split; [|split].
  - replace (fun k => moved h1 d k - vget (hX h1) k) with d by (apply functional_extensionality; intros; unfold moved; ring). split; [|split].
    + intros j _. rewrite HM. unfold d. destruct j as [|[|[|[|j]]]]; rewrite ?Rabs_R0; try lra; rewrite Rabs_right; lra.
    + intros _ i p Hi Hpp. destruct (Cop i p Hi Hpp) as (-> & ->). rewrite EN. exact Gp.
    + intros _ k p Hk Hkp. destruct (Kin k p Hk Hkp) as (-> & ->). rewrite Pg. constructor.
  - intros _ i p Hi Hpp. destruct (Cop i p Hi Hpp) as (-> & ->). rewrite EN. unfold dCopX, dCopY, moved. cbn [Nat.add]. rewrite X0, X1. unfold d. replace (0 + 0) with 0 by ring. replace (0 + 9) with 9 by ring. exact G9.
  - intros _. split; intros k p Hk Hkp; destruct (Kin k p Hk Hkp) as (-> & ->).
    + rewrite Pg. constructor.
    + assert (B : satisfies reach1 (0, -7)) by (apply (rect_in (-8)); try lra; rewrite Rabs_left; lra). destruct B as (B1 & B2 & _). cbn [fst snd] in B1, B2. unfold dStepX, dStepY, from_step, moved. rewrite EN, Enb. cbn [Nat.mul Nat.add]. rewrite !Xk, S1, S2 by lia. unfold d. lra.
Qed.
(** The claim that the centre of pressure is always above the polygon of the feet is false: with constraints on
    both, respected by the solver, it is one unit to the side of both feet (which are two units wide) at the sample where the last step lands. *)
Theorem C68_cop_off_the_feet_refuted : exists h0 h h' o found ph, walked 1 2 2 1 h0 /\ ~ hull_fails 1 h0 /\ hcopC h0 = true /\ hfeetC h0 = true
  /\ h_prepare 1 h0 = Ok h /\ exact_inverses h /\ respects o h /\ h_solve o 1 h0 = Ok (found, h') /\ at_sample (hsup h') /\ phase_now (hsup h') ph /\ phType ph = DS
  /\ let s := hsup h' in ~ in_hull (placed (foot_pos (sleft s)) (fcop (sleft s)) ++ placed (foot_pos (sright s)) (fcop (sright s))) (robot_cop (hlip h')).
Proof.
  destruct k_walks as (_ & h & _ & Kh). assert (Ht : 1%nat = 1%nat \/ 1%nat = 2%nat) by auto. assert (Hm : may_solve LeftSS 1 false) by (right; auto).
  destruct (k_returns h LeftSS 1 false jump Kh Ht Hm) as (fd & h' & Hs). assert (Hp : exists h1, h_prepare 1 h = Ok h1) by (unfold h_solve in Hs; apply bind_ok in Hs; destruct Hs as (h1 & E & _); eauto). destruct Hp as (h1 & Hp).
  destruct (k_respects _ _ _ _ _ Kh Ht Hm Hp) as (Ex & _). pose proof (k_jump _ _ Kh Hp) as Hr. destruct (k_after _ _ _ _ _ _ _ Kh Ht Hs) as (T4 & N4 & S4). cbn [INR] in N4. assert (EP : EPS = 1/10000) by (rsimpl; reflexivity).
  exists h, h1, h', jump, fd, (MkPhase DS 2). split; [apply Kh|]. split; [exact (k_no_failure _ _ _ _ Kh Ht Hm)|]. split; [apply Kh|]. split; [apply Kh|]. split; [exact Hp|]. split; [exact Ex|]. split; [exact Hr|]. split; [exact Hs|].
  split; [exists 0%nat; rewrite N4, S4; cbn; lra|].
  split. { right. rewrite N4, T4. split; [rewrite EP; lra|]. cbn [Nat.sub tlist seq map nth_error phType]. rewrite (k_mv _ _ _ _ Kh). change (typ false LeftSS 1) with DS. unfold mkph. cbn [durationOf]. rewrite (k_DS _ _ _ _ Kh). reflexivity. }
  split; [reflexivity|]. pose proof (k_about _ _ _ _ Kh Ht) as A.
  destruct (k_prepared _ _ _ _ _ Kh Ht Hp) as (v & Eu & El & _ & _ & _ & Esz & X0 & X1 & Xk).
  destruct (k_planned _ _ _ _ Kh Ht) as (s1 & v1 & Eu' & Etl & Enb & Etn & Emv & UN & UT & Ul & Ur & Ust & Uds & Usz & _ & _ & Usv & Hst & _). rewrite Eu in Eu'. injection Eu' as <- <-.
  assert (EN : lN (hlip h1) = 1%nat) by (destruct (call_sizes _ _ _ _ _ _ A Hp) as (_ & S2 & _); rewrite <- S2; exact (k_N _ _ _ _ Kh)).
  change (nbs false LeftSS (2 - 1)) with 1%nat in Enb. destruct (Hst Enb eq_refl) as (S1 & S2).
  destruct (solve_plan _ _ _ _ _ _ _ _ _ A Hp Hs) as (q' & idx' & d' & tX' & l1 & l2 & s' & _ & Lq & _ & Ed & _ & _ & _ & _ & Eh').
  assert (EX : forall k, (k < 4)%nat -> vget (hX h') k = vget (hX h1) k + match k with 1%nat => 9 | 3%nat => 1 | _ => 0 end).
  { intros k Hk. rewrite Eh'. cbn [hX vadd vget]. rewrite Ed, Lq, EN, Enb. cbn [vget Nat.mul Nat.add]. rewrite (proj2 (Nat.ltb_lt _ _) Hk). reflexivity. }
  assert (Hd : forall p, nth_error (cbl (stl (hsup h1))) 0 = Some p -> phType p <> DS -> 2 * sT (hsup h1) <= phDur p) by (intros p Hn _; rewrite Etl in Hn; injection Hn as <-; rewrite UT; cbn [phDur]; lra).
  pose proof (landed 1 1 (INR 1) h h1 h' jump fd A Hp Hs Hr Hd (MkPhase LeftSS 2) 1 Etl ltac:(discriminate) Etn) as La. cbn [moving phType] in La. unfold dStepX, dStepY in La. rewrite EN, Enb in La. cbn [Nat.mul Nat.add] in La.
  rewrite !EX, !Xk, S1, S2 in La by lia.
  destruct (unmoved 1 1 (INR 1) h h1 h' jump fd A Hp Hs Hr (MkPhase LeftSS 2) 1 Etl) as (_ & Um & _). specialize (Um eq_refl).
  destruct (as_solved 1 1 (INR 1) h h1 h' jump fd A Hp Hs Hr) as (q & idx & d & t & _ & _ & _ & Ht' & Ex' & Ey & Eh & Eg & Em & EM & Hu). destruct (feet_frame _ _ _ _ Hu) as (Fl & Fr & _).
  destruct (prepared _ _ _ (as_reached _ _ _ _ _ A) Hp) as (I & Sh & _). destruct (convert_inv _ _ _ I Sh Ht') as (z & cx & cy & Vx & Vy & fx & fy & G). pose proof (cv_foot _ _ _ _ _ _ _ _ _ _ G) as Sp.
  destruct (convert_motion 1 1 1 (INR 1) h h1 A Hp fx fy Sp Ex (hX h') t Ht' 0%nat) as (px & py & _ & O2 & _ & C2); [rewrite EN; lia|].
  assert (Hc : snd (robot_cop (hlip h')) = 2).
  { unfold robot_cop. cbn [snd]. rewrite Ey, Eh, Eg, Em, EM. unfold cop_y in C2. cbn [sim INR] in C2. rewrite Rmult_1_l, Nat.add_0_r in C2. rewrite C2.
    destruct O2 as (j & (Lj & _ & Hlt) & Epy). rewrite Etl in Lj, Hlt, Epy. rewrite tlist_length in Lj. destruct j as [|[|j]]; [exfalso; cbn [start_time INR] in Hlt; lra|clear Hlt|cbn [Nat.sub] in Lj; lia].
    cbn [Nat.sub tlist seq map steps_before firstn filter phType is_DS negb length] in Epy. unfold dStepY in Epy. rewrite EN, Enb in Epy. cbn [Nat.mul Nat.add] in Epy. unfold dCopY. rewrite EN. cbn [Nat.add]. rewrite EX in Epy by lia. rewrite Xk, S2 in Epy by lia. rewrite EX, X1 by lia. lra. }
  cbv zeta. rewrite La, Um, Fr, Ul, Ur, (k_left _ _ _ _ Kh), (k_lcop _ _ _ _ Kh), (k_rcop _ _ _ _ Kh). intros Hh. specialize (Hh (fun x => snd x <= 1)). cbv beta in Hh. rewrite Hc in Hh. assert (2 <= 1); [|lra]. apply Hh.
  - intros u w r Hu' Hw Hr'. cbn [snd]. nra.
  - intros x Hx. apply in_app_or in Hx. unfold placed, square1, PropHumRun.square in Hx. rewrite !(proj2 (HumTable.polygon_counted _)) in Hx. cbn [map fst snd In] in Hx.
    destruct Hx as [Hx|Hx]; repeat destruct Hx as [<-|Hx]; try contradiction; cbn [snd]; lra.
Qed.
End Case.
Print Assumptions C68_case.
Print Assumptions C68_cop_off_the_feet_refuted.
