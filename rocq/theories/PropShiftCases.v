(** Concrete cases for property C70: a walk that meets the hypotheses, and runs in which the place of the
    robot does matter.

    The runs are executed on the same polymorphic model, instantiated with the rationals, so that they
    can be computed exactly; they use only public calls.  No run uses the angles. *)

From Coq Require Import Reals List ZArith QArith Arith Bool Lra Lia.
From Verif Require Import Scalar LinAlg LinAlgFacts ToolsModel ToolsSpec ToolsFacts InterpModel PolygonModel FootModel LipModel ModelsSpec ModelsFacts QPModel TrajModel SupModel SupWalk HumModel
  HumSpec HumFacts HumRunSpec HumTable HumRun HumSafeSpec PropHumRun PropHumCases ShiftSpec HumMoved PropShift.
Import ListNotations.

(** ** Runs *)
Section Runs.
Context (TQ : Trig Q).
Local Open Scope Q_scope.
(** A solver that stops where it starts, as one with no iteration left does *)
Definition stopped : oracle Q := fun _ _ => (fun _ => 0, true).
Definition at_rest (x : Q) : vec Q := MkVec 3 (fun k => if Nat.eqb k 0 then x else 0).
(** The robot stands still at (x, y), its feet at 0.1 m on each side; one sample of 1 s, steps of 2 s *)
Definition standing_at (L : Q) (w : hweights Q) (x y : Q) : list (hcall Q) :=
  [HSetStepPeriod 2; HSetDSLength L; HSetKin SLeft (hkin false); HSetKin SRight (hkin true); HSetVelRef (vzero 2); HSetWeightings w;
   HSetFootX SLeft (at_rest x); HSetFootY SLeft (at_rest (y + (1#10))); HSetFootX SRight (at_rest x); HSetFootY SRight (at_rest (y - (1#10)));
   HSetComX (at_rest x); HSetComY (at_rest y); HSetMove true].
Definition walk_from (L : Q) (w : hweights Q) (k : nat) (x y : Q) : res (hum Q) :=
  do h <- newHum; hsteps (standing_at L w x y ++ repeat (HSolve stopped (1#2)) k) h.
Definition right_foot (r : res (hum Q)) : option (Q * Q) :=
  match r with Ok h => Some (Qred (vget (fsx (sright (hsup h))) 0), Qred (vget (fsy (sright (hsup h))) 0)) | _ => None end.

(** With a horizon no longer than a step, the first step appears when the single support has begun: it is
    guessed at the same place wherever the robot is, and if the solver stops there the foot goes to it.
    The right foot goes from (0, -0.1) to (-0.1, -0.3), and from (1, 4.9) to (-0.1, -0.3) as well. *)
Theorem C70_first_step_guessed_refuted :
  right_foot (walk_from 1 (MkHW 0 1 0) 4 0 0) = Some (0, -1#10) /\ right_foot (walk_from 1 (MkHW 0 1 0) 6 0 0) = Some (-1#10, -3#10)
  /\ right_foot (walk_from 1 (MkHW 0 1 0) 4 1 5) = Some (1, 49#10) /\ right_foot (walk_from 1 (MkHW 0 1 0) 6 1 5) = Some (-1#10, -3#10).
Proof. vm_compute. repeat split. Qed.

(** When the time before the next phase is a number of sampling periods plus the tolerance (1e-4), the last
    sample is attributed to no foot, and its centre of pressure counts from the origin of the world: the
    objective has another gradient when the robot, which stands still and is to stay, stands elsewhere. *)
Definition gradient (L : Q) (x y : Q) : option (list Q) :=
  match (do h <- walk_from L (MkHW 1 1 0) 0 x y; do h1 <- h_prepare (1#2) h; h_problem h1) with
  | Ok (q, _) => Some (map Qred (list_of_vec (qp q)))
  | _ => None
  end.
Theorem C70_sample_without_foot_refuted :
  gradient 1 1 5 = gradient 1 0 0 /\ gradient (1 + (1#10000)) 1 5 <> gradient (1 + (1#10000)) 0 0
  /\ option_map (hd 0) (gradient (1 + (1#10000)) 0 0) = Some 0 /\ option_map (hd 0) (gradient (1 + (1#10000)) 1 5) = Some (-480218139 # 161290000).
Proof. vm_compute. repeat split. discriminate. Qed.

(** Steps are planned in the course of this walk: a change of the number of samples forgets them. *)
Example C70_planned_steps_case :
  match walk_from 1 (MkHW 0 1 0) 5 1 5 with
  | Ok h => snb (hsup h) = 1%nat /\ match h_setNbSamples 2 h with Ok g => list_of_vec (hX g) = [0; 0; 0; 0; 0; 0] | _ => False end
  | _ => False end.
Proof. vm_compute. repeat split. Qed.
End Runs.

(** ** A walk *)
Section Case.
Local Open Scope R_scope.
(** Three samples of 1 s and steps of 2 s: the horizon is longer than a step.  The robot is put at (x, y). *)
Definition at_place (x : R) : vec R := MkVec 3 (fun k => if Nat.eqb k 0 then x else 0).
Definition case_walk : list (hcall R) :=
  [HSetNbSamples 3; HSetKin SLeft (square 1); HSetKin SRight (square 1); HSetCop SLeft (square (1/10)); HSetCop SRight (square (1/10));
   HSetVelRef (vzero 6); HSetConfig false true] ++ put (at_place 0) (at_place (1/10)) (at_place 0) (at_place (-1/10)) (at_place 0) (at_place 0).
Lemma new_samples (TK : Trig R) (h0 : hum R) : newHum = Ok h0 -> exists h1 : hum R, h_setNbSamples 3 h0 = Ok h1 /\ sN (hsup h1) = 3%nat /\ sT (hsup h1) = sT (hsup h0) /\ sstep (hsup h1) = sstep (hsup h0)
  /\ sDS (hsup h1) = sDS (hsup h0) /\ lN (hlip h1) = 3%nat /\ lh (hlip h1) = lh (hlip h0) /\ lfb (hlip h1) = lfb (hlip h0).
Proof.
  intros H. pose proof H as H'. unfold newHum in H'. apply bind_ok in H'. destruct H' as (s & Hs & H'). apply bind_ok in H'. destruct H' as (l & Hl & H'). injection H' as <-.
  destruct (newLip_fresh _ _ _ Hl) as (_ & O & Ha). injection O as O1 O2 O3 O4 O5 O6 O7 _ _ _ _.
  assert (E : exists l', l_setNbSamples 3 l = Ok l' /\ lN l' = 3%nat /\ lh l' = lh l /\ lfb l' = lfb l).
  { unfold l_setNbSamples, l_auto. cbn [Nat.ltb Nat.leb guard bind l_setPar lauto]. rewrite Ha. destruct (l_compute_returns (l_setPar l 3 (lT l) (lfb l) (lh l) (lg l) (lm l) (lM l) (lsz l))) as (l' & E & _).
    - cbn [l_setPar lfb]. rewrite O3. rsimpl. lra.
    - unfold valid_params. cbn [l_setPar lT lN lg lm lM]. rewrite O2, O5, O6, O7. cbn [gz]. rsimpl. rewrite Rabs_right by lra. repeat split; try lra. lia.
    - exists l'. split; [exact E|]. unfold l_computeDynamics in E. binds E. injection E as <-. auto. }
  destruct E as (l' & E & E1 & E2 & E3). unfold h_setNbSamples. cbn [Nat.ltb Nat.leb guard bind hsup hlip h_computeConstantPart]. rewrite E. cbn [bind]. unfold s_setNbSamples, f_setNbSamples. cbn [Nat.ltb Nat.leb guard bind].
  eexists. split; [reflexivity|]. cbn [h_computeConstantPart hsup hlip s_setN sN sT sstep sDS]. auto 10.
Qed.
(** The robot at the origin and the robot at (x, y), both about to walk, and any number of solves *)
Example C70_walk_case : forall (TK : Trig R) x y, exists (h0 h h' : hum R), newHum = Ok h0 /\ hsteps case_walk h0 = Ok h /\ hsteps (map (moved_call x y) case_walk) h0 = Ok h'
  /\ moved_hum x y (h_setSolvers (hmats h) h) (h_setSolvers (hmats h') h') /\ ready_to_walk 10 2 2 (1/10) (h_setSolvers (hmats h) h) /\ (2 < sN (hsup h))%nat
  /\ forall os, let cs := HSetMove true :: map (fun o => HSolve o (1/10)) os in
       permitted 10 (1/10) cs (h_setSolvers (hmats h) h) /\ hulls_found (1/10) cs (h_setSolvers (hmats h) h).
Proof.
  intros TK x y. destruct (new_case TK) as (h0 & E & _ & ET & Es & Ed & _ & Eh & Ef & _). exists h0. destruct (new_samples TK h0 E) as (h1 & E1 & N1 & T1 & S1 & D1 & L1 & H1 & F1). rewrite ET in T1. rewrite Es in S1. rewrite Ed in D1. rewrite Eh in H1. rewrite Ef in F1.
  assert (U1 : set_up h1) by (eapply up_call with (c := HSetNbSamples 3); [apply up_new; exact E|exact (fun f => f)|exact E1]).
  set (h2 := h_setCopConvexPolygon SRight (square (1/10)) (h_setCopConvexPolygon SLeft (square (1/10)) (h_setKinematicConvexPolygon SRight (square 1) (h_setKinematicConvexPolygon SLeft (square 1) h1)))).
  assert (U2 : set_up h2).
  { eapply up_call with (c := HSetCop SRight (square (1/10))); [|exact (fun f => f)|reflexivity]. eapply up_call with (c := HSetCop SLeft (square (1/10))); [|exact (fun f => f)|reflexivity].
    eapply up_call with (c := HSetKin SRight (square 1)); [|exact (fun f => f)|reflexivity]. eapply up_call with (c := HSetKin SLeft (square 1)); [|exact (fun f => f)|reflexivity]. exact U1. }
  assert (V : exists h3, h_setVelRef (vzero 6) h2 = Ok h3 /\ hsup h3 = hsup h2 /\ hlip h3 = hlip h1 /\ vlen (hvelRef h3) = 6%nat).
  { unfold h_setVelRef. change (lN (hlip h2)) with (lN (hlip h1)). rewrite L1. cbn [vzero vlen Nat.mul Nat.add Nat.eqb guard bind]. eexists. split; [reflexivity|]. repeat split. }
  destruct V as (h3 & E3 & S3 & L3 & V3). assert (U3 : set_up h3) by (eapply up_call with (c := HSetVelRef (vzero 6)); [exact U2|exact (fun f => f)|exact E3]).
  set (h4 := h_setConfig false true h3). assert (S4 : settled h4) by (eapply settled_rebuild with (c := HSetConfig false true); [exact U3|exact Logic.I|reflexivity]).
  assert (Split : forall f, hsteps (map f case_walk) h0 = do h4 <- hsteps (map f (firstn 7 case_walk)) h0; hsteps (map f (put (at_place 0) (at_place (1/10)) (at_place 0) (at_place (-1/10)) (at_place 0) (at_place 0))) h4).
  { intros f. rewrite <- (firstn_skipn 7 case_walk) at 1. rewrite map_app. change (skipn 7 case_walk) with (put (at_place 0) (at_place (1/10)) (at_place 0) (at_place (-1/10)) (at_place 0) (at_place 0)).
    generalize (map f (firstn 7 case_walk)) as l1. intros l1. generalize h0. induction l1 as [|c l1 IH]; intros k; [reflexivity|]. cbn [app hsteps]. destruct (hstep c k); cbn [bind]; auto. }
  assert (First : forall f, (f = (fun c => c) \/ f = moved_call x y) -> hsteps (map f (firstn 7 case_walk)) h0 = Ok h4).
  { intros f Hf. assert (map f (firstn 7 case_walk) = firstn 7 case_walk) as -> by (destruct Hf as [->| ->]; reflexivity). cbn [firstn case_walk app hsteps hstep]. rewrite E1. cbn [bind]. fold h2. rewrite E3. reflexivity. }
  assert (Put : exists h, hsteps (put (at_place 0) (at_place (1/10)) (at_place 0) (at_place (-1/10)) (at_place 0) (at_place 0)) h4 = Ok h /\ settled h
     /\ sN (hsup h) = 3%nat /\ sT (hsup h) = 1 /\ sstep (hsup h) = 2 /\ sDS (hsup h) = 2 /\ hvelRef h = hvelRef h3 /\ lh (hlip h) = 1 /\ lfb (hlip h) = 1 /\ hcopC h = false
     /\ (forall d, fkin (s_foot d (hsup h)) = square 1 /\ fcop (s_foot d (hsup h)) = square (1/10))).
  { assert (G : forall cs h g, settled h -> (forall c, In c cs -> ~ is_solve c /\ ~ is_polygon c) -> hsteps cs h = Ok g -> settled g).
    { induction cs as [|c cs IH]; intros h g S Hc H; cbn [hsteps] in H; [injection H as <-; exact S|]. apply bind_ok in H. destruct H as (k & Hk & H). apply (IH k g); [|intros; apply Hc; right; assumption|exact H].
      destruct (Hc c (or_introl eq_refl)) as (C1 & C2). exact (settled_call c h k S C1 C2 Hk). }
    eexists. split; [reflexivity|]. split; [apply (G (put (at_place 0) (at_place (1/10)) (at_place 0) (at_place (-1/10)) (at_place 0) (at_place 0)) h4); [exact S4| |reflexivity]|].
    - intros c Hc. cbn in Hc. repeat destruct Hc as [<-|Hc]; try contradiction; split; exact (fun f => f).
    - cbn [h_setLip h_setSup h_setModels hsup hlip hvelRef hcopC h_setConfig h_computeConstantPart h4 s_setFoot s_setFeet sN sT sstep sDS l_setStates lh lfb]. rewrite S3, L3.
      repeat split; try assumption; destruct d; reflexivity. }
  destruct Put as (h & Ep & St & P1 & P2 & P3 & P4 & P5 & P6 & P7 & P8 & P9).
  destruct (C70_put_anywhere x y _ _ _ _ _ _ h4 h (settled_up _ S4) Ep) as (h' & Ep' & M). exists h, h'. split; [exact E|].
  split; [rewrite <- (map_id case_walk), Split, First by auto; cbn [bind]; rewrite map_id; exact Ep|]. split; [rewrite Split, First by auto; exact Ep'|]. split; [|split; [|split]].
  - destruct M as (s & l & X & t & -> & M). exists s, l, X, t. split; [reflexivity|exact M].
  - assert (P : forall d, pverts (square d) <> []) by (intros d; unfold square; rewrite (proj2 (polygon_counted _)); discriminate).
    assert (B : forall d, built (square d)) by (intros d; unfold built, square; rewrite (proj2 (polygon_counted _)); reflexivity).
    destruct (P9 SLeft) as (K1 & C1), (P9 SRight) as (K2 & C2). cbn [s_foot] in *.
    constructor; change (hsup (h_setSolvers (hmats h) h)) with (hsup h); change (hlip (h_setSolvers (hmats h) h)) with (hlip h); change (hvelRef (h_setSolvers (hmats h) h)) with (hvelRef h); rewrite ?P1, ?P2, ?P3, ?P4, ?P5, ?P6, ?P7, ?K1, ?K2, ?C1, ?C2, ?V3.
    + exists h, (hmats h). auto.
    + unfold EPS; rsimpl; lra.
    + lia.
    + lia.
    + lia.
    + cbn; lra.
    + cbn; lra.
    + cbn; lra.
    + split; apply P.
    + auto.
    + reflexivity.
    + exact case_height.
    + right. unfold EPS; rsimpl. rewrite Rabs_left; lra.
  - rewrite P1. lia.
  - assert (Q : forall k : hum R, hcopC k = false -> forall os, permitted 10 (1/10) (map (fun o => HSolve o (1/10)) os) k /\ hulls_found (1/10) (map (fun o => HSolve o (1/10)) os) k).
    { intros k Hk os. revert k Hk. induction os as [|o os IH]; intros k Hk; [split; exact Logic.I|]. cbn [map permitted hulls_found may].
      assert (S : forall k', hstep (HSolve o (1/10)) k = Ok k' -> hcopC k' = false).
      { intros k' Hs. cbn [hstep] in Hs. apply bind_ok in Hs. destruct Hs as ((f & g) & Hs & Eg). injection Eg as <-. unfold h_solve in Hs. apply bind_ok in Hs. destruct Hs as (k1 & Hp & Hs). apply bind_ok in Hs. destruct Hs as (q & _ & Hs).
        destruct (finish_cases _ _ _ _ _ _ Hs) as (? & ? & ? & ? & ? & ? & _ & _ & _ & _ & _ & _ & _ & _ & E'). cbn [snd] in *. rewrite E'. cbn [hcopC].
        destruct (h_prepare_cases _ _ _ Hp) as (? & ? & ? & _ & _ & _ & _ & _ & _ & _ & _ & _ & _ & _ & Ec & _). rewrite Ec. exact Hk. }
      split; (split; [|intros k' Hs; apply IH; exact (S k' Hs)]); [reflexivity|]. intros _ (Hc & _). congruence. }
    intros os cs. unfold cs. cbn [permitted hulls_found may is_solve]. assert (S : forall k', hstep (HSetMove true) (h_setSolvers (hmats h) h) = Ok k' -> hcopC k' = false).
    { intros k' Hk. cbn [hstep] in Hk. unfold h_setMove in Hk. apply bind_ok in Hk. destruct Hk as (ds & _ & Hk). injection Hk as <-. exact P8. }
    split; (split; [|intros k' Hk; apply (Q k' (S k' Hk))]); [exact Logic.I|intros []].
Qed.
End Case.

Print Assumptions C70_first_step_guessed_refuted.
Print Assumptions C70_sample_without_foot_refuted.
Print Assumptions C70_walk_case.
