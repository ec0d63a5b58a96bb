(** Reaching a state of the Zebulon generator by a list of calls, known through its visible part. *)

From Coq Require Import Reals List ZArith Lra Lia Arith Bool.
From Verif Require Import Scalar LinAlg ToolsModel ToolsSpec ToolsFacts NoDynModel PolygonModel HullFacts
  QPModel QPFacts TrajModel TrajFacts LipModel BaseModel ModelsSpec ModelsFacts ZebModel HumAlg ZebAlg ZebSpec ZebFacts ZebLive ZebCalls ZebView.
Import ListNotations.
Local Open Scope R_scope.

(** the acceptance of a call only depends on the visible part *)
Definition vaccepts (c : zcall R) (v : zview) (hb : R) : Prop :=
  let N := oN (vl v) in let T := oT (vl v) in let w := vw v in
  let m := om (vl v) in let h := oh (vl v) in let mb := pm (vb v) in let now := ph (vb v) in
  match c with
  | ZSetNbSamples n => (0 < n)%nat /\ tilt_regular w T m h mb now
  | ZSetSamplingPeriod T' => 0 < T' /\ tilt_regular w T' m h mb now
  | ZSetGravity g => 1/10000 < Rabs (gz g)
  | ZSetCopPolygon p | ZSetComPolygon p => (3 <= length (pverts p))%nat
  | ZSetCopHull p | ZSetComHull p =>
      exists q, makePolygon (map (fun v => (gx v, gy v)) p) = Ok q /\ (3 <= length (pverts q))%nat
  | ZSetBodyHeight h' => tilt_regular w T m h' mb now
  | ZSetBaseHeight _ => True
  | ZSetBodyMass m' => m <= m' + mb /\ 0 <= m' /\ 1/10000 < m' + mb /\ tilt_regular w T m' h mb now
  | ZSetBaseMass mb' => mb <= m + mb' /\ 0 < mb' /\ 1/10000 < m + mb' /\ tilt_regular w T m h mb' now
  | ZSetVelRef v | ZSetPosRef v | ZSetCopRef v | ZSetComRef v => vlen v = (2 * N)%nat
  | ZSetComAndCopRef a b c d => (vlen a = 2 * N /\ vlen b = 2 * N /\ vlen c = 2 * N /\ vlen d = 2 * N)%nat
      /\ 1/1000000 < Rabs ((mb + m) * gz (og (vl v)))
  | ZSetVelLimit x | ZSetAccLimit x | ZSetJerkLimit x => 0 <= x
  | ZSetBaseStateX v | ZSetBaseStateY v | ZSetRoll v | ZSetPitch v | ZSetYaw v
  | ZSetComStateX v | ZSetComStateY v => vlen v = 3%nat
  | ZSetContactX _ | ZSetContactY _ => True
  | ZSetWeightings w' => 0 <= zwCop w' /\ 0 <= zwCom w' /\ 0 <= zwVel w' /\ 0 <= zwJerk w' /\ 0 <= zwTilt w'
      /\ tilt_regular w' T m h mb hb
  | ZSetConfig _ => True
  | ZSolve _ f => 0 < f /\ vlen (vvel v) = (2 * N)%nat /\ vlen (vpos v) = (2 * N)%nat /\ vlen (vcop v) = (2 * N)%nat
  end.
Lemma vaccepts_z c z hb : vaccepts c (view_of z) hb = zaccepts c z hb.
Proof. destruct c; reflexivity. Qed.

(** [at_view v hb cl]: a state with this visible part is reachable *)
Definition at_view (v : zview) (hb : R) (cl : bool) : Prop := exists z, zreach z hb cl /\ view_of z = v.
Lemma at_new ux uy : at_view (view0 ux uy) 0 true.
Proof. destruct (new_is_ok ux uy) as (z & H). exists z. split; [exact (zreach_new ux uy z H)|exact (new_view _ _ _ H)]. Qed.
Lemma reach_next z hb cl c : zreach z hb cl -> zaccepts c z hb ->
  exists z', zstep c z = Ok z' /\ zeffect c (view_of z) (view_of z')
    /\ zreach z' (if tilt_refreshed c then bh (zb z) else hb) (match shift_effect c with Some b => b | None => cl end).
Proof.
  intros R A. destruct (proj2 (step_is_ok c z hb cl (reach_zinv _ _ _ R)) A) as (z' & H). exists z'. split; [assumption|]. split.
  - exact (step_effect z hb cl (reach_zinv _ _ _ R) c z' H).
  - exact (zreach_step _ _ _ _ _ R H).
Qed.
(** the visible effect of the calls that have one *)
Definition det (c : zcall R) : bool :=
  match c with ZSetCopHull _ | ZSetComHull _ | ZSetComAndCopRef _ _ _ _ | ZSolve _ _ => false | _ => true end.
Definition vstep (c : zcall R) (v : zview) : zview :=
  let '(ZView l b rv rp rc rm w k X) := v in
  let onLip e := ZView (lobs_step l e) b rv rp rc rm w k X in
  let onBase e := ZView l (bobs_step b e) rv rp rc rm w k X in
  match c with
  | ZSetNbSamples n => ZView (lobs_step l (LSetNbSamples n)) (bobs_step b (BSetNbSamples n)) rv rp rc (vzero (2 * n)) w k (vzero (4 * n))
  | ZSetSamplingPeriod T => ZView (lobs_step l (LSetSamplingPeriod T)) (bobs_step b (BSetSamplingPeriod T)) rv rp rc rm w k X
  | ZSetGravity g => ZView (lobs_step l (LSetGravity g)) (bobs_step b (BSetGravity g)) rv rp rc rm w k X
  | ZSetCopPolygon p => onBase (BSetCopPolygon p)
  | ZSetComPolygon p => onBase (BSetComPolygon p)
  | ZSetBodyHeight h => onLip (LSetComHeight h)
  | ZSetBaseHeight h => onBase (BSetComHeight h)
  | ZSetBodyMass m => ZView (lobs_step (lobs_step l (LSetTotalMass (m + pm b))) (LSetMass m)) (bobs_step b (BSetTotalMass (m + pm b))) rv rp rc rm w k X
  | ZSetBaseMass m => ZView (lobs_step l (LSetTotalMass (om l + m))) (bobs_step (bobs_step b (BSetTotalMass (om l + m))) (BSetMass m)) rv rp rc rm w k X
  | ZSetVelRef r => ZView l b r rp rc rm w k X
  | ZSetPosRef r => ZView l b rv r rc rm w k X
  | ZSetCopRef r => ZView l b rv rp r rm w k X
  | ZSetComRef r => ZView l b rv rp rc r w k X
  | ZSetVelLimit x => onBase (BSetVelocityLimit x)
  | ZSetAccLimit x => onBase (BSetAccelerationLimit x)
  | ZSetJerkLimit x => onBase (BSetJerkLimit x)
  | ZSetBaseStateX s => onBase (BSetStateX s)
  | ZSetBaseStateY s => onBase (BSetStateY s)
  | ZSetRoll s => onBase (BSetStateRoll s)
  | ZSetPitch s => onBase (BSetStatePitch s)
  | ZSetYaw s => onBase (BSetStateYaw s)
  | ZSetComStateX s => onLip (LSetStateX s)
  | ZSetComStateY s => onLip (LSetStateY s)
  | ZSetContactX x => onBase (BSetTiltContactPointX x)
  | ZSetContactY y => onBase (BSetTiltContactPointY y)
  | ZSetWeightings w' => ZView l b rv rp rc rm w' k X
  | ZSetConfig k' => ZView l b rv rp rc rm w k' X
  | _ => v
  end.
Lemma vstep_effect c v v' : det c = true -> zeffect c v v' -> v' = vstep c v.
Proof. destruct v, c; intros D H; try discriminate D; exact H. Qed.
Definition vsteps (cs : list (zcall R)) (v : zview) : zview := fold_left (fun v c => vstep c v) cs v.
Fixpoint hsteps (cs : list (zcall R)) (v : zview) (hb : R) : R :=
  match cs with [] => hb | c :: cs => hsteps cs (vstep c v) (if tilt_refreshed c then ph (vb v) else hb) end.
Definition csteps (cs : list (zcall R)) (cl : bool) : bool :=
  fold_left (fun cl c => match shift_effect c with Some b => b | None => cl end) cs cl.
(** every call of the list is accepted *)
Fixpoint vaccept (cs : list (zcall R)) (v : zview) (hb : R) : Prop :=
  match cs with
  | [] => True
  | c :: cs => det c = true /\ vaccepts c v hb /\ vaccept cs (vstep c v) (if tilt_refreshed c then ph (vb v) else hb)
  end.
Lemma reach_calls cs : forall z hb cl, zreach z hb cl -> vaccept cs (view_of z) hb ->
  exists z', zsteps cs z = Ok z' /\ zreach z' (hsteps cs (view_of z) hb) (csteps cs cl) /\ view_of z' = vsteps cs (view_of z).
Proof.
  induction cs as [|c cs IH]; intros z hb cl Z A; [exists z; split; [reflexivity|split; [exact Z|reflexivity]]|].
  destruct A as (D & A & A'). rewrite vaccepts_z in A.
  destruct (reach_next _ _ _ _ Z A) as (z' & H & E & R'). apply (vstep_effect _ _ _ D) in E. rewrite <- E in A'.
  destruct (IH z' _ _ R' A') as (z'' & H2 & R2 & V2). exists z''. split; [cbn [zsteps]; rewrite H; exact H2|]. split.
  - cbn [hsteps csteps fold_left]. rewrite <- E. exact R2.
  - cbn [vsteps fold_left]. rewrite <- E. exact V2.
Qed.
Lemma at_calls ux uy cs : vaccept cs (view0 ux uy) 0 ->
  exists z0 z, newZeb ux uy = Ok z0 /\ zsteps cs z0 = Ok z /\ zreach z (hsteps cs (view0 ux uy) 0) (csteps cs true) /\ view_of z = vsteps cs (view0 ux uy).
Proof.
  intros A. destruct (new_is_ok ux uy) as (z0 & H0). assert (V0 := new_view _ _ _ H0). rewrite <- V0 in A.
  destruct (reach_calls cs z0 0 true (zreach_new _ _ _ H0) A) as (z & H & R' & V). exists z0, z. rewrite V0 in R', V. auto.
Qed.
