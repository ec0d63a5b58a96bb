(** Model of src/model/zebulon_base_model.cpp and mpc-walkgen/model/zebulon_base_model.h. *)

From Coq Require Import List ZArith Arith Bool.
From Verif Require Import Scalar LinAlg ToolsModel NoDynModel PolygonModel LipModel.
Import ListNotations.

Section Base.
  Context {K : Type} {SK : Scalar K}.
  Local Open Scope sc_scope.

  (** zebulon_base_model.h:264-300.  [None] in a tilt contact coordinate: uninitialised. *)
  Record base : Type := MkBase {
    bauto : bool;
    bN : nat; bT : K;
    bsx : st3 K; bsy : st3 K; bsroll : st3 K; bspitch : st3 K; bsyaw : st3 K;
    bh : K; bg : vec3 K; bm : K; bM : K;
    bvelLim : K; baccLim : K; bjerkLim : K;
    btcx : option K; btcy : option K;
    bposD : lindyn K; bvelD : lindyn K; baccD : lindyn K; bjerkD : lindyn K;
    bcxD : lindyn K; bcyD : lindyn K; btaD : lindyn K; btvD : lindyn K;
    bcopPoly : polygon K; bcomPoly : polygon K
  }.
  (** Helper of the model (no counterpart in the code): replace the parameters. *)
  Definition b_setPar (b : base) N T h g m M : base :=
    MkBase (bauto b) N T (bsx b) (bsy b) (bsroll b) (bspitch b) (bsyaw b) h g m M
      (bvelLim b) (baccLim b) (bjerkLim b) (btcx b) (btcy b)
      (bposD b) (bvelD b) (baccD b) (bjerkD b) (bcxD b) (bcyD b) (btaD b) (btvD b) (bcopPoly b) (bcomPoly b).
  (** Helper of the model (no counterpart in the code): replace the dynamics. *)
  Definition b_setDyn (b : base) p v a j cx cy ta tv : base :=
    MkBase (bauto b) (bN b) (bT b) (bsx b) (bsy b) (bsroll b) (bspitch b) (bsyaw b) (bh b) (bg b) (bm b) (bM b)
      (bvelLim b) (baccLim b) (bjerkLim b) (btcx b) (btcy b) p v a j cx cy ta tv (bcopPoly b) (bcomPoly b).
  (** Helper of the model (no counterpart in the code): replace the states. *)
  Definition b_setStates (b : base) sx sy sr sp syaw : base :=
    MkBase (bauto b) (bN b) (bT b) sx sy sr sp syaw (bh b) (bg b) (bm b) (bM b)
      (bvelLim b) (baccLim b) (bjerkLim b) (btcx b) (btcy b)
      (bposD b) (bvelD b) (baccD b) (bjerkD b) (bcxD b) (bcyD b) (btaD b) (btvD b) (bcopPoly b) (bcomPoly b).
  (** Helper of the model (no counterpart in the code): replace the limits, the contact point and the
      polygons. *)
  Definition b_setMisc (b : base) lv la lj tx ty pc pm : base :=
    MkBase (bauto b) (bN b) (bT b) (bsx b) (bsy b) (bsroll b) (bspitch b) (bsyaw b) (bh b) (bg b) (bm b) (bM b)
      lv la lj tx ty
      (bposD b) (bvelD b) (baccD b) (bjerkD b) (bcxD b) (bcyD b) (btaD b) (btvD b) pc pm.

  (** zebulon_base_model.cpp:100-118 *)
  Definition b_cop (b : base) (g0 : K) : res (lindyn K) :=
    computeCopDynamic (bT b) (bT b) (bN b) (bh b) g0 (gz (bg b)) (bm b) (bM b).
  (** zebulon_base_model.cpp:78-88 computeDynamics, with the functions it calls (90-98, 120-146)
      in place: base position, velocity, acceleration, jerk, CoP X, CoP Y, tilt. *)
  Definition b_computeDynamics (b : base) : res base :=
    do p <- computePosDynamic (bT b) (bT b) (bN b);
    do v <- computeVelDynamic (bT b) (bT b) (bN b);
    do a <- computeAccDynamic (bT b) (bT b) (bN b);
    do cx <- b_cop b (gx (bg b));
    do cy <- b_cop b (gy (bg b));
    do ta <- computeOrder2PosDynamic (bT b) (bT b) (bN b);
    do tv <- computeOrder2VelDynamic (bT b) (bT b) (bN b);
    Ok (b_setDyn b p v a (computeJerkDynamic (bN b)) cx cy ta tv).
  (** if (autoCompute_) computeDynamics(), zebulon_base_model.cpp:43-46 and in the setters. *)
  Definition b_auto (b : base) : res base := if bauto b then b_computeDynamics b else Ok b.
  (** if (autoCompute_) { computeCopXDynamic(); computeCopYDynamic(); }, zebulon_base_model.cpp:193-197 and in
      the other setters. *)
  Definition b_autoCop (b : base) : res base :=
    if bauto b then
      do cx <- b_cop b (gx (bg b));
      do cy <- b_cop b (gy (bg b));
      Ok (b_setDyn b (bposD b) (bvelD b) (baccD b) (bjerkD b) cx cy (btaD b) (btvD b))
    else Ok b.

  (** The initial values of both constructors (zebulon_base_model.cpp:16-73). *)
  Definition b_init (auto : bool) (N : nat) (T : K) (tc : option K) : base :=
    let z := St3 s0 s0 s0 in
    MkBase auto N T z z z z z s0 GRAVITY s0 s1 s1 s1 s1 tc tc
      emptyDyn emptyDyn emptyDyn emptyDyn emptyDyn emptyDyn emptyDyn emptyDyn emptyPolygon emptyPolygon.
  (** zebulon_base_model.cpp:16-47 *)
  Definition newBase (nbSamples : nat) (samplingPeriod : K) (autoCompute : bool) : res base :=
    do _ <- guard (s0 <? samplingPeriod);
    do _ <- guard (Nat.ltb 0 nbSamples);
    b_auto (b_init autoCompute nbSamples samplingPeriod (Some s0)).
  (** zebulon_base_model.cpp:49-73; the tilt contact point is not initialised *)
  Definition newBaseDefault : res base := b_auto (b_init true 1 s1 None).

  (** zebulon_base_model.cpp:148-159 *)
  Definition b_setNbSamples (n : nat) (b : base) : res base :=
    do _ <- guard (Nat.ltb 0 n);
    b_auto (b_setPar b n (bT b) (bh b) (bg b) (bm b) (bM b)).
  (** zebulon_base_model.cpp:173-184 *)
  Definition b_setSamplingPeriod (T : K) (b : base) : res base :=
    do _ <- guard (s0 <? T);
    b_auto (b_setPar b (bN b) T (bh b) (bg b) (bm b) (bM b)).
  (** zebulon_base_model.cpp:186-198 *)
  Definition b_setComHeight (h : K) (b : base) : res base :=
    b_autoCop (b_setPar b (bN b) (bT b) h (bg b) (bm b) (bM b)).
  (** zebulon_base_model.cpp:200-213: the assertion is on the gravity stored before the call *)
  Definition b_setGravity (g : vec3 K) (b : base) : res base :=
    do _ <- guard (EPS <? sabs (gz (bg b)));
    b_autoCop (b_setPar b (bN b) (bT b) (bh b) g (bm b) (bM b)).
  (** zebulon_base_model.cpp:215-228 *)
  Definition b_setMass (m : K) (b : base) : res base :=
    do _ <- guard (s0 <? m);
    b_autoCop (b_setPar b (bN b) (bT b) (bh b) (bg b) m (bM b)).
  (** zebulon_base_model.cpp:230-243 *)
  Definition b_setTotalMass (M : K) (b : base) : res base :=
    do _ <- guard (bm b <=? M);
    do _ <- guard (s0 <? M);
    b_autoCop (b_setPar b (bN b) (bT b) (bh b) (bg b) (bm b) M).
  (** zebulon_base_model.h:85-148 *)
  Definition b_setStateX (v : vec K) (b : base) : res base :=
    do s <- st3_of_vec v; Ok (b_setStates b s (bsy b) (bsroll b) (bspitch b) (bsyaw b)).
  (** zebulon_base_model.h:100-105 *)
  Definition b_setStateY (v : vec K) (b : base) : res base :=
    do s <- st3_of_vec v; Ok (b_setStates b (bsx b) s (bsroll b) (bspitch b) (bsyaw b)).
  (** zebulon_base_model.h:115-120 *)
  Definition b_setStateRoll (v : vec K) (b : base) : res base :=
    do s <- st3_of_vec v; Ok (b_setStates b (bsx b) (bsy b) s (bspitch b) (bsyaw b)).
  (** zebulon_base_model.h:129-134 *)
  Definition b_setStatePitch (v : vec K) (b : base) : res base :=
    do s <- st3_of_vec v; Ok (b_setStates b (bsx b) (bsy b) (bsroll b) s (bsyaw b)).
  (** zebulon_base_model.h:143-148 *)
  Definition b_setStateYaw (v : vec K) (b : base) : res base :=
    do s <- st3_of_vec v; Ok (b_setStates b (bsx b) (bsy b) (bsroll b) (bspitch b) s).
  (** zebulon_base_model.cpp:161-171 *)
  Definition b_updateStateX (jerk f : K) (b : base) : res base :=
    do s <- updateState jerk f (bsx b); Ok (b_setStates b s (bsy b) (bsroll b) (bspitch b) (bsyaw b)).
  (** zebulon_base_model.cpp:167-171 *)
  Definition b_updateStateY (jerk f : K) (b : base) : res base :=
    do s <- updateState jerk f (bsy b); Ok (b_setStates b (bsx b) s (bsroll b) (bspitch b) (bsyaw b)).
  (** zebulon_base_model.h:195-221 *)
  Definition b_setVelocityLimit (l : K) (b : base) : res base :=
    do _ <- guard (s0 <=? l);
    Ok (b_setMisc b l (baccLim b) (bjerkLim b) (btcx b) (btcy b) (bcopPoly b) (bcomPoly b)).
  (** zebulon_base_model.h:206-210 *)
  Definition b_setAccelerationLimit (l : K) (b : base) : res base :=
    do _ <- guard (s0 <=? l);
    Ok (b_setMisc b (bvelLim b) l (bjerkLim b) (btcx b) (btcy b) (bcopPoly b) (bcomPoly b)).
  (** zebulon_base_model.h:217-221 *)
  Definition b_setJerkLimit (l : K) (b : base) : res base :=
    do _ <- guard (s0 <=? l);
    Ok (b_setMisc b (bvelLim b) (baccLim b) l (btcx b) (btcy b) (bcopPoly b) (bcomPoly b)).
  (** zebulon_base_model.h:229-244 *)
  Definition b_setCopSupportConvexPolygon (p : polygon K) (b : base) : res base :=
    do _ <- guard (Nat.leb 3 (length (pverts p)));
    Ok (b_setMisc b (bvelLim b) (baccLim b) (bjerkLim b) (btcx b) (btcy b) p (bcomPoly b)).
  (** zebulon_base_model.h:240-244 *)
  Definition b_setComSupportConvexPolygon (p : polygon K) (b : base) : res base :=
    do _ <- guard (Nat.leb 3 (length (pverts p)));
    Ok (b_setMisc b (bvelLim b) (baccLim b) (bjerkLim b) (btcx b) (btcy b) (bcopPoly b) p).
  (** zebulon_base_model.h:246-262 *)
  Definition b_setTiltContactPointX (x : K) (b : base) : res base :=
    Ok (b_setMisc b (bvelLim b) (baccLim b) (bjerkLim b) (Some x) (btcy b) (bcopPoly b) (bcomPoly b)).
  (** zebulon_base_model.h:255-258 *)
  Definition b_setTiltContactPointY (y : K) (b : base) : res base :=
    Ok (b_setMisc b (bvelLim b) (baccLim b) (bjerkLim b) (btcx b) (Some y) (bcopPoly b) (bcomPoly b)).
  (** zebulon_base_model.h:250-253: reading an uninitialised coordinate is undefined. *)
  Definition b_getTiltContactPointX (b : base) : res K :=
    match btcx b with Some x => Ok x | None => UB end.
  (** zebulon_base_model.h:259-262 *)
  Definition b_getTiltContactPointY (b : base) : res K :=
    match btcy b with Some x => Ok x | None => UB end.

  (** The public interface of zebulon_base_model.h:40-262 as a type of calls. *)
  Inductive bcall : Type :=
  | BComputeDynamics
  | BSetNbSamples (n : nat) | BSetSamplingPeriod (T : K)
  | BSetComHeight (h : K) | BSetGravity (g : vec3 K) | BSetMass (m : K) | BSetTotalMass (M : K)
  | BSetStateX (v : vec K) | BSetStateY (v : vec K) | BSetStateRoll (v : vec K) | BSetStatePitch (v : vec K)
  | BSetStateYaw (v : vec K) | BUpdateStateX (j f : K) | BUpdateStateY (j f : K)
  | BSetVelocityLimit (l : K) | BSetAccelerationLimit (l : K) | BSetJerkLimit (l : K)
  | BSetCopPolygon (p : polygon K) | BSetComPolygon (p : polygon K)
  | BSetTiltContactPointX (x : K) | BSetTiltContactPointY (y : K).
  (** One call of the public interface. *)
  Definition bstep (c : bcall) (b : base) : res base :=
    match c with
    | BComputeDynamics => b_computeDynamics b
    | BSetNbSamples n => b_setNbSamples n b
    | BSetSamplingPeriod T => b_setSamplingPeriod T b
    | BSetComHeight h => b_setComHeight h b
    | BSetGravity g => b_setGravity g b
    | BSetMass m => b_setMass m b
    | BSetTotalMass M => b_setTotalMass M b
    | BSetStateX v => b_setStateX v b
    | BSetStateY v => b_setStateY v b
    | BSetStateRoll v => b_setStateRoll v b
    | BSetStatePitch v => b_setStatePitch v b
    | BSetStateYaw v => b_setStateYaw v b
    | BUpdateStateX j f => b_updateStateX j f b
    | BUpdateStateY j f => b_updateStateY j f b
    | BSetVelocityLimit l => b_setVelocityLimit l b
    | BSetAccelerationLimit l => b_setAccelerationLimit l b
    | BSetJerkLimit l => b_setJerkLimit l b
    | BSetCopPolygon p => b_setCopSupportConvexPolygon p b
    | BSetComPolygon p => b_setComSupportConvexPolygon p b
    | BSetTiltContactPointX x => b_setTiltContactPointX x b
    | BSetTiltContactPointY y => b_setTiltContactPointY y b
    end.
  (** A history of calls, which stops at the first one that does not return. *)
  Fixpoint bsteps (cs : list bcall) (b : base) : res base :=
    match cs with [] => Ok b | c :: r => do b' <- bstep c b; bsteps r b' end.
End Base.
Arguments base : clear implicits.
Arguments bcall : clear implicits.
