(** Model of src/model/lip_model.cpp and mpc-walkgen/model/lip_model.h. *)

From Coq Require Import List ZArith Arith Bool.
From Verif Require Import Scalar LinAlg ToolsModel NoDynModel.
Import ListNotations.

Section Lip.
  Context {K : Type} {SK : Scalar K}.
  Local Open Scope sc_scope.

  (** type.h, Vector3 (the gravity). *)
  Record vec3 : Type := V3 { gx : K; gy : K; gz : K }.
  (** constant.h:33-36 GRAVITY_VECTOR *)
  Definition GRAVITY : vec3 := V3 s0 s0 GRAVITY_NORM.

  (** A loop filling a std::vector: f 0, ..., f (n-1) in this order, stopping at the first
      call that does not return. *)
  Fixpoint tabulateM {A} (f : nat -> res A) (n : nat) : res (list A) :=
    match n with
    | O => Ok []
    | S m => do l <- tabulateM f m; do x <- f m; Ok (l ++ [x])
    end.

  (** lip_model.h:213-252.  [int nbSamples] is a [nat]; [lnb] is nbFeedbackInOneSample_,
      [None] while it is uninitialised.  The unused members (useLipModel2_, the five
      single dynamics) are left out. *)
  Record lip : Type := MkLip {
    lauto : bool;
    lN : nat; lT : K; lfb : K;
    lnb : option Z;
    lsx : st3 K; lsy : st3 K; lsz : st3 K; lsyaw : st3 K;
    lh : K; lg : vec3; lm : K; lM : K;
    lposD : list (lindyn K); lvelD : list (lindyn K); laccD : list (lindyn K);
    lcxD : list (lindyn K); lcyD : list (lindyn K);
    ljerkD : lindyn K
  }.

  (** Helper of the model (no counterpart in the code): replace the parameters. *)
  Definition l_setPar (l : lip) N T fb h g m M sz : lip :=
    MkLip (lauto l) N T fb (lnb l) (lsx l) (lsy l) sz (lsyaw l) h g m M
      (lposD l) (lvelD l) (laccD l) (lcxD l) (lcyD l) (ljerkD l).
  (** Helper of the model (no counterpart in the code): replace the states. *)
  Definition l_setStates (l : lip) sx sy syaw : lip :=
    MkLip (lauto l) (lN l) (lT l) (lfb l) (lnb l) sx sy (lsz l) syaw (lh l) (lg l) (lm l) (lM l)
      (lposD l) (lvelD l) (laccD l) (lcxD l) (lcyD l) (ljerkD l).
  (** Helper of the model (no counterpart in the code): replace nbFeedbackInOneSample_. *)
  Definition l_setNb (l : lip) nb : lip :=
    MkLip (lauto l) (lN l) (lT l) (lfb l) nb (lsx l) (lsy l) (lsz l) (lsyaw l) (lh l) (lg l) (lm l) (lM l)
      (lposD l) (lvelD l) (laccD l) (lcxD l) (lcyD l) (ljerkD l).
  (** Helper of the model (no counterpart in the code): replace the dynamics. *)
  Definition l_setDyn (l : lip) p v a cx cy j : lip :=
    MkLip (lauto l) (lN l) (lT l) (lfb l) (lnb l) (lsx l) (lsy l) (lsz l) (lsyaw l) (lh l) (lg l) (lm l) (lM l)
      p v a cx cy j.

  (** lip_model.cpp:75-76.  Dividing by a zero feedback period gives an infinity, whose cast to
      int is undefined.  The range of int is not modelled. *)
  Definition nbFeedback (T fb : K) : res Z :=
    do _ <- ubguard (negb (fb =? s0)); Ok (strunc ((T + EPS) / fb)).
  (** Reading nbFeedbackInOneSample_ (lip_model.cpp:86-153); vector.resize(n) throws when n is negative. *)
  Definition l_count (l : lip) : res nat :=
    match lnb l with
    | None => UB
    | Some z => do _ <- guard (Z.leb 0 z); Ok (Z.to_nat z)
    end.
  (** static_cast<Scalar>(i + 1)*feedbackPeriod_ (lip_model.cpp:86-153). *)
  Definition l_first (l : lip) (i : nat) : K := sofnat (i + 1) * lfb l.

  (** lip_model.cpp:86-99 computeCopXDynamicVec, 101-114 computeCopYDynamicVec, for [n]
      feedback periods *)
  Definition l_cop (l : lip) (g0 : K) (n : nat) : res (list (lindyn K)) :=
    tabulateM (fun i => computeCopDynamic (l_first l i) (lT l) (lN l) (lh l) g0 (gz (lg l)) (lm l) (lM l)) n.
  (** lip_model.cpp:72-84 computeDynamics, with the functions it calls (116-161) in place:
      CoP X, CoP Y, CoM position, velocity, acceleration, jerk. *)
  Definition l_computeDynamics (l : lip) : res lip :=
    do nb <- nbFeedback (lT l) (lfb l);
    let l := l_setNb l (Some nb) in
    do n <- l_count l;
    do cx <- l_cop l (gx (lg l)) n;
    do cy <- l_cop l (gy (lg l)) n;
    do p <- tabulateM (fun i => computePosDynamic (l_first l i) (lT l) (lN l)) n;
    do v <- tabulateM (fun i => computeVelDynamic (l_first l i) (lT l) (lN l)) n;
    do a <- tabulateM (fun i => computeAccDynamic (l_first l i) (lT l) (lN l)) n;
    do _ <- guard (Nat.ltb 0 (lN l));
    Ok (l_setDyn l p v a cx cy (computeJerkDynamic (lN l))).
  (** if (autoCompute_) computeDynamics(), lip_model.cpp:17-42 and in the setters. *)
  Definition l_auto (l : lip) : res lip := if lauto l then l_computeDynamics l else Ok l.
  (** if (autoCompute_) { computeCopXDynamicVec(); computeCopYDynamicVec(); }, lip_model.cpp:208-264. *)
  Definition l_autoCop (l : lip) : res lip :=
    if lauto l then
      do n <- l_count l;
      do cx <- l_cop l (gx (lg l)) n;
      do cy <- l_cop l (gy (lg l)) n;
      Ok (l_setDyn l (lposD l) (lvelD l) (laccD l) cx cy (ljerkD l))
    else Ok l.

  (** lip_model.cpp:17-42; no argument is checked here *)
  Definition newLip (nbSamples : nat) (samplingPeriod : K) (autoCompute : bool) : res lip :=
    let z := St3 s0 s0 s0 in
    l_auto (MkLip autoCompute nbSamples samplingPeriod samplingPeriod None z z (St3 s1 s0 s0) z
              s1 GRAVITY s1 s1 [] [] [] [] [] emptyDyn).
  (** lip_model.cpp:44-67 *)
  Definition newLipDefault : res lip := newLip 1 s1 true.

  (** lip_model.cpp:163-174 *)
  Definition l_setNbSamples (n : nat) (l : lip) : res lip :=
    do _ <- guard (Nat.ltb 0 n);
    l_auto (l_setPar l n (lT l) (lfb l) (lh l) (lg l) (lm l) (lM l) (lsz l)).
  (** lip_model.cpp:194-206 *)
  Definition l_setSamplingPeriod (T : K) (l : lip) : res lip :=
    do _ <- guard (s0 <? T);
    l_auto (l_setPar l (lN l) T T (lh l) (lg l) (lm l) (lM l) (lsz l)).
  (** lip_model.cpp:266-276 *)
  Definition l_setFeedbackPeriod (fb : K) (l : lip) : res lip :=
    do _ <- guard (s0 <=? fb);
    l_auto (l_setPar l (lN l) (lT l) fb (lh l) (lg l) (lm l) (lM l) (lsz l)).
  (** lip_model.cpp:208-221 *)
  Definition l_setComHeight (h : K) (l : lip) : res lip :=
    l_autoCop (l_setPar l (lN l) (lT l) (lfb l) h (lg l) (lm l) (lM l)
                 (St3 h (vel (lsz l)) (acc (lsz l)))).
  (** lip_model.cpp:223-236: the assertion is on the gravity stored before the call *)
  Definition l_setGravity (g : vec3) (l : lip) : res lip :=
    do _ <- guard (EPS <? sabs (gz (lg l)));
    l_autoCop (l_setPar l (lN l) (lT l) (lfb l) (lh l) g (lm l) (lM l) (lsz l)).
  (** lip_model.cpp:238-250 *)
  Definition l_setMass (m : K) (l : lip) : res lip :=
    l_autoCop (l_setPar l (lN l) (lT l) (lfb l) (lh l) (lg l) m (lM l) (lsz l)).
  (** lip_model.cpp:252-264 *)
  Definition l_setTotalMass (M : K) (l : lip) : res lip :=
    do _ <- guard (lm l <=? M);
    l_autoCop (l_setPar l (lN l) (lT l) (lfb l) (lh l) (lg l) (lm l) M (lsz l)).
  (** lip_model.h:116-121, 130-135, 148-154 *)
  Definition l_setStateX (v : vec K) (l : lip) : res lip :=
    do s <- st3_of_vec v; Ok (l_setStates l s (lsy l) (lsyaw l)).
  (** lip_model.h:130-135 *)
  Definition l_setStateY (v : vec K) (l : lip) : res lip :=
    do s <- st3_of_vec v; Ok (l_setStates l (lsx l) s (lsyaw l)).
  (** lip_model.h:148-154 *)
  Definition l_setStateYaw (v : vec K) (l : lip) : res lip :=
    do s <- st3_of_vec v; Ok (l_setStates l (lsx l) (lsy l) s).
  (** lip_model.cpp:176-192 *)
  Definition l_updateStateX (jerk f : K) (l : lip) : res lip :=
    do s <- updateState jerk f (lsx l); Ok (l_setStates l s (lsy l) (lsyaw l)).
  (** lip_model.cpp:182-186 *)
  Definition l_updateStateY (jerk f : K) (l : lip) : res lip :=
    do s <- updateState jerk f (lsy l); Ok (l_setStates l (lsx l) s (lsyaw l)).
  (** lip_model.cpp:188-192 *)
  Definition l_updateStateYaw (jerk f : K) (l : lip) : res lip :=
    do s <- updateState jerk f (lsyaw l); Ok (l_setStates l (lsx l) (lsy l) s).

  (** lip_model.h:49-71, getters without argument: vec[nbFeedbackInOneSample_ - 1] *)
  Definition l_last (l : lip) (v : list (lindyn K)) : res (lindyn K) :=
    match lnb l with
    | None => UB
    | Some z => do _ <- ubguard (Z.leb 1 z);
                match nth_error v (Z.to_nat (z - 1)) with Some d => Ok d | None => UB end
    end.
  (** lip_model.h:76-104, getters with an index: only index < nbFeedbackInOneSample_ is asserted *)
  Definition l_at (l : lip) (v : list (lindyn K)) (index : Z) : res (lindyn K) :=
    match lnb l with
    | None => UB
    | Some z => do _ <- guard (Z.ltb index z);
                do _ <- ubguard (Z.leb 0 index);
                match nth_error v (Z.to_nat index) with Some d => Ok d | None => UB end
    end.
  (** lip_model.h:88-92 *)
  Definition l_getComPos (l : lip) := l_at l (lposD l).
  (** lip_model.h:94-98 *)
  Definition l_getComVel (l : lip) := l_at l (lvelD l).
  (** lip_model.h:100-104 *)
  Definition l_getComAcc (l : lip) := l_at l (laccD l).
  (** lip_model.h:76-80 *)
  Definition l_getCopX (l : lip) := l_at l (lcxD l).
  (** lip_model.h:82-86 *)
  Definition l_getCopY (l : lip) := l_at l (lcyD l).

  (** The public interface as a type of calls (the separate compute...Vec functions, which
      computeDynamics calls, are left out). *)
  Inductive lcall : Type :=
  | LComputeDynamics
  | LSetNbSamples (n : nat) | LSetSamplingPeriod (T : K) | LSetFeedbackPeriod (fb : K)
  | LSetComHeight (h : K) | LSetGravity (g : vec3) | LSetMass (m : K) | LSetTotalMass (M : K)
  | LSetStateX (v : vec K) | LSetStateY (v : vec K) | LSetStateYaw (v : vec K)
  | LUpdateStateX (j f : K) | LUpdateStateY (j f : K) | LUpdateStateYaw (j f : K).
  (** One call of the public interface. *)
  Definition lstep (c : lcall) (l : lip) : res lip :=
    match c with
    | LComputeDynamics => l_computeDynamics l
    | LSetNbSamples n => l_setNbSamples n l
    | LSetSamplingPeriod T => l_setSamplingPeriod T l
    | LSetFeedbackPeriod fb => l_setFeedbackPeriod fb l
    | LSetComHeight h => l_setComHeight h l
    | LSetGravity g => l_setGravity g l
    | LSetMass m => l_setMass m l
    | LSetTotalMass M => l_setTotalMass M l
    | LSetStateX v => l_setStateX v l
    | LSetStateY v => l_setStateY v l
    | LSetStateYaw v => l_setStateYaw v l
    | LUpdateStateX j f => l_updateStateX j f l
    | LUpdateStateY j f => l_updateStateY j f l
    | LUpdateStateYaw j f => l_updateStateYaw j f l
    end.
  (** A history of calls, which stops at the first one that does not return. *)
  Fixpoint lsteps (cs : list lcall) (l : lip) : res lip :=
    match cs with [] => Ok l | c :: r => do l' <- lstep c l; lsteps r l' end.
End Lip.
Arguments vec3 : clear implicits.
Arguments lip : clear implicits.
Arguments lcall : clear implicits.
