(** Model of src/model/no_dynamic_model.cpp and mpc-walkgen/model/no_dynamic_model.h. *)

From Coq Require Import List ZArith Arith Bool.
From Verif Require Import Scalar LinAlg ToolsModel.

Section NoDyn.
  Context {K : Type} {SK : Scalar K}.
  Local Open Scope sc_scope.

  (** lineardynamic.h:38-54, a default constructed LinearDynamic: empty matrices. *)
  Definition emptyDyn : lindyn K :=
    MkDyn (mzero 0 0) (mzero 0 0) (Some (mzero 0 0)) (Some (mzero 0 0)) (mzero 0 0) (vzero 0).

  (** no_dynamic_model.h:65-67 (and the same in the other models): assert(state==state) (no NaN, always true
      here), assert(state.size()==3). *)
  Definition st3_of_vec (v : vec K) : res (st3 K) :=
    do _ <- guard (Nat.eqb (vlen v) 3);
    Ok (St3 (vget v 0) (vget v 1) (vget v 2)).

  (** no_dynamic_model.h:120-137.  [int nbSamples] is a [nat]: a negative argument and 0 fail
      the same assertion. *)
  Record nodyn : Type := MkNoDyn {
    nauto : bool;
    nN : nat;
    nT : K;
    nstate : st3 K;
    nvelLim : K; naccLim : K; njerkLim : K;
    nposD : lindyn K; nvelD : lindyn K; naccD : lindyn K; njerkD : lindyn K
  }.

  (** no_dynamic_model.cpp:55-90 computeDynamics *)
  Definition nodyn_computeDynamics (m : nodyn) : res nodyn :=
    do p <- computePosDynamic (nT m) (nT m) (nN m);
    do v <- computeVelDynamic (nT m) (nT m) (nN m);
    do a <- computeAccDynamic (nT m) (nT m) (nN m);
    Ok (MkNoDyn (nauto m) (nN m) (nT m) (nstate m) (nvelLim m) (naccLim m) (njerkLim m)
          p v a (computeJerkDynamic (nN m))).
  (** if (autoCompute_) computeDynamics(), no_dynamic_model.cpp:30-33 and in the setters. *)
  Definition nodyn_auto (m : nodyn) : res nodyn :=
    if nauto m then nodyn_computeDynamics m else Ok m.

  (** no_dynamic_model.cpp:15-34 *)
  Definition newNoDyn (nbSamples : nat) (samplingPeriod : K) (autoCompute : bool) : res nodyn :=
    do _ <- guard (s0 <? samplingPeriod);
    do _ <- guard (Nat.ltb 0 nbSamples);
    nodyn_auto (MkNoDyn autoCompute nbSamples samplingPeriod (St3 s0 s0 s0) s1 s1 s1
                  emptyDyn emptyDyn emptyDyn emptyDyn).
  (** no_dynamic_model.cpp:36-50 *)
  Definition newNoDynDefault : res nodyn :=
    nodyn_auto (MkNoDyn true 1 s1 (St3 s0 s0 s0) s1 s1 s1 emptyDyn emptyDyn emptyDyn emptyDyn).

  (** no_dynamic_model.cpp:92-103 *)
  Definition nodyn_setNbSamples (n : nat) (m : nodyn) : res nodyn :=
    do _ <- guard (Nat.ltb 0 n);
    nodyn_auto (MkNoDyn (nauto m) n (nT m) (nstate m) (nvelLim m) (naccLim m) (njerkLim m)
                  (nposD m) (nvelD m) (naccD m) (njerkD m)).
  (** no_dynamic_model.cpp:111-122 *)
  Definition nodyn_setSamplingPeriod (T : K) (m : nodyn) : res nodyn :=
    do _ <- guard (s0 <? T);
    nodyn_auto (MkNoDyn (nauto m) (nN m) T (nstate m) (nvelLim m) (naccLim m) (njerkLim m)
                  (nposD m) (nvelD m) (naccD m) (njerkD m)).
  (** Helper of the model (no counterpart in the code): replace the state. *)
  Definition nodyn_withState (s : st3 K) (m : nodyn) : nodyn :=
    MkNoDyn (nauto m) (nN m) (nT m) s (nvelLim m) (naccLim m) (njerkLim m)
      (nposD m) (nvelD m) (naccD m) (njerkD m).
  (** no_dynamic_model.h:63-68 *)
  Definition nodyn_setState (v : vec K) (m : nodyn) : res nodyn :=
    do s <- st3_of_vec v; Ok (nodyn_withState s m).
  (** no_dynamic_model.cpp:105-109 *)
  Definition nodyn_updateState (jerk T : K) (m : nodyn) : res nodyn :=
    do s <- updateState jerk T (nstate m); Ok (nodyn_withState s m).
  (** no_dynamic_model.h:92-96, 103-107, 114-118 *)
  Definition nodyn_setVelocityLimit (l : K) (m : nodyn) : res nodyn :=
    do _ <- guard (s0 <=? l);
    Ok (MkNoDyn (nauto m) (nN m) (nT m) (nstate m) l (naccLim m) (njerkLim m)
          (nposD m) (nvelD m) (naccD m) (njerkD m)).
  (** no_dynamic_model.h:103-107 *)
  Definition nodyn_setAccelerationLimit (l : K) (m : nodyn) : res nodyn :=
    do _ <- guard (s0 <=? l);
    Ok (MkNoDyn (nauto m) (nN m) (nT m) (nstate m) (nvelLim m) l (njerkLim m)
          (nposD m) (nvelD m) (naccD m) (njerkD m)).
  (** no_dynamic_model.h:114-118 *)
  Definition nodyn_setJerkLimit (l : K) (m : nodyn) : res nodyn :=
    do _ <- guard (s0 <=? l);
    Ok (MkNoDyn (nauto m) (nN m) (nT m) (nstate m) (nvelLim m) (naccLim m) l
          (nposD m) (nvelD m) (naccD m) (njerkD m)).
End NoDyn.
Arguments nodyn : clear implicits.
