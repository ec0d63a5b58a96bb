(** Model of src/model/humanoid_foot_model.cpp and mpc-walkgen/model/humanoid_foot_model.h. *)

From Coq Require Import List ZArith Arith Bool.
From Verif Require Import Scalar LinAlg ToolsModel InterpModel PolygonModel.
Import ListNotations.

Section Foot.
  Context {K : Type} {SK : Scalar K}.
  Local Open Scope sc_scope.

  (** humanoid_foot_model.h:29-46, 190-214.  States are VectorX: the setters do not check their
      size.  The hip yaw bounds, which nothing reads, are left out, and so are the members
      holding polygons in the world frame, which nothing reads or writes, and the
      interpolator's scratch vectors. *)
  Record foot : Type := MkFoot {
    fN : nat; fT : K;
    fsx : vec K; fsy : vec K; fsz : vec K; fsyaw : vec K;
    fmaxHeight : K; fkin : polygon K; fcop : polygon K;
    fcontact : list bool
  }.
  (** Helper of the model (no counterpart in the code): replace the states. *)
  Definition f_setStates (f : foot) sx sy sz syaw : foot :=
    MkFoot (fN f) (fT f) sx sy sz syaw (fmaxHeight f) (fkin f) (fcop f) (fcontact f).

  (** humanoid_foot_model.cpp:127-140 init *)
  Definition f_init (N : nat) (T : K) : foot :=
    MkFoot N T (vzero 3) (vzero 3) (vzero 3) (vzero 3) s0 emptyPolygon emptyPolygon (repeat true N).
  (** humanoid_foot_model.cpp:25-39 *)
  Definition newFoot (nbSamples : nat) (samplingPeriod : K) : res foot :=
    do _ <- guard (s0 <? samplingPeriod);
    do _ <- guard (Nat.ltb 0 nbSamples);
    Ok (f_init nbSamples samplingPeriod).
  (** humanoid_foot_model.cpp:41-50 *)
  Definition newFootDefault : res foot := Ok (f_init 1 s1).

  (** humanoid_foot_model.cpp:55-61: isInContact_ keeps its size *)
  Definition f_setNbSamples (n : nat) (f : foot) : res foot :=
    do _ <- guard (Nat.ltb 0 n);
    Ok (MkFoot n (fT f) (fsx f) (fsy f) (fsz f) (fsyaw f) (fmaxHeight f) (fkin f) (fcop f) (fcontact f)).
  (** humanoid_foot_model.cpp:63-69 *)
  Definition f_setSamplingPeriod (T : K) (f : foot) : res foot :=
    do _ <- guard (s0 <? T);
    Ok (MkFoot (fN f) T (fsx f) (fsy f) (fsz f) (fsyaw f) (fmaxHeight f) (fkin f) (fcop f) (fcontact f)).
  (** humanoid_foot_model.cpp:115-125, humanoid_foot_model.h:76-79 *)
  Definition f_setMaxHeight (h : K) (f : foot) : foot :=
    MkFoot (fN f) (fT f) (fsx f) (fsy f) (fsz f) (fsyaw f) h (fkin f) (fcop f) (fcontact f).
  (** humanoid_foot_model.cpp:120-125 *)
  Definition f_setKinematicConvexPolygon (p : polygon K) (f : foot) : foot :=
    MkFoot (fN f) (fT f) (fsx f) (fsy f) (fsz f) (fsyaw f) (fmaxHeight f) p (fcop f) (fcontact f).
  (** humanoid_foot_model.h:76-79 *)
  Definition f_setCopConvexPolygon (p : polygon K) (f : foot) : foot :=
    MkFoot (fN f) (fT f) (fsx f) (fsy f) (fsz f) (fsyaw f) (fmaxHeight f) (fkin f) p (fcontact f).
  (** humanoid_foot_model.h:84-123 *)
  Definition f_setStateX (v : vec K) (f : foot) : foot := f_setStates f v (fsy f) (fsz f) (fsyaw f).
  (** humanoid_foot_model.h:96-99 *)
  Definition f_setStateY (v : vec K) (f : foot) : foot := f_setStates f (fsx f) v (fsz f) (fsyaw f).
  (** humanoid_foot_model.h:108-111 *)
  Definition f_setStateZ (v : vec K) (f : foot) : foot := f_setStates f (fsx f) (fsy f) v (fsyaw f).
  (** humanoid_foot_model.h:120-123 *)
  Definition f_setStateYaw (v : vec K) (f : foot) : foot := f_setStates f (fsx f) (fsy f) (fsz f) v.

  (** humanoid_foot_model.cpp:142-161 on a VectorX: it is converted to a Vector3 (Eigen asserts
      that its size is 3), then entries 0, 1, 2 are overwritten. *)
  Definition interpolateVec (v : vec K) (obj : st3 K) (T t : K) : res (vec K) :=
    do _ <- guard (Nat.eqb (vlen v) 3);
    do s <- interpolateTrajectory (St3 (vget v 0) (vget v 1) (vget v 2)) obj T t;
    Ok (vset (vset (vset v 0 (pos s)) 1 (vel s)) 2 (acc s)).
  (** humanoid_foot_model.cpp:71-93 *)
  Definition f_updateStateX (obj : st3 K) (T t : K) (f : foot) : res foot :=
    do v <- interpolateVec (fsx f) obj T t; Ok (f_setStateX v f).
  (** humanoid_foot_model.cpp:79-85 *)
  Definition f_updateStateY (obj : st3 K) (T t : K) (f : foot) : res foot :=
    do v <- interpolateVec (fsy f) obj T t; Ok (f_setStateY v f).
  (** humanoid_foot_model.cpp:87-93 *)
  Definition f_updateStateZ (obj : st3 K) (T t : K) (f : foot) : res foot :=
    do v <- interpolateVec (fsz f) obj T t; Ok (f_setStateZ v f).

  (** humanoid_foot_model.h:151-155 *)
  Definition f_isInContact (i : Z) (f : foot) : res bool :=
    do _ <- guard (Z.leb 0 i && Z.ltb i (Z.of_nat (fN f)))%bool;
    rd (fcontact f) (Z.to_nat i).

  (** The public interface of humanoid_foot_model.h:48-173 (without the hip yaw bounds) as a type of calls. *)
  Inductive fcall : Type :=
  | FSetNbSamples (n : nat) | FSetSamplingPeriod (T : K) | FSetMaxHeight (h : K)
  | FSetKinematicPolygon (p : polygon K) | FSetCopPolygon (p : polygon K)
  | FSetStateX (v : vec K) | FSetStateY (v : vec K) | FSetStateZ (v : vec K) | FSetStateYaw (v : vec K)
  | FUpdateStateX (obj : st3 K) (T t : K) | FUpdateStateY (obj : st3 K) (T t : K) | FUpdateStateZ (obj : st3 K) (T t : K).
  (** One call of the public interface. *)
  Definition fstep (c : fcall) (f : foot) : res foot :=
    match c with
    | FSetNbSamples n => f_setNbSamples n f
    | FSetSamplingPeriod T => f_setSamplingPeriod T f
    | FSetMaxHeight h => Ok (f_setMaxHeight h f)
    | FSetKinematicPolygon p => Ok (f_setKinematicConvexPolygon p f)
    | FSetCopPolygon p => Ok (f_setCopConvexPolygon p f)
    | FSetStateX v => Ok (f_setStateX v f)
    | FSetStateY v => Ok (f_setStateY v f)
    | FSetStateZ v => Ok (f_setStateZ v f)
    | FSetStateYaw v => Ok (f_setStateYaw v f)
    | FUpdateStateX obj T t => f_updateStateX obj T t f
    | FUpdateStateY obj T t => f_updateStateY obj T t f
    | FUpdateStateZ obj T t => f_updateStateZ obj T t f
    end.
  (** A history of calls, which stops at the first one that does not return. *)
  Fixpoint fsteps (cs : list fcall) (f : foot) : res foot :=
    match cs with [] => Ok f | c :: r => do f' <- fstep c f; fsteps r f' end.
End Foot.
Arguments foot : clear implicits.
Arguments fcall : clear implicits.
