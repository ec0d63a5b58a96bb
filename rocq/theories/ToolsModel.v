(** Model of src/tools.cpp (Tools::ConstantJerkDynamic), mpc-walkgen/tools.h (inverseLU,
    polynomials) and src/lineardynamic.cpp. *)

From Coq Require Import List ZArith Arith Bool.
From Verif Require Import Scalar LinAlg.

Section Tools.
  Context {K : Type} {SK : Scalar K}.
  Local Open Scope sc_scope.

  (** mpc-walkgen/lineardynamic.h, LinearDynamic: prediction = U*X + S*state + K.
      [Uinv = None] stands for a matrix whose coefficients are unspecified: the NaN fill of
      src/lineardynamic.cpp:26-34 and the result of Eigen's FullPivLU::inverse on a
      singular matrix. *)
  Record lindyn : Type := MkDyn {
    dU : mat K; dUT : mat K;
    dUinv : option (mat K); dUTinv : option (mat K);
    dS : mat K; dK : vec K
  }.

  (** tools.cpp:254-268: a (position, velocity, acceleration) state, the VectorX of size 3 of the models. *)
  Record st3 : Type := St3 { pos : K; vel : K; acc : K }.
  (** zebulon_tilt_minimization_objective.cpp:38-59: an (angle, angular velocity) state, segment(0, 2) of the
      roll and pitch states. *)
  Record st2 : Type := St2 { ang : K; angv : K }.

  (** Helper of the model (no counterpart in the code): the state as a VectorX. *)
  Definition vec_of_st3 (x : st3) : vec K :=
    MkVec 3 (fun i => match i with 0 => pos x | 1 => vel x | _ => acc x end).
  (** Helper of the model (no counterpart in the code): the state as a VectorX. *)
  Definition vec_of_st2 (x : st2) : vec K :=
    MkVec 2 (fun i => match i with 0 => ang x | _ => angv x end).

  (** U*X + S*state + K at sample [i]: the expression used by every objective and
      constraint (e.g. src/function/trajectory_motion_constraint.cpp). *)
  Definition predict (d : lindyn) (x : vec K) (X : vec K) (i : nat) : K :=
    vget (mv (dU d) X) i + vget (mv (dS d) x) i + vget (dK d) i.

  (** src/tools.cpp:254-268 updateState; the assert T>0 gives [Abort]. *)
  Definition updateState_raw (jerk T : K) (s : st3) : st3 :=
    St3 (pos s + (vel s * T + shalf * acc s * spow2 T + jerk * spow3 T / sofZ 6))
        (vel s + (acc s * T + shalf * jerk * spow2 T))
        (acc s + jerk * T).
  (** tools.cpp:254-268, with its assertion. *)
  Definition updateState (jerk T : K) (s : st3) : res st3 :=
    do _ <- guard (s0 <? T);
    Ok (updateState_raw jerk T s).

  (** Inverse of a lower triangular matrix by forward substitution, column [j]:
      the list of entries of rows 0..i-1 of the column.
      Eigen's FullPivLU::inverse (mpc-walkgen/tools.h:65-66) returns the unique inverse in
      exact arithmetic; all matrices the code inverts are lower triangular, so forward
      substitution computes the same matrix ([tri_inv_left], [tri_inv_right]). *)
  Fixpoint tri_inv_col (m : nat -> nat -> K) (j i : nat) : nat -> K :=
    match i with
    | O => fun _ => s0
    | S i' =>
        let prev := tri_inv_col m j i' in
        let x := ((if Nat.eqb i' j then s1 else s0)
                  - ssum i' (fun k => m i' k * prev k)) / m i' i' in
        fun k => if Nat.eqb k i' then x else prev k
    end.
  (** tools.h:65-66, lu.inverse(), for a lower triangular matrix. *)
  Definition tri_inv (a : mat K) : mat K :=
    MkMat (mrows a) (mcols a) (fun i j => tri_inv_col (mget a) j (S i) i).
  (** Helper of the model (no counterpart in the code): all diagonal entries are non zero, that is, the
      triangular matrix has an inverse. *)
  Fixpoint diag_nonzero (m : nat -> nat -> K) (n : nat) : bool :=
    match n with O => true | S n' => (diag_nonzero m n' && negb (m n' n' =? s0))%bool end.

  (** mpc-walkgen/tools.h:62-74 inverseLU: invert, then set entries below eps to zero. *)
  Definition inverseLU (a : mat K) (eps : K) : option (mat K) :=
    if diag_nonzero (mget a) (mrows a) then
      let ap := tri_inv a in
      Some (MkMat (mrows ap) (mcols ap)
              (fun i j => if sabs (mget ap i j) <? eps then s0 else mget ap i j))
    else None.

  (** Lower triangular fill of the loops
      [for i<N { U(i,0)=UT(0,i)=first i; for 1<=j<=i U(i,j)=UT(j,i)=rest i j }]
      on a matrix that reset() (src/lineardynamic.cpp:13-39) set to zero. *)
  Definition lower (N : nat) (first : nat -> K) (rest : nat -> nat -> K) : mat K :=
    MkMat N N (fun i j => if Nat.eqb j 0 then first i
                          else if Nat.leb j i then rest i j else s0).

  (** Helper of the model (no counterpart in the code): transpose of a matrix that may be unspecified. *)
  Definition omtr (m : option (mat K)) : option (mat K) := option_map mtr m.

  (** src/tools.cpp:17-66 *)
  Definition cop_U (S T : K) (N : nat) (h gz m : K) : mat K :=
    lower N
      (fun i => m * (spow3 S / sofZ 6 + shalf * sofnat i * T * spow2 S
                     + shalf * spow2 (sofnat i) * S * spow2 T - S * h / gz))
      (fun i j => m * spow3 T * (s1 / sofZ 6 + shalf * sofnat (i - j)
                                 + shalf * spow2 (sofnat (i - j)))
                  - m * T * h / gz).
  (** tools.cpp:17-66, the matrix S. *)
  Definition cop_S (S T : K) (N : nat) (h gz m : K) : mat K :=
    MkMat N 3 (fun i k => match k with
                          | 0 => m
                          | 1 => m * (sofnat i * T + S)
                          | _ => m * (shalf * spow2 S + sofnat i * T * S
                                      + shalf * spow2 (sofnat i) * spow2 T - h / gz)
                          end).
  (** tools.cpp:17-66, the vector K. *)
  Definition cop_K (N : nat) (h gx gz m : K) : vec K := vfill N (- m * h * gx / gz).
  (** tools.cpp:17-66 *)
  Definition computeCopDynamic (S T : K) (N : nat) (h gx gz mass totalMass : K) : res lindyn :=
    do _ <- guard (s0 <? S);
    do _ <- guard (s0 <? T);
    do _ <- guard (Nat.ltb 0 N);
    do _ <- guard (EPS <? sabs gz);
    do _ <- guard (mass <=? totalMass);
    do _ <- guard (EPS <? totalMass);
    do _ <- guard (s0 <=? mass);
    let m := mass / totalMass in
    let U := cop_U S T N h gz m in
    let Uinv := inverseLU U EPS in
    Ok (MkDyn U (mtr U) Uinv (omtr Uinv) (cop_S S T N h gz m) (cop_K N h gx gz m)).

  (** src/tools.cpp:68-105 *)
  Definition pos_U (S T : K) (N : nat) : mat K :=
    lower N
      (fun i => spow3 S / sofZ 6 + shalf * sofnat i * T * spow2 S
                + shalf * spow2 (sofnat i) * S * spow2 T)
      (fun i j => spow3 T * (s1 / sofZ 6 + shalf * sofnat (i - j)
                             + shalf * spow2 (sofnat (i - j)))).
  (** tools.cpp:68-105, the matrix S. *)
  Definition pos_S (S T : K) (N : nat) : mat K :=
    MkMat N 3 (fun i k => match k with
                          | 0 => s1
                          | 1 => sofnat i * T + S
                          | _ => shalf * spow2 S + sofnat i * T * S
                                 + shalf * spow2 (sofnat i) * spow2 T
                          end).
  (** tools.cpp:68-105 *)
  Definition computePosDynamic (S T : K) (N : nat) : res lindyn :=
    do _ <- guard (s0 <? S);
    do _ <- guard (s0 <? T);
    do _ <- guard (Nat.ltb 0 N);
    let U := pos_U S T N in
    let Uinv := inverseLU U EPS in
    Ok (MkDyn U (mtr U) Uinv (omtr Uinv) (pos_S S T N) (vzero N)).

  (** src/tools.cpp:107-134 *)
  Definition vel_U (S T : K) (N : nat) : mat K :=
    lower N
      (fun i => shalf * spow2 S + sofnat i * T * S)
      (fun i j => shalf * spow2 T + sofnat (i - j) * spow2 T).
  (** tools.cpp:107-134, the matrix S. *)
  Definition vel_S (S T : K) (N : nat) : mat K :=
    MkMat N 3 (fun i k => match k with 0 => s0 | 1 => s1 | _ => sofnat i * T + S end).
  (** tools.cpp:107-134 *)
  Definition computeVelDynamic (S T : K) (N : nat) : res lindyn :=
    do _ <- guard (s0 <? S);
    do _ <- guard (s0 <? T);
    do _ <- guard (Nat.ltb 0 N);
    let U := vel_U S T N in
    let Uinv := inverseLU U EPS in
    Ok (MkDyn U (mtr U) Uinv (omtr Uinv) (vel_S S T N) (vzero N)).

  (** src/tools.cpp:136-163 *)
  Definition ord2pos_S (S T : K) (N : nat) : mat K :=
    MkMat N 2 (fun i k => match k with 0 => s1 | _ => sofnat i * T + S end).
  (** tools.cpp:136-163 *)
  Definition computeOrder2PosDynamic (S T : K) (N : nat) : res lindyn :=
    do _ <- guard (s0 <? S);
    do _ <- guard (s0 <? T);
    do _ <- guard (Nat.ltb 0 N);
    let U := lower N (fun i => shalf * spow2 S + sofnat i * T * S)
                     (fun i j => shalf * spow2 T + sofnat (i - j) * spow2 T) in
    let Uinv := inverseLU U EPS in
    Ok (MkDyn U (mtr U) Uinv (omtr Uinv) (ord2pos_S S T N) (vzero N)).

  (** src/tools.cpp:173-201 (and 212-240): input matrix and hand written inverse. *)
  Definition acc_U (S T : K) (N : nat) : mat K := lower N (fun _ => S) (fun _ _ => T).
  (** tools.cpp:173-201 (and 212-240): the hand written inverse. *)
  Definition acc_Uinv (S T : K) (N : nat) : mat K :=
    MkMat N N (fun i j =>
      match i, j with
      | 0, 0 => s1 / S
      | 1, 0 => - s1 / S
      | _, 0 => s0
      | _, _ => if Nat.eqb i j then s1 / T
                else if Nat.eqb i (j + 1) then - s1 / T else s0
      end).
  (** src/tools.cpp:165-202 *)
  Definition computeAccDynamic (S T : K) (N : nat) : res lindyn :=
    do _ <- guard (s0 <? sabs S);
    do _ <- guard (s0 <? T);
    do _ <- guard (Nat.ltb 0 N);
    Ok (MkDyn (acc_U S T N) (mtr (acc_U S T N))
              (Some (acc_Uinv S T N)) (Some (mtr (acc_Uinv S T N)))
              (MkMat N 3 (fun _ k => match k with 2 => s1 | _ => s0 end)) (vzero N)).
  (** src/tools.cpp:204-241 *)
  Definition computeOrder2VelDynamic (S T : K) (N : nat) : res lindyn :=
    do _ <- guard (s0 <? T);
    do _ <- guard (s0 <? sabs S);
    do _ <- guard (Nat.ltb 0 N);
    Ok (MkDyn (acc_U S T N) (mtr (acc_U S T N))
              (Some (acc_Uinv S T N)) (Some (mtr (acc_Uinv S T N)))
              (MkMat N 2 (fun _ k => match k with 1 => s1 | _ => s0 end)) (vzero N)).
  (** src/tools.cpp:243-252 *)
  Definition computeJerkDynamic (N : nat) : lindyn :=
    MkDyn (mid N) (mid N) (Some (mid N)) (Some (mid N)) (mzero N 3) (vzero N).

  (** mpc-walkgen/tools.h:94-112; a Vector4 is a quadruple of coefficients. *)
  Record vec4 : Type := V4 { c0 : K; c1 : K; c2 : K; c3 : K }.
  (** tools.h:94-100 *)
  Definition polynomValue (f : vec4) (x : K) : K :=
    c0 f * spow3 x + c1 f * spow2 x + c2 f * x + c3 f.
  (** tools.h:102-106 *)
  Definition dPolynomValue (f : vec4) (x : K) : K :=
    sofZ 3 * c0 f * spow2 x + sofZ 2 * c1 f * x + c2 f.
  (** tools.h:108-112 *)
  Definition ddPolynomValue (f : vec4) (x : K) : K :=
    sofZ 6 * c0 f * x + sofZ 2 * c1 f.
End Tools.
Arguments lindyn : clear implicits.
Arguments st3 : clear implicits.
Arguments st2 : clear implicits.
Arguments vec4 : clear implicits.
