(** Model of src/zebulon_walkgen.cpp and src/function/zebulon_*.cpp. *)

From Coq Require Import List ZArith Arith Bool.
From Verif Require Import Scalar LinAlg ToolsModel NoDynModel PolygonModel QPModel TrajModel LipModel BaseModel.
Import ListNotations.

(** std::sin, std::cos *)
Class SinCos (K : Type) : Type := { tsin : K -> K; tcos : K -> K }.

Section Zeb.
  Context {K : Type} {SK : Scalar K} {TK : Trig K} {CK : SinCos K}.
  Local Open Scope sc_scope.

  (** The two assertions found in most functions of the objectives:
      baseModel_.getNbSamples() == lipModel_.getNbSamples(), same for the sampling periods. *)
  Definition agree (l : lip K) (b : base K) : res unit :=
    do _ <- guard (Nat.eqb (bN b) (lN l)); guard (bT b =? lT l).
  (** Helper of the model (no counterpart in the code): v.segment(off, n) = w, with Eigen's assertions on the
      range and on the sizes. *)
  Definition vputE (v : vec K) (off n : nat) (w : vec K) : res (vec K) :=
    do _ <- guard (Nat.leb (off + n) (vlen v)); do _ <- guard (Nat.eqb n (vlen w)); Ok (vsetseg v off w).

  (** A 4N x 4N matrix of N x N blocks; only the eight blocks the objectives fill are non zero.
      The order of the arguments is that of the statements in the code. *)
  Definition blocks8 (N : nat) (b00 b11 b22 b33 b20 b31 b02 b13 : mat K) : mat K :=
    let H := msetblock (mzero (4 * N) (4 * N)) 0 0 b00 in
    let H := msetblock H N N b11 in
    let H := msetblock H (2 * N) (2 * N) b22 in
    let H := msetblock H (3 * N) (3 * N) b33 in
    let H := msetblock H (2 * N) 0 b20 in
    let H := msetblock H (3 * N) N b31 in
    let H := msetblock H 0 (2 * N) b02 in
    msetblock H N (3 * N) b13.
  (** Helper of the model (no counterpart in the code): gradient.block(k*N, 0, N, 1) += v_k for the four
      blocks. *)
  Definition addblocks4 (N : nat) (g v0 v1 v2 v3 : vec K) : vec K :=
    vaddseg (vaddseg (vaddseg (vaddseg g 0 v0) N v1) (2 * N) v2) (3 * N) v3.

  (** *** zebulon_base_velocity_tracking_objective.cpp, zebulon_base_position_tracking_objective.cpp *)
  (** zebulon_base_velocity_tracking_objective.cpp:74-87 (of both files) computeConstantPart *)
  Definition btrack_hessian (N : nat) (d : lindyn K) : mat K :=
    msetblock (msetblock (mzero (2 * N) (2 * N)) 0 0 (mmul (dUT d) (dU d))) N N (mmul (dUT d) (dU d)).
  (** zebulon_base_velocity_tracking_objective.cpp:33-57 getGradient *)
  Definition btrack_gradient (b : base K) (d : lindyn K) (H : mat K) (ref x0 : vec K) : res (vec K) :=
    let N := bN b in
    do _ <- guard (Nat.eqb (vlen ref) (vlen x0));
    do _ <- guard (Nat.eqb (vlen ref) (N * 2));
    let g := mv H x0 in
    let tx := vsub (mv (dS d) (vec_of_st3 (bsx b))) (vseg ref 0 N) in
    let ty := vsub (mv (dS d) (vec_of_st3 (bsy b))) (vseg ref N N) in
    Ok (vaddseg (vaddseg g 0 (mv (dUT d) tx)) N (mv (dUT d) ty)).

  (** *** zebulon_jerk_minimization_objective.cpp: the Hessian is the identity, the gradient is x0 *)
  (** zebulon_jerk_minimization_objective.cpp:53-61 *)
  Definition zjerk_hessian (N : nat) : mat K := mid (4 * N).
  (** zebulon_jerk_minimization_objective.cpp:36-42 *)
  Definition zjerk_gradient (N : nat) (x0 : vec K) : res (vec K) :=
    do _ <- guard (Nat.eqb (N * 4) (vlen x0)); Ok x0.

  (** *** zebulon_cop_centering_objective.cpp *)
  (** zebulon_cop_centering_objective.cpp:183-231 computeConstantPart *)
  Definition cop_hessian (l : lip K) (b : base K) : res (mat K) :=
    do _ <- agree l b;
    let N := lN l in
    let P := bposD b in
    do cx <- l_last l (lcxD l);
    do cy <- l_last l (lcyD l);
    if EPS <? bm b then
      let bx := bcxD b in let by' := bcyD b in
      Ok (blocks8 N (mmul (dUT cx) (dU cx)) (mmul (dUT cy) (dU cy))
            (mmul (msub (dUT bx) (dUT P)) (msub (dU bx) (dU P))) (mmul (msub (dUT by') (dUT P)) (msub (dU by') (dU P)))
            (mmul (msub (dUT bx) (dUT P)) (dU cx)) (mmul (msub (dUT by') (dUT P)) (dU cy))
            (mmul (dUT cx) (msub (dU bx) (dU P))) (mmul (dUT cy) (msub (dU by') (dU P))))
    else
      Ok (blocks8 N (mmul (dUT cx) (dU cx)) (mmul (dUT cy) (dU cy))
            (mmul (dUT P) (dU P)) (mmul (dUT P) (dU P))
            (mmul (mopp (dUT P)) (dU cx)) (mmul (mopp (dUT P)) (dU cy))
            (mmul (mopp (dUT cx)) (dU P)) (mmul (mopp (dUT cy)) (dU P))).
  (** zebulon_cop_centering_objective.cpp:36-115 getGradient.  copRef_, which is computed twice with the same value (resp. with
      the opposite value), is written as one expression. *)
  Definition cop_gradient (l : lip K) (b : base K) (H : mat K) (ref x0 : vec K) : res (vec K) :=
    do _ <- guard (Nat.eqb (vlen ref * 2) (vlen x0));
    do _ <- guard (Nat.eqb (vlen ref) (bN b * 2));
    do _ <- agree l b;
    let N := lN l in
    let P := bposD b in
    do cx <- l_last l (lcxD l);
    do cy <- l_last l (lcyD l);
    let sx := vec_of_st3 (lsx l) in let sy := vec_of_st3 (lsy l) in
    let ux := vec_of_st3 (bsx b) in let uy := vec_of_st3 (bsy b) in
    let ex := vadd (vopp (vseg ref 0 N)) (vadd (mv (dS cx) sx) (dK cx)) in
    let ey := vadd (vopp (vseg ref N N)) (vadd (mv (dS cy) sy) (dK cy)) in
    if EPS <? bm b then
      let bx := bcxD b in let by' := bcyD b in
      let ex := vadd ex (vadd (mv (msub (dS bx) (dS P)) ux) (dK bx)) in
      let ey := vadd ey (vadd (mv (msub (dS by') (dS P)) uy) (dK by')) in
      Ok (addblocks4 N (mv H x0) (mv (dUT cx) ex) (mv (dUT cy) ey)
            (mv (msub (dUT bx) (dUT P)) ex) (mv (msub (dUT by') (dUT P)) ey))
    else
      let ex := vsub ex (mv (dS P) ux) in
      let ey := vsub ey (mv (dS P) uy) in
      let ex' := vadd (vsub (vseg ref 0 N) (vadd (mv (dS cx) sx) (dK cx))) (mv (dS P) ux) in
      let ey' := vadd (vsub (vseg ref N N) (vadd (mv (dS cy) sy) (dK cy))) (mv (dS P) uy) in
      Ok (addblocks4 N (mv H x0) (mv (dUT cx) ex) (mv (dUT cy) ey) (mv (dUT P) ex') (mv (dUT P) ey')).
  (** zebulon_cop_centering_objective.cpp:137-181 setCopRefInWorldFrame: the CoP reference in the local frame.  1e-6f is 1e-6. *)
  Definition cop_ref_in_world (l : lip K) (b : base K) (comPos comAcc basePos baseAcc : vec K) : res (vec K) :=
    let N := lN l in
    do _ <- guard (Nat.eqb (vlen comPos) (2 * N)); do _ <- guard (Nat.eqb (vlen comAcc) (2 * N));
    do _ <- guard (Nat.eqb (vlen basePos) (2 * N)); do _ <- guard (Nat.eqb (vlen baseAcc) (2 * N));
    do _ <- agree l b;
    let mb := bm b in let mc := lm l in let hb := bh b in let hc := lh l in
    let g := lg l in
    let cg := MkVec (2 * N) (fun i => if Nat.ltb i N then gx g else gy g) in
    do _ <- guard (s1 / sofZ 1000000 <? sabs ((mb + mc) * gz g));
    Ok (MkVec (vlen basePos) (fun i =>
          (mb * gz g * vget basePos i - mb * hb * vget baseAcc i
           + mc * gz g * vget comPos i - mc * hc * vget comAcc i
           + (mb * hb + mc * hc) * vget cg i) / ((mb + mc) * gz g) - vget basePos i)).

  (** *** zebulon_com_centering_objective.cpp *)
  (** zebulon_com_centering_objective.cpp:137-163 computeConstantPart *)
  Definition com_hessian (l : lip K) (b : base K) : res (mat K) :=
    do _ <- agree l b;
    let P := bposD b in
    do c <- l_last l (lposD l);
    Ok (blocks8 (lN l) (mmul (dUT c) (dU c)) (mmul (dUT c) (dU c)) (mmul (dUT P) (dU P)) (mmul (dUT P) (dU P))
          (mmul (mopp (dUT P)) (dU c)) (mmul (mopp (dUT P)) (dU c))
          (mmul (mopp (dUT c)) (dU P)) (mmul (mopp (dUT c)) (dU P))).
  (** zebulon_com_centering_objective.cpp:48-89 getGradient *)
  Definition com_gradient (l : lip K) (b : base K) (H : mat K) (ref shift grav x0 : vec K) : res (vec K) :=
    do _ <- guard (Nat.eqb (vlen shift) (vlen ref));
    do _ <- guard (Nat.eqb (vlen shift) (vlen grav));
    do _ <- guard (Nat.eqb (vlen ref * 2) (vlen x0));
    do _ <- guard (Nat.eqb (vlen ref) (bN b * 2));
    do _ <- agree l b;
    let N := lN l in
    let P := bposD b in
    do c <- l_last l (lposD l);
    let sx := mv (dS c) (vec_of_st3 (lsx l)) in let sy := mv (dS c) (vec_of_st3 (lsy l)) in
    let ux := mv (dS P) (vec_of_st3 (bsx b)) in let uy := mv (dS P) (vec_of_st3 (bsy b)) in
    let ex := vsub (vadd (vopp (vseg shift 0 N)) sx) ux in
    let ey := vsub (vadd (vopp (vseg shift N N)) sy) uy in
    let ex' := vadd (vsub (vseg shift 0 N) sx) ux in
    let ey' := vadd (vsub (vseg shift N N) sy) uy in
    Ok (addblocks4 N (mv H x0) (mv (dUT c) ex) (mv (dUT c) ey) (mv (dUT P) ex') (mv (dUT P) ey')).
  (** zebulon_com_centering_objective.cpp:100-123 updateGravityShift: the new gravityShift_ and comShiftInLocalFrame_ *)
  Definition gravity_shift (l : lip K) (b : base K) : res (vec K) :=
    do _ <- agree l b;
    do _ <- nanguard (negb (bm b + lm l =? s0));
    do _ <- nanguard (negb (gz (lg l) =? s0));
    let factor := (lm l * lh l + bm b * bh b) / (bm b + lm l) in
    let N := bN b in
    Ok (MkVec (2 * N) (fun i => if Nat.ltb i N then factor * gx (lg l) / gz (lg l) else factor * gy (lg l) / gz (lg l))).

  (** *** zebulon_cop_constraint.cpp, zebulon_com_constraint.cpp *)
  (** zebulon_cop_constraint.cpp:138-161 (resp. 106-128) computeconstraintMatrices; row i*N+j is for the edge i and
      the sample j. *)
  Definition vertex (p : polygon K) (i : nat) : pt K := nth i (pverts p) (s0, s0).
  (** zebulon_cop_constraint.cpp:138-161, zebulon_com_constraint.cpp:106-128: A_. *)
  Definition poly_A (N : nat) (p : polygon K) : mat K :=
    let M := length (pverts p) in
    MkMat (M * N) (2 * N) (fun r c =>
      let i := Nat.div r N in let j := Nat.modulo r N in
      let p1 := vertex p i in let p2 := vertex p (Nat.modulo (i + 1) M) in
      if Nat.eqb c j then snd p2 - snd p1
      else if Nat.eqb c (j + N) then - fst p2 + fst p1 else s0).
  (** zebulon_cop_constraint.cpp:138-161, zebulon_com_constraint.cpp:106-128: b_. *)
  Definition poly_b (N : nat) (p : polygon K) : vec K :=
    let M := length (pverts p) in
    MkVec (M * N) (fun r =>
      let i := Nat.div r N in
      let p1 := vertex p i in let p2 := vertex p (Nat.modulo (i + 1) M) in
      - snd p1 * (fst p2 - fst p1) + fst p1 * (snd p2 - snd p1)).
  (** zebulon_cop_constraint.h, zebulon_com_constraint.h: what such a constraint stores, A_, b_ and gradient_.
      *)
  Record pctr : Type := MkPC { pcA : mat K; pcb : vec K; pcG : mat K }.
  (** Helper of the model (no counterpart in the code): a 2N x 4N matrix of N x N blocks. *)
  Definition rows2 (N : nat) (t00 t11 t02 t13 : mat K) : mat K :=
    msetblock (msetblock (msetblock (msetblock (mzero (2 * N) (4 * N)) 0 0 t00) N N t11) 0 (2 * N) t02) N (3 * N) t13.
  (** zebulon_cop_constraint.cpp:96-136 computeConstantPart *)
  Definition copc_constant (l : lip K) (b : base K) : res pctr :=
    do _ <- agree l b;
    let N := lN l in
    let P := bposD b in
    let A := poly_A N (bcopPoly b) in
    do cx <- l_last l (lcxD l);
    do cy <- l_last l (lcyD l);
    let tmp := if EPS <? bm b
               then rows2 N (dU cx) (dU cy) (msub (dU (bcxD b)) (dU P)) (msub (dU (bcyD b)) (dU P))
               else rows2 N (dU cx) (dU cy) (mopp (dU P)) (mopp (dU P)) in
    Ok (MkPC A (poly_b N (bcopPoly b)) (mmul A tmp)).
  (** zebulon_cop_constraint.cpp:39-77 getFunction *)
  Definition copc_function (l : lip K) (b : base K) (c : pctr) (x0 : vec K) : res (vec K) :=
    do _ <- guard (Nat.eqb (bN b * 4) (vlen x0));
    do _ <- agree l b;
    let N := lN l in
    let P := bposD b in
    do cx <- l_last l (lcxD l);
    do cy <- l_last l (lcyD l);
    let sx := vec_of_st3 (lsx l) in let sy := vec_of_st3 (lsy l) in
    let ux := vec_of_st3 (bsx b) in let uy := vec_of_st3 (bsy b) in
    let tx := vadd (mv (dS cx) sx) (dK cx) in
    let ty := vadd (mv (dS cy) sy) (dK cy) in
    let tmp := if EPS <? bm b
               then vsetseg (vsetseg (vzero (2 * N)) 0 (vadd tx (vadd (mv (msub (dS (bcxD b)) (dS P)) ux) (dK (bcxD b)))))
                      N (vadd ty (vadd (mv (msub (dS (bcyD b)) (dS P)) uy) (dK (bcyD b))))
               else vsetseg (vsetseg (vzero (2 * N)) 0 (vsub tx (mv (dS P) ux))) N (vsub ty (mv (dS P) uy)) in
    Ok (vsub (vsub (vopp (pcb c)) (mv (pcG c) x0)) (mv (pcA c) tmp)).
  (** zebulon_com_constraint.cpp:79-104 computeConstantPart *)
  Definition comc_constant (l : lip K) (b : base K) : res pctr :=
    do _ <- agree l b;
    let N := lN l in
    let P := bposD b in
    let A := poly_A N (bcomPoly b) in
    do c <- l_last l (lposD l);
    Ok (MkPC A (poly_b N (bcomPoly b)) (mmul A (rows2 N (dU c) (dU c) (mopp (dU P)) (mopp (dU P))))).
  (** zebulon_com_constraint.cpp:38-60 getFunction *)
  Definition comc_function (l : lip K) (b : base K) (c : pctr) (x0 : vec K) : res (vec K) :=
    do _ <- guard (Nat.eqb (bN b * 4) (vlen x0));
    do _ <- agree l b;
    let N := lN l in
    let P := bposD b in
    do d <- l_last l (lposD l);
    let tx := vsub (mv (dS d) (vec_of_st3 (lsx l))) (mv (dS P) (vec_of_st3 (bsx b))) in
    let ty := vsub (mv (dS d) (vec_of_st3 (lsy l))) (mv (dS P) (vec_of_st3 (bsy b))) in
    let tmp := vsetseg (vsetseg (vzero (2 * N)) 0 tx) N ty in
    Ok (vsub (vsub (vopp (pcb c)) (mv (pcG c) x0)) (mv (pcA c) tmp)).

  (** *** zebulon_base_motion_constraint.cpp *)
  (** zebulon_base_motion_constraint.cpp:98-115 computeConstantPart *)
  Definition bmotion_gradient (b : base K) : mat K :=
    let N := bN b in
    let G := msetblock (mzero (N * 4) (2 * N)) 0 0 (dU (bvelD b)) in
    let G := msetblock G N N (dU (bvelD b)) in
    let G := msetblock G (2 * N) 0 (dU (baccD b)) in
    msetblock G (3 * N) N (dU (baccD b)).
  (** zebulon_base_motion_constraint.cpp:59-84 computeFunction, 33-57 getFunctionInf, getFunctionSup *)
  Definition bmotion_function (b : base K) (G : mat K) (x0 : vec K) (velLimit accLimit : K) : res (vec K) :=
    do _ <- guard (Nat.eqb (bN b * 2) (vlen x0));
    let N := bN b in
    let ux := vec_of_st3 (bsx b) in let uy := vec_of_st3 (bsy b) in
    let f := vopp (mv G x0) in
    let f := vaddseg f 0 (vfill N velLimit) in
    let f := vaddseg f 0 (vopp (mv (dS (bvelD b)) ux)) in
    let f := vaddseg f N (vfill N velLimit) in
    let f := vaddseg f N (vopp (mv (dS (bvelD b)) uy)) in
    let f := vaddseg f (2 * N) (vfill N accLimit) in
    let f := vaddseg f (2 * N) (vopp (mv (dS (baccD b)) ux)) in
    let f := vaddseg f (3 * N) (vfill N accLimit) in
    Ok (vaddseg f (3 * N) (vopp (mv (dS (baccD b)) uy))).
  (** zebulon_base_motion_constraint.cpp:35-44 *)
  Definition bmotion_inf (b : base K) (G : mat K) (x0 : vec K) : res (vec K) :=
    bmotion_function b G x0 (- bvelLim b) (- baccLim b).
  (** zebulon_base_motion_constraint.cpp:48-57 *)
  Definition bmotion_sup (b : base K) (G : mat K) (x0 : vec K) : res (vec K) :=
    bmotion_function b G x0 (bvelLim b) (baccLim b).

  (** *** zebulon_tilt_motion_constraint.cpp *)
  (** zebulon_tilt_motion_constraint.cpp:75-93 computeConstantPart *)
  Definition tmotion_gradient (l : lip K) (b : base K) : res (mat K) :=
    do _ <- agree l b;
    let N := bN b in
    let theta := pos (bsyaw b) in
    do c <- l_last l (lvelD l);
    let G := msetblock (mzero (N * 2) (4 * N)) 0 0 (mscale (tsin theta) (dU c)) in
    let G := msetblock G 0 N (mscale (tcos theta) (mopp (dU c))) in
    let G := msetblock G N (2 * N) (mscale (tsin theta) (dU (bvelD b))) in
    Ok (msetblock G N (3 * N) (mscale (tcos theta) (mopp (dU (bvelD b))))).
  (** zebulon_tilt_motion_constraint.cpp:34-57 getFunction *)
  Definition tmotion_function (l : lip K) (b : base K) (G : mat K) (x0 : vec K) : res (vec K) :=
    do _ <- guard (Nat.eqb (bN b * 4) (vlen x0));
    do _ <- agree l b;
    let N := bN b in
    let theta := pos (bsyaw b) in
    do c <- l_last l (lvelD l);
    let f := mv (mopp G) x0 in
    let f := vaddseg f 0 (vopp (vscale (tsin theta) (mv (dS c) (vec_of_st3 (lsx l))))) in
    let f := vaddseg f 0 (vscale (tcos theta) (mv (dS c) (vec_of_st3 (lsy l)))) in
    let f := vaddseg f N (vopp (vscale (tsin theta) (mv (dS (bvelD b)) (vec_of_st3 (bsx b))))) in
    Ok (vaddseg f N (vscale (tcos theta) (mv (dS (bvelD b)) (vec_of_st3 (bsy b))))).

  (** *** zebulon_tilt_minimization_objective.cpp, zebulon_tilt_velocity_minimization_objective.cpp *)
  (** What the objective stores: uInv_, dynC_, dynB_, dynPsiX_, dynPsiY_ (whose S parts are equal)
      and the Hessian. *)
  Record tilt : Type := MkTilt {
    tuInv : mat K;
    tCU : mat K; tCS : mat K; tBU : mat K; tBS : mat K;
    tPsiS : mat K; tPsiKx : vec K; tPsiKy : vec K;
    tH : mat K
  }.
  (** 1e-15f (zebulon_tilt_minimization_objective.cpp:106-177), taken as exact. *)
  Definition TILT_EPS : K := s1 / sofZ 1000000000000000.
  (** zebulon_tilt_minimization_objective.cpp:70-91: the K part of dynPsiX_ and dynPsiY_. *)
  Definition tilt_K (b : base K) (uInv : mat K) (db : K) : vec K :=
    mv (mopp uInv) (vfill (bN b) (bm b * GRAVITY_NORM * db)).
  (** Everything after the inversion (lines 146-177, resp. 149-182) *)
  Definition tilt_build (l : lip K) (b : base K) (uInv psiS : mat K) (comPos comAcc : lindyn K) (dbx dby : K) : tilt :=
    let N := bN b in
    let L := bh b in let h := lh l in let m := lm l in let M := bm b in let g := GRAVITY_NORM in
    let A2 := m * g in let A4 := m * h in let A5 := M * L in
    let CU := mmul uInv (madd (mscale (- A5) (dU comAcc)) (mscale A2 (dU comPos))) in
    let CS := mmul uInv (madd (mscale (- A5) (dS comAcc)) (mscale A2 (dS comPos))) in
    let BU := mmul uInv (msub (mscale (- A4) (dU (baccD b))) (mscale A2 (dU (bposD b)))) in
    let BS := mmul uInv (msub (mscale (- A4) (dS (baccD b))) (mscale A2 (dS (bposD b)))) in
    MkTilt uInv CU CS BU BS psiS (tilt_K b uInv dbx) (tilt_K b uInv dby)
      (blocks8 N (mmul (mtr CU) CU) (mmul (mtr CU) CU) (mmul (mtr BU) BU) (mmul (mtr BU) BU)
         (mmul (mtr BU) CU) (mmul (mtr BU) CU) (mmul (mtr CU) BU) (mmul (mtr CU) BU)).
  (** [None]: one of the inverses used is that of a singular matrix, so that the objective holds
      unspecified coefficients (see [lindyn]). *)
  Definition tilt_A1 (l : lip K) (b : base K) : K := GRAVITY_NORM * (lm l * lh l + bm b * bh b).
  (** zebulon_tilt_minimization_objective.cpp:106-177: the coefficient of the angular acceleration. *)
  Definition tilt_A6 (l : lip K) (b : base K) : K := lm l * lh l * lh l + bm b * bh b * bh b.
  (** zebulon_tilt_minimization_objective.cpp:106-177 *)
  Definition tilt_constant (l : lip K) (b : base K) : res (option tilt) :=
    do _ <- agree l b;
    do dbx <- b_getTiltContactPointX b;
    do dby <- b_getTiltContactPointY b;
    do cp <- l_last l (lposD l);
    do ca <- l_last l (laccD l);
    let ta := btaD b in
    match dUinv ta with
    | None => Ok None
    | Some Pinv =>
        let angS := mmul (mopp Pinv) (dS ta) in
        let U := msub (mscale (tilt_A1 l b) (mid (bN b))) (mscale (tilt_A6 l b) Pinv) in
        match inverseLU U TILT_EPS with
        | None => Ok None
        | Some uInv => Ok (Some (tilt_build l b uInv (mmul (mscale (tilt_A6 l b) uInv) angS) cp ca dbx dby))
        end
    end.
  (** zebulon_tilt_velocity_minimization_objective.cpp:106-182 *)
  Definition tiltvel_constant (l : lip K) (b : base K) : res (option tilt) :=
    do _ <- agree l b;
    do dbx <- b_getTiltContactPointX b;
    do dby <- b_getTiltContactPointY b;
    do cp <- l_last l (lposD l);
    do ca <- l_last l (laccD l);
    let ta := btaD b in let tv := btvD b in
    match dUinv ta, dUinv tv with
    | Some Pinv, Some Vinv =>
        let angS := mmul (mopp Pinv) (dS ta) in
        let U := msub (mmul (mscale (tilt_A1 l b) (dU ta)) Vinv)
                      (mmul (mmul (mscale (tilt_A6 l b) (dU ta)) Vinv) Pinv) in
        match inverseLU U TILT_EPS with
        | None => Ok None
        | Some uInv =>
            Ok (Some (tilt_build l b uInv
              (madd (msub (mmul (mscale (tilt_A6 l b) uInv) angS) (mmul (mmul (dU tv) Pinv) (dS ta))) (dS tv)) cp ca dbx dby))
        end
    | _, _ => Ok None
    end.
  (** zebulon_tilt_minimization_objective.cpp:70-91 of both files, updateTiltContactPoint *)
  Definition tilt_contact (l : lip K) (b : base K) (t : option tilt) : res (option tilt) :=
    do _ <- agree l b;
    do dbx <- b_getTiltContactPointX b;
    do dby <- b_getTiltContactPointY b;
    Ok (option_map (fun t => MkTilt (tuInv t) (tCU t) (tCS t) (tBU t) (tBS t) (tPsiS t)
                               (tilt_K b (tuInv t) dbx) (tilt_K b (tuInv t) dby) (tH t)) t).
  (** Helper of the model (no counterpart in the code): segment(0, 2) of a state. *)
  Definition st2_of (s : st3 K) : st2 K := St2 (pos s) (vel s).
  (** zebulon_tilt_minimization_objective.cpp:38-59, zebulon_tilt_velocity_minimization_objective.cpp:38-59;
      [None]: unspecified coefficients. *)
  Definition tilt_gradient (l : lip K) (b : base K) (t : option tilt) (x0 : vec K) : res (option (vec K)) :=
    do _ <- guard (Nat.eqb (bN b * 4) (vlen x0));
    do _ <- agree l b;
    Ok (option_map (fun t =>
          let kx := vadd (vadd (vadd (mv (tCS t) (vec_of_st3 (lsx l))) (mv (tBS t) (vec_of_st3 (bsx b))))
                               (mv (tPsiS t) (vec_of_st2 (st2_of (bsroll b))))) (tPsiKx t) in
          let ky := vadd (vadd (vadd (mv (tCS t) (vec_of_st3 (lsy l))) (mv (tBS t) (vec_of_st3 (bsy b))))
                               (mv (tPsiS t) (vec_of_st2 (st2_of (bspitch b))))) (tPsiKy t) in
          addblocks4 (bN b) (mv (tH t) x0) (mv (mtr (tCU t)) kx) (mv (mtr (tCU t)) ky)
            (mv (mtr (tBU t)) kx) (mv (mtr (tBU t)) ky)) t).

  (** *** The walk generator *)
  (** zebulon_walkgen_type.h:18-59 *)
  Record zweights : Type := MkZW {
    zwVel : K; zwPos : K; zwCop : K; zwCom : K; zwJerk : K; zwTilt : K; zwTiltVel : K }.
  (** zebulon_walkgen_type.h:42-56. *)
  Record zconfig : Type := MkZC { zcCop : bool; zcCom : bool; zcBase : bool; zcTilt : bool }.
  (** zebulon_walkgen.h:108-135: the constant parts stored by the objectives and constraints. *)
  Record zobjs : Type := MkZO {
    ovelH : mat K; oposH : mat K; ojerkH : mat K;
    otilt : option tilt; otiltV : option tilt;
    ocopH : mat K; ocomH : mat K;
    ocopC : pctr; ocomC : pctr; omotG : mat K; otmG : mat K
  }.
  (** zebulon_walkgen.h:108-135: the references stored by the objectives. *)
  Record zrefs : Type := MkZR {
    rvel : vec K; rpos : vec K; rcop : vec K; rcom : vec K; rshift : vec K; rgrav : vec K }.
  (** zebulon_walkgen.h:108-135; B_ is computed anew at each solve. *)
  Record zeb : Type := MkZeb {
    zl : lip K; zb : base K; zo : zobjs; zr : zrefs;
    zw : zweights; zc : zconfig; zdX : vec K; zX : vec K;
    zqp : qpmats K; zsol : solver K; zfo : K; zfc : K
  }.
  (** Helper of the model (no counterpart in the code): replace the two models. *)
  Definition z_setModels (z : zeb) l b : zeb :=
    MkZeb l b (zo z) (zr z) (zw z) (zc z) (zdX z) (zX z) (zqp z) (zsol z) (zfo z) (zfc z).
  (** Helper of the model (no counterpart in the code): replace the stored constant parts. *)
  Definition z_setObjs (z : zeb) o : zeb :=
    MkZeb (zl z) (zb z) o (zr z) (zw z) (zc z) (zdX z) (zX z) (zqp z) (zsol z) (zfo z) (zfc z).
  (** Helper of the model (no counterpart in the code): replace the references. *)
  Definition z_setRefs (z : zeb) r : zeb :=
    MkZeb (zl z) (zb z) (zo z) r (zw z) (zc z) (zdX z) (zX z) (zqp z) (zsol z) (zfo z) (zfc z).
  (** Helper of the model (no counterpart in the code): replace dX_ and X_. *)
  Definition z_setX (z : zeb) dX X : zeb :=
    MkZeb (zl z) (zb z) (zo z) (zr z) (zw z) (zc z) dX X (zqp z) (zsol z) (zfo z) (zfc z).
  (** Helper of the model (no counterpart in the code): replace the weights and the configuration. *)
  Definition z_setOpts (z : zeb) w c : zeb :=
    MkZeb (zl z) (zb z) (zo z) (zr z) w c (zdX z) (zX z) (zqp z) (zsol z) (zfo z) (zfc z).
  (** Helper of the model (no counterpart in the code): replace the matrices, the solver and the factors. *)
  Definition z_setQP (z : zeb) q s fo fc : zeb :=
    MkZeb (zl z) (zb z) (zo z) (zr z) (zw z) (zc z) (zdX z) (zX z) q s fo fc.

  (** velTrackingObj_.computeConstantPart(), zebulon_base_velocity_tracking_objective.cpp:74-87 *)
  Definition z_vel (z : zeb) : res zeb :=
    let o := zo z in
    Ok (z_setObjs z (MkZO (btrack_hessian (bN (zb z)) (bvelD (zb z))) (oposH o) (ojerkH o) (otilt o) (otiltV o)
                       (ocopH o) (ocomH o) (ocopC o) (ocomC o) (omotG o) (otmG o))).
  (** posTrackingObj_.computeConstantPart(), zebulon_base_position_tracking_objective.cpp:73-87 *)
  Definition z_pos (z : zeb) : res zeb :=
    let o := zo z in
    Ok (z_setObjs z (MkZO (ovelH o) (btrack_hessian (bN (zb z)) (bposD (zb z))) (ojerkH o) (otilt o) (otiltV o)
                       (ocopH o) (ocomH o) (ocopC o) (ocomC o) (omotG o) (otmG o))).
  (** jerkMinObj_.computeConstantPart(), zebulon_jerk_minimization_objective.cpp:53-61 *)
  Definition z_jerk (z : zeb) : res zeb :=
    let o := zo z in
    do _ <- agree (zl z) (zb z);
    Ok (z_setObjs z (MkZO (ovelH o) (oposH o) (zjerk_hessian (bN (zb z))) (otilt o) (otiltV o)
                       (ocopH o) (ocomH o) (ocopC o) (ocomC o) (omotG o) (otmG o))).
  (** tiltMinObj_.computeConstantPart(), zebulon_tilt_minimization_objective.cpp:106-177 *)
  Definition z_tilt (z : zeb) : res zeb :=
    let o := zo z in
    do t <- tilt_constant (zl z) (zb z);
    Ok (z_setObjs z (MkZO (ovelH o) (oposH o) (ojerkH o) t (otiltV o)
                       (ocopH o) (ocomH o) (ocopC o) (ocomC o) (omotG o) (otmG o))).
  (** tiltVelMinObj_.computeConstantPart(), zebulon_tilt_velocity_minimization_objective.cpp:106-182 *)
  Definition z_tiltV (z : zeb) : res zeb :=
    let o := zo z in
    do t <- tiltvel_constant (zl z) (zb z);
    Ok (z_setObjs z (MkZO (ovelH o) (oposH o) (ojerkH o) (otilt o) t
                       (ocopH o) (ocomH o) (ocopC o) (ocomC o) (omotG o) (otmG o))).
  (** copCenteringObj_.computeConstantPart(), zebulon_cop_centering_objective.cpp:183-231 *)
  Definition z_cop (z : zeb) : res zeb :=
    let o := zo z in
    do H <- cop_hessian (zl z) (zb z);
    Ok (z_setObjs z (MkZO (ovelH o) (oposH o) (ojerkH o) (otilt o) (otiltV o)
                       H (ocomH o) (ocopC o) (ocomC o) (omotG o) (otmG o))).
  (** comCenteringObj_.computeConstantPart(), zebulon_com_centering_objective.cpp:137-163 *)
  Definition z_com (z : zeb) : res zeb :=
    let o := zo z in
    do H <- com_hessian (zl z) (zb z);
    Ok (z_setObjs z (MkZO (ovelH o) (oposH o) (ojerkH o) (otilt o) (otiltV o)
                       (ocopH o) H (ocopC o) (ocomC o) (omotG o) (otmG o))).
  (** copConstraint_.computeConstantPart(), zebulon_cop_constraint.cpp:96-136 *)
  Definition z_copC (z : zeb) : res zeb :=
    let o := zo z in
    do c <- copc_constant (zl z) (zb z);
    Ok (z_setObjs z (MkZO (ovelH o) (oposH o) (ojerkH o) (otilt o) (otiltV o)
                       (ocopH o) (ocomH o) c (ocomC o) (omotG o) (otmG o))).
  (** comConstraint_.computeConstantPart(), zebulon_com_constraint.cpp:79-104 *)
  Definition z_comC (z : zeb) : res zeb :=
    let o := zo z in
    do c <- comc_constant (zl z) (zb z);
    Ok (z_setObjs z (MkZO (ovelH o) (oposH o) (ojerkH o) (otilt o) (otiltV o)
                       (ocopH o) (ocomH o) (ocopC o) c (omotG o) (otmG o))).
  (** baseMotionConstraint_.computeConstantPart(), zebulon_base_motion_constraint.cpp:98-115 *)
  Definition z_motion (z : zeb) : res zeb :=
    let o := zo z in
    Ok (z_setObjs z (MkZO (ovelH o) (oposH o) (ojerkH o) (otilt o) (otiltV o)
                       (ocopH o) (ocomH o) (ocopC o) (ocomC o) (bmotion_gradient (zb z)) (otmG o))).
  (** tiltMotionConstraint_.computeConstantPart(), zebulon_tilt_motion_constraint.cpp:75-93 *)
  Definition z_tmotion (z : zeb) : res zeb :=
    let o := zo z in
    do G <- tmotion_gradient (zl z) (zb z);
    Ok (z_setObjs z (MkZO (ovelH o) (oposH o) (ojerkH o) (otilt o) (otiltV o)
                       (ocopH o) (ocomH o) (ocopC o) (ocomC o) (omotG o) G)).
  (** comCenteringObj_.updateGravityShift(), zebulon_com_centering_objective.cpp:100-123 *)
  Definition z_gravity (z : zeb) : res zeb :=
    do s <- gravity_shift (zl z) (zb z);
    let r := zr z in
    do c <- vaddE (rcom r) s;
    Ok (z_setRefs z (MkZR (rvel r) (rpos r) (rcop r) (rcom r) c s)).
  (** tiltMinObj_.updateTiltContactPoint(), tiltVelMinObj_.updateTiltContactPoint(),
      zebulon_tilt_minimization_objective.cpp:70-91 *)
  Definition z_contact (z : zeb) : res zeb :=
    let o := zo z in
    do t <- tilt_contact (zl z) (zb z) (otilt o);
    do tv <- tilt_contact (zl z) (zb z) (otiltV o);
    Ok (z_setObjs z (MkZO (ovelH o) (oposH o) (ojerkH o) t tv
                       (ocopH o) (ocomH o) (ocopC o) (ocomC o) (omotG o) (otmG o))).

  (** zebulon_walkgen.cpp:590-703, M1: the number of CoP constraints (0 when switched off). *)
  Definition z_M1 (z : zeb) : nat := if zcCop (zc z) then bN (zb z) * length (pverts (bcopPoly (zb z))) else 0.
  (** zebulon_walkgen.cpp:590-703, M2: the number of base motion constraints. *)
  Definition z_M2 (z : zeb) : nat := if zcBase (zc z) then bN (zb z) * 4 else 0.
  (** zebulon_walkgen.cpp:590-703, M3: the number of CoM constraints. *)
  Definition z_M3 (z : zeb) : nat := if zcCom (zc z) then bN (zb z) * length (pverts (bcomPoly (zb z))) else 0.
  (** zebulon_walkgen.cpp:590-703, M4: the number of tilt motion constraints. *)
  Definition z_M4 (z : zeb) : nat := if zcTilt (zc z) then bN (zb z) * 2 else 0.
  (** zebulon_walkgen.cpp:590-703: the number of constraints. *)
  Definition z_M (z : zeb) : nat := z_M1 z + z_M2 z + z_M3 z + z_M4 z.

  (** zebulon_walkgen.cpp:590-703: Q.block(2*N, 2*N, 2*N, 2*N) += w*H, when w > 0. *)
  Definition addWblock (N : nat) (w : K) (H Q : mat K) : mat K :=
    if s0 <? w then maddblock Q (2 * N) (2 * N) (mscale w H) else Q.
  (** Q += w*H for an objective whose Hessian may be unspecified: the coefficients of the problem
      are unspecified as soon as it is used. *)
  Definition addWo (w : K) (t : option tilt) (Q : mat K) : res (mat K) :=
    if s0 <? w then match t with Some t => Ok (madd Q (mscale w (tH t))) | None => Nan end else Ok Q.
  (** zebulon_walkgen.cpp:590-703: the size assertion on the Hessian of a tilt objective. *)
  Definition tiltSize (t : option tilt) (n : nat) : bool :=
    match t with Some t => hasSize (tH t) n n | None => true end.
  (** zebulon_walkgen.cpp:590-703 computeConstantPart; 705-739 computeNormalizationFactor is the
      loop of [getNormalizationFactor] with EPSILON *)
  Definition z_compute (z : zeb) : res zeb :=
    let N := lN (zl z) in
    let o := zo z in
    let w := zw z in
    let M1 := z_M1 z in let M2 := z_M2 z in let M3 := z_M3 z in let M4 := z_M4 z in
    let M := z_M z in
    do _ <- guard (Nat.eqb (bN (zb z)) (lN (zl z)));
    do _ <- guard (hasSize (ovelH o) (2 * N) (2 * N));
    do _ <- guard (hasSize (oposH o) (2 * N) (2 * N));
    do _ <- guard (hasSize (ocopH o) (4 * N) (4 * N));
    do _ <- guard (hasSize (ocomH o) (4 * N) (4 * N));
    do _ <- guard (hasSize (ojerkH o) (4 * N) (4 * N));
    do _ <- guard (tiltSize (otilt o) (4 * N));
    do _ <- guard (tiltSize (otiltV o) (4 * N));
    do _ <- guard (negb (zcCop (zc z)) || hasSize (pcG (ocopC o)) M1 (4 * N));
    do _ <- guard (negb (zcCom (zc z)) || hasSize (pcG (ocomC o)) M3 (4 * N));
    do _ <- guard (negb (zcBase (zc z)) || hasSize (omotG o) M2 (2 * N));
    do _ <- guard (negb (zcTilt (zc z)) || hasSize (otmG o) M4 (4 * N));
    let Q := addWblock N (zwPos w) (oposH o) (addWblock N (zwVel w) (ovelH o) (mzero (4 * N) (4 * N))) in
    let Q := addW (zwJerk w) (ojerkH o) (addW (zwCom w) (ocomH o) (addW (zwCop w) (ocopH o) Q)) in
    do Q <- addWo (zwTilt w) (otilt o) Q;
    do Q <- addWo (zwTiltVel w) (otiltV o) Q;
    let A := mzero M (4 * N) in
    let A := if zcCop (zc z) then msetblock A 0 0 (pcG (ocopC o)) else A in
    let A := if zcBase (zc z) then msetblock A M1 (2 * N) (omotG o) else A in
    let A := if zcCom (zc z) then msetblock A (M1 + M2) 0 (pcG (ocomC o)) else A in
    let A := if zcTilt (zc z) then msetblock A (M1 + M2 + M3) 0 (otmG o) else A in
    let fo := getNormalizationFactor Q EPS in
    let fc := getNormalizationFactor A EPS in
    Ok (z_setQP z (MkQP (mscale fo Q) (vzero (4 * N)) (vzero (4 * N)) (vzero (4 * N)) (mscale fc A) (vzero M) (vzero M))
          (newSolver (4 * N) M) fo fc).

  (** Helper of the model (no counterpart in the code): empty objects before the constructors of the
      objectives have run (zebulon_walkgen.cpp:17-38). *)
  Definition z_blank : zobjs :=
    let e := mzero 1 1 in
    MkZO e e e None None e e (MkPC (mzero 0 0) (vzero 0) e) (MkPC (mzero 0 0) (vzero 0) e) e e.
  (** The constructors of the objectives, in the order of zebulon_walkgen.cpp:19-29, each of which
      ends with computeConstantPart() *)
  Definition z_objectives (z : zeb) : res zeb :=
    do z <- z_vel z; do z <- z_pos z; do z <- z_jerk z; do z <- z_tilt z; do z <- z_tiltV z;
    do z <- z_cop z; do z <- z_com z; do z <- z_copC z; do z <- z_comC z; do z <- z_motion z; z_tmotion z.
  (** zebulon_walkgen.cpp:17-38.  The default BaseModel leaves the tilt contact point
      uninitialised and the constructors of the tilt objectives read it; the two values found in
      memory are the arguments [ux], [uy].  (Reading them is undefined behaviour strictly speaking.) *)
  Definition newZeb (ux uy : K) : res zeb :=
    do l <- newLipDefault;
    do b <- newBaseDefault;
    let b := b_setMisc b (bvelLim b) (baccLim b) (bjerkLim b) (Some ux) (Some uy) (bcopPoly b) (bcomPoly b) in
    let N := lN l in
    let n2 := vzero (2 * N) in
    let z := MkZeb l b z_blank (MkZR n2 n2 n2 n2 n2 n2) (MkZW s0 s0 s0 s0 s0 s0 s0) (MkZC false false false false)
               (vzero (4 * N)) (vzero (4 * N))
               (MkQP (mzero 0 0) (vzero 0) (vzero 0) (vzero 0) (mzero 0 0) (vzero 0) (vzero 0)) (newSolver 1 1) s1 s1 in
    do z <- z_objectives z;
    z_compute z.

  (** zebulon_walkgen.cpp:43-68 *)
  Definition z_setNbSamples (n : nat) (z : zeb) : res zeb :=
    do _ <- guard (Nat.ltb 0 n);
    do l <- l_setNbSamples n (zl z);
    do b <- b_setNbSamples n (zb z);
    let z := z_setModels z l b in
    let r := zr z in
    let z := z_setRefs z (MkZR (rvel r) (rpos r) (rcop r) (vzero (2 * n)) (vzero (2 * n)) (vzero (2 * n))) in
    let z := z_setX z (vzero (4 * n)) (vzero (4 * n)) in
    do z <- z_jerk z; do z <- z_tilt z; do z <- z_tiltV z; do z <- z_copC z; do z <- z_comC z;
    do z <- z_cop z; do z <- z_com z; do z <- z_vel z; do z <- z_pos z; do z <- z_motion z; do z <- z_tmotion z;
    z_compute z.
  (** zebulon_walkgen.cpp:70-90 *)
  Definition z_setSamplingPeriod (T : K) (z : zeb) : res zeb :=
    do _ <- guard (s0 <? T);
    do l <- l_setSamplingPeriod T (zl z);
    do b <- b_setSamplingPeriod T (zb z);
    let z := z_setModels z l b in
    do z <- z_copC z; do z <- z_comC z; do z <- z_cop z; do z <- z_com z; do z <- z_vel z; do z <- z_pos z;
    do z <- z_motion z; do z <- z_tmotion z; do z <- z_tilt z; do z <- z_tiltV z;
    z_compute z.
  (** zebulon_walkgen.cpp:92-105 *)
  Definition z_setGravity (g : vec3 K) (z : zeb) : res zeb :=
    do _ <- guard (EPS <? sabs (gz g));
    do l <- l_setGravity g (zl z);
    do b <- b_setGravity g (zb z);
    let z := z_setModels z l b in
    do z <- z_copC z; do z <- z_cop z; do z <- z_gravity z;
    z_compute z.
  (** zebulon_walkgen.cpp:107-129 *)
  Definition z_setBaseCopConvexPolygon (p : polygon K) (z : zeb) : res zeb :=
    do _ <- guard (Nat.leb 3 (length (pverts p)));
    do b <- b_setCopSupportConvexPolygon p (zb z);
    do z <- z_copC (z_setModels z (zl z) b);
    z_compute z.
  (** zebulon_walkgen.cpp:119-129 *)
  Definition z_setBaseComConvexPolygon (p : polygon K) (z : zeb) : res zeb :=
    do _ <- guard (Nat.leb 3 (length (pverts p)));
    do b <- b_setComSupportConvexPolygon p (zb z);
    do z <- z_comC (z_setModels z (zl z) b);
    z_compute z.
  (** zebulon_walkgen.cpp:131-153; the third coordinate of the points is dropped *)
  Definition z_setBaseCopHull (p : list (vec3 K)) (z : zeb) : res zeb :=
    do q <- makePolygon (map (fun v => (gx v, gy v)) p);
    z_setBaseCopConvexPolygon q z.
  (** zebulon_walkgen.cpp:144-153 *)
  Definition z_setBaseComHull (p : list (vec3 K)) (z : zeb) : res zeb :=
    do q <- makePolygon (map (fun v => (gx v, gy v)) p);
    z_setBaseComConvexPolygon q z.
  (** zebulon_walkgen.cpp:155-169 *)
  Definition z_setComBodyHeight (h : K) (z : zeb) : res zeb :=
    do l <- l_setComHeight h (zl z);
    let z := z_setModels z l (zb z) in
    do z <- z_copC z; do z <- z_cop z; do z <- z_gravity z; do z <- z_tilt z; do z <- z_tiltV z;
    z_compute z.
  (** zebulon_walkgen.cpp:171-183 *)
  Definition z_setComBaseHeight (h : K) (z : zeb) : res zeb :=
    do b <- b_setComHeight h (zb z);
    let z := z_setModels z (zl z) b in
    do z <- z_copC z; do z <- z_cop z; do z <- z_gravity z;
    z_compute z.
  (** zebulon_walkgen.cpp:185-204 *)
  Definition z_setBodyMass (mass : K) (z : zeb) : res zeb :=
    let total := mass + bm (zb z) in
    do l <- l_setTotalMass total (zl z);
    do b <- b_setTotalMass total (zb z);
    do l <- l_setMass mass l;
    let z := z_setModels z l b in
    do z <- z_copC z; do z <- z_cop z; do z <- z_gravity z; do z <- z_tilt z; do z <- z_tiltV z;
    z_compute z.
  (** zebulon_walkgen.cpp:206-224 *)
  Definition z_setBaseMass (mass : K) (z : zeb) : res zeb :=
    let total := lm (zl z) + mass in
    do l <- l_setTotalMass total (zl z);
    do b <- b_setTotalMass total (zb z);
    do b <- b_setMass mass b;
    let z := z_setModels z l b in
    do z <- z_copC z; do z <- z_cop z; do z <- z_gravity z; do z <- z_tilt z; do z <- z_tiltV z;
    z_compute z.
  (** zebulon_walkgen.cpp:226-256 and the setters of the objectives *)
  Definition z_setVelRef (v : vec K) (z : zeb) : res zeb :=
    do _ <- guard (Nat.eqb (vlen v) (bN (zb z) * 2));
    let r := zr z in Ok (z_setRefs z (MkZR v (rpos r) (rcop r) (rcom r) (rshift r) (rgrav r))).
  (** zebulon_walkgen.cpp:234-240 *)
  Definition z_setPosRef (v : vec K) (z : zeb) : res zeb :=
    do _ <- guard (Nat.eqb (vlen v) (bN (zb z) * 2));
    let r := zr z in Ok (z_setRefs z (MkZR (rvel r) v (rcop r) (rcom r) (rshift r) (rgrav r))).
  (** zebulon_walkgen.cpp:242-248 *)
  Definition z_setCopRef (v : vec K) (z : zeb) : res zeb :=
    do _ <- guard (Nat.eqb (vlen v) (lN (zl z) * 2));
    do _ <- agree (zl z) (zb z);
    let r := zr z in Ok (z_setRefs z (MkZR (rvel r) (rpos r) v (rcom r) (rshift r) (rgrav r))).
  (** zebulon_walkgen.cpp:250-256 *)
  Definition z_setComRef (v : vec K) (z : zeb) : res zeb :=
    do _ <- guard (Nat.eqb (vlen v) (lN (zl z) * 2));
    do _ <- agree (zl z) (zb z);
    let r := zr z in
    do s <- vaddE v (rgrav r);
    Ok (z_setRefs z (MkZR (rvel r) (rpos r) (rcop r) v s (rgrav r))).
  (** zebulon_walkgen.cpp:258-281 *)
  Definition z_setComAndCopRef (comPos comAcc basePos baseAcc : vec K) (z : zeb) : res zeb :=
    let n := (2 * lN (zl z))%nat in
    do _ <- guard (Nat.eqb (vlen comPos) n); do _ <- guard (Nat.eqb (vlen basePos) n);
    do _ <- guard (Nat.eqb (vlen comAcc) n); do _ <- guard (Nat.eqb (vlen baseAcc) n);
    do z <- z_setComRef (vsub comPos basePos) z;
    do c <- cop_ref_in_world (zl z) (zb z) comPos comAcc basePos baseAcc;
    let r := zr z in Ok (z_setRefs z (MkZR (rvel r) (rpos r) c (rcom r) (rshift r) (rgrav r))).
  (** zebulon_walkgen.cpp:286-373: limits and states are passed on to the models *)
  Definition z_onBase (c : bcall K) (z : zeb) : res zeb :=
    do b <- bstep c (zb z); Ok (z_setModels z (zl z) b).
  (** Helper of the model (no counterpart in the code): a call on the LIP model. *)
  Definition z_onLip (c : lcall K) (z : zeb) : res zeb :=
    do l <- lstep c (zl z); Ok (z_setModels z l (zb z)).
  (** zebulon_walkgen.cpp:346-355 *)
  Definition z_setBaseStateYaw (v : vec K) (z : zeb) : res zeb :=
    do b <- b_setStateYaw v (zb z);
    do z <- z_tmotion (z_setModels z (zl z) b);
    z_compute z.
  (** zebulon_walkgen.cpp:375-391 *)
  Definition z_setTiltContactPointX (x : K) (z : zeb) : res zeb :=
    do b <- b_setTiltContactPointX x (zb z); z_contact (z_setModels z (zl z) b).
  (** zebulon_walkgen.cpp:384-391 *)
  Definition z_setTiltContactPointY (y : K) (z : zeb) : res zeb :=
    do b <- b_setTiltContactPointY y (zb z); z_contact (z_setModels z (zl z) b).
  (** zebulon_walkgen.cpp:393-406 *)
  Definition z_setWeightings (w : zweights) (z : zeb) : res zeb :=
    do _ <- guard (s0 <=? zwCop w); do _ <- guard (s0 <=? zwCom w); do _ <- guard (s0 <=? zwVel w);
    do _ <- guard (s0 <=? zwVel w); do _ <- guard (s0 <=? zwJerk w); do _ <- guard (s0 <=? zwTilt w);
    z_compute (z_setOpts z w (zc z)).
  (** zebulon_walkgen.cpp:408-418 *)
  Definition z_setConfig (c : zconfig) (z : zeb) : res zeb := z_compute (z_setOpts z (zw z) c).

  (** zebulon_walkgen.cpp:420-563: p.segment(2*N, 2*N) += w*gradient, when w > 0. *)
  Definition addGseg (N : nat) (w : K) (g p : vec K) : res (vec K) :=
    if s0 <? w then do _ <- guard (Nat.eqb (vlen g) (2 * N)); do _ <- guard (Nat.leb (4 * N) (vlen p));
                    Ok (vaddseg p (2 * N) (vscale w g))
    else Ok p.
  (** zebulon_walkgen.cpp:420-563: p += w*gradient for an objective whose gradient may be unspecified. *)
  Definition addGo (w : K) (g : option (vec K)) (p : vec K) : res (vec K) :=
    if s0 <? w then match g with Some g => vaddE p (vscale w g) | None => Nan end else Ok p.
  (** zebulon_walkgen.cpp:420-563: the size assertion on such a gradient. *)
  Definition gradSize (g : option (vec K)) (n : nat) : bool :=
    match g with Some g => Nat.eqb (vlen g) n | None => true end.
  (** zebulon_walkgen.cpp:420-524: the problem handed to the solver *)
  Definition z_problem (z : zeb) : res (qpmats K) :=
    let N := lN (zl z) in
    let l := zl z in let b := zb z in let o := zo z in let r := zr z in let w := zw z in
    let M1 := z_M1 z in let M2 := z_M2 z in let M3 := z_M3 z in let M4 := z_M4 z in
    let X := zX z in
    do _ <- guard (Nat.leb (2 * N + 2 * N) (vlen X));
    let B := vseg X (2 * N) (2 * N) in
    do gv <- btrack_gradient b (bvelD b) (ovelH o) (rvel r) B;
    do _ <- guard (Nat.eqb (vlen gv) (2 * N));
    do gp <- btrack_gradient b (bposD b) (oposH o) (rpos r) B;
    do _ <- guard (Nat.eqb (vlen gp) (2 * N));
    do gc <- cop_gradient l b (ocopH o) (rcop r) X;
    do _ <- guard (Nat.eqb (vlen gc) (4 * N));
    do gm <- com_gradient l b (ocomH o) (rcom r) (rshift r) (rgrav r) X;
    do _ <- guard (Nat.eqb (vlen gm) (4 * N));
    do gj <- zjerk_gradient (bN b) X;
    do _ <- guard (Nat.eqb (vlen gj) (4 * N));
    do gt <- tilt_gradient l b (otilt o) X;
    do _ <- guard (gradSize gt (4 * N));
    do gw <- tilt_gradient l b (otiltV o) X;
    do _ <- guard (gradSize gw (4 * N));
    let q := zqp z in
    do p <- addGseg N (zwVel w) gv (vfill (vlen (qp q)) s0);
    do p <- addGseg N (zwPos w) gp p;
    do p <- addG (zwCop w) gc p;
    do p <- addG (zwCom w) gm p;
    do p <- addG (zwJerk w) gj p;
    do p <- addGo (zwTilt w) gt p;
    do p <- addGo (zwTiltVel w) gw p;
    let bu := vfill (vlen (qbu q)) MAXB in
    let bl := vfill (vlen (qbl q)) (- MAXB) in
    let xu := vfill (vlen (qxu q)) MAXB in
    let xl := vfill (vlen (qxl q)) (- MAXB) in
    do bl <- (if zcCop (zc z) then do f <- copc_function l b (ocopC o) X; vputE bl 0 M1 f else Ok bl);
    do bl <- (if zcBase (zc z) then do f <- bmotion_inf b (omotG o) B; vputE bl M1 M2 f else Ok bl);
    do bu <- (if zcBase (zc z) then do f <- bmotion_sup b (omotG o) B; vputE bu M1 M2 f else Ok bu);
    do xu <- (if zcBase (zc z) then vputE xu (2 * N) (2 * N) (vsub (vfill (2 * N) (bjerkLim b)) B) else Ok xu);
    do xl <- (if zcBase (zc z) then vputE xl (2 * N) (2 * N) (vsub (vfill (2 * N) (- bjerkLim b)) B) else Ok xl);
    do bl <- (if zcCom (zc z) then do f <- comc_function l b (ocomC o) X; vputE bl (M1 + M2) M3 f else Ok bl);
    do bl <- (if zcTilt (zc z) then do f <- tmotion_function l b (otmG o) X; vputE bl (M1 + M2 + M3) M4 f else Ok bl);
    do bu <- (if zcTilt (zc z) then do f <- tmotion_function l b (otmG o) X; vputE bu (M1 + M2 + M3) M4 f else Ok bu);
    Ok (MkQP (qQ q) (vscale (zfo z) p) xl xu (qA q) (vscale (zfc z) bu) (vscale (zfc z) bl)).
  (** zebulon_walkgen.cpp:420-563 solve; the returned flag and the new object *)
  Definition z_solve (o : oracle K) (feedBackPeriod : K) (z : zeb) : res (bool * zeb) :=
    do q <- z_problem z;
    do _ <- guard (s0 <? feedBackPeriod);
    do r <- solver_solve o (zsol z) q 10000%Z (zdX z) true false;
    let '(s, dX, found) := r in
    do X <- vaddE (zX z) dX;
    let N := lN (zl z) in
    do l <- l_updateStateX (vget X 0) feedBackPeriod (zl z);
    do l <- l_updateStateY (vget X N) feedBackPeriod l;
    do b <- b_updateStateX (vget X (2 * N)) feedBackPeriod (zb z);
    do b <- b_updateStateY (vget X (3 * N)) feedBackPeriod b;
    Ok (found, MkZeb l b (zo z) (zr z) (zw z) (zc z) dX X q s (zfo z) (zfc z)).

  (** The public interface of zebulon_walkgen.h:46-106 as a type of calls. *)
  Inductive zcall : Type :=
  | ZSetNbSamples (n : nat) | ZSetSamplingPeriod (T : K) | ZSetGravity (g : vec3 K)
  | ZSetCopPolygon (p : polygon K) | ZSetComPolygon (p : polygon K)
  | ZSetCopHull (p : list (vec3 K)) | ZSetComHull (p : list (vec3 K))
  | ZSetBodyHeight (h : K) | ZSetBaseHeight (h : K) | ZSetBodyMass (m : K) | ZSetBaseMass (m : K)
  | ZSetVelRef (v : vec K) | ZSetPosRef (v : vec K) | ZSetCopRef (v : vec K) | ZSetComRef (v : vec K)
  | ZSetComAndCopRef (comPos comAcc basePos baseAcc : vec K)
  | ZSetVelLimit (l : K) | ZSetAccLimit (l : K) | ZSetJerkLimit (l : K)
  | ZSetBaseStateX (v : vec K) | ZSetBaseStateY (v : vec K) | ZSetRoll (v : vec K) | ZSetPitch (v : vec K) | ZSetYaw (v : vec K)
  | ZSetComStateX (v : vec K) | ZSetComStateY (v : vec K)
  | ZSetContactX (x : K) | ZSetContactY (y : K)
  | ZSetWeightings (w : zweights) | ZSetConfig (c : zconfig)
  | ZSolve (o : oracle K) (feedBackPeriod : K).
  (** One call of the public interface. *)
  Definition zstep (c : zcall) (z : zeb) : res zeb :=
    match c with
    | ZSetNbSamples n => z_setNbSamples n z
    | ZSetSamplingPeriod T => z_setSamplingPeriod T z
    | ZSetGravity g => z_setGravity g z
    | ZSetCopPolygon p => z_setBaseCopConvexPolygon p z
    | ZSetComPolygon p => z_setBaseComConvexPolygon p z
    | ZSetCopHull p => z_setBaseCopHull p z
    | ZSetComHull p => z_setBaseComHull p z
    | ZSetBodyHeight h => z_setComBodyHeight h z
    | ZSetBaseHeight h => z_setComBaseHeight h z
    | ZSetBodyMass m => z_setBodyMass m z
    | ZSetBaseMass m => z_setBaseMass m z
    | ZSetVelRef v => z_setVelRef v z
    | ZSetPosRef v => z_setPosRef v z
    | ZSetCopRef v => z_setCopRef v z
    | ZSetComRef v => z_setComRef v z
    | ZSetComAndCopRef a b c d => z_setComAndCopRef a b c d z
    | ZSetVelLimit x => z_onBase (BSetVelocityLimit x) z
    | ZSetAccLimit x => z_onBase (BSetAccelerationLimit x) z
    | ZSetJerkLimit x => z_onBase (BSetJerkLimit x) z
    | ZSetBaseStateX v => z_onBase (BSetStateX v) z
    | ZSetBaseStateY v => z_onBase (BSetStateY v) z
    | ZSetRoll v => z_onBase (BSetStateRoll v) z
    | ZSetPitch v => z_onBase (BSetStatePitch v) z
    | ZSetYaw v => z_setBaseStateYaw v z
    | ZSetComStateX v => z_onLip (LSetStateX v) z
    | ZSetComStateY v => z_onLip (LSetStateY v) z
    | ZSetContactX x => z_setTiltContactPointX x z
    | ZSetContactY y => z_setTiltContactPointY y z
    | ZSetWeightings w => z_setWeightings w z
    | ZSetConfig c => z_setConfig c z
    | ZSolve o f => do r <- z_solve o f z; Ok (snd r)
    end.
  (** A history of calls, which stops at the first one that does not return. *)
  Fixpoint zsteps (cs : list zcall) (z : zeb) : res zeb :=
    match cs with [] => Ok z | c :: r => do z' <- zstep c z; zsteps r z' end.
End Zeb.
Arguments tilt : clear implicits.
Arguments pctr : clear implicits.
Arguments zweights : clear implicits.
Arguments zobjs : clear implicits.
Arguments zrefs : clear implicits.
Arguments zeb : clear implicits.
Arguments zcall : clear implicits.
