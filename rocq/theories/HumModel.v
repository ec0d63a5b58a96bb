(** Model of src/humanoid_walkgen.cpp, mpc-walkgen/humanoid_walkgen.h and
    src/function/humanoid_*.cpp. *)

From Coq Require Import List ZArith Arith Bool.
From Verif Require Import Scalar LinAlg ToolsModel NoDynModel PolygonModel QPModel TrajModel LipModel FootModel SupModel.
Import ListNotations.

Section Hum.
  Context {K : Type} {SK : Scalar K} {TK : Trig K}.
  Local Open Scope sc_scope.

  (** ** Eigen *)
  (** Helper of the model (no counterpart in the code): Eigen's m.block(r, c, nr, nc). *)
  Definition mblock (m : mat K) (r c nr nc : nat) : mat K := MkMat nr nc (fun i j => mget m (r + i) (c + j)).
  (** Helper of the model (no counterpart in the code): a matrix with one column times a number, as a vector.
      *)
  Definition colTimes (m : mat K) (x : K) : vec K := MkVec (mrows m) (fun i => mget m i 0 * x).
  (** Helper of the model (no counterpart in the code): std::min, of cwiseMin. *)
  Definition smin (a b : K) : K := if b <? a then b else a.
  (** Helper of the model (no counterpart in the code): std::max, of cwiseMax. *)
  Definition smax (a b : K) : K := if a <? b then b else a.
  (** Helper of the model (no counterpart in the code): v.segment(off, w.size()) = v.segment(off,
      w.size()).cwiseMin(w) or cwiseMax(w). *)
  Definition vcwise (f : K -> K -> K) (v : vec K) (off : nat) (w : vec K) : vec K :=
    MkVec (vlen v) (fun i => if (Nat.leb off i && Nat.ltb i (off + vlen w))%bool then f (vget v i) (vget w (i - off)) else vget v i).
  (** Helper of the model (no counterpart in the code): its assertions: the segment [off, off + n) is inside v
      and w has n entries. *)
  Definition vcwiseE (f : K -> K -> K) (v : vec K) (off n : nat) (w : vec K) : res (vec K) :=
    do _ <- guard (Nat.leb (off + n) (vlen v)); do _ <- guard (Nat.eqb n (vlen w)); Ok (vcwise f v off w).
  (** Helper of the model (no counterpart in the code): m.block(r, 0, nr, nc) += b. *)
  Definition maddblockE (m : mat K) (r nr nc : nat) (b : mat K) : res (mat K) :=
    do _ <- guard (Nat.leb (r + nr) (mrows m) && Nat.leb nc (mcols m))%bool;
    do _ <- guard (hasSize b nr nc);
    Ok (maddblock m r 0 b).
  (** Helper of the model (no counterpart in the code): an inverse whose coefficients are not numbers makes
      the result not a number. *)
  Definition oinv (m : option (mat K)) : res (mat K) := match m with Some v => Ok v | None => Nan end.

  (** ** The objectives.  Every product below has matching sizes when the two models have the same
      number of samples: the dynamics of the LIP model are computed for N samples by each of its
      setters, and solve updates the timeline first.  Eigen's size assertions inside the products are
      not repeated. *)
  (** int nb = getNbOfCallsBeforeNextSample() - 1 (humanoid_lip_com_jerk_minimization_objective.cpp:40, 81).
      *)
  Definition h_nb (s : sup K) : res Z := do n <- s_getNbOfCallsBeforeNextSample s; Ok (n - 1)%Z.
  (** humanoid_lip_com_jerk_minimization_objective.cpp:86-90 and the same in the velocity objective, 101-105 *)
  Definition h_tmp (N M : nat) (s : sup K) : mat K :=
    let d := selDyn (ssel s) in
    msetblock (msetblock (msetblock (mzero (2 * N) (2 * N + 2 * M)) 0 0 (selRotT (ssel s)))
                 0 (2 * N) (dU d)) N (2 * N + M) (dU d).
  (** humanoid_lip_com_jerk_minimization_objective.cpp:51-54, velocity objective, 73-77 *)
  Definition h_tmpT (N M : nat) (s : sup K) : mat K :=
    let d := selDyn (ssel s) in
    msetblock (msetblock (msetblock (mzero (2 * N + 2 * M) (2 * N)) 0 0 (selRot (ssel s)))
                 (2 * N) 0 (dUT d)) (2 * N + M) N (dUT d).
  (** Helper of the model (no counterpart in the code): the two diagonal blocks of tmp2. *)
  Definition diag2 (N : nat) (a b : mat K) : mat K :=
    msetblock (msetblock (mzero (2 * N) (2 * N)) 0 0 a) N N b.
  (** Helper of the model (no counterpart in the code): the two segments of tmp2. *)
  Definition stack2 (N : nat) (a b : vec K) : vec K := vsetseg (vsetseg (vzero (2 * N)) 0 a) N b.
  (** Helper of the model (no counterpart in the code): tmp.transpose()*tmp2*tmp. *)
  Definition sandwich (tmp tmp2 : mat K) : mat K := mmul (mmul (mtr tmp) tmp2) tmp.

  (** humanoid_lip_com_jerk_minimization_objective.cpp:74-101 getHessian *)
  Definition h_jerkHessian (l : lip K) (s : sup K) : res (mat K) :=
    do _ <- guard (Nat.eqb (sN s) (lN l));
    let N := lN l in
    let M := snb s in
    do nb <- h_nb s;
    do cx <- l_getCopX l nb;
    do cy <- l_getCopY l nb;
    do xi <- oinv (dUinv cx); do xt <- oinv (dUTinv cx);
    do yi <- oinv (dUinv cy); do yt <- oinv (dUTinv cy);
    let W := selW (ssel s) in
    Ok (sandwich (h_tmp N M s) (diag2 N (mmul (mmul xt W) xi) (mmul (mmul yt W) yi))).
  (** humanoid_lip_com_jerk_minimization_objective.cpp:33-70 getGradient *)
  Definition h_jerkGradient (l : lip K) (s : sup K) (x0 : vec K) : res (vec K) :=
    do _ <- guard (Nat.eqb (vlen x0) (2 * lN l + 2 * snb s));
    let N := lN l in
    let M := snb s in
    do nb <- h_nb s;
    do cx <- l_getCopX l nb;
    do cy <- l_getCopY l nb;
    do xi <- oinv (dUinv cx); do xt <- oinv (dUTinv cx);
    do yi <- oinv (dUinv cy); do yt <- oinv (dUTinv cy);
    let W := selW (ssel s) in
    let S := dS (selDyn (ssel s)) in
    do fx <- s_getSupportFootStateX s; do fx <- vread fx 0;
    do fy <- s_getSupportFootStateY s; do fy <- vread fy 0;
    let ax := mmul (mmul xt W) xi in
    let ay := mmul (mmul yt W) yi in
    let gx := vsub (mv ax (colTimes S fx)) (mv ax (vadd (mv (dS cx) (vec_of_st3 (lsx l))) (dK cx))) in
    let gy := vsub (mv ay (colTimes S fy)) (mv ay (vadd (mv (dS cy) (vec_of_st3 (lsy l))) (dK cy))) in
    do H <- h_jerkHessian l s;
    Ok (vadd (mv (h_tmpT N M s) (stack2 N gx gy)) (mv H x0)).

  (** humanoid_lip_com_velocity_tracking_objective.cpp:86-116 getHessian *)
  Definition h_velHessian (l : lip K) (s : sup K) : res (mat K) :=
    do _ <- guard (Nat.eqb (sN s) (lN l));
    let N := lN l in
    let M := snb s in
    do nb <- h_nb s;
    do cx <- l_getCopX l nb;
    do cy <- l_getCopY l nb;
    do v <- l_getComVel l nb;
    do xi <- oinv (dUinv cx); do xt <- oinv (dUTinv cx);
    do yi <- oinv (dUinv cy); do yt <- oinv (dUTinv cy);
    let W := selW (ssel s) in
    Ok (sandwich (h_tmp N M s)
          (diag2 N (mmul (mmul (mmul (mmul xt (dUT v)) W) (dU v)) xi) (mmul (mmul (mmul (mmul yt (dUT v)) W) (dU v)) yi))).
  (** humanoid_lip_com_velocity_tracking_objective.cpp:31-82 getGradient *)
  Definition h_velGradient (l : lip K) (s : sup K) (velRef x0 : vec K) : res (vec K) :=
    do _ <- guard (Nat.eqb (vlen velRef) (2 * lN l));
    do _ <- guard (Nat.eqb (vlen x0) (2 * sN s + 2 * snb s));
    let N := lN l in
    let M := snb s in
    do nb <- h_nb s;
    do cx <- l_getCopX l nb;
    do cy <- l_getCopY l nb;
    do v <- l_getComVel l nb;
    do xi <- oinv (dUinv cx); do xt <- oinv (dUTinv cx);
    do yi <- oinv (dUinv cy); do yt <- oinv (dUTinv cy);
    let W := selW (ssel s) in
    let S := dS (selDyn (ssel s)) in
    do fx <- s_getSupportFootStateX s; do fx <- vread fx 0;
    do fy <- s_getSupportFootStateY s; do fy <- vread fy 0;
    let sx := vec_of_st3 (lsx l) in
    let sy := vec_of_st3 (lsy l) in
    let ex := vsub (vadd (vsub (mv (dS v) sx) (mv (mmul (dU v) xi) (vadd (mv (dS cx) sx) (dK cx))))
                         (mv (mmul (dU v) xi) (colTimes S fx))) (vseg velRef 0 N) in
    let ey := vsub (vadd (vsub (mv (dS v) sy) (mv (mmul (dU v) yi) (vadd (mv (dS cy) sy) (dK cy))))
                         (mv (mmul (dU v) yi) (colTimes S fy))) (vseg velRef N N) in
    let gx := mv (mmul xt (dUT v)) (mv W ex) in
    let gy := mv (mmul yt (dUT v)) (mv W ey) in
    do H <- h_velHessian l s;
    Ok (vadd (mv (h_tmpT N M s) (stack2 N gx gy)) (mv H x0)).

  (** humanoid_cop_centering_objective.cpp:41-51 getHessian *)
  Definition h_copHessian (l : lip K) (s : sup K) : mat K :=
    let N := lN l in
    let M := snb s in
    msetblock (mid (2 * N + 2 * M)) (2 * N) (2 * N) (mzero (2 * M) (2 * M)).
  (** humanoid_cop_centering_objective.cpp:31-39 getGradient *)
  Definition h_copGradient (l : lip K) (s : sup K) (x0 : vec K) : res (vec K) :=
    do _ <- guard (Nat.eqb (sN s) (lN l));
    do _ <- guard (Nat.eqb (vlen x0) (2 * lN l + 2 * snb s));
    Ok (mv (h_copHessian l s) x0).

  (** ** The constraints *)
  (** Helper of the model (no counterpart in the code): a general constraint: its row of A, and its entry of
      b. *)
  Definition crow : Type := ((nat -> K) * K)%type.
  (** Helper of the model (no counterpart in the code): one entry of a row. *)
  Definition upd (f : nat -> K) (k : nat) (x : K) : nat -> K := fun c => if Nat.eqb c k then x else f c.
  (** Helper of the model (no counterpart in the code): a row of zeros. *)
  Definition zrow : nat -> K := fun _ => s0.
  (** Helper of the model (no counterpart in the code): A_ filled row after row, in the order of the two
      nested loops. *)
  Definition rowsA (size : nat) (rows : list crow) : mat K :=
    MkMat (length rows) size (fun r c => fst (nth r rows (zrow, s0)) c).
  (** Helper of the model (no counterpart in the code): b_ filled row after row. *)
  Definition rowsB (rows : list crow) : vec K := MkVec (length rows) (fun r => snd (nth r rows (zrow, s0))).
  (** A_*x0 + b_, humanoid_cop_constraint.cpp:48-58, humanoid_foot_constraint.cpp:51-62 *)
  Definition rowsF (rows : list crow) (x0 : vec K) : vec K := vadd (mv (rowsA (vlen x0) rows) x0) (rowsB rows).

  (** humanoid_cop_constraint.cpp:135-146: the body of the inner loop *)
  Definition copRow (N i : nat) (c : K * K * K) : crow :=
    let '(ax, ay, k) := c in (upd (upd zrow i ax) (i + N) ay, k).
  (** humanoid_cop_constraint.cpp:98-149 *)
  Definition copRows (N : nat) (s : sup K) : res (list crow) :=
    do l <- tabulateM (fun i => do p <- s_getCopConvexPolygon i s; Ok (map (copRow N i) (pgen p))) N;
    Ok (concat l).
  (** humanoid_foot_constraint.cpp:137-170: the body of the inner loop; fx, fy is the support foot *)
  Definition footRow (N M i : nat) (fx fy : K) (c : K * K * K) : crow :=
    let '(ax, ay, k) := c in
    let r := upd (upd zrow (2 * N + i) ax) (2 * N + M + i) ay in
    match i with
    | O => (r, k - (ax * fx + ay * fy))
    | S i' => let r1 := upd r (2 * N + i') (r (2 * N + i')%nat - ax) in
              (upd r1 (2 * N + i' + M) (r1 (2 * N + i' + M)%nat - ay), k)
    end.
  (** humanoid_foot_constraint.cpp:104-174.  The support foot is read only when the first polygon has
      a general constraint. *)
  Definition footRows (N : nat) (s : sup K) : res (list crow) :=
    let M := snb s in
    do l <- tabulateM (fun i =>
              do p <- s_getKinematicConvexPolygon i s;
              if (Nat.eqb i 0 && negb (Nat.eqb (length (pgen p)) 0))%bool then
                do vx <- s_getSupportFootStateX s; do fx <- vread vx 0;
                do vy <- s_getSupportFootStateY s; do fy <- vread vy 0;
                Ok (map (footRow N M i fx fy) (pgen p))
              else Ok (map (footRow N M i s0 s0) (pgen p))) M;
    Ok (concat l).

  (** humanoid_cop_constraint.cpp:151-172 computeBoundsVectors: (infBound_, supBound_).  [len] is the
      size of the two vectors, set by computeConstantPart. *)
  Definition copBounds (N len : nat) (s : sup K) (x0 : vec K) : res (vec K * vec K) :=
    do ps <- tabulateM (fun i => s_getCopConvexPolygon i s) N;
    do _ <- guard (Nat.eqb len (2 * N));
    let p i := nth i ps emptyPolygon in
    Ok (MkVec len (fun k => (if Nat.ltb k N then xInf (p k) else yInf (p (k - N)%nat)) - vget x0 k),
        MkVec len (fun k => (if Nat.ltb k N then xSup (p k) else ySup (p (k - N)%nat)) - vget x0 k)).
  (** humanoid_foot_constraint.cpp:176-217 computeBoundsVectors; [x0] is the part of X_ holding the steps *)
  Definition footBounds (s : sup K) (x0 : vec K) : res (vec K * vec K) :=
    let M := snb s in
    do ps <- tabulateM (fun i => s_getKinematicConvexPolygon i s) M;
    do f <- (match M with
             | O => Ok (s0, s0)
             | S _ => do vx <- s_getSupportFootStateX s; do fx <- vread vx 0;
                      do vy <- s_getSupportFootStateY s; do fy <- vread vy 0; Ok (fx, fy)
             end);
    let '(fx, fy) := f in
    let p i := nth i ps emptyPolygon in
    let prevX i := match i with O => fx | S j => vget x0 j end in
    let prevY i := match i with O => fy | S j => vget x0 (M + j) end in
    Ok (MkVec (2 * M) (fun k => if Nat.ltb k M then xInf (p k) + prevX k - vget x0 k
                                else yInf (p (k - M)%nat) + prevY (k - M)%nat - vget x0 k),
        MkVec (2 * M) (fun k => if Nat.ltb k M then xSup (p k) + prevX k - vget x0 k
                                else ySup (p (k - M)%nat) + prevY (k - M)%nat - vget x0 k)).

  (** ** The walk generator *)
  (** humanoid_walkgen_type.h:20-46 *)
  Record hweights : Type := MkHW { wVelT : K; wCopC : K; wJerkM : K }.
  (** humanoid_walkgen.h:153-196.  [hcopLen] is the size of the bound vectors of the CoP constraint.
      Of the tables qpMatrixVec_ and qpoasesSolverVec_ only the sizes (number of variables, number of
      constraints) are kept: solve overwrites every coefficient of the matrices it uses, and never hot
      starts a solver, so that what the solver remembers does not matter. *)
  Record hum : Type := MkHum {
    hsup : sup K; hlip : lip K; hvelRef : vec K; hcopLen : nat;
    hsolvers : list (nat * nat); hmats : list (nat * nat);
    hdX : vec K; hX : vec K; htX : vec K;
    hw : hweights; hcopC : bool; hfeetC : bool;
    hmaxC : nat; hmaxS : nat; hmove : bool; hfirst : bool }.
  (** Helper of the model (no counterpart in the code): replace the two models. *)
  Definition h_setModels h s l := MkHum s l (hvelRef h) (hcopLen h) (hsolvers h) (hmats h) (hdX h) (hX h) (htX h)
    (hw h) (hcopC h) (hfeetC h) (hmaxC h) (hmaxS h) (hmove h) (hfirst h).
  (** Helper of the model (no counterpart in the code): replace the feet supervisor. *)
  Definition h_setSup h s := h_setModels h s (hlip h).
  (** Helper of the model (no counterpart in the code): replace the LIP model. *)
  Definition h_setLip h l := h_setModels h (hsup h) l.

  (** humanoid_walkgen.cpp:472-498: the sizes in the order of the two loops *)
  Definition qpTable (N maxS maxC : nat) : list (nat * nat) :=
    flat_map (fun i => map (fun j => ((2 * N + 2 * i)%nat, j)) (seq 0 (maxC + 1))) (seq 0 (maxS + 1)).
  (** humanoid_walkgen.cpp:456-499 computeConstantPart.  qpMatrixVec_ is resized and every element is
      written; qpoasesSolverVec_ is only appended to. *)
  Definition h_computeConstantPart (h : hum) : hum :=
    let maxS := sN (hsup h) in
    let c1 := if hcopC h then (s_getMaximumNbOfCopConstraints (hsup h) * sN (hsup h))%nat else hmaxC h in
    let c2 := if hfeetC h then (c1 + s_getMaximumNbOfKinematicConstraints (hsup h) * maxS)%nat else c1 in
    let t := qpTable (lN (hlip h)) maxS c2 in
    MkHum (hsup h) (hlip h) (hvelRef h) (hcopLen h) (hsolvers h ++ t) t (hdX h) (hX h) (htX h)
      (hw h) (hcopC h) (hfeetC h) c2 maxS (hmove h) (hfirst h).

  (** humanoid_walkgen.cpp:19-38 *)
  Definition newHum : res hum :=
    do s <- newSupDefault;
    do l <- newLipDefault;
    let n := (2 * lN l + 2 * snb s)%nat in
    Ok (h_computeConstantPart
          (MkHum s l (vzero (2 * lN l)) (2 * lN l) [] [] (vzero n) (vzero n) (vzero 0)
             (MkHW s0 s0 s0) false false 0 0 false true)).

  (** humanoid_walkgen.cpp:44-62 *)
  Definition h_setNbSamples (n : nat) (h : hum) : res hum :=
    do _ <- guard (Nat.ltb 0 n);
    do l <- l_setNbSamples n (hlip h);
    do s <- s_setNbSamples n (hsup h);
    Ok (h_computeConstantPart
          (MkHum s l (hvelRef h) (2 * lN l) (hsolvers h) (hmats h)
             (vzero (2 * lN l + 2 * snb s)) (vzero (2 * sN s + 2 * snb s)) (htX h)
             (hw h) (hcopC h) (hfeetC h) (hmaxC h) (hmaxS h) (hmove h) (hfirst h))).
  (** humanoid_walkgen.cpp:64-73 *)
  Definition h_setSamplingPeriod (T : K) (h : hum) : res hum :=
    do _ <- guard (s0 <=? T);
    do l <- l_setSamplingPeriod T (hlip h);
    do s <- s_setSamplingPeriod T (hsup h);
    Ok (MkHum s l (hvelRef h) (2 * lN l) (hsolvers h) (hmats h) (hdX h) (hX h) (htX h)
          (hw h) (hcopC h) (hfeetC h) (hmaxC h) (hmaxS h) (hmove h) (hfirst h)).
  (** humanoid_walkgen.cpp:75-82 *)
  Definition h_setStepPeriod (p : K) (h : hum) : res hum :=
    do _ <- guard (s0 <? p);
    do _ <- guard (s0 <? p - sT (hsup h) + EPS);
    do s <- s_setStepPeriod p (hsup h); Ok (h_setSup h s).
  (** humanoid_walkgen.cpp:84-90 *)
  Definition h_setInitialDoubleSupportLength (L : K) (h : hum) : res hum :=
    do s <- s_setInitialDoubleSupportLength L (hsup h); Ok (h_setSup h s).
  (** humanoid_walkgen.cpp:92-118 *)
  Definition h_setKinematicConvexPolygon (d : side) (p : polygon K) (h : hum) : hum :=
    h_setSup h (s_setKinematicConvexPolygon d p (hsup h)).
  (** humanoid_walkgen.cpp:106-111, 113-118 *)
  Definition h_setCopConvexPolygon (d : side) (p : polygon K) (h : hum) : hum :=
    h_setSup h (s_setCopConvexPolygon d p (hsup h)).
  (** humanoid_walkgen.cpp:120-126; setAngularVelRefInWorldFrame (128-135) has no effect *)
  Definition h_setVelRef (r : vec K) (h : hum) : res hum :=
    do _ <- guard (Nat.eqb (vlen r) (2 * lN (hlip h)));
    Ok (MkHum (hsup h) (hlip h) r (hcopLen h) (hsolvers h) (hmats h) (hdX h) (hX h) (htX h)
          (hw h) (hcopC h) (hfeetC h) (hmaxC h) (hmaxS h) (hmove h) (hfirst h)).
  (** humanoid_walkgen.cpp:140-186 *)
  Definition h_setFootStateX (d : side) (v : vec K) (h : hum) : res hum :=
    do _ <- guard (Nat.eqb (vlen v) 3); do s <- s_setFootStateX d v (hsup h); Ok (h_setSup h s).
  (** humanoid_walkgen.cpp:148-154, 172-178 *)
  Definition h_setFootStateY (d : side) (v : vec K) (h : hum) : res hum :=
    do _ <- guard (Nat.eqb (vlen v) 3); do s <- s_setFootStateY d v (hsup h); Ok (h_setSup h s).
  (** humanoid_walkgen.cpp:156-162, 180-186 *)
  Definition h_setFootStateZ (d : side) (v : vec K) (h : hum) : res hum :=
    do _ <- guard (Nat.eqb (vlen v) 3); do s <- s_setFootStateZ d v (hsup h); Ok (h_setSup h s).
  (** humanoid_walkgen.cpp:188-212 *)
  Definition h_setComStateX (v : vec K) (h : hum) : res hum :=
    do _ <- guard (Nat.eqb (vlen v) 3); do l <- l_setStateX v (hlip h); Ok (h_setLip h l).
  (** humanoid_walkgen.cpp:196-202 *)
  Definition h_setComStateY (v : vec K) (h : hum) : res hum :=
    do _ <- guard (Nat.eqb (vlen v) 3); do l <- l_setStateY v (hlip h); Ok (h_setLip h l).
  (** humanoid_walkgen.cpp:204-212 *)
  Definition h_setComStateZ (v : vec K) (h : hum) : res hum :=
    do _ <- guard (Nat.eqb (vlen v) 3);
    do _ <- guard (vget v 1 =? s0);
    do _ <- guard (vget v 2 =? s0);
    do l <- l_setComHeight (vget v 0) (hlip h); Ok (h_setLip h l).
  (** humanoid_walkgen.cpp:214-224; the yaw bound setters (226-284) change nothing that is read *)
  Definition h_setMaxHeight (d : side) (z : K) (h : hum) : hum := h_setSup h (s_setMaxHeight d z (hsup h)).
  (** humanoid_walkgen.cpp:286-294: the assertions are on the weights stored before the call *)
  Definition h_setWeightings (w : hweights) (h : hum) : res hum :=
    do _ <- guard (s0 <=? wVelT (hw h));
    do _ <- guard (s0 <=? wCopC (hw h));
    do _ <- guard (s0 <=? wJerkM (hw h));
    Ok (MkHum (hsup h) (hlip h) (hvelRef h) (hcopLen h) (hsolvers h) (hmats h) (hdX h) (hX h) (htX h)
          w (hcopC h) (hfeetC h) (hmaxC h) (hmaxS h) (hmove h) (hfirst h)).
  (** humanoid_walkgen.cpp:296-302 *)
  Definition h_setConfig (withCop withFeet : bool) (h : hum) : hum :=
    h_computeConstantPart
      (MkHum (hsup h) (hlip h) (hvelRef h) (hcopLen h) (hsolvers h) (hmats h) (hdX h) (hX h) (htX h)
         (hw h) withCop withFeet (hmaxC h) (hmaxS h) (hmove h) (hfirst h)).
  (** humanoid_walkgen.cpp:304-313 *)
  Definition h_setMove (b : bool) (h : hum) : res hum :=
    let s := s_setMove b (hsup h) in
    do ds <- s_isInDS s;
    Ok (MkHum s (hlip h) (hvelRef h) (hcopLen h) (hsolvers h) (hmats h) (hdX h) (hX h) (htX h)
          (hw h) (hcopC h) (hfeetC h) (hmaxC h) (hmaxS h) b (if ds then true else hfirst h)).

  (** humanoid_walkgen.cpp:318-326: the timeline, the feedback period and the assertions *)
  Definition h_updateModels (fb : K) (h : hum) : res hum :=
    do q <- s_updateTimeline (hX h) fb (hsup h);
    let '(s, X) := q in
    do l <- (if EPS <? sabs (fb - lfb (hlip h)) then l_setFeedbackPeriod fb (hlip h) else Ok (hlip h));
    do _ <- guard (s0 <? fb);
    do _ <- guard (Nat.eqb (sN s) (lN l));
    Ok (MkHum s l (hvelRef h) (hcopLen h) (hsolvers h) (hmats h) (hdX h) X (htX h)
          (hw h) (hcopC h) (hfeetC h) (hmaxC h) (hmaxS h) (hmove h) (hfirst h)).
  (** humanoid_walkgen.cpp:331-333: the numbers of constraints *)
  Definition h_nbCtr (h : hum) : res (nat * nat) :=
    do c <- (if hcopC h then do r <- copRows (lN (hlip h)) (hsup h); Ok (length r) else Ok 0%nat);
    do f <- (if hfeetC h then do r <- footRows (lN (hlip h)) (hsup h); Ok (length r) else Ok 0%nat);
    Ok (c, f).
  (** humanoid_walkgen.cpp:337-356: the decision vector on the first call since the last double support *)
  Definition h_firstFill (h : hum) : res hum :=
    if hfirst h then
      let N := lN (hlip h) in
      let l := hlip h in
      let cx := pos (lsx l) - pos (lsz l) * acc (lsx l) / GRAVITY_NORM in
      let cy := pos (lsy l) - pos (lsz l) * acc (lsy l) / GRAVITY_NORM in
      let rot := selRot (ssel (hsup h)) in
      do lx <- vread (fsx (sleft (hsup h))) 0;
      do ly <- vread (fsy (sleft (hsup h))) 0;
      let dx := vfill N (cx - lx) in
      let dy := vfill N (cy - ly) in
      do _ <- guard (Nat.leb (2 * N) (vlen (hX h)));
      let X1 := vsetseg (hX h) 0 (vadd (mv (mblock rot 0 0 N N) dx) (mv (mblock rot 0 N N N) dy)) in
      let X2 := vsetseg X1 N (vadd (mv (mblock rot N 0 N N) dx) (mv (mblock rot N N N N) dy)) in
      Ok (MkHum (hsup h) (hlip h) (hvelRef h) (hcopLen h) (hsolvers h) (hmats h) (hdX h) X2 (htX h)
            (hw h) (hcopC h) (hfeetC h) (hmaxC h) (hmaxS h) (hmove h) false)
    else Ok h.

  (** Q += w*hessian, p += w*gradient, when w > 0 (humanoid_walkgen.cpp:371-397) *)
  Definition addObj (w : K) (H : res (mat K)) (g : res (vec K)) (q : qpmats K) : res (qpmats K) :=
    if s0 <? w then
      do H <- H;
      do _ <- guard (hasSize H (mrows (qQ q)) (mcols (qQ q)));
      do g <- g;
      do p <- vaddE (qp q) (vscale w g);
      Ok (MkQP (madd (qQ q) (mscale w H)) p (qxl q) (qxu q) (qA q) (qbu q) (qbl q))
    else Ok q.
  (** The constraints of one kind (humanoid_walkgen.cpp:400-412, 414-426): rows [r0, r0 + n), variables
      [v0, v0 + m) *)
  Definition addCtr (r0 n v0 m size : nat) (G : mat K) (f : vec K) (b : vec K * vec K) (q : qpmats K) : res (qpmats K) :=
    do A <- maddblockE (qA q) r0 n size G;
    do bu <- vcwiseE smin (qbu q) r0 n (vopp f);
    do xl <- vcwiseE smax (qxl q) v0 m (fst b);
    do xu <- vcwiseE smin (qxu q) v0 m (snd b);
    Ok (MkQP (qQ q) (qp q) xl xu A bu (qbl q)).
  (** humanoid_walkgen.cpp:359-368: the element of qpMatrixVec_ or qpSolverVec_ at the computed index. *)
  Definition tableAt (t : list (nat * nat)) (i : nat) : res (nat * nat) := rd t i.
  (** humanoid_walkgen.cpp:359-368: the matrices of the table, reset *)
  Definition blankQP (nv nc : nat) : qpmats K :=
    MkQP (mzero nv nv) (vzero nv) (vfill nv (- MAXB)) (vfill nv MAXB) (mzero nc nv) (vfill nc MAXB) (vfill nc (- MAXB)).
  (** humanoid_walkgen.cpp:327-426: the problem, before it is normalised, and the index *)
  Definition h_problem (h : hum) : res (qpmats K * nat) :=
    let N := lN (hlip h) in
    let M := snb (hsup h) in
    let size := (2 * N + 2 * M)%nat in
    let s := hsup h in
    let l := hlip h in
    let X := hX h in
    do c <- h_nbCtr h;
    let '(nc, nf) := c in
    let index := (M * (hmaxC h + 1) + (nc + nf))%nat in
    do e <- tableAt (hmats h) index;
    let q := blankQP (fst e) (snd e) in
    do q <- addObj (wVelT (hw h)) (h_velHessian l s) (h_velGradient l s (hvelRef h) X) q;
    do q <- addObj (wJerkM (hw h)) (h_jerkHessian l s) (h_jerkGradient l s X) q;
    do q <- addObj (wCopC (hw h)) (Ok (h_copHessian l s)) (h_copGradient l s X) q;
    do q <- (if hcopC h then
               do _ <- guard (Nat.eqb (vlen X) size);
               do r <- copRows N s;
               do b <- copBounds N (hcopLen h) s (vseg X 0 (2 * N));
               addCtr 0 nc 0 (2 * N) size (rowsA (vlen X) r) (rowsF r X) b q
             else Ok q);
    do q <- (if hfeetC h then
               do _ <- guard (Nat.eqb (vlen X) size);
               do r <- footRows N s;
               do b <- footBounds s (vseg X (2 * N) (2 * M));
               addCtr nc nf (2 * N) (2 * M) size (rowsA (vlen X) r) (rowsF r X) b q
             else Ok q);
    Ok (q, index).

  (** humanoid_walkgen.cpp:501-535 convertCopInLFtoComJerk: transformedX_ *)
  Definition h_convert (l : lip K) (s : sup K) (X : vec K) : res (vec K) :=
    let N := lN l in
    let M := snb s in
    do nb <- h_nb s;
    do cx <- l_getCopX l nb;
    do cy <- l_getCopY l nb;
    do _ <- guard (Nat.leb (2 * N + 2 * M) (vlen X));
    let U := dU (selDyn (ssel s)) in
    let S := dS (selDyn (ssel s)) in
    let rotT := selRotT (ssel s) in
    do fx <- s_getSupportFootStateX s; do fx <- vread fx 0;
    do fy <- s_getSupportFootStateY s; do fy <- vread fy 0;
    let x := vseg X 0 N in
    let y := vseg X N N in
    let tx := vadd (mv (mblock rotT 0 0 N N) x) (mv (mblock rotT 0 N N N) y) in
    let ty := vadd (mv (mblock rotT 0 N N N) x) (mv (mblock rotT N N N N) y) in
    let tx := vadd tx (mv U (vseg X (2 * N) M)) in
    let ty := vadd ty (mv U (vseg X (2 * N + M) M)) in
    let tx := vadd tx (colTimes S fx) in
    let ty := vadd ty (colTimes S fy) in
    let tx := vsub tx (vadd (mv (dS cx) (vec_of_st3 (lsx l))) (dK cx)) in
    let ty := vsub ty (vadd (mv (dS cy) (vec_of_st3 (lsy l))) (dK cy)) in
    do xi <- oinv (dUinv cx);
    do yi <- oinv (dUinv cy);
    Ok (vsetseg (vsetseg X 0 (mv xi tx)) N (mv yi ty)).

  (** humanoid_walkgen.cpp:428-451: normalise, solve, and use the solution *)
  Definition h_finish (o : oracle K) (fb : K) (q : qpmats K) (index : nat) (h : hum) : res (bool * hum) :=
    let N := lN (hlip h) in
    let M := snb (hsup h) in
    do e <- tableAt (hsolvers h) index;
    do r <- solver_solve o (newSolver (fst e) (snd e)) (normalizeMatrices EPS q) 10000%Z
              (MkVec (2 * N + 2 * M) (vget (hdX h))) false false;
    let '(_, dX, found) := r in
    do X <- vaddE (hX h) dX;
    do t <- h_convert (hlip h) (hsup h) X;
    do l1 <- l_updateStateX (vget t 0) fb (hlip h);
    do l2 <- l_updateStateY (vget t N) fb l1;
    do s <- s_updateFeetStates (vseg t (2 * N) (2 * M)) fb (hsup h);
    Ok (found, MkHum s l2 (hvelRef h) (hcopLen h) (hsolvers h) (hmats h) dX X t
                 (hw h) (hcopC h) (hfeetC h) (hmaxC h) (hmaxS h) (hmove h) (hfirst h)).
  (** humanoid_walkgen.cpp:315-454 solve.  The constraints are counted before the decision vector is
      filled; counting them does not read it. *)
  Definition h_prepare (fb : K) (h : hum) : res hum :=
    do h1 <- h_updateModels fb h;
    do _ <- h_nbCtr h1;
    h_firstFill h1.
  (** humanoid_walkgen.cpp:315-454 *)
  Definition h_solve (o : oracle K) (fb : K) (h : hum) : res (bool * hum) :=
    do h1 <- h_prepare fb h;
    do q <- h_problem h1;
    h_finish o fb (fst q) (snd q) h1.

  (** The public interface of humanoid_walkgen.h:45-150 as a type of calls. *)
  Inductive hcall : Type :=
  | HSetNbSamples (n : nat) | HSetSamplingPeriod (T : K) | HSetStepPeriod (p : K) | HSetDSLength (L : K)
  | HSetKin (d : side) (p : polygon K) | HSetCop (d : side) (p : polygon K) | HSetMaxHeight (d : side) (z : K)
  | HSetVelRef (r : vec K)
  | HSetFootX (d : side) (v : vec K) | HSetFootY (d : side) (v : vec K) | HSetFootZ (d : side) (v : vec K)
  | HSetComX (v : vec K) | HSetComY (v : vec K) | HSetComZ (v : vec K)
  | HSetWeightings (w : hweights) | HSetConfig (withCop withFeet : bool) | HSetMove (b : bool)
  | HSolve (o : oracle K) (fb : K).
  (** One call of the public interface. *)
  Definition hstep (c : hcall) (h : hum) : res hum :=
    match c with
    | HSetNbSamples n => h_setNbSamples n h
    | HSetSamplingPeriod T => h_setSamplingPeriod T h
    | HSetStepPeriod p => h_setStepPeriod p h
    | HSetDSLength L => h_setInitialDoubleSupportLength L h
    | HSetKin d p => Ok (h_setKinematicConvexPolygon d p h)
    | HSetCop d p => Ok (h_setCopConvexPolygon d p h)
    | HSetMaxHeight d z => Ok (h_setMaxHeight d z h)
    | HSetVelRef r => h_setVelRef r h
    | HSetFootX d v => h_setFootStateX d v h
    | HSetFootY d v => h_setFootStateY d v h
    | HSetFootZ d v => h_setFootStateZ d v h
    | HSetComX v => h_setComStateX v h
    | HSetComY v => h_setComStateY v h
    | HSetComZ v => h_setComStateZ v h
    | HSetWeightings w => h_setWeightings w h
    | HSetConfig c f => Ok (h_setConfig c f h)
    | HSetMove b => h_setMove b h
    | HSolve o fb => do r <- h_solve o fb h; Ok (snd r)
    end.
  (** A history of calls, which stops at the first one that does not return. *)
  Fixpoint hsteps (cs : list hcall) (h : hum) : res hum :=
    match cs with [] => Ok h | c :: r => do h' <- hstep c h; hsteps r h' end.
End Hum.
Arguments hum : clear implicits.
Arguments hweights : clear implicits.
Arguments hcall : clear implicits.
