(** Model of src/humanoid_feet_supervisor.cpp and mpc-walkgen/humanoid_feet_supervisor.h:
    the finite state machine of the walk, its timeline, the step variables, the selection
    matrices and the feet motion. *)

From Coq Require Import List ZArith Arith Bool.
From Verif Require Import Scalar LinAlg ToolsModel InterpModel PolygonModel FootModel.
Import ListNotations.

(** boost::circular_buffer: contents in order, and the capacity.  Accesses outside the
    contents are undefined behaviour. *)
Record cbuf (A : Type) : Type := MkCb { cbl : list A; cbcap : nat }.
Arguments MkCb {A} cbl cbcap.
Arguments cbl {A} c.
Arguments cbcap {A} c.
(** boost::circular_buffer::size. *)
Definition cb_size {A} (b : cbuf A) : nat := length (cbl b).
(** boost::circular_buffer::set_capacity: the last elements are dropped if they do not fit. *)
Definition cb_set_capacity {A} (n : nat) (b : cbuf A) : cbuf A := MkCb (firstn n (cbl b)) n.
(** boost::circular_buffer::push_back: a full buffer loses its first element. *)
Definition cb_push_back {A} (x : A) (b : cbuf A) : cbuf A :=
  if Nat.ltb (cb_size b) (cbcap b) then MkCb (cbl b ++ [x]) (cbcap b)
  else if Nat.eqb (cbcap b) 0 then b else MkCb (tl (cbl b) ++ [x]) (cbcap b).
(** boost::circular_buffer::pop_front. *)
Definition cb_pop_front {A} (b : cbuf A) : res (cbuf A) :=
  match cbl b with [] => UB | _ :: r => Ok (MkCb r (cbcap b)) end.
(** boost::circular_buffer::operator[]. *)
Definition cb_at {A} (b : cbuf A) (i : nat) : res A := rd (cbl b) i.
(** Helper of the model (no counterpart in the code): replace an element of a list. *)
Fixpoint lset {A} (l : list A) (i : nat) (x : A) : list A :=
  match l, i with [], _ => [] | _ :: r, O => x :: r | a :: r, S k => a :: lset r k x end.
(** boost::circular_buffer::operator[], assigned. *)
Definition cb_set {A} (b : cbuf A) (i : nat) (x : A) : res (cbuf A) :=
  do _ <- ubguard (Nat.ltb i (cb_size b)); Ok (MkCb (lset (cbl b) i x) (cbcap b)).

(** humanoid_feet_supervisor.h:33-45 *)
Inductive ptype : Type := DS | LeftSS | RightSS.
(** Helper of the model (no counterpart in the code): test of the phase type. *)
Definition is_DS (p : ptype) : bool := match p with DS => true | _ => false end.

Section Sup.
  Context {K : Type} {SK : Scalar K} {TK : Trig K}.
  Local Open Scope sc_scope.

  (** humanoid_feet_supervisor.h:33-45, humanoid_feet_supervisor.cpp:15-26. *)
  Record phase : Type := MkPhase { phType : ptype; phDur : K }.

  (** Helper of the model (no counterpart in the code): Eigen's v(i), which asserts its range. *)
  Definition vread (v : vec K) (i : nat) : res K := do _ <- guard (Nat.ltb i (vlen v)); Ok (vget v i).
  (** Helper of the model (no counterpart in the code): Eigen's m(i, j) = x. *)
  Definition mset {A} (m : mat A) (i j : nat) (x : A) : mat A :=
    MkMat (mrows m) (mcols m) (fun a b => if (Nat.eqb a i && Nat.eqb b j)%bool then x else mget m a b).

  (** What updateTimeline computes at its end: the selection matrices V, VT, V0 and the phase
      index of each sample, the sample weights, the feet position dynamics, the rotations. *)
  Record seldata : Type := MkSel {
    selV : mat Z; selVT : mat Z; selV0 : vec Z; selIdx : vec nat;
    selW : mat K; selDyn : lindyn K; selRot : mat K; selRotT : mat K }.

  (** humanoid_feet_supervisor.h:200-241.  Left out: phase_, phaseTimer_ and horizonTimer_, which
      are always written before they are read; copDSConvexPolygon_, copDSpoints_ and
      middleState_, which only carry a result out of a getter. *)
  Record sup : Type := MkSup {
    sN : nat; sT : K; sfb : K; sleft : foot K; sright : foot K;
    snb : nat; sstep : K; sDS : K; sttnp : K; smove : bool;
    sstepVec : vec K; stl : cbuf phase; ssel : seldata }.

  (** Helper of the model (no counterpart in the code): replace the number of samples and the feet. *)
  Definition s_setN s n l r := MkSup n (sT s) (sfb s) l r (snb s) (sstep s) (sDS s) (sttnp s) (smove s) (sstepVec s) (stl s) (ssel s).
  (** Helper of the model (no counterpart in the code): replace the feet. *)
  Definition s_setFeet s l r := MkSup (sN s) (sT s) (sfb s) l r (snb s) (sstep s) (sDS s) (sttnp s) (smove s) (sstepVec s) (stl s) (ssel s).
  (** Helper of the model (no counterpart in the code): replace the timeline and the number of steps. *)
  Definition s_setTl s nb t := MkSup (sN s) (sT s) (sfb s) (sleft s) (sright s) nb (sstep s) (sDS s) (sttnp s) (smove s) (sstepVec s) t (ssel s).

  (** humanoid_feet_supervisor.cpp:41-54, src/lineardynamic.cpp:13-39 *)
  Definition toLinearDynamics (V VT : mat Z) (V0 : vec Z) : lindyn K :=
    let inv := if Nat.eqb (vlen V0) (mcols V) then Some (mzero (vlen V0) (mcols V)) else None in
    MkDyn (MkMat (mrows V) (mcols V) (fun i j => sofZ (mget V i j)))
          (MkMat (mrows VT) (mcols VT) (fun i j => sofZ (mget VT i j)))
          inv inv
          (MkMat (vlen V0) 1 (fun i _ => sofZ (vget V0 i)))
          (vzero (vlen V0)).

  (** humanoid_feet_supervisor.cpp:59-98: the selection matrices before the first updateTimeline. *)
  Definition noSel : seldata :=
    let z := MkMat 0 0 (fun _ _ => 0%Z) in
    MkSel z z (MkVec 0 (fun _ => 0%Z)) (MkVec 0 (fun _ => 0%nat)) (mzero 0 0)
      (MkDyn (mzero 0 0) (mzero 0 0) None None (mzero 0 0) (vzero 0)) (mzero 0 0) (mzero 0 0).

  (** humanoid_feet_supervisor.cpp:59-98, 614-620.  The timeline starts with one double support phase. *)
  Definition newSup (N : nat) (T : K) : res sup :=
    do l <- newFoot N T;
    do r <- newFoot N T;
    Ok (MkSup N T T l r 0 (sofZ 2 * T) (sofZ 2 * T) (sofZ 2 * T) false (vzero 0)
          (MkCb [MkPhase DS (sofZ 2 * T)] 1) noSel).
  (** humanoid_feet_supervisor.cpp:80-98 *)
  Definition newSupDefault : res sup := newSup 1 s1.

  (** humanoid_feet_supervisor.cpp:461-470 *)
  Definition s_front (s : sup) : res phase := cb_at (stl s) 0.
  (** humanoid_feet_supervisor.cpp:461-470 *)
  Definition s_isInDS (s : sup) : res bool := do p <- s_front s; Ok (is_DS (phType p)).

  (** humanoid_feet_supervisor.cpp:104-114 *)
  Definition s_setNbSamples (n : nat) (s : sup) : res sup :=
    do _ <- guard (Nat.ltb 0 n);
    do l <- f_setNbSamples n (sleft s);
    do r <- f_setNbSamples n (sright s);
    Ok (s_setN s n l r).
  (** humanoid_feet_supervisor.cpp:116-128 *)
  Definition s_setSamplingPeriod (T : K) (s : sup) : res sup :=
    do _ <- guard (s0 <=? T);
    do l <- f_setSamplingPeriod T (sleft s);
    do r <- f_setSamplingPeriod T (sright s);
    Ok (MkSup (sN s) T T l r (snb s) (sstep s) (sDS s) (sttnp s) (smove s) (sstepVec s) (stl s) (ssel s)).
  (** humanoid_feet_supervisor.cpp:130-146 *)
  Definition s_setStepPeriod (p : K) (s : sup) : res sup :=
    do _ <- guard (s0 <? p);
    do ds <- s_isInDS s;
    if ds then
      Ok (MkSup (sN s) (sT s) (sfb s) (sleft s) (sright s) (snb s) p (sDS s) (sttnp s) (smove s) (sstepVec s) (stl s) (ssel s))
    else
      do _ <- guard (s0 <? sttnp s + p - sstep s);
      do f <- s_front s;
      do t <- cb_set (stl s) 0 (MkPhase (phType f) (phDur f + (p - sstep s)));
      Ok (MkSup (sN s) (sT s) (sfb s) (sleft s) (sright s) (snb s) p (sDS s) (sttnp s + (p - sstep s)) (smove s)
            (sstepVec s) t (ssel s)).
  (** humanoid_feet_supervisor.cpp:148-167 *)
  Definition s_setInitialDoubleSupportLength (L : K) (s : sup) : res sup :=
    do ds <- s_isInDS s;
    if ds then
      do _ <- (if L <? sDS s - EPS then guard (sDS s - L <? sttnp s + EPS) else Ok tt);
      do f <- s_front s;
      do t <- cb_set (stl s) 0 (MkPhase (phType f) (phDur f + (L - sDS s)));
      Ok (MkSup (sN s) (sT s) (sfb s) (sleft s) (sright s) (snb s) (sstep s) L (sttnp s + (L - sDS s)) (smove s)
            (sstepVec s) t (ssel s))
    else
      Ok (MkSup (sN s) (sT s) (sfb s) (sleft s) (sright s) (snb s) (sstep s) L (sttnp s) (smove s) (sstepVec s) (stl s) (ssel s)).
  (** humanoid_feet_supervisor.cpp:345-349 *)
  Definition s_setMove (b : bool) (s : sup) : sup :=
    MkSup (sN s) (sT s) (sfb s) (sleft s) (sright s) (snb s) (sstep s) (sDS s) (sttnp s) b (sstepVec s) (stl s) (ssel s).

  (** humanoid_feet_supervisor.cpp:169-343: polygons, heights and states of the feet.  [side] selects the foot; the x, y and z
      state setters assert the size.  The hip yaw bounds are left out: nothing reads them. *)
  Inductive side : Type := SLeft | SRight.
  (** Helper of the model (no counterpart in the code): the foot of a side. *)
  Definition s_foot (d : side) (s : sup) : foot K := match d with SLeft => sleft s | SRight => sright s end.
  (** Helper of the model (no counterpart in the code): replace the foot of a side. *)
  Definition s_setFoot (d : side) (f : foot K) (s : sup) : sup :=
    match d with SLeft => s_setFeet s f (sright s) | SRight => s_setFeet s (sleft s) f end.
  (** humanoid_feet_supervisor.cpp:169-176, 178-185 *)
  Definition s_setKinematicConvexPolygon (d : side) (p : polygon K) (s : sup) : sup :=
    s_setFoot d (f_setKinematicConvexPolygon p (s_foot d s)) s.
  (** humanoid_feet_supervisor.cpp:187-194, 196-203 *)
  Definition s_setCopConvexPolygon (d : side) (p : polygon K) (s : sup) : sup :=
    s_setFoot d (f_setCopConvexPolygon p (s_foot d s)) s.
  (** humanoid_feet_supervisor.cpp:265-271, 273-279 *)
  Definition s_setMaxHeight (d : side) (h : K) (s : sup) : sup := s_setFoot d (f_setMaxHeight h (s_foot d s)) s.
  (** humanoid_feet_supervisor.cpp:205-213, 235-243 *)
  Definition s_setFootStateX (d : side) (v : vec K) (s : sup) : res sup :=
    do _ <- guard (Nat.eqb (vlen v) 3); Ok (s_setFoot d (f_setStateX v (s_foot d s)) s).
  (** humanoid_feet_supervisor.cpp:215-223, 245-253 *)
  Definition s_setFootStateY (d : side) (v : vec K) (s : sup) : res sup :=
    do _ <- guard (Nat.eqb (vlen v) 3); Ok (s_setFoot d (f_setStateY v (s_foot d s)) s).
  (** humanoid_feet_supervisor.cpp:225-233, 255-263 *)
  Definition s_setFootStateZ (d : side) (v : vec K) (s : sup) : res sup :=
    do _ <- guard (Nat.eqb (vlen v) 3); Ok (s_setFoot d (f_setStateZ v (s_foot d s)) s).

  (** humanoid_feet_supervisor.cpp:351-366 *)
  Definition s_getMaximumNbOfCopConstraints (s : sup) : nat :=
    length (pverts (fcop (sleft s))) + length (pverts (fcop (sright s))).
  (** humanoid_feet_supervisor.cpp:361-366 *)
  Definition s_getMaximumNbOfKinematicConstraints (s : sup) : nat :=
    Nat.max (length (pverts (fkin (sleft s)))) (length (pverts (fkin (sright s)))).

  (** humanoid_feet_supervisor.cpp:392-415 *)
  Definition s_getKinematicConvexPolygon (i : nat) (s : sup) : res (polygon K) :=
    do _ <- guard (Nat.ltb i (snb s));
    do ds <- s_isInDS s;
    do p <- cb_at (stl s) (if (ds && smove s)%bool then S i else i);
    match phType p with LeftSS => Ok (fkin (sleft s)) | RightSS => Ok (fkin (sright s)) | DS => Abort end.

  (** humanoid_feet_supervisor.cpp:418-446; the sum of two vectors asserts equal sizes *)
  Definition middle (a b : vec K) : res (vec K) :=
    do _ <- guard (Nat.eqb (vlen a) (vlen b));
    Ok (MkVec (vlen a) (fun i => (vget a i + vget b i) / sofZ 2)).
  (** humanoid_feet_supervisor.cpp:418-431 *)
  Definition s_getSupportFootStateX (s : sup) : res (vec K) :=
    do p <- s_front s;
    match phType p with
    | RightSS => Ok (fsx (sright s))
    | LeftSS => Ok (fsx (sleft s))
    | DS => if smove s then Ok (fsx (sleft s)) else middle (fsx (sright s)) (fsx (sleft s))
    end.
  (** humanoid_feet_supervisor.cpp:433-446 *)
  Definition s_getSupportFootStateY (s : sup) : res (vec K) :=
    do p <- s_front s;
    match phType p with
    | RightSS => Ok (fsy (sright s))
    | LeftSS => Ok (fsy (sleft s))
    | DS => if smove s then Ok (fsy (sleft s)) else middle (fsy (sright s)) (fsy (sleft s))
    end.

  (** The loop of 452-455 and 836-839: the time before the next sample.  The fuel is the quotient
      rounded up, see [timeToNextSample_fuel]. *)
  Fixpoint sample_loop (fuel : nat) (T t : K) : res K :=
    if T + EPS <? t then
      match fuel with O => OutOfFuel | S f => sample_loop f T (t - T) end
    else Ok t.
  (** humanoid_feet_supervisor.cpp:452-455, with enough fuel. *)
  Definition s_timeToNextSample (s : sup) : res K :=
    sample_loop (S (Z.to_nat (strunc (sttnp s / sT s)))) (sT s) (sttnp s).
  (** humanoid_feet_supervisor.cpp:448-459.  The cast to int of a division by zero is undefined. *)
  Definition s_getNbOfCallsBeforeNextSample (s : sup) : res Z :=
    do t <- s_timeToNextSample s;
    do _ <- ubguard (negb (sfb s =? s0));
    Ok (strunc ((t + EPS) / sfb s)).

  (** humanoid_feet_supervisor.cpp:622-684 processFSM and setPhase: the next phase, and whether a step was counted *)
  Definition nextType (move : bool) (last : ptype) : ptype :=
    match last with
    | DS => if move then LeftSS else DS
    | LeftSS => if move then RightSS else DS
    | RightSS => if move then LeftSS else DS
    end.
  (** humanoid_feet_supervisor.cpp:663-684: the duration of the new phase. *)
  Definition durationOf (s : sup) (p : ptype) : K := match p with DS => sDS s | _ => sstep s end.
  (** humanoid_feet_supervisor.cpp:622-661, 663-684 *)
  Definition processFSM (s : sup) (last : ptype) (nb : nat) : phase * nat :=
    let p := nextType (smove s) last in
    (MkPhase p (durationOf s p), if is_DS last then nb else S nb).

  (** humanoid_feet_supervisor.cpp:686-701.  Eigen asserts that the segments fit: at least one step is present. *)
  Definition shortenStepVec (N : nat) (v : vec K) : res (vec K) :=
    let rows := vlen v in
    do _ <- guard (Nat.eqb (Nat.modulo rows 2) 0);
    do _ <- guard (Nat.leb (S N) (Nat.div rows 2));
    let k := (Nat.div rows 2 - N - 1)%nat in
    let v1 := vseg v 0 (2 * N + 2 * k) in
    let v2 := vsetseg v1 (2 * N) (vseg v (2 * N + 1) k) in
    Ok (vsetseg v2 (2 * N + k) (vseg v (N + Nat.div rows 2 + 1) k)).

  (** humanoid_feet_supervisor.cpp:725-754: extremal coordinates of the vertices *)
  Definition extremum (better : K -> K -> bool) (l : list K) : K :=
    match l with [] => s0 | a :: r => fold_left (fun m x => if better x m then x else m) r a end.
  (** humanoid_feet_supervisor.cpp:703-775: (rightmost + leftmost)/2. *)
  Definition midX (p : polygon K) : K :=
    let l := map fst (pverts p) in
    (extremum (fun x m => m <? x) l + extremum (fun x m => x <? m) l) / sofZ 2.
  (** humanoid_feet_supervisor.cpp:703-775: (lowest + highest)/2. *)
  Definition midY (p : polygon K) : K :=
    let l := map snd (pverts p) in
    (extremum (fun x m => x <? m) l + extremum (fun x m => m <? x) l) / sofZ 2.
  (** humanoid_feet_supervisor.cpp:703-775.  The entries added by conservativeResize are all written afterwards. *)
  Definition enlargeStepVec (s : sup) (v : vec K) : res (vec K) :=
    let rows := vlen v in
    let N := sN s in
    do _ <- guard (Nat.eqb (Nat.modulo rows 2) 0);
    let n := (Nat.div rows 2 - N + 1)%nat in
    let newSize := (2 * N + 2 * n)%nat in
    let v1 := MkVec newSize (vget v) in
    let v2 := vsetseg v1 (2 * N + n) (vseg v (Nat.div rows 2 + N) (n - 1)) in
    do kin <- s_getKinematicConvexPolygon (n - 1) s;
    do _ <- guard (negb (Nat.eqb (length (pverts kin)) 0));
    do ds <- s_isInDS s;
    if (ds && Nat.eqb (snb s) 1)%bool then
      do lx <- vread (fsx (sleft s)) 0;
      do ly <- vread (fsy (sleft s)) 0;
      let v3 := vset v2 (2 * N + n - 1) (lx + midX kin) in
      Ok (vset v3 (newSize - 1) (ly + midY kin))
    else
      let v3 := vset v2 (2 * N + n - 1) (vget v2 (2 * N + n - 2) + midX kin) in
      Ok (vset v3 (newSize - 1) (vget v3 (newSize - 2) + midY kin)).

  (** humanoid_feet_supervisor.cpp:520-524.  Each round adds two rows, so [snb s] rounds suffice. *)
  Fixpoint enlarge_loop (fuel : nat) (s : sup) (v : vec K) : res (vec K) :=
    if Nat.ltb (vlen v) (2 * sN s + 2 * snb s) then
      match fuel with O => OutOfFuel | S f => do v' <- enlargeStepVec s v; enlarge_loop f s v' end
    else Ok v.
  (** humanoid_feet_supervisor.cpp:525-530 *)
  Definition reduceStepVec (move : bool) (N : nat) (v : vec K) : vec K :=
    if (negb move && Nat.ltb (2 * N + 2) (vlen v))%bool then
      let v1 := vset v (2 * N + 1) (vget v (Nat.div (vlen v) 2 + N)) in
      MkVec (2 * N + 2) (vget v1)
    else v.

  (** humanoid_feet_supervisor.cpp:499-519: one pass through the "if" of the generation loop *)
  Definition phase_change (s : sup) (i : nat) : res sup :=
    do last <- cb_at (stl s) i;
    let '(ph, nb) := processFSM s (phType last) (snb s) in
    if Nat.eqb (S i) (cb_size (stl s)) then
      Ok (s_setTl s nb (cb_push_back ph (cb_set_capacity (S (cbcap (stl s))) (stl s))))
    else
      do t <- cb_set (stl s) (S i) ph;
      Ok (s_setTl s nb t).
  (** humanoid_feet_supervisor.cpp:497-535 *)
  Fixpoint timeline_loop (fuel : nat) (s : sup) (i : nat) (phaseTimer horizonTimer : K) (v : vec K)
    : res (sup * nat * vec K) :=
    if - EPS <? horizonTimer then
      match fuel with
      | O => OutOfFuel
      | S f =>
        do q <- (if phaseTimer <? EPS then
                   do s' <- phase_change s i;
                   do p <- cb_at (stl s') (S i);
                   Ok (s', S i, phDur p)
                 else Ok (s, i, phaseTimer));
        let '(s', i', pt) := q in
        do v' <- enlarge_loop (snb s') s' v;
        let v'' := reduceStepVec (smove s') (sN s') v' in
        timeline_loop f s' i' (pt - sT s') (horizonTimer - sT s') v''
      end
    else Ok (s, i, v).
  (** Helper of the model (no counterpart in the code): a number of rounds that suffices for the loop above
      when T > 0 (see [timeline_fuel_enough]). *)
  Definition timeline_fuel (s : sup) : nat := Nat.add (sN s) (S (S (Z.to_nat (strunc (EPS / sT s))))).

  (** humanoid_feet_supervisor.cpp:832-849.  1.05f is taken as exactly 105/100. *)
  Definition sampleWeights (s : sup) : res (mat K) :=
    do t <- s_timeToNextSample s;
    let W := mset (mid (sN s)) 0 0 (t / sT s) in
    Ok (mset W (sN s - 1) (sN s - 1) (sofZ 105 / sofZ 100 - mget W 0 0)).

  (** humanoid_feet_supervisor.cpp:861-867 *)
  Fixpoint v0_loop (fuel : nat) (T pt : K) (N row : nat) (V0 : vec Z) : res (K * nat * vec Z) :=
    if (T + EPS <? pt) && (Nat.ltb row N) then
      match fuel with
      | O => OutOfFuel
      | S f => v0_loop f T (pt - T) N (S row) (MkVec (vlen V0) (fun k => if Nat.eqb k row then 1%Z else vget V0 k))
      end
    else Ok (pt, row, V0).
  (** humanoid_feet_supervisor.cpp:851-907: the local state of the loops. *)
  Record selst : Type := MkSelSt { eV : mat Z; eV0 : vec Z; eIdx : vec nat; eRow : nat; eHor : K }.
  (** humanoid_feet_supervisor.cpp:878-898; writing a column that does not exist is an Eigen assertion *)
  Fixpoint sel_inner (fuel : nat) (s : sup) (ds : bool) (phaseIndex col : nat) (pt : K) (e : selst) : res selst :=
    if (EPS <? pt) && (Nat.ltb (eRow e) (sN s)) then
      match fuel with
      | O => OutOfFuel
      | S f =>
        let row := eRow e in
        let idx := MkVec (vlen (eIdx e)) (fun k => if Nat.eqb k row then phaseIndex else vget (eIdx e) k) in
        if (ds && (Nat.eqb phaseIndex 1 || negb (smove s)))%bool then
          sel_inner f s ds phaseIndex col (pt - sT s)
            (MkSelSt (eV e) (MkVec (vlen (eV0 e)) (fun k => if Nat.eqb k row then 1%Z else vget (eV0 e) k)) idx (S row)
               (eHor e - sT s))
        else
          do _ <- guard (Nat.ltb col (mcols (eV e)));
          sel_inner f s ds phaseIndex col (pt - sT s)
            (MkSelSt (mset (eV e) row col 1%Z) (eV0 e) idx (S row) (eHor e - sT s))
      end
    else Ok e.
  (** humanoid_feet_supervisor.cpp:874-905.  Every round reads the timeline one element further, so its size bounds the rounds. *)
  Fixpoint sel_outer (fuel : nat) (s : sup) (ds : bool) (phaseIndex col : nat) (e : selst) : res selst :=
    if - EPS <? eHor e then
      match fuel with
      | O => OutOfFuel
      | S f =>
        do p <- cb_at (stl s) phaseIndex;
        do e' <- sel_inner (sN s) s ds phaseIndex col (phDur p) e;
        let col' := if (smove s && (negb ds || Nat.ltb 1 phaseIndex))%bool then S col else col in
        sel_outer f s ds (S phaseIndex) col' e'
      end
    else Ok e.
  (** humanoid_feet_supervisor.cpp:851-907, 28-39 *)
  Definition selectionMatrix (s : sup) : res selst :=
    do _ <- guard (Nat.ltb 0 (sN s));
    do ds <- s_isInDS s;
    do q <- v0_loop (sN s) (sT s) (sttnp s) (sN s) 0 (MkVec (sN s) (fun _ => 0%Z));
    let '(_, row, V0) := q in
    sel_outer (S (cb_size (stl s))) s ds 1 0
      (MkSelSt (MkMat (sN s) (snb s) (fun _ _ => 0%Z)) V0 (MkVec (sN s) (fun _ => 0%nat)) row
         (sofnat (sN s) * sT s - sttnp s)).
  (** humanoid_feet_supervisor.cpp:909-938: the assertions of computeFeetPosDynamic compare a matrix with its own cast *)
  Definition computeSelection (s : sup) : res seldata :=
    do W <- sampleWeights s;
    do e <- selectionMatrix s;
    let V := eV e in
    let VT := MkMat (mcols V) (mrows V) (fun i j => mget V j i) in
    Ok (MkSel V VT (eV0 e) (eIdx e) W (toLinearDynamics V VT (eV0 e)) (mid (2 * sN s)) (mtr (mid (2 * sN s)))).

  (** humanoid_feet_supervisor.cpp:480-490: leave the current phase when it is over.  The result is the decision vector, the
      timeline and the time before the next phase. *)
  Definition leavePhase (v : vec K) (s : sup) : res (vec K * cbuf phase * K) :=
    if sttnp s <? EPS then
      do ds <- s_isInDS s;
      do v1 <- (if ds then Ok v else shortenStepVec (sN s) v);
      do t1 <- cb_pop_front (stl s);
      let t2 := cb_set_capacity (cbcap t1 - 1) t1 in
      do f <- cb_at t2 0;
      Ok (v1, t2, phDur f)
    else Ok (v, stl s, sttnp s).
  (** humanoid_feet_supervisor.cpp:472-550 *)
  Definition s_updateTimeline (v : vec K) (fb : K) (s : sup) : res (sup * vec K) :=
    do _ <- guard (Nat.ltb 0 (cb_size (stl s)));
    do _ <- guard (Nat.leb (2 * sN s) (vlen v));
    do q <- leavePhase v s;
    let '(v1, t1, tn) := q in
    let s1 := MkSup (sN s) (sT s) fb (sleft s) (sright s) 0 (sstep s) (sDS s) tn (smove s) (sstepVec s) t1 (ssel s) in
    do q2 <- timeline_loop (timeline_fuel s1) s1 0 tn (sofnat (sN s) * sT s) v1;
    let '(s2, i, v2) := q2 in
    let t3 := cb_set_capacity (S i) (stl s2) in
    let s3 := s_setTl s2 (snb s2) t3 in
    let sv := vseg v2 (2 * sN s) (vlen v2 - 2 * sN s) in
    do sel <- computeSelection s3;
    Ok (MkSup (sN s) (sT s) fb (sleft s) (sright s) (snb s2) (sstep s) (sDS s) tn (smove s) sv t3 sel, v2).

  (** humanoid_feet_supervisor.cpp:552-606 *)
  Definition flyTo (f : foot K) (x y : K) (z : K) (T Tz fb : K) : res (foot K) :=
    do f1 <- f_updateStateX (St3 x s0 s0) T fb f;
    do f2 <- f_updateStateY (St3 y s0 s0) T fb f1;
    f_updateStateZ (St3 z s0 s0) Tz fb f2.
  (** humanoid_feet_supervisor.cpp:552-606 *)
  Definition s_updateFeetStates (stepVec : vec K) (fb : K) (s : sup) : res sup :=
    do p <- s_front s;
    let flying := phDur p - sT s in
    let t := sttnp s in
    let fin l r := MkSup (sN s) (sT s) (sfb s) l r (snb s) (sstep s) (sDS s) (t - fb) (smove s) stepVec (stl s) (ssel s) in
    if (negb (is_DS (phType p)) && (t <? flying + EPS))%bool then
      do x <- vread stepVec 0;
      do y <- vread stepVec (snb s);
      let go f := if t <? flying * shalf + EPS then flyTo f x y s0 t t fb
                  else flyTo f x y (fmaxHeight f) t (t - flying * shalf) fb in
      match phType p with
      | LeftSS => do r <- go (sright s); Ok (fin (sleft s) r)
      | RightSS => do l <- go (sleft s); Ok (fin l (sright s))
      | DS => Abort
      end
    else Ok (fin (sleft s) (sright s)).

  (** humanoid_feet_supervisor.cpp:777-830 *)
  Definition shiftPoly (p : polygon K) (d : pt K) : list (pt K) :=
    map (fun q => (fst q + fst d, snd q + snd d)) (pverts p).
  (** humanoid_feet_supervisor.cpp:777-830 *)
  Definition s_computeDSCopConvexPolygon (s : sup) : res (polygon K) :=
    do lx <- vread (fsx (sleft s)) 0; do ly <- vread (fsy (sleft s)) 0;
    do rx <- vread (fsx (sright s)) 0; do ry <- vread (fsy (sright s)) 0;
    do p <- s_front s;
    do q <- (match phType p, smove s with
             | LeftSS, false => do a <- vread (sstepVec s) 0; do b <- vread (sstepVec s) (snb s);
                                Ok ((lx, ly), (a, b), (a, b))
             | RightSS, false => do a <- vread (sstepVec s) 0; do b <- vread (sstepVec s) (snb s);
                                Ok ((a, b), (rx, ry), (a, b))
             | DS, false => Ok ((lx, ly), (rx, ry), ((rx + lx) / sofZ 2, (ry + ly) / sofZ 2))
             | _, true => Ok ((lx, ly), (rx, ry), (lx, ly))
             end);
    let '(lp, rp, tr) := q in
    makePolygon (shiftPoly (fcop (sleft s)) (psub lp tr) ++ shiftPoly (fcop (sright s)) (psub rp tr)).
  (** humanoid_feet_supervisor.cpp:370-388 *)
  Definition s_getCopConvexPolygon (i : nat) (s : sup) : res (polygon K) :=
    do _ <- guard (Nat.ltb i (vlen (selIdx (ssel s))));
    do p <- cb_at (stl s) (vget (selIdx (ssel s)) i);
    match phType p with
    | DS => s_computeDSCopConvexPolygon s
    | LeftSS => Ok (fcop (sleft s))
    | RightSS => Ok (fcop (sright s))
    end.

  (** The public interface of humanoid_feet_supervisor.h:65-185 as a type of calls. *)
  Inductive scall : Type :=
  | SSetNbSamples (n : nat) | SSetSamplingPeriod (T : K) | SSetStepPeriod (p : K) | SSetDSLength (L : K)
  | SSetMove (b : bool)
  | SSetKin (d : side) (p : polygon K) | SSetCop (d : side) (p : polygon K) | SSetMaxHeight (d : side) (h : K)
  | SSetFootX (d : side) (v : vec K) | SSetFootY (d : side) (v : vec K) | SSetFootZ (d : side) (v : vec K)
  | SUpdateTimeline (v : vec K) (fb : K) | SUpdateFeet (v : vec K) (fb : K).
  (** One call of the public interface. *)
  Definition sstep_call (c : scall) (s : sup) : res sup :=
    match c with
    | SSetNbSamples n => s_setNbSamples n s
    | SSetSamplingPeriod T => s_setSamplingPeriod T s
    | SSetStepPeriod p => s_setStepPeriod p s
    | SSetDSLength L => s_setInitialDoubleSupportLength L s
    | SSetMove b => Ok (s_setMove b s)
    | SSetKin d p => Ok (s_setKinematicConvexPolygon d p s)
    | SSetCop d p => Ok (s_setCopConvexPolygon d p s)
    | SSetMaxHeight d h => Ok (s_setMaxHeight d h s)
    | SSetFootX d v => s_setFootStateX d v s
    | SSetFootY d v => s_setFootStateY d v s
    | SSetFootZ d v => s_setFootStateZ d v s
    | SUpdateTimeline v fb => do q <- s_updateTimeline v fb s; Ok (fst q)
    | SUpdateFeet v fb => s_updateFeetStates v fb s
    end.
  (** A history of calls, which stops at the first one that does not return. *)
  Fixpoint ssteps (cs : list scall) (s : sup) : res sup :=
    match cs with [] => Ok s | c :: r => do s' <- sstep_call c s; ssteps r s' end.
End Sup.
Arguments phase : clear implicits.
Arguments sup : clear implicits.
Arguments scall : clear implicits.
Arguments seldata : clear implicits.
Arguments selst : clear implicits.
