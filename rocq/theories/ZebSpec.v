(** Specification side for the Zebulon walk generator, on what a user sees: the parameters, the
    states of the centre of mass and of the base, and the jerks. *)

From Coq Require Import Reals List ZArith Arith Bool.
From Verif Require Import Scalar LinAlg ToolsModel ToolsSpec NoDynModel PolygonModel QPModel TrajModel
  LipModel BaseModel ModelsSpec ZebModel.
Import ListNotations.
Local Open Scope R_scope.

(** The decision vector X: jerks of the centre of mass along x and y, then of the base. *)
Definition jComX (X : nat -> R) (k : nat) : R := X k.
Definition jComY (N : nat) (X : nat -> R) (k : nat) : R := X (N + k)%nat.
Definition jBaseX (N : nat) (X : nat -> R) (k : nat) : R := X (2 * N + k)%nat.
Definition jBaseY (N : nat) (X : nat -> R) (k : nat) : R := X (3 * N + k)%nat.

(** The states after sample i, integrating the jerks over the sampling period. *)
Section Motion.
  Variable z : zeb R.
  Variable X : nat -> R.
  Definition horizon : nat := lN (zl z).
  Definition period : R := lT (zl z).
  (** The first interval of the previews of the centre of mass: the period, unless it is at most
      1/10000 (see [com_first_period]). *)
  Definition com_first : R := IZR (Int_part ((period + 1/10000) / period)) * period.
  Definition comX (i : nat) : st3 R := sim com_first period (lsx (zl z)) (jComX X) i.
  Definition comY (i : nat) : st3 R := sim com_first period (lsy (zl z)) (jComY horizon X) i.
  Definition baseX (i : nat) : st3 R := sim period period (bsx (zb z)) (jBaseX horizon X) i.
  Definition baseY (i : nat) : st3 R := sim period period (bsy (zb z)) (jBaseY horizon X) i.

  (** The centre of pressure of the two masses, relative to the base; g0 is the horizontal gravity
      along the axis.  A base of mass at most 1/10000 is neglected. *)
  Definition rel_cop (g0 : R) (c b : st3 R) : R :=
    let g := gz (lg (zl z)) in
    let M := (lm (zl z) + bm (zb z))%R in
    cop_of (lh (zl z)) g0 g (lm (zl z)) M c
    + (if Rlt_dec (1/10000) (bm (zb z)) then cop_of (bh (zb z)) g0 g (bm (zb z)) M b else 0) - pos b.
  Definition copX (i : nat) : R := rel_cop (gx (lg (zl z))) (comX i) (baseX i).
  Definition copY (i : nat) : R := rel_cop (gy (lg (zl z))) (comY i) (baseY i).
  (** The centre of mass of the upper bodies, relative to the base. *)
  Definition relX (i : nat) : R := pos (comX i) - pos (baseX i).
  Definition relY (i : nat) : R := pos (comY i) - pos (baseY i).
End Motion.

(** The tilt angle and angular velocity over the horizon: constant angular acceleration during each
    period, chosen so that at the end of each period
      a1 * angle - a6 * acceleration = rhs.                                                    *)
Fixpoint tilt_run (a1 a6 T : R) (x : st2 R) (rhs : nat -> R) (i : nat) : st2 R :=
  let y := match i with O => x | S i' => tilt_run a1 a6 T x rhs i' end in
  let u := (rhs i - a1 * (ang y + angv y * T)) / (a1 * (T ^ 2 / 2) - a6) in
  flow2 u T y.
(** The coefficients that the code uses, [hb] being the height of the base: mass m and height h of
    the upper bodies, mass mb of the base, contact point at d *)
Definition tilt_a1 (z : zeb R) (hb : R) : R := (981/100) * (lm (zl z) * lh (zl z) + bm (zb z) * hb).
Definition tilt_a6 (z : zeb R) (hb : R) : R := lm (zl z) * lh (zl z) * lh (zl z) + bm (zb z) * hb * hb.
Definition tilt_rhs (z : zeb R) (hb d : R) (c b : st3 R) : R :=
  - (bm (zb z) * (981/100) * d) - bm (zb z) * hb * acc c + lm (zl z) * (981/100) * pos c
  - lm (zl z) * lh (zl z) * acc b - lm (zl z) * (981/100) * pos b.
Definition contactX (z : zeb R) : R := match btcx (zb z) with Some x => x | None => 0 end.
Definition contactY (z : zeb R) : R := match btcy (zb z) with Some x => x | None => 0 end.
Definition st2_of3 (s : st3 R) : st2 R := St2 (pos s) (vel s).
Definition rollAt (z : zeb R) (hb : R) (X : nat -> R) (i : nat) : st2 R :=
  tilt_run (tilt_a1 z hb) (tilt_a6 z hb) (period z) (st2_of3 (bsroll (zb z)))
    (fun k => tilt_rhs z hb (contactX z) (comX z X k) (baseX z X k)) i.
Definition pitchAt (z : zeb R) (hb : R) (X : nat -> R) (i : nat) : st2 R :=
  tilt_run (tilt_a1 z hb) (tilt_a6 z hb) (period z) (st2_of3 (bspitch (zb z)))
    (fun k => tilt_rhs z hb (contactY z) (comY z X k) (baseY z X k)) i.

(** The shift added to the CoM reference when gravity is not vertical; [g0] is the horizontal gravity *)
Definition gshift (z : zeb R) (g0 : R) : R :=
  (lm (zl z) * lh (zl z) + bm (zb z) * bh (zb z)) / (bm (zb z) + lm (zl z)) * g0 / gz (lg (zl z)).

(** The cost, [hb] being the base height that the tilt is computed with and [sx], [sy] the shifts of
    the CoM reference.  A negative weight counts as zero. *)
Definition zeb_cost (z : zeb R) (hb sx sy : R) (X : nat -> R) : R :=
  let N := horizon z in
  let w := zw z in
  let r := zr z in
  let sum2 (f g : nat -> R) := ssum N (fun i => f i ^ 2) + ssum N (fun i => g i ^ 2) in
  / 2 * (Rmax 0 (zwVel w) * sum2 (fun i => vel (baseX z X i) - vget (rvel r) i)
                                 (fun i => vel (baseY z X i) - vget (rvel r) (N + i)%nat)
       + Rmax 0 (zwPos w) * sum2 (fun i => pos (baseX z X i) - vget (rpos r) i)
                                 (fun i => pos (baseY z X i) - vget (rpos r) (N + i)%nat)
       + Rmax 0 (zwCop w) * sum2 (fun i => copX z X i - vget (rcop r) i)
                                 (fun i => copY z X i - vget (rcop r) (N + i)%nat)
       + Rmax 0 (zwCom w) * sum2 (fun i => relX z X i - (vget (rcom r) i + sx))
                                 (fun i => relY z X i - (vget (rcom r) (N + i)%nat + sy))
       + Rmax 0 (zwJerk w) * ssum (4 * N) (fun i => X i ^ 2)
       + Rmax 0 (zwTilt w) * sum2 (fun i => ang (rollAt z hb X i)) (fun i => ang (pitchAt z hb X i))
       + Rmax 0 (zwTiltVel w) * sum2 (fun i => angv (rollAt z hb X i)) (fun i => angv (pitchAt z hb X i))).

(** Which side of the line from p1 to p2 the point (x, y) is: positive on the left *)
Definition left_of (p1 p2 : R * R) (x y : R) : R :=
  (fst p2 - fst p1) * (y - snd p1) - (snd p2 - snd p1) * (x - fst p1).
(** (x, y) is on the left of every edge of the polygon *)
Definition inside (p : polygon R) (x y : R) : Prop :=
  forall i, (i < length (pverts p))%nat ->
    0 <= left_of (nth i (pverts p) (0, 0)) (nth (Nat.modulo (i + 1) (length (pverts p))) (pverts p) (0, 0)) x y.
(** The change of that value made by a displacement *)
Definition left_slope (p1 p2 : R * R) (x y : R) : R := (fst p2 - fst p1) * y - (snd p2 - snd p1) * x.

(** The constraints, as the user can express them on the motion that the jerks X give *)
Definition base_limits (z : zeb R) (X : nat -> R) : Prop :=
  forall i, (i < horizon z)%nat ->
    Rabs (vel (baseX z X i)) <= bvelLim (zb z) /\ Rabs (vel (baseY z X i)) <= bvelLim (zb z)
    /\ Rabs (acc (baseX z X i)) <= baccLim (zb z) /\ Rabs (acc (baseY z X i)) <= baccLim (zb z)
    /\ Rabs (jBaseX (horizon z) X i) <= bjerkLim (zb z) /\ Rabs (jBaseY (horizon z) X i) <= bjerkLim (zb z).
(** the region that is enforced: the opposite of the point is inside the polygon *)
Definition cop_reflected (z : zeb R) (X : nat -> R) : Prop :=
  forall i, (i < horizon z)%nat -> inside (bcopPoly (zb z)) (- copX z X i) (- copY z X i).
Definition com_reflected (z : zeb R) (X : nat -> R) : Prop :=
  forall i, (i < horizon z)%nat -> inside (bcomPoly (zb z)) (- relX z X i) (- relY z X i).
(** velocities parallel to the heading *)
Definition along_heading (z : zeb R) (X : nat -> R) : Prop :=
  let t := pos (bsyaw (zb z)) in
  forall i, (i < horizon z)%nat ->
    vel (comX z X i) * sin t = vel (comY z X i) * cos t
    /\ vel (baseX z X i) * sin t = vel (baseY z X i) * cos t.

(** The numerical infinity 10^11 of the problem: on the changes of the jerks that have no limit,
    and on the change that d makes in each polygon row. *)
Definition zmoderate (z : zeb R) (d : nat -> R) : Prop :=
  let N := horizon z in
  let Y := fun k => vget (zX z) k + d k in
  let X := vget (zX z) in
  (forall k, (k < (if zcBase (zc z) then 2 * N else 4 * N))%nat -> Rabs (d k) <= MAXB)
  /\ (zcCop (zc z) = true -> forall i j, (i < N)%nat -> (j < length (pverts (bcopPoly (zb z))))%nat ->
        left_slope (nth j (pverts (bcopPoly (zb z))) (0, 0))
          (nth (Nat.modulo (j + 1) (length (pverts (bcopPoly (zb z))))) (pverts (bcopPoly (zb z))) (0, 0))
          (copX z X i - copX z Y i) (copY z X i - copY z Y i) <= MAXB)
  /\ (zcCom (zc z) = true -> forall i j, (i < N)%nat -> (j < length (pverts (bcomPoly (zb z))))%nat ->
        left_slope (nth j (pverts (bcomPoly (zb z))) (0, 0))
          (nth (Nat.modulo (j + 1) (length (pverts (bcomPoly (zb z))))) (pverts (bcomPoly (zb z))) (0, 0))
          (relX z X i - relX z Y i) (relY z X i - relY z Y i) <= MAXB).
Definition zadmissible (z : zeb R) (X : nat -> R) : Prop :=
  (zcBase (zc z) = true -> base_limits z X)
  /\ (zcCop (zc z) = true -> cop_reflected z X)
  /\ (zcCom (zc z) = true -> com_reflected z X)
  /\ (zcTilt (zc z) = true -> along_heading z X).

(** *** What a history of calls leaves behind *)
(** The base height seen by the tilt objectives: the one of the last call that refreshes them. *)
Definition tilt_refreshed (c : zcall R) : bool :=
  match c with
  | ZSetNbSamples _ | ZSetSamplingPeriod _ | ZSetBodyHeight _ | ZSetBodyMass _ | ZSetBaseMass _ => true
  | _ => false
  end.
(** The gravity shift: cleared (Some true), refreshed (Some false) or unchanged *)
Definition shift_effect (c : zcall R) : option bool :=
  match c with
  | ZSetNbSamples _ => Some true
  | ZSetGravity _ | ZSetBodyHeight _ | ZSetBaseHeight _ | ZSetBodyMass _ | ZSetBaseMass _ => Some false
  | _ => None
  end.
(** [zreach z hb cleared]: z is reached from the constructor by calls that return; [hb] is the base
    height of the last call that refreshes the tilt objectives and [cleared] tells that the gravity
    shift of the CoM reference is zero instead of being that of the current parameters. *)
Inductive zreach {CR : SinCos R} {TR : Trig R} : zeb R -> R -> bool -> Prop :=
| zreach_new ux uy z : newZeb ux uy = Ok z -> zreach z 0 true
| zreach_step z hb cleared c z' : zreach z hb cleared -> zstep c z = Ok z' ->
    zreach z' (if tilt_refreshed c then bh (zb z) else hb)
              (match shift_effect c with Some b => b | None => cleared end).

(** The inverses behind a tilt objective are true inverses: the code sets small entries of the
    inverses to zero, and this says that it does not change them.  [Pinv] inverts the matrix giving
    the angles from the angular accelerations, the other one gives the angles (resp. the angular
    velocities) from the right hand side of the tilt equation. *)
Definition tilt_inverses (z : zeb R) (hb : R) : Prop :=
  let N := horizon z in
  exists Pinv t, dUinv (btaD (zb z)) = Some Pinv /\ otilt (zo z) = Some t
    /\ is_inverse N (dU (btaD (zb z))) Pinv
    /\ is_inverse N (msub (mscale (tilt_a1 z hb) (mid N)) (mscale (tilt_a6 z hb) Pinv)) (tuInv t).
Definition tiltvel_inverses (z : zeb R) (hb : R) : Prop :=
  let N := horizon z in
  exists Pinv Vinv t, dUinv (btaD (zb z)) = Some Pinv /\ dUinv (btvD (zb z)) = Some Vinv /\ otiltV (zo z) = Some t
    /\ is_inverse N (dU (btaD (zb z))) Pinv
    /\ is_inverse N (msub (mmul (mscale (tilt_a1 z hb) (dU (btaD (zb z)))) Vinv)
                          (mmul (mmul (mscale (tilt_a6 z hb) (dU (btaD (zb z)))) Vinv) Pinv)) (tuInv t).

(** Parameters for which the code's inverses are exact.  The code clears the entries below 1/10000 of
    the inverse of the matrix from angular accelerations to angles, which is harmless when T^2 is at
    most 20000, and those below 10^-15 of the inverse used by the tilt, which is harmless when the
    coefficients are below 10^15; with [k] = 2 a6 / T^2, the period is short when a1 < k. *)
Definition tilt_moderate (T a1 a6 : R) : Prop :=
  let k := 2 * a6 / T ^ 2 in
  T ^ 2 <= 20000
  /\ ((0 <= a1 < k /\ k - a1 <= 10 ^ 15)
      \/ (0 <= k < a1 /\ a1 - k <= 10 ^ 15 /\ (k = 0 \/ (a1 - k) ^ 2 <= 3 * k * 10 ^ 15))).
Definition tiltvel_moderate (T a1 a6 : R) : Prop :=
  let k := 2 * a6 / T ^ 2 in
  T ^ 2 <= 20000
  /\ ((0 <= a1 < k /\ T * (k - a1) <= 2 * 10 ^ 15) \/ (0 <= k < a1 /\ T * (a1 - k) <= 2 * 10 ^ 15)).

(** *** When a tilt objective can be computed *)
(** The coefficient of the last angular acceleration in terms of the angles, 2/T^2, which the code
    sets to zero when it is below 1/10000 *)
Definition accel_gain (T : R) : R := if Rlt_dec (2 / T ^ 2) (1/10000) then 0 else 2 / T ^ 2.
(** The matrix to invert is regular; only needed when a tilt weight is positive. *)
Definition tilt_regular (w : zweights R) (T m h mb hb : R) : Prop :=
  0 < zwTilt w \/ 0 < zwTiltVel w ->
  (981/100) * (m * h + mb * hb) <> (m * h * h + mb * hb * hb) * accel_gain T.

(** *** When each call returns *)
(** All the vectors the problem reads have the size of the horizon. *)
Definition refs_sized (z : zeb R) : Prop :=
  vlen (rvel (zr z)) = (2 * horizon z)%nat /\ vlen (rpos (zr z)) = (2 * horizon z)%nat /\ vlen (rcop (zr z)) = (2 * horizon z)%nat.
(** [zaccepts c z hb]: what call c needs in state z, [hb] being the base height of the last call that
    refreshed the tilt objectives. *)
Definition zaccepts {TR : Trig R} (c : zcall R) (z : zeb R) (hb : R) : Prop :=
  let N := horizon z in let T := period z in let w := zw z in
  let m := lm (zl z) in let h := lh (zl z) in let mb := bm (zb z) in let now := bh (zb z) in
  match c with
  | ZSetNbSamples n => (0 < n)%nat /\ tilt_regular w T m h mb now
  | ZSetSamplingPeriod T' => 0 < T' /\ tilt_regular w T' m h mb now
  | ZSetGravity g => 1/10000 < Rabs (gz g)
  | ZSetCopPolygon p | ZSetComPolygon p => (3 <= length (pverts p))%nat
  | ZSetCopHull p | ZSetComHull p =>
      exists q, makePolygon (map (fun v => (gx v, gy v)) p) = Ok q /\ (3 <= length (pverts q))%nat
  | ZSetBodyHeight h' => tilt_regular w T m h' mb now
  | ZSetBaseHeight _ => True
  | ZSetBodyMass m' => m <= m' + mb /\ 0 <= m' /\ 1/10000 < m' + mb /\ tilt_regular w T m' h mb now
  | ZSetBaseMass mb' => mb <= m + mb' /\ 0 < mb' /\ 1/10000 < m + mb' /\ tilt_regular w T m h mb' now
  | ZSetVelRef v | ZSetPosRef v | ZSetCopRef v | ZSetComRef v => vlen v = (2 * N)%nat
  | ZSetComAndCopRef a b c d => (vlen a = 2 * N /\ vlen b = 2 * N /\ vlen c = 2 * N /\ vlen d = 2 * N)%nat
      /\ 1/1000000 < Rabs ((mb + m) * gz (lg (zl z)))
  | ZSetVelLimit x | ZSetAccLimit x | ZSetJerkLimit x => 0 <= x
  | ZSetBaseStateX v | ZSetBaseStateY v | ZSetRoll v | ZSetPitch v | ZSetYaw v
  | ZSetComStateX v | ZSetComStateY v => vlen v = 3%nat
  | ZSetContactX _ | ZSetContactY _ => True
  | ZSetWeightings w' => 0 <= zwCop w' /\ 0 <= zwCom w' /\ 0 <= zwVel w' /\ 0 <= zwJerk w' /\ 0 <= zwTilt w'
      /\ tilt_regular w' T m h mb hb
  | ZSetConfig _ => True
  | ZSolve _ f => 0 < f /\ refs_sized z
  end.
