(** Vocabulary of property C74: a Zebulon walk generator and the same generator placed elsewhere. *)

From Coq Require Import Reals List ZArith Arith Bool.
From Verif Require Import Scalar LinAlg ToolsModel QPModel LipModel BaseModel ZebModel ShiftSpec.
Import ListNotations.
Local Open Scope R_scope.

(** A reference of positions: the first half of the entries is along x, the second half along y. *)
Definition carried_ref (a b : R) (v : vec R) : vec R :=
  MkVec (vlen v) (fun i => vget v i + if Nat.ltb i (Nat.div2 (vlen v)) then a else b).
(** The generator whose body, base and position reference are at (a, b) from those of z.  Every other
    member is the same. *)
Definition elsewhere (a b : R) (z : zeb R) : zeb R :=
  let l := zl z in let u := zb z in let r := zr z in
  MkZeb (l_setStates l (carried a (lsx l)) (carried b (lsy l)) (lsyaw l))
        (b_setStates u (carried a (bsx u)) (carried b (bsy u)) (bsroll u) (bspitch u) (bsyaw u))
        (zo z) (MkZR (rvel r) (carried_ref a b (rpos r)) (rcop r) (rcom r) (rshift r) (rgrav r))
        (zw z) (zc z) (zdX z) (zX z) (zqp z) (zsol z) (zfo z) (zfc z).
(** The same call for the robot at (a, b): only the calls that give positions in the world change. *)
Definition elsewhere_call (a b : R) (c : zcall R) : zcall R :=
  match c with
  | ZSetBaseStateX v => ZSetBaseStateX (carried_vec a v)
  | ZSetBaseStateY v => ZSetBaseStateY (carried_vec b v)
  | ZSetComStateX v => ZSetComStateX (carried_vec a v)
  | ZSetComStateY v => ZSetComStateY (carried_vec b v)
  | ZSetPosRef v => ZSetPosRef (carried_ref a b v)
  | ZSetComAndCopRef pc ac pb ab => ZSetComAndCopRef (carried_ref a b pc) ac (carried_ref a b pb) ab
  | c => c
  end.
(** The same outcome, the object being elsewhere. *)
Definition outcome_map {A B} (f : A -> B) (r : res A) : res B :=
  match r with Ok x => Ok (f x) | Abort => Abort | UB => UB | Nan => Nan | OutOfFuel => OutOfFuel end.
(** What a call must not do (see the refutation): give the base a mass of at most 1/10000, which the
    code takes for no mass at all in the centre of pressure but not in the total mass. *)
Definition heavy_base (c : zcall R) : Prop := match c with ZSetBaseMass m => 1/10000 < m | _ => True end.
Definition base_counted (z : zeb R) : Prop := bm (zb z) = 0 \/ 1/10000 < bm (zb z).
