(** The problem that Zebulon hands to the solver: cost and constraints in terms of the motion. *)

From Coq Require Import Reals List ZArith Lra Lia Arith Bool.
From Verif Require Import Scalar LinAlg LinAlgFacts ToolsModel ToolsSpec ToolsFacts TriFacts NoDynModel PolygonModel
  QPModel QPFacts TrajModel TrajFacts LipModel BaseModel ModelsSpec ModelsFacts ZebModel HumAlg ZebAlg ZebSpec ZebFacts ZebObj ZebTilt.
Import ListNotations.
Local Open Scope R_scope.

(** ** Cost *)
Lemma addWo_addGo N w (t : option (tilt R)) g p p' Q Q' (v : (nat -> R) -> R) :
  vlen p = N -> addWo w t Q = Ok Q' -> addGo w g p = Ok p' ->
  (forall t' g', 0 < w -> t = Some t' -> g = Some g' -> forall d, quad N (mget (tH t')) (vget g') d = v d) ->
  vlen p' = N /\ forall d, quad N (mget Q') (vget p') d = quad N (mget Q) (vget p) d + Rmax 0 w * v d.
Proof.
  intros HN HQ HG HV. unfold addWo in HQ. unfold addGo in HG. rsimpl. destruct (Rltb_spec 0 w) as [Hw|Hw].
  - destruct t as [t|]; [|discriminate]. destruct g as [g|]; [|discriminate]. injection HQ as <-.
    unfold vaddE in HG. apply guard_ok in HG. destruct HG as (_ & HG). injection HG as <-. split; [assumption|]. intros d.
    rewrite Rmax_right by lra. rewrite <- (HV t g Hw eq_refl eq_refl). cbn [madd mscale mget vadd vscale vget]. rsimpl.
    exact (quad_add N (mget Q) (mget (tH t)) (vget p) (vget g) w d).
  - injection HQ as <-. injection HG as <-. split; [assumption|]. intros d. rewrite Rmax_left by lra. ring.
Qed.
Lemma tilt_gradient_some l b (t : option (tilt R)) x0 g : tilt_gradient l b t x0 = Ok g ->
  forall t' g', t = Some t' -> g = Some g' -> tilt_gradient l b t x0 = Ok (Some g').
Proof. intros H t' g' _ ->. exact H. Qed.

Lemma gravity_shift_value l b v : gravity_shift (K:=R) l b = Ok v -> bm b + lm l <> 0 /\ gz (lg l) <> 0
  /\ forall i, vget v i = (lm l * lh l + bm b * bh b) / (bm b + lm l) * (if Nat.ltb i (bN b) then gx (lg l) else gy (lg l)) / gz (lg l).
Proof.
  unfold gravity_shift. intros H. apply bind_ok in H. destruct H as (_ & _ & H).
  unfold nanguard in H. rsimpl. destruct (Reqb_spec (bm b + lm l) 0) as [E1|E1]; [discriminate|]. cbn [negb bind] in H.
  destruct (Reqb_spec (gz (lg l)) 0) as [E2|E2]; [discriminate|]. cbn [negb bind] in H. injection H as <-.
  split; [assumption|]. split; [assumption|]. intros i. cbn [vget]. destruct (Nat.ltb i (bN b)); reflexivity.
Qed.

(** The shift of the CoM reference that is in force *)
Definition shiftX (z : zeb R) (cleared : bool) : R := if cleared then 0 else gshift z (gx (lg (zl z))).
Definition shiftY (z : zeb R) (cleared : bool) : R := if cleared then 0 else gshift z (gy (lg (zl z))).
Lemma shift_values z gs : models_ok (zl z) (zb z) -> refs_ok (zl z) (zb z) gs (zr z) -> forall i, (i < horizon z)%nat ->
  vget (rshift (zr z)) i = vget (rcom (zr z)) i + shiftX z gs
  /\ vget (rshift (zr z)) (horizon z + i)%nat = vget (rcom (zr z)) (horizon z + i)%nat + shiftY z gs.
Proof.
  intros M (_ & _ & _ & E & G) i Hi. rewrite !E. unfold shiftX, shiftY. destruct gs.
  - rewrite !G. split; reflexivity.
  - apply gravity_shift_value in G. destruct G as (_ & _ & G). rewrite !G, (mo_N _ _ M). fold (horizon z). unfold gshift. bools. split; reflexivity.
Qed.

Lemma zeb_cost_change z gh gs q : zinv z gh gs -> z_problem z = Ok q ->
  (0 < zwTilt (zw z) -> tilt_inverses z gh) -> (0 < zwTiltVel (zw z) -> tiltvel_inverses z gh) -> forall d,
  qcost q d = zfo z * (zeb_cost z gh (shiftX z gs) (shiftY z gs) (fun k => vget (zX z) k + d k)
                       - zeb_cost z gh (shiftX z gs) (shiftY z gs) (vget (zX z))).
Proof.
  intros ([M O Rf LX LdX] & QI) H IT IV d. pose proof (z_problem_shape _ _ QI H) as (SQ & _ & Sp & _).
  destruct QI as [(Q & EQ & QQ & Qf) _ _ Qp _ _ _ _ _ _ _].
  pose proof (models_dyns _ _ M) as D. destruct O as [O1 O2 O3 O4 O5 O6 O7 O8 O9 O10 O11].
  set (N := horizon z) in *. change (lN (zl z)) with N in *.
  unfold z_problem in H. change (lN (zl z)) with N in H. apply guard_ok in H. destruct H as (_ & H).
  apply bind_ok in H. destruct H as (gv & Gv & H). apply guard_ok in H. destruct H as (_ & H).
  apply bind_ok in H. destruct H as (gp & Gp & H). apply guard_ok in H. destruct H as (_ & H).
  apply bind_ok in H. destruct H as (gc & Gc & H). apply guard_ok in H. destruct H as (_ & H).
  apply bind_ok in H. destruct H as (gm & Gm & H). apply guard_ok in H. destruct H as (_ & H).
  apply bind_ok in H. destruct H as (gj & Gj & H). apply guard_ok in H. destruct H as (_ & H).
  apply bind_ok in H. destruct H as (gt & Gt & H). apply guard_ok in H. destruct H as (_ & H).
  apply bind_ok in H. destruct H as (gw & Gw & H). apply guard_ok in H. destruct H as (_ & H).
  apply bind_ok in H. destruct H as (p1 & E1 & H). apply bind_ok in H. destruct H as (p2 & E2 & H).
  apply bind_ok in H. destruct H as (p3 & E3 & H). apply bind_ok in H. destruct H as (p4 & E4 & H).
  apply bind_ok in H. destruct H as (p5 & E5 & H). apply bind_ok in H. destruct H as (p6 & E6 & H).
  apply bind_ok in H. destruct H as (p7 & E7 & H).
  do 8 (apply bind_ok in H; destruct H as (? & _ & H)).
  assert (EP : qp q = vscale (zfo z) p7) by (injection H as <-; reflexivity). clear H.
  unfold zQ in EQ. apply bind_ok in EQ. destruct EQ as (Q1 & EQ1 & EQ2).
  assert (L0 : vlen (vfill (vlen (qp (zqp z))) (@s0 R RScalar)) = (4 * N)%nat) by exact Qp.
  destruct (addWblock_addGseg N _ _ _ _ L0 E1) as (L1 & F1).
  destruct (addWblock_addGseg N _ _ _ _ L1 E2) as (L2 & F2).
  destruct (addW_addG (4 * N) _ _ _ _ L2 E3) as (L3 & F3).
  destruct (addW_addG (4 * N) _ _ _ _ L3 E4) as (L4 & F4).
  destruct (addW_addG (4 * N) _ _ _ _ L4 E5) as (L5 & F5).
  set (Y := fun k => vget (zX z) k + d k).
  destruct (addWo_addGo (4 * N) _ _ _ _ _ _ _
    (fun d => half2 N (fun i => ang (rollAt z gh (fun k => vget (zX z) k + d k) i)) (fun i => ang (pitchAt z gh (fun k => vget (zX z) k + d k) i))
              - half2 N (fun i => ang (rollAt z gh (vget (zX z)) i)) (fun i => ang (pitchAt z gh (vget (zX z)) i))) L5 EQ1 E6) as (L6 & F6).
  { intros t' g' Hw Et Eg. apply (tilt_quad z gh M); auto. rewrite Gt, Eg. reflexivity. }
  destruct (addWo_addGo (4 * N) _ _ _ _ _ _ _
    (fun d => half2 N (fun i => angv (rollAt z gh (fun k => vget (zX z) k + d k) i)) (fun i => angv (pitchAt z gh (fun k => vget (zX z) k + d k) i))
              - half2 N (fun i => angv (rollAt z gh (vget (zX z)) i)) (fun i => angv (pitchAt z gh (vget (zX z)) i))) L6 EQ2 E7) as (L7 & F7).
  { intros t' g' Hw Et Eg. apply (tiltV_quad z gh M); auto. rewrite Gw, Eg. reflexivity. }
  rewrite qcost_quad, Sp, SQ, QQ, EP.
  change (lN (zl z)) with N. transitivity (zfo z * quad (4 * N) (mget Q) (vget p7) d).
  { rewrite <- quad_scale. reflexivity. }
  f_equal. rewrite F7, F6, F5, F4, F3. rewrite F2, F1.
  2-5: rewrite ?O1, ?O2, (mo_N _ _ M); reflexivity.
  assert (Z : quad (4 * N) (mget (mzero (4 * N) (4 * N))) (vget (vfill (vlen (qp (zqp z))) s0)) d = 0) by (apply quad_zero; intros; reflexivity).
  rewrite Z. clear Z.
  destruct (dy_bv _ _ D) as (Bv & Kv), (dy_bp _ _ D) as (Bp & Kp). change (lN (zl z)) with N in Bv, Kv, Bp, Kp.
  pose proof (mo_N _ _ M) as EN. change (lN (zl z)) with N in EN. rewrite EN in O1, O2, O3.
  rewrite O1 in Gv |- *. rewrite O2 in Gp |- *. rewrite O3.
  assert (BT : forall dd f ref g, dynF dd N (lT (zl z)) (lT (zl z)) f -> dK dd = vzero N ->
    btrack_gradient (zb z) dd (btrack_hessian N dd) ref (vseg (zX z) (2 * N) (2 * N)) = Ok g ->
    quad (2 * N) (mget (btrack_hessian N dd)) (vget g) (fun k => d (2 * N + k)%nat)
    = half2 N (fun i => f (baseX z Y i) - vget ref i) (fun i => f (baseY z Y i) - vget ref (N + i)%nat)
      - half2 N (fun i => f (baseX z (vget (zX z)) i) - vget ref i) (fun i => f (baseY z (vget (zX z)) i) - vget ref (N + i)%nat)).
  { intros dd f ref g F K G. rewrite (btrack_quad N (lT (zl z)) _ f _ _ _ _ F K EN G).
    assert (S3 : forall W s0' i, sim (lT (zl z)) (lT (zl z)) s0' (fun k => W (2 * N + (N + k))%nat) i
      = sim (lT (zl z)) (lT (zl z)) s0' (fun k => W (3 * N + k)%nat) i).
    { intros W s0' i. apply sim_causal. intros k _. f_equal. lia. }
    f_equal; apply half2_ext; intros i Hi; try reflexivity.
    - do 2 f_equal. exact (S3 Y (bsy (zb z)) i).
    - do 2 f_equal. exact (S3 (vget (zX z)) (bsy (zb z)) i). }
  rewrite (BT _ vel _ _ Bv Kv Gv), (BT _ pos _ _ Bp Kp Gp).
  rewrite (cop_quad z _ _ _ _ D O4 Gc), (com_quad z _ _ _ _ _ _ D O5 Gm). fold N.
  unfold zjerk_gradient in Gj. apply guard_ok in Gj. destruct Gj as (_ & Gj). injection Gj as <-.
  unfold zjerk_hessian. rewrite jerk_quad. fold Y.
  unfold zeb_cost. fold N. fold Y.
  set (sX := fun i => vget (rcom (zr z)) i + shiftX z gs). set (sY := fun i => vget (rcom (zr z)) (N + i)%nat + shiftY z gs).
  pose proof (shift_values z gs M Rf) as SV. fold N in SV.
  rewrite (half2_ext N (fun i => relX z Y i - vget (rshift (zr z)) i) (fun i => relX z Y i - sX i)
    (fun i => relY z Y i - vget (rshift (zr z)) (N + i)%nat) (fun i => relY z Y i - sY i)).
  2:{ intros i Hi. rewrite (proj1 (SV i Hi)). reflexivity. }
  2:{ intros i Hi. rewrite (proj2 (SV i Hi)). reflexivity. }
  rewrite (half2_ext N (fun i => relX z (vget (zX z)) i - vget (rshift (zr z)) i) (fun i => relX z (vget (zX z)) i - sX i)
    (fun i => relY z (vget (zX z)) i - vget (rshift (zr z)) (N + i)%nat) (fun i => relY z (vget (zX z)) i - sY i)).
  2:{ intros i Hi. rewrite (proj1 (SV i Hi)). reflexivity. }
  2:{ intros i Hi. rewrite (proj2 (SV i Hi)). reflexivity. }
  unfold half2, sX, sY, Y. ring.
Qed.

(** ** Constraints *)
Lemma cond_get (c : bool) (f : res (vec R)) (v v' : vec R) off n : (c = false -> n = 0%nat) ->
  (if c then do x <- f; vputE v off n x else Ok v) = Ok v' ->
  exists x, (c = true -> f = Ok x) /\ forall k, vget v' k = if (Nat.leb off k && Nat.ltb k (off + n))%bool then vget x (k - off) else vget v k.
Proof.
  intros Hn H. destruct c.
  - apply bind_ok in H. destruct H as (x & Hx & H). unfold vputE in H. apply guard_ok in H. destruct H as (_ & H).
    apply guard_ok in H. destruct H as (E & H). apply Nat.eqb_eq in E. injection H as <-. exists x. split; [auto|].
    intros k. cbn [vsetseg vget]. rewrite E. reflexivity.
  - injection H as <-. exists v. split; [discriminate|]. intros k. rewrite Hn by reflexivity. rewrite Nat.add_0_r. bools; try reflexivity; exfalso; lia.
Qed.
Lemma cond_get' (c : bool) (x v v' : vec R) off n : (c = false -> n = 0%nat) ->
  (if c then vputE v off n x else Ok v) = Ok v' ->
  forall k, vget v' k = if (Nat.leb off k && Nat.ltb k (off + n))%bool then vget x (k - off) else vget v k.
Proof.
  intros Hn H. destruct (cond_get c (Ok x) v v' off n Hn) as (x' & E & G); [destruct c; exact H|].
  intros k. rewrite G. destruct c.
  - specialize (E eq_refl). injection E as <-. reflexivity.
  - rewrite Hn by reflexivity. rewrite Nat.add_0_r. bools; try reflexivity; exfalso; lia.
Qed.

Section Rows.
  Variable N : nat.
  Lemma rows2_x (a b u v : mat R) (Y : nat -> R) j : mrows a = N -> mcols a = N -> mrows b = N -> mcols b = N ->
    mrows u = N -> mcols u = N -> mrows v = N -> mcols v = N -> (j < N)%nat ->
    ssum (4 * N) (fun c => mget (rows2 N a b u v) j c * Y c)
    = ssum N (fun k => mget a j k * Y k) + ssum N (fun k => mget u j k * Y (2 * N + k)%nat).
  Proof.
    intros A1 A2 B1 B2 U1 U2 V1 V2 Hj. rewrite <- (ux_apply N (mget a) (mget u)). apply ssum_ext. intros c Hc. f_equal.
    unfold rows2, ux. cbn [msetblock mget mzero mrows mcols]. rewrite A1, A2, B1, B2, U1, U2, V1, V2. rsimpl.
    bools; rewrite ?Nat.sub_0_r; try reflexivity; exfalso; lia.
  Qed.
  Lemma rows2_y (a b u v : mat R) (Y : nat -> R) j : mrows a = N -> mcols a = N -> mrows b = N -> mcols b = N ->
    mrows u = N -> mcols u = N -> mrows v = N -> mcols v = N -> (j < N)%nat ->
    ssum (4 * N) (fun c => mget (rows2 N a b u v) (N + j) c * Y c)
    = ssum N (fun k => mget b j k * Y (N + k)%nat) + ssum N (fun k => mget v j k * Y (3 * N + k)%nat).
  Proof.
    intros A1 A2 B1 B2 U1 U2 V1 V2 Hj. rewrite <- (uy_apply N (mget b) (mget v)). apply ssum_ext. intros c Hc. f_equal.
    unfold rows2, uy. cbn [msetblock mget mzero mrows mcols]. rewrite A1, A2, B1, B2, U1, U2, V1, V2. rsimpl.
    replace (N + j - N)%nat with j by lia.
    bools; rewrite ?Nat.sub_0_r; try reflexivity; exfalso; lia.
  Qed.

  (** One row of a polygon constraint *)
  Variable p : polygon R.
  Notation edge1 e := (nth e (pverts p) (0, 0)).
  Notation edge2 e := (nth (Nat.modulo (e + 1) (length (pverts p))) (pverts p) (0, 0)).
  Lemma poly_row (t : nat -> R) e j : (0 < N)%nat -> (j < N)%nat ->
    ssum (2 * N) (fun c => mget (poly_A N p) (e * N + j) c * t c) = left_slope (edge1 e) (edge2 e) (- t j) (- t (N + j)%nat).
  Proof.
    intros HN Hj. unfold poly_A. cbn [mget].
    assert (D : ((e * N + j) / N)%nat = e) by (rewrite Nat.div_add_l by lia; rewrite Nat.div_small by assumption; lia).
    assert (Mo : ((e * N + j) mod N)%nat = j) by (rewrite Nat.add_comm, Nat.mod_add by lia; apply Nat.mod_small; assumption).
    rewrite D, Mo. rewrite ssum_2N.
    rewrite (ssum_single N j) by (try assumption; intros k Hk Hne; bools; rsimpl; try ring; exfalso; lia).
    rewrite (ssum_single N j (fun i => _ * t (N + i)%nat)) by (try assumption; intros k Hk Hne; bools; rsimpl; try ring; exfalso; lia).
    bools; try (exfalso; lia). unfold left_slope, vertex. rsimpl. ring.
  Qed.
  Lemma poly_rhs e j : (0 < N)%nat -> (j < N)%nat -> vget (poly_b N p) (e * N + j) = left_of (edge1 e) (edge2 e) 0 0.
  Proof.
    intros HN Hj. unfold poly_b. cbn [vget].
    assert (D : ((e * N + j) / N)%nat = e) by (rewrite Nat.div_add_l by lia; rewrite Nat.div_small by assumption; lia).
    rewrite D. unfold left_of, vertex. rsimpl. ring.
  Qed.
  Lemma left_of_slope p1 p2 x y : left_of p1 p2 x y = left_of p1 p2 0 0 + left_slope p1 p2 x y.
  Proof. unfold left_of, left_slope. ring. Qed.
  Lemma slope_sub p1 p2 x y x' y' : left_slope p1 p2 (x - x') (y - y') = left_slope p1 p2 x y - left_slope p1 p2 x' y'.
  Proof. unfold left_slope. ring. Qed.

  (** [B], [t]: the quantity is B X + t *)
  Variables (B : mat R) (t : vec R) (cx cy : (nat -> R) -> nat -> R).
  Hypothesis HB : mcols B = (4 * N)%nat.
  Hypothesis HX : forall Y j, (j < N)%nat -> ssum (4 * N) (fun c => mget B j c * Y c) + vget t j = cx Y j.
  Hypothesis HY : forall Y j, (j < N)%nat -> ssum (4 * N) (fun c => mget B (N + j) c * Y c) + vget t (N + j)%nat = cy Y j.
  Lemma poly_row_move d X e j : (0 < N)%nat -> (j < N)%nat ->
    ssum (4 * N) (fun c => mget (mmul (poly_A N p) B) (e * N + j) c * d c)
    = left_slope (edge1 e) (edge2 e) (cx X j - cx (fun k => X k + d k) j) (cy X j - cy (fun k => X k + d k) j).
  Proof.
    intros HN Hj. cbn [mmul mget]. change (mcols (poly_A N p)) with (2 * N)%nat.
    rewrite (ssum_ext (4 * N) _ (fun c => ssum (2 * N) (fun k => mget (poly_A N p) (e * N + j) k * mget B k c * d c))).
    2:{ intros c _. rewrite <- ssum_mul_r. apply ssum_ext. intros. reflexivity. }
    rewrite ssum_swap.
    rewrite (ssum_ext (2 * N) _ (fun k => mget (poly_A N p) (e * N + j) k * ssum (4 * N) (fun c => mget B k c * d c))).
    2:{ intros k _. rewrite <- ssum_mul_l. apply ssum_ext. intros. ring. }
    rewrite (poly_row (fun k => ssum (4 * N) (fun c => mget B k c * d c))) by assumption.
    rewrite <- !HX, <- !HY by assumption.
    rewrite (ssum_ext (4 * N) (fun c => mget B j c * (X c + d c)) (fun c => mget B j c * X c + mget B j c * d c)) by (intros; ring).
    rewrite (ssum_ext (4 * N) (fun c => mget B (N + j) c * (X c + d c)) (fun c => mget B (N + j) c * X c + mget B (N + j) c * d c)) by (intros; ring).
    rewrite !ssum_plus. f_equal; ring.
  Qed.
  Lemma poly_row_lower d x0 e j : (0 < N)%nat -> (j < N)%nat -> vlen x0 = (4 * N)%nat ->
    (vget (vsub (vsub (vopp (poly_b N p)) (mv (mmul (poly_A N p) B) x0)) (mv (poly_A N p) t)) (e * N + j)
       <= ssum (4 * N) (fun c => mget (mmul (poly_A N p) B) (e * N + j) c * d c)
     <-> 0 <= left_of (edge1 e) (edge2 e) (- cx (fun k => vget x0 k + d k) j) (- cy (fun k => vget x0 k + d k) j)).
  Proof.
    intros HN Hj HL. rewrite left_of_slope, (poly_row_move d (vget x0)), slope_sub by assumption.
    cbn [vsub vopp vget]. rewrite poly_rhs by assumption. cbn [mv vget]. change (mcols (poly_A N p)) with (2 * N)%nat.
    change (mcols (mmul (poly_A N p) B)) with (mcols B). rewrite HB.
    rewrite (poly_row (vget t)) by assumption.
    rewrite (poly_row_move (vget x0) (fun _ => 0)) by assumption.
    rewrite <- !HX, <- !HY by assumption.
    rewrite !(ssum_0 (4 * N) (fun c => mget B _ c * 0)) by (intros; ring).
    rewrite (ssum_ext (4 * N) (fun c => mget B j c * (0 + vget x0 c)) (fun c => mget B j c * vget x0 c)) by (intros; ring).
    rewrite (ssum_ext (4 * N) (fun c => mget B (N + j) c * (0 + vget x0 c)) (fun c => mget B (N + j) c * vget x0 c)) by (intros; ring).
    unfold left_slope. rsimpl.
    set (e1x := fst (edge1 e)). set (e1y := snd (edge1 e)). set (e2x := fst (edge2 e)). set (e2y := snd (edge2 e)).
    split; intros; lra.
  Qed.
End Rows.

Lemma two_segs N (a b : vec R) i : vlen a = N -> vlen b = N -> (i < N)%nat ->
  vget (vsetseg (vsetseg (vzero (2 * N)) 0 a) N b) i = vget a i /\ vget (vsetseg (vsetseg (vzero (2 * N)) 0 a) N b) (N + i)%nat = vget b i.
Proof.
  intros A B Hi. cbn [vsetseg vget vlen]. rewrite A, B. replace (N + i - N)%nat with i by lia. bools; try (exfalso; lia). rewrite Nat.sub_0_r. split; reflexivity.
Qed.
Lemma two_segs_x N (a b : vec R) i : vlen a = N -> vlen b = N -> (i < N)%nat -> vget (vsetseg (vsetseg (vzero (2 * N)) 0 a) N b) i = vget a i.
Proof. intros A B Hi. apply two_segs; assumption. Qed.
Lemma two_segs_y N (a b : vec R) i : vlen a = N -> vlen b = N -> (i < N)%nat -> vget (vsetseg (vsetseg (vzero (2 * N)) 0 a) N b) (N + i)%nat = vget b i.
Proof. intros A B Hi. apply two_segs; assumption. Qed.
Ltac dimv := cbn [vadd vsub mv vlen mrows]; assumption.
Lemma cop_rows z (c : pctr R) f x0 : dyns (zl z) (zb z) -> copc_constant (zl z) (zb z) = Ok c -> vlen x0 = (4 * horizon z)%nat ->
  copc_function (zl z) (zb z) c x0 = Ok f -> forall d e j, (j < horizon z)%nat ->
  let p := bcopPoly (zb z) in
  let p1 := nth e (pverts p) (0, 0) in let p2 := nth (Nat.modulo (e + 1) (length (pverts p))) (pverts p) (0, 0) in
  let N := horizon z in
  let Y := fun k => vget x0 k + d k in
  (vget f (e * N + j)%nat <= ssum (4 * N) (fun k => mget (pcG c) (e * N + j) k * d k) <-> 0 <= left_of p1 p2 (- copX z Y j) (- copY z Y j))
  /\ ssum (4 * N) (fun k => mget (pcG c) (e * N + j) k * d k)
     = left_slope p1 p2 (copX z (vget x0) j - copX z Y j) (copY z (vget x0) j - copY z Y j).
Proof.
  intros D HC HL HF d e j Hj p p1 p2 N Y. pose proof (dy_N _ _ D) as N0. fold (horizon z) in N0. fold N in N0, Hj, HL.
  destruct (dy_cx _ _ D) as (cx & Lx & Dx), (dy_cy _ _ D) as (cy & Ly & Dy).
  destruct (dy_bp _ _ D) as (Dp & Kp). pose proof (dy_bx _ _ D) as Bx. pose proof (dy_by _ _ D) as By.
  unfold copc_constant in HC. apply bind_ok in HC. destruct HC as (_ & _ & HC). rewrite Lx in HC. cbn [bind] in HC. rewrite Ly in HC. cbn [bind] in HC.
  injection HC as <-.
  unfold copc_function in HF. apply guard_ok in HF. destruct HF as (_ & HF).
  apply bind_ok in HF. destruct HF as (_ & _ & HF). rewrite Lx in HF. cbn [bind] in HF. rewrite Ly in HF. cbn [bind pcA pcb pcG] in HF.
  fold (horizon z) in *. fold N in HF, Dx, Dy, Dp, Bx, By, Kp.
  apply (f_equal (fun r => match r with Ok v => vget v (e * N + j)%nat | _ => 0 end)) in HF. rewrite <- HF. clear HF. cbn [pcG]. fold p.
  change (sltb EPS (bm (zb z))) with (Rltb (1/10000) (bm (zb z))) in *.
  match goal with |- context [mv (poly_A N p) ?t0] => set (t := t0) end. match goal with |- context [mmul (poly_A N p) ?B0] => set (B := B0) end.
  assert (HB : mcols B = (4 * N)%nat) by (unfold B; destruct (Rltb (1/10000) (bm (zb z))); reflexivity).
  shapes.
  assert (HX : forall W i, (i < N)%nat -> ssum (4 * N) (fun c => mget B i c * W c) + vget t i = copX z W i).
  { intros W i Hi. unfold copX, rel_cop.
    unfold B, t. destruct (Rltb_spec (1/10000) (bm (zb z))) as [Hm|Hm]; destruct (Rlt_dec (1/10000) (bm (zb z))) as [Hm'|Hm']; try contradiction.
    - unfold comX, baseX. rewrite <- (Dx _ _ i Hi), <- (Bx _ _ i Hi), <- (Dp _ _ i Hi).
      rewrite rows2_x by (try dims; assumption). rewrite two_segs_x by dimv. cbn [vadd vget].
      cbn [msub mget]. rewrite (ssum_sub N _ _ (fun k => W (2 * N + k)%nat)), Kp, mv_msub by congruence. cbn [vzero vget].
      unfold jComX, jBaseX. fold N. rsimpl. ring.
    - unfold comX, baseX. rewrite <- (Dx _ _ i Hi), <- (Dp _ _ i Hi).
      rewrite rows2_x by (try dims; assumption). rewrite two_segs_x by dimv. cbn [vadd vsub vget].
      cbn [mopp mget]. rsimpl. rewrite (ssum_neg N _ (fun k => W (2 * N + k)%nat)), Kp. cbn [vzero vget].
      unfold jComX, jBaseX. fold N. rsimpl. ring. }
  assert (HY : forall W i, (i < N)%nat -> ssum (4 * N) (fun c => mget B (N + i) c * W c) + vget t (N + i)%nat = copY z W i).
  { intros W i Hi. unfold copY, rel_cop.
    unfold B, t. destruct (Rltb_spec (1/10000) (bm (zb z))) as [Hm|Hm]; destruct (Rlt_dec (1/10000) (bm (zb z))) as [Hm'|Hm']; try contradiction.
    - unfold comY, baseY. rewrite <- (Dy _ _ i Hi), <- (By _ _ i Hi), <- (Dp _ _ i Hi).
      rewrite rows2_y by (try dims; assumption). rewrite two_segs_y by dimv. cbn [vadd vget].
      cbn [msub mget]. rewrite (ssum_sub N _ _ (fun k => W (3 * N + k)%nat)), Kp, mv_msub by congruence. cbn [vzero vget].
      unfold jComY, jBaseY. fold N. rsimpl. ring.
    - unfold comY, baseY. rewrite <- (Dy _ _ i Hi), <- (Dp _ _ i Hi).
      rewrite rows2_y by (try dims; assumption). rewrite two_segs_y by dimv. cbn [vadd vsub vget].
      cbn [mopp mget]. rsimpl. rewrite (ssum_neg N _ (fun k => W (3 * N + k)%nat)), Kp. cbn [vzero vget].
      unfold jComY, jBaseY. fold N. rsimpl. ring. }
  split.
  - apply (poly_row_lower N p B t (copX z) (copY z) HB HX HY); assumption.
  - apply (poly_row_move N p B t (copX z) (copY z) HX HY d (vget x0)); assumption.
Qed.

Lemma com_rows z (c : pctr R) f x0 : dyns (zl z) (zb z) -> comc_constant (zl z) (zb z) = Ok c -> vlen x0 = (4 * horizon z)%nat ->
  comc_function (zl z) (zb z) c x0 = Ok f -> forall d e j, (j < horizon z)%nat ->
  let p := bcomPoly (zb z) in
  let p1 := nth e (pverts p) (0, 0) in let p2 := nth (Nat.modulo (e + 1) (length (pverts p))) (pverts p) (0, 0) in
  let N := horizon z in
  let Y := fun k => vget x0 k + d k in
  (vget f (e * N + j)%nat <= ssum (4 * N) (fun k => mget (pcG c) (e * N + j) k * d k) <-> 0 <= left_of p1 p2 (- relX z Y j) (- relY z Y j))
  /\ ssum (4 * N) (fun k => mget (pcG c) (e * N + j) k * d k)
     = left_slope p1 p2 (relX z (vget x0) j - relX z Y j) (relY z (vget x0) j - relY z Y j).
Proof.
  intros D HC HL HF d e j Hj p p1 p2 N Y. pose proof (dy_N _ _ D) as N0. fold (horizon z) in N0. fold N in N0, Hj, HL.
  destruct (dy_p _ _ D) as (cc & L & Dc & Kc), (dy_bp _ _ D) as (Dp & Kp).
  unfold comc_constant in HC. apply bind_ok in HC. destruct HC as (_ & _ & HC). rewrite L in HC. cbn [bind] in HC.
  injection HC as <-.
  unfold comc_function in HF. apply guard_ok in HF. destruct HF as (_ & HF).
  apply bind_ok in HF. destruct HF as (_ & _ & HF). rewrite L in HF. cbn [bind pcA pcb pcG] in HF.
  fold (horizon z) in *. fold N in HF, Dc, Dp, Kp, Kc.
  apply (f_equal (fun r => match r with Ok v => vget v (e * N + j)%nat | _ => 0 end)) in HF. rewrite <- HF. clear HF. cbn [pcG]. fold p.
  match goal with |- context [mv (poly_A N p) ?t0] => set (t := t0) end. match goal with |- context [mmul (poly_A N p) ?B0] => set (B := B0) end.
  assert (HB : mcols B = (4 * N)%nat) by reflexivity.
  shapes.
  assert (HX : forall W i, (i < N)%nat -> ssum (4 * N) (fun c => mget B i c * W c) + vget t i = relX z W i).
  { intros W i Hi. unfold relX, B, t, comX, baseX. rewrite <- (Dc _ _ i Hi), <- (Dp _ _ i Hi).
    rewrite rows2_x by (try dims; assumption). rewrite two_segs_x by dimv. cbn [vadd vsub vget].
    cbn [mopp mget]. rsimpl. rewrite (ssum_neg N _ (fun k => W (2 * N + k)%nat)), Kp, Kc. cbn [vzero vget].
    unfold jComX, jBaseX. fold N. rsimpl. ring. }
  assert (HY : forall W i, (i < N)%nat -> ssum (4 * N) (fun c => mget B (N + i) c * W c) + vget t (N + i)%nat = relY z W i).
  { intros W i Hi. unfold relY, B, t, comY, baseY. rewrite <- (Dc _ _ i Hi), <- (Dp _ _ i Hi).
    rewrite rows2_y by (try dims; assumption). rewrite two_segs_y by dimv. cbn [vadd vsub vget].
    cbn [mopp mget]. rsimpl. rewrite (ssum_neg N _ (fun k => W (3 * N + k)%nat)), Kp, Kc. cbn [vzero vget].
    unfold jComY, jBaseY. fold N. rsimpl. ring. }
  split.
  - apply (poly_row_lower N p B t (relX z) (relY z) HB HX HY); assumption.
  - apply (poly_row_move N p B t (relX z) (relY z) HX HY d (vget x0)); assumption.
Qed.

(** Limits of the base: row q*N+i of the four blocks *)
Lemma base_rows z G f x0 vl al : models_ok (zl z) (zb z) -> G = bmotion_gradient (zb z) -> vlen x0 = (4 * horizon z)%nat ->
  bmotion_function (zb z) G (vseg x0 (2 * horizon z) (2 * horizon z)) vl al = Ok f -> forall d i, (i < horizon z)%nat ->
  let N := horizon z in
  let Y := fun k => vget x0 k + d k in
  let row r := ssum (2 * N) (fun k => mget G r k * d (2 * N + k)%nat) in
  vget f i - row i = vl - vel (baseX z Y i)
  /\ vget f (N + i)%nat - row (N + i)%nat = vl - vel (baseY z Y i)
  /\ vget f (2 * N + i)%nat - row (2 * N + i)%nat = al - acc (baseX z Y i)
  /\ vget f (3 * N + i)%nat - row (3 * N + i)%nat = al - acc (baseY z Y i).
Proof.
  intros M EG HL HF d i Hi N Y row. pose proof (models_dyns _ _ M) as D.
  destruct (dy_bv _ _ D) as (Dv & Kv), (dy_ba _ _ D) as (Da & Ka). fold (horizon z) in *. fold N in Dv, Kv, Da, Ka, HL, Hi, HF.
  shapes. subst G. unfold bmotion_function in HF. apply guard_ok in HF. destruct HF as (_ & HF).
  assert (EN : bN (zb z) = N) by exact (mo_N _ _ M). rewrite EN in HF.
  assert (RX : forall dd a r (W : nat -> R), dd = dU (bvelD (zb z)) /\ r = a \/ dd = dU (baccD (zb z)) /\ r = (2 * N + a)%nat -> (a < N)%nat ->
    ssum (2 * N) (fun k => mget (bmotion_gradient (zb z)) r k * W k) = ssum N (fun k => mget dd a k * W k)).
  { intros dd a r W Hc Ha. rewrite ssum_2N, (ssum_0 N (fun k => mget _ r (N + k)%nat * _)).
    - rewrite Rplus_0_r. apply ssum_ext. intros k Hk. f_equal. unfold bmotion_gradient. cbn [msetblock mget mzero mrows mcols]. rewrite EN, H, H0, H4, H5.
      destruct Hc as [(-> & ->)|(-> & ->)]; bools; rewrite ?Nat.sub_0_r; try (exfalso; lia); try reflexivity. f_equal; lia.
    - intros k Hk. unfold bmotion_gradient. cbn [msetblock mget mzero mrows mcols]. rewrite EN, H, H0, H4, H5.
      destruct Hc as [(-> & ->)|(-> & ->)]; bools; rsimpl; try (exfalso; lia); ring. }
  assert (RY : forall dd a r (W : nat -> R), dd = dU (bvelD (zb z)) /\ r = (N + a)%nat \/ dd = dU (baccD (zb z)) /\ r = (3 * N + a)%nat -> (a < N)%nat ->
    ssum (2 * N) (fun k => mget (bmotion_gradient (zb z)) r k * W k) = ssum N (fun k => mget dd a k * W (N + k)%nat)).
  { intros dd a r W Hc Ha. rewrite ssum_2N, (ssum_0 N (fun k => mget _ r k * _)).
    - rewrite Rplus_0_l. apply ssum_ext. intros k Hk. f_equal. unfold bmotion_gradient. cbn [msetblock mget mzero mrows mcols]. rewrite EN, H, H0, H4, H5.
      destruct Hc as [(-> & ->)|(-> & ->)]; bools; rewrite ?Nat.sub_0_r; try (exfalso; lia); f_equal; lia.
    - intros k Hk. unfold bmotion_gradient. cbn [msetblock mget mzero mrows mcols]. rewrite EN, H, H0, H4, H5.
      destruct Hc as [(-> & ->)|(-> & ->)]; bools; rsimpl; try (exfalso; lia); ring. }
  assert (MVG : forall r, vget (mv (bmotion_gradient (zb z)) (vseg x0 (2 * N) (2 * N))) r = ssum (2 * N) (fun k => mget (bmotion_gradient (zb z)) r k * vget x0 (2 * N + k)%nat)).
  { intros r. cbn [mv vget]. change (mcols (bmotion_gradient (zb z))) with (2 * bN (zb z))%nat. rewrite EN. reflexivity. }
  apply (f_equal (fun r => match r with Ok v => v | _ => f end)) in HF. 
  set (g := mv (bmotion_gradient (zb z)) (vseg x0 (2 * N) (2 * N))) in *.
  assert (LG : vlen g = (4 * N)%nat) by (unfold g, bmotion_gradient; cbn [mv vlen mrows msetblock mzero]; lia).
  set (vx := mv (dS (bvelD (zb z))) (vec_of_st3 (bsx (zb z)))) in *. set (vy := mv (dS (bvelD (zb z))) (vec_of_st3 (bsy (zb z)))) in *.
  set (ax := mv (dS (baccD (zb z))) (vec_of_st3 (bsx (zb z)))) in *. set (ay := mv (dS (baccD (zb z))) (vec_of_st3 (bsy (zb z)))) in *.
  assert (Lvx : vlen vx = N) by (unfold vx; dims). assert (Lvy : vlen vy = N) by (unfold vy; dims).
  assert (Lax : vlen ax = N) by (unfold ax; dims). assert (Lay : vlen ay = N) by (unfold ay; dims).
  assert (FV : forall r, vget f r = vget (vaddseg (vaddseg (vaddseg (vaddseg (vaddseg (vaddseg (vaddseg (vaddseg (vopp g) 0 (vfill N vl)) 0 (vopp vx)) N (vfill N vl)) N (vopp vy)) (2 * N) (vfill N al)) (2 * N) (vopp ax)) (3 * N) (vfill N al)) (3 * N) (vopp ay)) r).
  { intros r. rewrite <- HF. reflexivity. }
  clear HF. cbn [vaddseg vget vlen vopp vfill] in FV. rewrite Lvx, Lvy, Lax, Lay in FV.
  assert (SUM : forall (u : nat -> R) (W W' : nat -> R), ssum N (fun k => u k * (W k + W' k)) = ssum N (fun k => u k * W k) + ssum N (fun k => u k * W' k)).
  { intros u W W'. rewrite <- ssum_plus. apply ssum_ext. intros. ring. }
  unfold row. split; [|split; [|split]].
  - rewrite FV, MVG, !(RX (dU (bvelD (zb z))) i i) by (auto; left; auto). unfold baseX. rewrite <- (Dv _ _ i Hi), Kv. cbn [vzero vget]. fold vx. unfold jBaseX, Y.
    fold N. rewrite SUM. rsimpl. rewrite ?Nat.sub_0_r. bools; try (exfalso; lia). ring.
  - rewrite FV, MVG, !(RY (dU (bvelD (zb z))) i (N + i)%nat) by (auto; left; auto). unfold baseY. rewrite <- (Dv _ _ i Hi), Kv. cbn [vzero vget]. fold vy. unfold jBaseY, Y.
    fold N. rewrite SUM. rsimpl. replace (N + i - N)%nat with i by lia. bools; try (exfalso; lia).
    rewrite !(ssum_ext N (fun k => mget (dU (bvelD (zb z))) i k * d (2 * N + (N + k))%nat) (fun k => mget (dU (bvelD (zb z))) i k * d (3 * N + k)%nat)) by (intros k _; do 2 f_equal; lia).
    rewrite !(ssum_ext N (fun k => mget (dU (bvelD (zb z))) i k * vget x0 (2 * N + (N + k))%nat) (fun k => mget (dU (bvelD (zb z))) i k * vget x0 (3 * N + k)%nat)) by (intros k _; do 2 f_equal; lia).
    ring.
  - rewrite FV, MVG, !(RX (dU (baccD (zb z))) i (2 * N + i)%nat) by (auto; right; auto). unfold baseX. rewrite <- (Da _ _ i Hi), Ka. cbn [vzero vget]. fold ax. unfold jBaseX, Y.
    fold N. rewrite SUM. rsimpl. replace (2 * N + i - 2 * N)%nat with i by lia. bools; try (exfalso; lia). ring.
  - rewrite FV, MVG, !(RY (dU (baccD (zb z))) i (3 * N + i)%nat) by (auto; right; auto). unfold baseY. rewrite <- (Da _ _ i Hi), Ka. cbn [vzero vget]. fold ay. unfold jBaseY, Y.
    fold N. rewrite SUM. rsimpl. replace (3 * N + i - 3 * N)%nat with i by lia. bools; try (exfalso; lia).
    rewrite !(ssum_ext N (fun k => mget (dU (baccD (zb z))) i k * d (2 * N + (N + k))%nat) (fun k => mget (dU (baccD (zb z))) i k * d (3 * N + k)%nat)) by (intros k _; do 2 f_equal; lia).
    rewrite !(ssum_ext N (fun k => mget (dU (baccD (zb z))) i k * vget x0 (2 * N + (N + k))%nat) (fun k => mget (dU (baccD (zb z))) i k * vget x0 (3 * N + k)%nat)) by (intros k _; do 2 f_equal; lia).
    ring.
Qed.
