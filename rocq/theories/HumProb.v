(** The problem built by the humanoid walk generator: sizes, cost and feasible set. *)

From Coq Require Import Reals List ZArith Arith Bool Lra Lia.
From Verif Require Import Scalar LinAlg LinAlgFacts ToolsModel ToolsSpec ToolsFacts NoDynModel PolygonModel PolygonFacts QPModel QPFacts TrajModel LipModel FootModel
  ModelsSpec ModelsFacts SupModel SupSpec HumModel HumAlg HumSpec HumFacts HumObj.
Import ListNotations.
Local Open Scope R_scope.

(** ** The table *)
Lemma nth_flat_map A B (f : A -> list B) L l k : (0 < L)%nat -> (forall a, length (f a) = L) ->
  nth_error (flat_map f l) k = match nth_error l (k / L) with Some a => nth_error (f a) (k mod L) | None => None end.
Proof.
  intros HL Hf. revert k. induction l as [|a l IH]; intros k; cbn [flat_map].
  - destruct k; cbn [nth_error]; [|]; destruct (_ / L)%nat; reflexivity.
  - destruct (lt_dec k L) as [H|H].
    + rewrite nth_error_app1 by (rewrite Hf; lia). rewrite (Nat.div_small k L H), (Nat.mod_small k L H). reflexivity.
    + rewrite nth_error_app2 by (rewrite Hf; lia). rewrite Hf, IH.
      assert (E : k = (1 * L + (k - L))%nat) by lia. remember (k - L)%nat as k' eqn:Ek. clear Ek. subst k.
      rewrite Nat.div_add_l, (Nat.add_comm (1 * L)), Nat.mod_add by lia. reflexivity.
Qed.
Lemma nth_seq n k : nth_error (seq 0 n) k = if Nat.ltb k n then Some k else None.
Proof.
  destruct (Nat.ltb_spec k n) as [H|H].
  - rewrite (nth_error_nth' _ 0%nat) by (rewrite seq_length; exact H). rewrite seq_nth by exact H. reflexivity.
  - apply nth_error_None. rewrite seq_length. exact H.
Qed.
Lemma qpTable_nth N S C k : nth_error (qpTable N S C) k
  = if Nat.ltb (k / (C + 1)) (S + 1) then Some ((2 * N + 2 * (k / (C + 1)))%nat, (k mod (C + 1))%nat) else None.
Proof.
  unfold qpTable. rewrite (nth_flat_map _ _ _ (C + 1)); [|lia|intros; rewrite map_length, seq_length; reflexivity].
  rewrite nth_seq. destruct (Nat.ltb _ (S + 1)); [|reflexivity].
  rewrite nth_error_map, nth_seq. assert (H : (k mod (C + 1) < C + 1)%nat) by (apply Nat.mod_upper_bound; lia).
  apply Nat.ltb_lt in H. rewrite H. reflexivity.
Qed.
Lemma qpTable_at N S C i j : (i <= S)%nat -> (j <= C)%nat -> nth_error (qpTable N S C) (i * (C + 1) + j) = Some ((2 * N + 2 * i)%nat, j).
Proof.
  intros Hi Hj. rewrite qpTable_nth. rewrite Nat.div_add_l by lia. rewrite (Nat.div_small j) by lia.
  rewrite (Nat.add_comm (i * (C + 1)) j), Nat.mod_add, Nat.mod_small by lia. rewrite Nat.add_0_r. destruct (Nat.ltb_spec i (S + 1)); [reflexivity|lia].
Qed.
(** An entry with at least as many constraints as asked for is the right one *)
Lemma qpTable_fits N S C i j e : nth_error (qpTable N S C) (i * (C + 1) + j) = Some e -> (j <= snd e)%nat ->
  e = ((2 * N + 2 * i)%nat, j) /\ (i <= S)%nat /\ (j <= C)%nat.
Proof.
  rewrite qpTable_nth. intros H Hj. destruct (Nat.ltb_spec ((i * (C + 1) + j) / (C + 1)) (S + 1)) as [L|L]; [|discriminate]. injection H as <-. cbn [snd] in Hj.
  rewrite Nat.div_add_l in * by lia. rewrite (Nat.add_comm (i * (C + 1)) j), Nat.mod_add in * by lia.
  assert (H : (j mod (C + 1) < C + 1)%nat) by (apply Nat.mod_upper_bound; lia).
  assert (HC : (j <= C)%nat) by lia. rewrite Nat.div_small, Nat.mod_small in * by lia. split; [f_equal; lia|lia].
Qed.

(** ** Adding an objective *)
Lemma addObj_inv (w : R) H g q q' n : mrows (qQ q) = n -> mcols (qQ q) = n -> vlen (qp q) = n -> addObj w H g q = Ok q' ->
  mrows (qQ q') = n /\ mcols (qQ q') = n /\ vlen (qp q') = n
  /\ (qxl q' = qxl q /\ qxu q' = qxu q /\ qA q' = qA q /\ qbu q' = qbu q /\ qbl q' = qbl q)
  /\ ((w <= 0 /\ forall d, qcost q' d = qcost q d)
      \/ (0 < w /\ exists Hm gv, H = Ok Hm /\ g = Ok gv /\ mrows Hm = n /\ vlen gv = n /\ forall d, qcost q' d = qcost q d + w * quad n (mget Hm) (vget gv) d)).
Proof.
  intros E1 E2 E3 H0. unfold addObj in H0. change (sltb s0 w) with (Rltb 0 w) in H0. destruct (Rltb_spec 0 w) as [L|L].
  - apply bind_ok in H0. destruct H0 as (Hm & EH & H0). apply guard_ok in H0. destruct H0 as (Hs & H0). apply bind_ok in H0. destruct H0 as (gv & Eg & H0).
    apply bind_ok in H0. destruct H0 as (p & Hp & H0). injection H0 as <-. unfold vaddE in Hp. apply guard_ok in Hp. destruct Hp as (Hl & Hp). injection Hp as <-.
    apply andb_true_iff in Hs. destruct Hs as (S1 & S2). apply Nat.eqb_eq in S1, S2, Hl. cbn [vscale vlen] in Hl. rewrite E3 in Hl. rewrite E1 in S1.
    cbn [qQ qp qxl qxu qA qbu qbl madd mrows mcols vadd vlen]. do 4 (split; [auto|]). right. split; [assumption|].
    exists Hm, gv. do 4 (split; [auto|]). intros d. rewrite !qcost_quad. cbn [qp qQ vadd vlen]. rewrite E3. rewrite <- quad_add. apply quad_ext; intros; reflexivity.
  - injection H0 as <-. do 4 (split; [auto|]). left. split; [lra|reflexivity].
Qed.

(** ** Adding constraints *)
Lemma smin_le a b x : x <= smin a b <-> x <= a /\ x <= b.
Proof. unfold smin. change (sltb b a) with (Rltb b a). destruct (Rltb_spec b a); lra. Qed.
Lemma smax_le a b x : smax a b <= x <-> a <= x /\ b <= x.
Proof. unfold smax. change (sltb a b) with (Rltb a b). destruct (Rltb_spec a b); lra. Qed.
Lemma addCtr_inv r0 k v0 m size G f b (q q' : qpmats R) : addCtr r0 k v0 m size G f b q = Ok q' ->
  (r0 + k <= mrows (qA q))%nat /\ (size <= mcols (qA q))%nat /\ mrows G = k /\ mcols G = size /\ vlen f = k /\ vlen (fst b) = m /\ vlen (snd b) = m
  /\ qQ q' = qQ q /\ qp q' = qp q /\ qbl q' = qbl q /\ mrows (qA q') = mrows (qA q) /\ mcols (qA q') = mcols (qA q)
  /\ (forall r c, (c < size)%nat -> mget (qA q') r c = mget (qA q) r c + if (Nat.leb r0 r && Nat.ltb r (r0 + k))%bool then mget G (r - r0) c else 0)
  /\ (forall r, vget (qbu q') r = if (Nat.leb r0 r && Nat.ltb r (r0 + k))%bool then smin (vget (qbu q) r) (- vget f (r - r0)) else vget (qbu q) r)
  /\ (forall j, vget (qxl q') j = if (Nat.leb v0 j && Nat.ltb j (v0 + m))%bool then smax (vget (qxl q) j) (vget (fst b) (j - v0)) else vget (qxl q) j)
  /\ (forall j, vget (qxu q') j = if (Nat.leb v0 j && Nat.ltb j (v0 + m))%bool then smin (vget (qxu q) j) (vget (snd b) (j - v0)) else vget (qxu q) j).
Proof.
  unfold addCtr, maddblockE, vcwiseE. intros H. apply bind_ok in H. destruct H as (A & HA & H). apply bind_ok in H. destruct H as (bu & Hb & H).
  apply bind_ok in H. destruct H as (xl & Hxl & H). apply bind_ok in H. destruct H as (xu & Hxu & H). injection H as <-.
  rewrite !guard_ok in HA, Hb, Hxl, Hxu. destruct HA as (A1 & A2 & A3), Hb as (_ & B2 & B3), Hxl as (_ & C2 & C3), Hxu as (_ & D2 & D3).
  injection A3 as <-. injection B3 as <-. injection C3 as <-. injection D3 as <-.
  apply andb_true_iff in A1, A2. destruct A1 as (A1 & A1'), A2 as (A2 & A2'). apply Nat.leb_le in A1, A1'. apply Nat.eqb_eq in A2, A2', B2, C2, D2. cbn [vopp vlen] in B2.
  repeat split; try assumption; try (symmetry; assumption); cbn [qQ qp qbl qA qbu qxl qxu].
  - intros r c Hc. cbn [maddblock mget mrows mcols]. rewrite A2, A2'. change (Nat.leb 0 c) with true. change (0 + size)%nat with size.
    apply Nat.ltb_lt in Hc. rewrite Hc, !andb_true_r, Nat.sub_0_r. destruct (_ && _)%bool; rsimpl; ring.
  - intros r. cbn [vcwise vget vopp vlen]. rewrite <- B2. reflexivity.
  - intros j. cbn [vcwise vget]. rewrite <- C2. reflexivity.
  - intros j. cbn [vcwise vget]. rewrite <- D2. reflexivity.
Qed.

(** ** The problem *)
Section Prob.
Context {TK : Trig R}.

Lemma rowsF_get (rows : list (crow (K:=R))) X n r : vlen X = n ->
  (- vget (rowsF rows X) r)%sc = - (ssum n (fun c => fst (nth r rows (zrow, 0)) c * vget X c) + snd (nth r rows (zrow, 0))).
Proof. intros <-. reflexivity. Qed.
Lemma problem_inv h q idx : hinv h -> h_problem h = Ok (q, idx) ->
  let N := lN (hlip h) in let M := snb (hsup h) in let n := (2 * N + 2 * M)%nat in let X := hX h in
  exists rc rf bc bf,
     (hcopC h = true -> vlen X = n /\ copRows N (hsup h) = Ok rc /\ copBounds N (2 * N) (hsup h) (vseg X 0 (2 * N)) = Ok bc)
  /\ (hcopC h = false -> rc = [])
  /\ (hfeetC h = true -> vlen X = n /\ footRows N (hsup h) = Ok rf /\ footBounds (hsup h) (vseg X (2 * N) (2 * M)) = Ok bf)
  /\ (hfeetC h = false -> rf = [])
  /\ idx = (M * (hmaxC h + 1) + (length rc + length rf))%nat
  /\ (M <= hmaxS h)%nat /\ (length rc + length rf <= hmaxC h)%nat
  /\ mrows (qQ q) = n /\ mcols (qQ q) = n /\ vlen (qp q) = n /\ mrows (qA q) = (length rc + length rf)%nat /\ mcols (qA q) = n
  /\ (forall r c, (r < length rc + length rf)%nat -> (c < n)%nat -> mget (qA q) r c = fst (nth r (rc ++ rf) (zrow, 0)) c)
  /\ (forall r, (r < length rc + length rf)%nat -> vget (qbl q) r = - MAXB
        /\ vget (qbu q) r = smin MAXB (- (ssum n (fun c => fst (nth r (rc ++ rf) (zrow, 0)) c * vget X c) + snd (nth r (rc ++ rf) (zrow, 0)))))
  /\ (forall j, (j < 2 * N)%nat -> vget (qxl q) j = (if hcopC h then smax (- MAXB) (vget (fst bc) j) else - MAXB)
                               /\ vget (qxu q) j = (if hcopC h then smin MAXB (vget (snd bc) j) else MAXB))
  /\ (forall j, (j < 2 * M)%nat -> vget (qxl q) (2 * N + j) = (if hfeetC h then smax (- MAXB) (vget (fst bf) j) else - MAXB)
                               /\ vget (qxu q) (2 * N + j) = (if hfeetC h then smin MAXB (vget (snd bf) j) else MAXB))
  /\ exists Jv Jj Jc, (forall d, qcost q d = Jv d + Jj d + Jc d)
     /\ ((wVelT (hw h) <= 0 /\ forall d, Jv d = 0) \/ (0 < wVelT (hw h) /\ exists H g, h_velHessian (hlip h) (hsup h) = Ok H
            /\ h_velGradient (hlip h) (hsup h) (hvelRef h) X = Ok g /\ forall d, Jv d = wVelT (hw h) * quad n (mget H) (vget g) d))
     /\ ((wJerkM (hw h) <= 0 /\ forall d, Jj d = 0) \/ (0 < wJerkM (hw h) /\ exists H g, h_jerkHessian (hlip h) (hsup h) = Ok H
            /\ h_jerkGradient (hlip h) (hsup h) X = Ok g /\ forall d, Jj d = wJerkM (hw h) * quad n (mget H) (vget g) d))
     /\ ((wCopC (hw h) <= 0 /\ forall d, Jc d = 0) \/ (0 < wCopC (hw h) /\ exists g, h_copGradient (hlip h) (hsup h) X = Ok g
            /\ forall d, Jc d = wCopC (hw h) * quad n (mget (h_copHessian (hlip h) (hsup h))) (vget g) d)).
Proof.
  intros I H N M n X. unfold h_problem in H. apply bind_ok in H. destruct H as ((nc & nf) & Hnc & H).
  apply bind_ok in H. destruct H as (e & He & H). fold N M X n in H.
  apply bind_ok in H. destruct H as (q1 & H1 & H). apply bind_ok in H. destruct H as (q2 & H2 & H). apply bind_ok in H. destruct H as (q3 & H3 & H).
  apply bind_ok in H. destruct H as (q4 & H4 & H). apply bind_ok in H. destruct H as (q5 & H5 & H). injection H as -> <-.
  apply rd_inv in He. rewrite (hi_mats _ I) in He. fold N M in He. rewrite (hi_len _ I) in H4. fold N in H4.
  unfold h_nbCtr in Hnc. apply bind_ok in Hnc. destruct Hnc as (a & Ha & Hnc). apply bind_ok in Hnc. destruct Hnc as (b & Hb & Hnc). injection Hnc as -> ->. fold N in Ha, Hb.
  (* the rows *)
  assert (C : exists rc bc, length rc = nc /\ (hcopC h = true -> vlen X = n /\ copRows N (hsup h) = Ok rc /\ copBounds N (2 * N) (hsup h) (vseg X 0 (2 * N)) = Ok bc
                /\ addCtr 0 nc 0 (2 * N) n (rowsA n rc) (rowsF rc X) bc q3 = Ok q4) /\ (hcopC h = false -> rc = [] /\ q4 = q3)).
  { destruct (hcopC h).
    - apply guard_ok in H4. destruct H4 as (Hv & H4). apply Nat.eqb_eq in Hv. apply bind_ok in H4. destruct H4 as (r & Hr & H4).
      apply bind_ok in H4. destruct H4 as (bc & Hbc & H4). rewrite Hr in Ha. injection Ha as Ha. rewrite Hv in H4. exists r, bc. split; [exact Ha|]. split; [auto|discriminate].
    - injection Ha as <-. injection H4 as <-. exists [], (vzero 0, vzero 0). split; [reflexivity|]. split; [discriminate|auto]. }
  assert (F : exists rf bf, length rf = nf /\ (hfeetC h = true -> vlen X = n /\ footRows N (hsup h) = Ok rf /\ footBounds (hsup h) (vseg X (2 * N) (2 * M)) = Ok bf
                /\ addCtr nc nf (2 * N) (2 * M) n (rowsA n rf) (rowsF rf X) bf q4 = Ok q) /\ (hfeetC h = false -> rf = [] /\ q = q4)).
  { destruct (hfeetC h).
    - apply guard_ok in H5. destruct H5 as (Hv & H5). apply Nat.eqb_eq in Hv. apply bind_ok in H5. destruct H5 as (r & Hr & H5).
      apply bind_ok in H5. destruct H5 as (bf & Hbf & H5). rewrite Hr in Hb. injection Hb as Hb. rewrite Hv in H5. exists r, bf. split; [exact Hb|]. split; [auto|discriminate].
    - injection Hb as <-. injection H5 as <-. exists [], (vzero 0, vzero 0). split; [reflexivity|]. split; [discriminate|auto]. }
  clear Ha Hb H4 H5. destruct C as (rc & bc & Lc & C1 & C2), F as (rf & bf & Lf & F1 & F2).
  (* the objectives *)
  destruct (addObj_inv _ _ _ (blankQP (fst e) (snd e)) q1 (fst e) eq_refl eq_refl eq_refl H1) as (A1 & A2 & A3 & (A4 & A5 & A6 & A7 & A8) & A9).
  destruct (addObj_inv _ _ _ q1 q2 (fst e) A1 A2 A3 H2) as (B1 & B2 & B3 & (B4 & B5 & B6 & B7 & B8) & B9).
  destruct (addObj_inv _ _ _ q2 q3 (fst e) B1 B2 B3 H3) as (D1 & D2 & D3 & (D4 & D5 & D6 & D7 & D8) & D9).
  rewrite B4, A4 in D4. rewrite B5, A5 in D5. rewrite B6, A6 in D6. rewrite B7, A7 in D7. rewrite B8, A8 in D8.
  clear A4 A5 A6 A7 A8 B4 B5 B6 B7 B8 A1 A2 A3 B1 B2 B3 H1 H2 H3. cbn [blankQP qxl qxu qA qbu qbl] in D4, D5, D6, D7, D8.
  assert (HQ4 : qQ q4 = qQ q3 /\ qp q4 = qp q3 /\ qbl q4 = qbl q3 /\ mrows (qA q4) = snd e /\ mcols (qA q4) = fst e /\ (nc <= snd e)%nat).
  { destruct (hcopC h) eqn:Ec.
    - destruct (C1 eq_refl) as (_ & _ & _ & E). destruct (addCtr_inv _ _ _ _ _ _ _ _ _ _ E) as (G1 & G2 & G3 & G4 & G5 & G6 & G7 & G8 & G9 & G10 & G11 & G12 & _).
      rewrite D6 in G1, G11, G12. cbn [mzero mrows mcols] in G1, G11, G12. repeat split; try assumption; lia.
    - destruct (C2 eq_refl) as (-> & ->). rewrite D6. cbn [length] in Lc. subst nc. repeat split; lia. }
  destruct HQ4 as (Q1 & Q2 & Q3 & Q4 & Q5 & Q6).
  assert (HQ : qQ q = qQ q3 /\ qp q = qp q3 /\ qbl q = qbl q3 /\ mrows (qA q) = snd e /\ mcols (qA q) = fst e /\ (nc + nf <= snd e)%nat).
  { destruct (hfeetC h) eqn:Ec.
    - destruct (F1 eq_refl) as (_ & _ & _ & E). destruct (addCtr_inv _ _ _ _ _ _ _ _ _ _ E) as (G1 & G2 & G3 & G4 & G5 & G6 & G7 & G8 & G9 & G10 & G11 & G12 & _).
      rewrite Q4 in G1, G11. rewrite Q5 in G12. rewrite G8, G9, G10. repeat split; try assumption; lia.
    - destruct (F2 eq_refl) as (-> & ->). cbn [length] in Lf. subst nf. rewrite Nat.add_0_r. repeat split; assumption. }
  destruct HQ as (P1 & P2 & P3 & P4 & P5 & P6).
  destruct (qpTable_fits _ _ _ _ _ _ He P6) as (Ee & HM & HC). assert (E1 : fst e = n) by (rewrite Ee; reflexivity). assert (E2 : snd e = (nc + nf)%nat) by (rewrite Ee; reflexivity).
  rewrite E1, E2 in *. clear Ee He.
  exists rc, rf, bc, bf. rewrite Lc, Lf.
  split; [intros E; destruct (C1 E) as (? & ? & ? & _); auto|]. split; [intros E; apply (C2 E)|].
  split; [intros E; destruct (F1 E) as (? & ? & ? & _); auto|]. split; [intros E; apply (F2 E)|].
  split; [reflexivity|]. split; [exact HM|]. split; [exact HC|].
  split; [rewrite P1; exact D1|]. split; [rewrite P1; exact D2|]. split; [rewrite P2; exact D3|]. split; [exact P4|]. split; [exact P5|].
  (* after the CoP constraints *)
  assert (R4 : (forall r c, (c < n)%nat -> mget (qA q4) r c = if Nat.ltb r nc then fst (nth r rc (zrow, 0)) c else 0)
            /\ (forall r, (r < nc + nf)%nat -> vget (qbu q4) r = if Nat.ltb r nc then smin MAXB (- (ssum n (fun c => fst (nth r rc (zrow, 0)) c * vget X c) + snd (nth r rc (zrow, 0)))) else MAXB)
            /\ (forall j, (j < 2 * N)%nat -> vget (qxl q4) j = (if hcopC h then smax (- MAXB) (vget (fst bc) j) else - MAXB)
                               /\ vget (qxu q4) j = (if hcopC h then smin MAXB (vget (snd bc) j) else MAXB))
            /\ (forall j, (2 * N <= j)%nat -> vget (qxl q4) j = - MAXB /\ vget (qxu q4) j = MAXB)).
  { destruct (hcopC h) eqn:Ec.
    - destruct (C1 eq_refl) as (Hv & _ & _ & E). destruct (addCtr_inv _ _ _ _ _ _ _ _ _ _ E) as (_ & _ & _ & _ & _ & _ & _ & _ & _ & _ & _ & _ & G1 & G2 & G3 & G4).
      rewrite D4, D5, D6, D7 in *. cbn [mzero mget vfill vget] in *. split; [|split; [|split]].
      + intros r c Hc. rewrite G1 by assumption. cbn [Nat.leb andb rowsA mget]. rewrite Nat.sub_0_r. change (0 + nc)%nat with nc. rsimpl. destruct (Nat.ltb r nc); ring.
      + intros r Hr. rewrite G2. cbn [Nat.leb andb]. change (0 + nc)%nat with nc. rewrite Nat.sub_0_r. destruct (Nat.ltb_spec r nc); [|reflexivity]. f_equal. apply rowsF_get. exact Hv.
      + intros j Hj. rewrite G3, G4. cbn [Nat.leb andb]. apply Nat.ltb_lt in Hj. change (0 + 2 * N)%nat with (2 * N)%nat. rewrite Hj, Nat.sub_0_r. auto.
      + intros j Hj. rewrite G3, G4. cbn [Nat.leb andb]. apply Nat.ltb_ge in Hj. change (0 + 2 * N)%nat with (2 * N)%nat. rewrite Hj. auto.
    - destruct (C2 eq_refl) as (Er & ->). subst rc. cbn [length] in Lc. subst nc. rewrite D4, D5, D6, D7. repeat split. }
  destruct R4 as (RA & RB & RX1 & RX2).
  (* after the foot constraints *)
  assert (Hn : forall r, nth r (rc ++ rf) (zrow, 0) = if Nat.ltb r nc then nth r rc (zrow, 0) else nth (r - nc) rf (zrow, 0)).
  { intros r. destruct (Nat.ltb_spec r nc); [rewrite app_nth1 by lia; reflexivity|rewrite app_nth2 by lia; rewrite Lc; reflexivity]. }
  assert (R5 : (forall r c, (r < nc + nf)%nat -> (c < n)%nat -> mget (qA q) r c = fst (nth r (rc ++ rf) (zrow, 0)) c)
            /\ (forall r, (r < nc + nf)%nat -> vget (qbu q) r = smin MAXB (- (ssum n (fun c => fst (nth r (rc ++ rf) (zrow, 0)) c * vget X c) + snd (nth r (rc ++ rf) (zrow, 0)))))
            /\ (forall j, (j < 2 * N)%nat -> vget (qxl q) j = vget (qxl q4) j /\ vget (qxu q) j = vget (qxu q4) j)
            /\ (forall j, (j < 2 * M)%nat -> vget (qxl q) (2 * N + j) = (if hfeetC h then smax (- MAXB) (vget (fst bf) j) else - MAXB)
                               /\ vget (qxu q) (2 * N + j) = (if hfeetC h then smin MAXB (vget (snd bf) j) else MAXB))).
  { destruct (hfeetC h) eqn:Ec.
    - destruct (F1 eq_refl) as (Hv & _ & _ & E). destruct (addCtr_inv _ _ _ _ _ _ _ _ _ _ E) as (_ & _ & _ & _ & _ & _ & _ & _ & _ & _ & _ & _ & G1 & G2 & G3 & G4).
      split; [|split; [|split]].
      + intros r c Hr Hc. rewrite G1, RA, Hn by assumption. cbn [rowsA mget]. destruct (Nat.ltb_spec r nc), (Nat.leb_spec nc r), (Nat.ltb_spec r (nc + nf)); try lia; cbn [andb]; rsimpl; ring.
      + intros r Hr. rewrite G2, RB, Hn by assumption. destruct (Nat.ltb_spec r nc), (Nat.leb_spec nc r), (Nat.ltb_spec r (nc + nf)); try lia; cbn [andb]; [reflexivity|]. f_equal. apply rowsF_get. exact Hv.
      + intros j Hj. rewrite G3, G4. destruct (Nat.leb_spec (2 * N) j); [lia|]. cbn [andb]. auto.
      + intros j Hj. rewrite G3, G4. destruct (Nat.leb_spec (2 * N) (2 * N + j)); [|lia]. destruct (Nat.ltb_spec (2 * N + j) (2 * N + 2 * M)); [|lia]. cbn [andb].
        destruct (RX2 (2 * N + j)%nat ltac:(lia)) as (-> & ->). replace (2 * N + j - 2 * N)%nat with j by lia. auto.
    - destruct (F2 eq_refl) as (Er & ->). subst rf. cbn [length] in Lf. subst nf. split; [|split; [|split]].
      + intros r c Hr Hc. rewrite RA, Hn by assumption. destruct (Nat.ltb_spec r nc); [reflexivity|lia].
      + intros r Hr. rewrite RB, Hn by assumption. destruct (Nat.ltb_spec r nc); [reflexivity|lia].
      + auto.
      + intros j Hj. apply RX2. lia. }
  destruct R5 as (SA & SB & SX1 & SX2). split; [exact SA|]. split; [|split; [|split; [exact SX2|]]].
  - intros r Hr. rewrite SB by assumption. split; [|reflexivity]. rewrite P3, D8. reflexivity.
  - intros j Hj. destruct (SX1 j Hj) as (-> & ->). apply RX1. assumption.
  - assert (Eq : forall d, qcost q d = qcost q3 d) by (intros d; unfold qcost; rewrite P1, P2; reflexivity).
    exists (fun d => qcost q1 d), (fun d => qcost q2 d - qcost q1 d), (fun d => qcost q3 d - qcost q2 d). split; [intros d; rewrite Eq; ring|].
    assert (E0 : forall d, qcost (blankQP n (nc + nf)) d = 0).
    { intros d. rewrite qcost_quad. rewrite <- (quad_zero n d). reflexivity. }
    split; [|split].
    + destruct A9 as [(W & A9)|(W & Hm & gv & A10 & A11 & _ & _ & A12)]; [left|right]; (split; [exact W|]).
      * intros d. rewrite A9. apply E0.
      * exists Hm, gv. split; [exact A10|]. split; [exact A11|]. intros d. rewrite A12, E0. ring.
    + destruct B9 as [(W & A9')|(W & Hm & gv & A10 & A11 & _ & _ & A12)]; [left|right]; (split; [exact W|]).
      * intros d. rewrite A9'. ring.
      * exists Hm, gv. split; [exact A10|]. split; [exact A11|]. intros d. rewrite A12. ring.
    + destruct D9 as [(W & A9')|(W & Hm & gv & A10 & A11 & _ & _ & A12)]; [left|right]; (split; [exact W|]).
      * intros d. rewrite A9'. ring.
      * injection A10 as <-. exists gv. split; [exact A11|]. intros d. rewrite A12. ring.
Qed.

(** ** The feasible set *)
Lemma ssum_upd n f k x (Y : nat -> R) : (k < n)%nat -> ssum n (fun c => upd f k x c * Y c) = ssum n (fun c => f c * Y c) + (x - f k) * Y k.
Proof.
  intros Hk. rewrite (ssum_ext n _ (fun c => f c * Y c + (if Nat.eqb c k then (x - f k) * Y k else 0))).
  - rewrite ssum_plus. f_equal. rewrite (ssum_single n k); [rewrite Nat.eqb_refl; reflexivity|assumption|]. intros j _ Hj. apply Nat.eqb_neq in Hj. rewrite Hj. reflexivity.
  - intros c _. unfold upd. destruct (Nat.eqb_spec c k); [subst; ring|ring].
Qed.
Lemma upd_same (f : nat -> R) k x : upd f k x k = x.
Proof. unfold upd. rewrite Nat.eqb_refl. reflexivity. Qed.
Lemma upd_other (f : nat -> R) k x c : c <> k -> upd f k x c = f c.
Proof. intros H. unfold upd. apply Nat.eqb_neq in H. rewrite H. reflexivity. Qed.
Lemma ssum_zrow n (Y : nat -> R) : ssum n (fun c => zrow c * Y c) = 0.
Proof. apply ssum_0. intros. unfold zrow. rsimpl. ring. Qed.
Lemma copRow_apply N n i c (Y : nat -> R) : (i < N)%nat -> (2 * N <= n)%nat ->
  ssum n (fun k => fst (copRow N i c) k * Y k) = slope_value c (dCopX Y i) (dCopY N Y i) /\ snd (copRow N i c) = snd c.
Proof.
  intros Hi Hn. destruct c as ((ax, ay), k). cbn [copRow fst snd]. split; [|reflexivity]. rewrite !ssum_upd, ssum_zrow by lia.
  rewrite upd_other by lia. unfold zrow, slope_value, dCopX, dCopY. cbn [fst snd]. rewrite (Nat.add_comm N i). rsimpl. ring.
Qed.
Lemma footRow_apply N M n i fx fy c (Y : nat -> R) : (i < M)%nat -> (2 * N + 2 * M <= n)%nat ->
  ssum n (fun k => fst (footRow N M i fx fy c) k * Y k) = slope_value c (dStepX N Y i - from_step 0 (dStepX N Y) i) (dStepY N M Y i - from_step 0 (dStepY N M Y) i)
  /\ snd (footRow N M i fx fy c) = match i with O => snd c - slope_value c fx fy | S _ => snd c end.
Proof.
  intros Hi Hn. destruct c as ((ax, ay), k). destruct i as [|i]; cbn [footRow fst snd].
  - split; [|reflexivity]. rewrite !ssum_upd, ssum_zrow by lia. rewrite upd_other by lia. unfold zrow, slope_value, dStepX, dStepY, from_step. cbn [fst snd]. rsimpl. ring.
  - split; [|reflexivity]. rewrite !ssum_upd, ssum_zrow by lia.
    repeat first [rewrite upd_same | rewrite upd_other by lia]. unfold zrow, slope_value, dStepX, dStepY, from_step. cbn [fst snd].
    replace (2 * N + i + M)%nat with (2 * N + M + i)%nat by lia. rsimpl. ring.
Qed.
(** Rows read from the lists of the polygons *)
Lemma Forall_concat_tab A (f : nat -> res (list A)) (P : A -> Prop) n l : tabulateM f n = Ok l ->
  (Forall P (concat l) <-> forall i r, (i < n)%nat -> f i = Ok r -> Forall P r).
Proof.
  intros H. pose proof (tabulateM_tab _ _ _ _ H) as (L & E). rewrite Forall_concat, Forall_forall. split.
  - intros Q i r Hi Hr. destruct (E i Hi) as (r' & H1 & H2). rewrite Hr in H2. injection H2 as <-. apply Q. apply nth_error_In in H1. exact H1.
  - intros Q r Hr. apply In_nth_error in Hr. destruct Hr as (i & Hi). assert (Hl : (i < n)%nat) by (rewrite <- L; apply nth_error_Some; congruence).
    destruct (E i Hl) as (r' & H1 & H2). rewrite Hi in H1. injection H1 as <-. exact (Q i r Hl H2).
Qed.
Lemma copRows_Forall N (s : sup R) rc (P : crow (K:=R) -> Prop) : copRows N s = Ok rc ->
  (Forall P rc <-> forall i p, (i < N)%nat -> s_getCopConvexPolygon i s = Ok p -> Forall (fun c => P (copRow N i c)) (pgen p)).
Proof.
  unfold copRows. intros H. apply bind_ok in H. destruct H as (l & Hl & H). injection H as <-.
  rewrite (Forall_concat_tab _ _ P _ _ Hl). split.
  - intros Q i p Hi Hp. specialize (Q i (map (copRow N i) (pgen p)) Hi). rewrite Hp in Q. specialize (Q eq_refl). rewrite Forall_map in Q. exact Q.
  - intros Q i r Hi Hr. apply bind_ok in Hr. destruct Hr as (p & Hp & Hr). injection Hr as <-. rewrite Forall_map. exact (Q i p Hi Hp).
Qed.
Lemma footRows_Forall N (s : sup R) rf (P : crow (K:=R) -> Prop) fx fy : footRows N s = Ok rf -> support_is s fx fy ->
  (forall i c gx gy, (0 < i)%nat -> P (footRow N (snb s) i gx gy c) <-> P (footRow N (snb s) i fx fy c)) ->
  (Forall P rf <-> forall i p, (i < snb s)%nat -> s_getKinematicConvexPolygon i s = Ok p -> Forall (fun c => P (footRow N (snb s) i fx fy c)) (pgen p)).
Proof.
  unfold footRows. intros H (vx & vy & X1 & X2 & X3 & X4 & X5 & X6) HP. apply bind_ok in H. destruct H as (l & Hl & H). injection H as <-.
  rewrite (Forall_concat_tab _ _ P _ _ Hl). rewrite X1, X2. cbn [bind]. unfold vread. apply Nat.ltb_lt in X3, X4. rewrite X3, X4. cbn [bind guard]. rewrite X5, X6.
  assert (Q0 : forall i p, Forall P (map (footRow N (snb s) i fx fy) (pgen p)) <-> Forall (fun c => P (footRow N (snb s) i fx fy c)) (pgen p)) by (intros; apply Forall_map).
  assert (Q1 : forall i p, (Nat.eqb i 0 && negb (Nat.eqb (length (pgen p)) 0))%bool = false ->
            (Forall P (map (footRow N (snb s) i 0 0) (pgen p)) <-> Forall (fun c => P (footRow N (snb s) i fx fy c)) (pgen p))).
  { intros i p E. rewrite Forall_map. destruct i as [|i].
    - cbn [Nat.eqb andb] in E. apply negb_false_iff, Nat.eqb_eq in E. destruct (pgen p); [split; constructor|discriminate].
    - rewrite !Forall_forall. split; intros Q c Hc; apply (HP (S i) c 0 0 ltac:(lia)); apply Q; assumption. }
  split.
  - intros Q i p Hi Hp. specialize (Q i). rewrite Hp in Q. cbn [bind] in Q.
    destruct (Nat.eqb i 0 && negb (Nat.eqb (length (pgen p)) 0))%bool eqn:E; [apply Q0|apply Q1; [exact E|]]; eapply Q; auto.
  - intros Q i r Hi Hr. apply bind_ok in Hr. destruct Hr as (p & Hp & Hr). specialize (Q i p Hi Hp).
    destruct (Nat.eqb i 0 && negb (Nat.eqb (length (pgen p)) 0))%bool eqn:E; injection Hr as <-; [apply Q0|apply Q1; [exact E|]]; exact Q.
Qed.
Lemma Forall_nth_iff A (P : A -> Prop) l d : Forall P l <-> forall r, (r < length l)%nat -> P (nth r l d).
Proof.
  rewrite Forall_forall. split.
  - intros Q r Hr. apply Q. apply nth_In. assumption.
  - intros Q x Hx. destruct (In_nth _ _ d Hx) as (r & Hr & <-). apply Q. assumption.
Qed.

Lemma tab_nth A (f : nat -> res A) n l d i : tabulateM f n = Ok l -> (i < n)%nat -> f i = Ok (nth i l d).
Proof.
  intros H Hi. destruct (tabulateM_nth _ _ _ _ _ H Hi) as (x & H1 & H2). rewrite H2. f_equal. symmetry. apply nth_error_nth. exact H1.
Qed.
Lemma abs_MAXB x : Rabs x <= MAXB <-> - MAXB <= x <= MAXB.
Proof. unfold Rabs. destruct (Rcase_abs x); lra. Qed.
Lemma two_halves n (P : nat -> Prop) : (forall j, (j < 2 * n)%nat -> P j) <-> (forall i, (i < n)%nat -> P i /\ P (n + i)%nat).
Proof.
  split.
  - intros H i Hi. split; apply H; lia.
  - intros H j Hj. destruct (lt_dec j n) as [L|L]; [apply H; assumption|]. replace j with (n + (j - n))%nat by lia. apply H. lia.
Qed.
Lemma copBounds_iff N (s : sup R) X bc d : copBounds N (2 * N) s (vseg X 0 (2 * N)) = Ok bc ->
  (forall j, (j < 2 * N)%nat -> smax (- MAXB) (vget (fst bc) j) <= d j <= smin MAXB (vget (snd bc) j))
  <-> (forall j, (j < 2 * N)%nat -> Rabs (d j) <= MAXB)
      /\ forall i p, (i < N)%nat -> s_getCopConvexPolygon i s = Ok p ->
           xInf p <= vget X i + d i <= xSup p /\ yInf p <= vget X (N + i)%nat + d (N + i)%nat <= ySup p.
Proof.
  unfold copBounds. intros H. apply bind_ok in H. destruct H as (ps & Hps & H). apply guard_ok in H. destruct H as (_ & H). injection H as <-. cbn [fst snd vget].
  rewrite !two_halves.
  assert (E1 : forall i, (i < N)%nat -> Nat.ltb i N = true) by (intros; apply Nat.ltb_lt; assumption).
  assert (E2 : forall i, Nat.ltb (N + i) N = false) by (intros; apply Nat.ltb_ge; lia).
  assert (E3 : forall i, (N + i - N)%nat = i) by (intros; lia).
  split.
  - intros Q. split.
    + intros i Hi. destruct (Q i Hi) as (Q1 & Q2). rewrite smax_le, smin_le in Q1, Q2. rewrite !abs_MAXB. lra.
    + intros i p Hi Hp. rewrite (tab_nth _ _ _ _ emptyPolygon _ Hps Hi) in Hp. injection Hp as <-. destruct (Q i Hi) as (Q1 & Q2). rewrite smax_le, smin_le in Q1, Q2.
      rewrite E1 in Q1 by assumption. rewrite E2, E3 in Q2. cbn [vseg vget Nat.add] in *. rsimpl. revert Q1 Q2. rsimpl. intros. lra.
  - intros (Q1 & Q2) i Hi. specialize (Q1 i Hi). specialize (Q2 i _ Hi (tab_nth _ _ _ _ emptyPolygon _ Hps Hi)). rewrite !abs_MAXB in Q1.
    rewrite !smax_le, !smin_le. rewrite E1 by assumption. rewrite E2, E3. cbn [vseg vget Nat.add] in *. rsimpl. revert Q1 Q2. rsimpl. intros. lra.
Qed.
Lemma footBounds_iff N (s : sup R) X bf d fx fy : footBounds s (vseg X (2 * N) (2 * snb s)) = Ok bf -> support_is s fx fy ->
  (forall j, (j < 2 * snb s)%nat -> smax (- MAXB) (vget (fst bf) j) <= d (2 * N + j)%nat <= smin MAXB (vget (snd bf) j))
  <-> (forall j, (j < 2 * snb s)%nat -> Rabs (d (2 * N + j)%nat) <= MAXB)
      /\ forall k p, (k < snb s)%nat -> s_getKinematicConvexPolygon k s = Ok p ->
           xInf p <= dStepX N (fun j => vget X j + d j) k - from_step fx (dStepX N (vget X)) k <= xSup p
           /\ yInf p <= dStepY N (snb s) (fun j => vget X j + d j) k - from_step fy (dStepY N (snb s) (vget X)) k <= ySup p.
Proof.
  unfold footBounds. intros H (vx & vy & X1 & X2 & X3 & X4 & X5 & X6). apply bind_ok in H. destruct H as (ps & Hps & H).
  set (M := snb s) in *. destruct M as [|M0] eqn:EM.
  { split; [intros _; split; intros; lia|intros _; intros; lia]. }
  rewrite <- EM in *. rewrite X1, X2 in H. cbn [bind] in H. unfold vread in H. apply Nat.ltb_lt in X3, X4. rewrite X3, X4 in H. cbn [bind guard] in H. rewrite X5, X6 in H. injection H as <-.
  clear X1 X2 X3 X4 X5 X6. cbn [fst snd vget]. rewrite !two_halves.
  assert (E1 : forall i, (i < M)%nat -> Nat.ltb i M = true) by (intros; apply Nat.ltb_lt; assumption).
  assert (E2 : forall i, Nat.ltb (M + i) M = false) by (intros; apply Nat.ltb_ge; lia).
  assert (E3 : forall i, (M + i - M)%nat = i) by (intros; lia).
  assert (P1 : forall k, match k with O => fx | S j => vget (vseg X (2 * N) (2 * M)) j end = from_step fx (dStepX N (vget X)) k) by (intros [|k]; reflexivity).
  assert (P2 : forall k, match k with O => fy | S j => vget (vseg X (2 * N) (2 * M)) (M + j) end = from_step fy (dStepY N M (vget X)) k).
  { intros [|k]; [reflexivity|]. unfold from_step, dStepY. cbn [vseg vget]. f_equal. lia. }
  assert (E4 : forall i, (2 * N + (M + i))%nat = (2 * N + M + i)%nat) by (intros; lia).
  split.
  - intros Q. split.
    + intros i Hi. destruct (Q i Hi) as (Q1 & Q2). rewrite smax_le, smin_le in Q1, Q2. rewrite !abs_MAXB. lra.
    + intros i p Hi Hp. rewrite (tab_nth _ _ _ _ emptyPolygon _ Hps Hi) in Hp. injection Hp as <-. destruct (Q i Hi) as (Q1 & Q2). rewrite smax_le, smin_le in Q1, Q2.
      rewrite E1, P1 in Q1 by assumption. rewrite E2, E3, P2 in Q2. cbn [vseg vget] in Q1, Q2. change (N + (N + 0))%nat with (2 * N)%nat in Q1, Q2. rewrite E4 in Q2. unfold dStepX at 1 3, dStepY at 1 3. revert Q1 Q2. rsimpl. intros. lra.
  - intros (Q1 & Q2) i Hi. specialize (Q1 i Hi). specialize (Q2 i _ Hi (tab_nth _ _ _ _ emptyPolygon _ Hps Hi)). rewrite !abs_MAXB in Q1.
    rewrite !smax_le, !smin_le. rewrite E1 by assumption. rewrite E2, E3, P1, P2. cbn [vseg vget]. change (N + (N + 0))%nat with (2 * N)%nat. rewrite E4 in *. unfold dStepX at 1 3, dStepY at 1 3 in Q2. revert Q1 Q2. rsimpl. intros. lra.
Qed.

Lemma cons_app_Forall A (P : A -> Prop) l l' : Forall P (l ++ l') <-> Forall P l /\ Forall P l'.
Proof. apply Forall_app. Qed.
Lemma feasible_iff h q idx d fx fy : hinv h -> h_problem h = Ok (q, idx) -> support_is (hsup h) fx fy ->
  (qfeasible q d <-> moderate h d /\ (hcopC h = true -> cops_supported h (moved h d))
     /\ (hfeetC h = true -> step_sides h fx fy (moved h d) (moved h d) /\ step_box h fx fy (vget (hX h)) (moved h d))).
Proof.
  intros I H Hs. destruct (problem_inv _ _ _ I H) as (rc & rf & bc & bf & C1 & C2 & F1 & F2 & _ & _ & _ & _ & _ & Ln & Lr & _ & HA & HB & HX1 & HX2 & _).
  unfold moderate, cops_supported, step_sides, step_box, qfeasible. rewrite Ln, Lr.
  set (N := lN (hlip h)) in *. set (M := snb (hsup h)) in *. set (n := (2 * N + 2 * M)%nat) in *. set (X := hX h) in *.
  set (P := fun r : crow (K:=R) => Rabs (ssum n (fun c => fst r c * d c)) <= MAXB /\ ssum n (fun c => fst r c * (vget X c + d c)) + snd r <= 0).
  (* rows *)
  assert (RR : (forall k, (k < length rc + length rf)%nat -> vget (qbl q) k <= ssum n (fun j => mget (qA q) k j * d j) <= vget (qbu q) k) <-> Forall P rc /\ Forall P rf).
  { rewrite <- Forall_app, (Forall_nth_iff _ P _ (zrow, 0)), app_length.
    assert (E : forall k, (k < length rc + length rf)%nat -> (vget (qbl q) k <= ssum n (fun j => mget (qA q) k j * d j) <= vget (qbu q) k <-> P (nth k (rc ++ rf) (zrow, 0)))).
    { intros k Hk. destruct (HB k Hk) as (-> & ->). unfold P. set (r := nth k (rc ++ rf) (zrow, 0)) in *.
      rewrite (ssum_ext n (fun j => mget (qA q) k j * d j) (fun c => fst r c * d c)) by (intros j Hj; unfold r; rewrite HA by assumption; reflexivity).
      rewrite (ssum_ext n (fun c => fst r c * (vget X c + d c)) (fun c => fst r c * vget X c + fst r c * d c)) by (intros; ring). rewrite ssum_plus.
      rewrite abs_MAXB, smin_le. lra. }
    split; intros Q k Hk; apply E; auto. }
  rewrite RR.
  (* rows of the CoP *)
  assert (RC : Forall P rc <-> (hcopC h = true -> forall i p, (i < N)%nat -> s_getCopConvexPolygon i (hsup h) = Ok p ->
                 Forall (fun c => Rabs (slope_value c (dCopX d i) (dCopY N d i)) <= MAXB) (pgen p)
                 /\ Forall (fun c => let '(a, b, k) := c in a * moved h d i + b * moved h d (N + i)%nat + k <= 0) (pgen p))).
  { destruct (hcopC h) eqn:Ec.
    - destruct (C1 eq_refl) as (_ & Hr & _). rewrite (copRows_Forall _ _ _ P Hr).
      assert (E : forall i c, (i < N)%nat -> (P (copRow N i c) <-> Rabs (slope_value c (dCopX d i) (dCopY N d i)) <= MAXB
                    /\ let '(a, b, k) := c in a * moved h d i + b * moved h d (N + i)%nat + k <= 0)).
      { intros i c Hi. unfold P. destruct (copRow_apply N n i c d Hi ltac:(unfold n; lia)) as (-> & E2). destruct (copRow_apply N n i c (fun k => vget X k + d k) Hi ltac:(unfold n; lia)) as (-> & _).
        rewrite E2. destruct c as ((a, b), k). reflexivity. }
      split.
      + intros Q _ i p Hi Hp. specialize (Q i p Hi Hp). rewrite !Forall_forall in *. split; intros c Hc; apply (E i c Hi); apply Q; assumption.
      + intros Q i p Hi Hp. specialize (Q eq_refl i p Hi Hp). rewrite !Forall_forall in *. intros c Hc. apply E; [assumption|]. split; apply Q; assumption.
    - rewrite (C2 eq_refl). split; [intros _; discriminate|constructor]. }
  (* rows of the feet *)
  assert (RF : Forall P rf <-> (hfeetC h = true -> forall k p, (k < M)%nat -> s_getKinematicConvexPolygon k (hsup h) = Ok p ->
                 Forall (fun c => Rabs (slope_value c (dStepX N d k - from_step 0 (dStepX N d) k) (dStepY N M d k - from_step 0 (dStepY N M d) k)) <= MAXB) (pgen p)
                 /\ Forall (fun c => side_value c (dStepX N (moved h d) k - from_step fx (dStepX N (moved h d)) k) (dStepY N M (moved h d) k - from_step fy (dStepY N M (moved h d)) k) <= 0) (pgen p))).
  { destruct (hfeetC h) eqn:Ec.
    - destruct (F1 eq_refl) as (_ & Hr & _).
      assert (E : forall i c, (i < M)%nat -> (P (footRow N M i fx fy c) <->
                 Rabs (slope_value c (dStepX N d i - from_step 0 (dStepX N d) i) (dStepY N M d i - from_step 0 (dStepY N M d) i)) <= MAXB
                 /\ side_value c (dStepX N (moved h d) i - from_step fx (dStepX N (moved h d)) i) (dStepY N M (moved h d) i - from_step fy (dStepY N M (moved h d)) i) <= 0)).
      { intros i c Hi. unfold P. destruct (footRow_apply N M n i fx fy c d Hi ltac:(unfold n; lia)) as (-> & E2).
        destruct (footRow_apply N M n i fx fy c (fun k => vget X k + d k) Hi ltac:(unfold n; lia)) as (-> & _). rewrite E2.
        apply and_iff_compat_l. change (fun k => vget X k + d k) with (moved h d).
        match goal with |- ?a <= 0 <-> ?b <= 0 => replace b with a; [reflexivity|] end.
        destruct c as ((a, b), k). unfold side_value, slope_value. cbn [fst snd]. destruct i; unfold from_step; ring. }
      rewrite (footRows_Forall _ _ _ P fx fy Hr Hs).
      + split.
        * intros Q _ i p Hi Hp. specialize (Q i p Hi Hp). rewrite !Forall_forall in *. split; intros c Hc; apply (E i c Hi); apply Q; assumption.
        * intros Q i p Hi Hp. specialize (Q eq_refl i p Hi Hp). rewrite !Forall_forall in *. intros c Hc. apply E; [assumption|]. split; apply Q; assumption.
      + intros i c gx gy Hi. destruct c as ((a, b), k). destruct i; [lia|]. reflexivity.
    - rewrite (F2 eq_refl). split; [intros _; discriminate|constructor]. }
  rewrite RC, RF. clear RR RC RF HA HB P.
  (* bounds *)
  assert (BB : (forall i, (i < n)%nat -> vget (qxl q) i <= d i <= vget (qxu q) i) <->
     (forall j, (j < n)%nat -> Rabs (d j) <= MAXB)
     /\ (hcopC h = true -> forall i p, (i < N)%nat -> s_getCopConvexPolygon i (hsup h) = Ok p ->
           xInf p <= moved h d i <= xSup p /\ yInf p <= moved h d (N + i)%nat <= ySup p)
     /\ (hfeetC h = true -> step_box h fx fy (vget X) (moved h d))).
  { assert (Sp : forall Q : nat -> Prop, (forall i, (i < n)%nat -> Q i) <-> (forall i, (i < 2 * N)%nat -> Q i) /\ (forall i, (i < 2 * M)%nat -> Q (2 * N + i)%nat)).
    { intros Q. unfold n. split; [intros HQ; split; intros; apply HQ; lia|]. intros (Q1 & Q2) i Hi. destruct (lt_dec i (2 * N)); [auto|].
      replace i with (2 * N + (i - 2 * N))%nat by lia. apply Q2. lia. }
    rewrite (Sp (fun i => vget (qxl q) i <= d i <= vget (qxu q) i)), (Sp (fun j => Rabs (d j) <= MAXB)).
    assert (B1 : (forall i, (i < 2 * N)%nat -> vget (qxl q) i <= d i <= vget (qxu q) i) <-> (forall j, (j < 2 * N)%nat -> Rabs (d j) <= MAXB)
       /\ (hcopC h = true -> forall i p, (i < N)%nat -> s_getCopConvexPolygon i (hsup h) = Ok p ->
           xInf p <= moved h d i <= xSup p /\ yInf p <= moved h d (N + i)%nat <= ySup p)).
    { destruct (hcopC h) eqn:Ec.
      - destruct (C1 eq_refl) as (_ & _ & Hb). pose proof (copBounds_iff _ _ _ _ d Hb) as E. fold N X in E.
        split.
        + intros Q. assert (E' : forall j, (j < 2 * N)%nat -> smax (- MAXB) (vget (fst bc) j) <= d j <= smin MAXB (vget (snd bc) j)).
          { intros j Hj. destruct (HX1 j Hj) as (<- & <-). auto. }
          apply E in E'. destruct E' as (E1 & E2). split; [exact E1|]. intros _. exact E2.
        + intros (Q1 & Q2). specialize (Q2 eq_refl). intros j Hj. destruct (HX1 j Hj) as (-> & ->). revert j Hj. apply E. split; assumption.
      - split.
        + intros Q. split; [|discriminate]. intros j Hj. apply abs_MAXB. destruct (HX1 j Hj) as (E1 & E2). rewrite <- E1 at 1. rewrite <- E2. auto.
        + intros (Q & _) j Hj. destruct (HX1 j Hj) as (-> & ->). apply abs_MAXB. auto. }
    assert (B2 : (forall i, (i < 2 * M)%nat -> vget (qxl q) (2 * N + i) <= d (2 * N + i)%nat <= vget (qxu q) (2 * N + i)) <-> (forall j, (j < 2 * M)%nat -> Rabs (d (2 * N + j)%nat) <= MAXB)
       /\ (hfeetC h = true -> step_box h fx fy (vget X) (moved h d))).
    { destruct (hfeetC h) eqn:Ec.
      - destruct (F1 eq_refl) as (_ & _ & Hb). pose proof (footBounds_iff N _ _ _ d fx fy Hb Hs) as E. fold M X in E.
        split.
        + intros Q. assert (E' : forall j, (j < 2 * M)%nat -> smax (- MAXB) (vget (fst bf) j) <= d (2 * N + j)%nat <= smin MAXB (vget (snd bf) j)).
          { intros j Hj. destruct (HX2 j Hj) as (<- & <-). auto. }
          apply E in E'. destruct E' as (E1 & E2). split; [exact E1|]. intros _. exact E2.
        + intros (Q1 & Q2). specialize (Q2 eq_refl). intros j Hj. destruct (HX2 j Hj) as (-> & ->). revert j Hj. apply E. split; assumption.
      - split.
        + intros Q. split; [|discriminate]. intros j Hj. apply abs_MAXB. destruct (HX2 j Hj) as (E1 & E2). rewrite <- E1 at 1. rewrite <- E2. auto.
        + intros (Q & _) j Hj. destruct (HX2 j Hj) as (-> & ->). apply abs_MAXB. auto. }
    rewrite B1, B2. tauto. }
  rewrite BB. unfold step_box. fold N M. unfold satisfies, dCopX, dCopY. cbn [fst snd]. clear - h.
  split.
  - intros ((A1 & A2 & A3) & A4 & A5). split; [split; [exact A1|split]|split].
    + intros E i p Hi Hp. apply (A4 E i p Hi Hp).
    + intros E i p Hi Hp. apply (A5 E i p Hi Hp).
    + intros E i p Hi Hp. destruct (A2 E i p Hi Hp). split; [assumption|]. split; [assumption|]. apply (A4 E i p Hi Hp).
    + intros E. split; intros i p Hi Hp; [apply (A5 E i p Hi Hp)|apply (A3 E i p Hi Hp)].
  - intros ((A1 & A2 & A3) & A4 & A5). split; [split; [exact A1|split]|split].
    + intros E i p Hi Hp. destruct (A4 E i p Hi Hp) as (B1 & B2 & _). split; assumption.
    + intros E i p Hi Hp. apply (A5 E). assumption. assumption.
    + intros E i p Hi Hp. split; [apply (A2 E i p Hi Hp)|apply (A4 E i p Hi Hp)].
    + intros E i p Hi Hp. split; [apply (A3 E i p Hi Hp)|apply (A5 E); assumption].
Qed.
End Prob.
