(** Proofs about segment intersection: the point on small grids, and the top
    statements. *)
From Coq Require Import ZArith Bool List Lia Reals Lra.
From Flocq Require Import Core.Core.
From Verif Require Import Base_F64 Base_F64Arith Base_Geom M_Geom M_Cmp M_Intersect S_Intersect S_Winding
  P_F64 P_F64Flocq P_F64Round P_F64Grid P_F64X P_Strconv4 P_Intersect P_Intersect2.
Import ListNotations.
Open Scope Z_scope.

Lemma nnz_wf w : f64_wf w = true -> f64_wf (no_negative_zero w) = true.
Proof. unfold no_negative_zero. now destruct (f64_eq w f64_zero). Qed.
Lemma nnz_R w : f64_wf w = true -> f64_finite w = true ->
  f64_finite (no_negative_zero w) = true /\ f64_R (no_negative_zero w) = f64_R w.
Proof.
  intros W F. unfold no_negative_zero. destruct (f64_eq w f64_zero) eqn:E; [|auto].
  split; [reflexivity|]. symmetry. apply eq_R; auto.
Qed.

Lemma rnd_between a b r : f64_wf a = true -> f64_finite a = true -> f64_wf b = true -> f64_finite b = true ->
  forall w, f64_wf w = true -> f64_finite w = true -> f64_R w = rnd r ->
  (exists t, 0 <= t <= 1 /\ r = f64_R a + t * (f64_R b - f64_R a))%R -> between a b w.
Proof.
  intros Wa Fa Wb Fb w Ww Fw E (t & Ht & Er).
  destruct (Rle_or_lt (f64_R a) (f64_R b)) as [L|L].
  - left. assert (f64_R a <= r <= f64_R b)%R as [L1 L2] by (rewrite Er; split; nra).
    apply rnd_le in L1, L2. rewrite rnd_id in L1, L2 by assumption. rewrite <- E in *. split; apply le_R; auto.
  - right. assert (f64_R b <= r <= f64_R a)%R as [L1 L2] by (rewrite Er; split; nra).
    apply rnd_le in L1, L2. rewrite rnd_id in L1, L2 by assumption. rewrite <- E in *. split; apply le_R; auto.
Qed.

Lemma small_nom e (He : -350 <= e <= 320) a d12 b d34 x w z v : Z.abs a <= 2 ^ 33 -> Z.abs b <= 2 ^ 33 -> Z.abs d12 <= 2 ^ 17 -> Z.abs d34 <= 2 ^ 17 ->
  repr (e + e) a x -> repr e d34 w -> repr e d12 z -> repr (e + e) b v ->
  repr (e + e + e) (a * d34 - d12 * b) (f64_sub (f64_mul x w) (f64_mul z v)) /\ Z.abs (a * d34 - d12 * b) <= 2 ^ 51.
Proof.
  intros Ha Hb H12 H34 Rx Rw Rz Rv.
  pose proof (abs_mul_bound a d34 _ _ Ha H34) as P. pose proof (abs_mul_bound d12 b _ _ H12 Hb) as Q.
  split; [|lia]. apply repr_sub; [lia | unfold two53; lia | |].
  - apply repr_mul; auto; [lia | unfold two53; lia].
  - replace (e + e + e) with (e + (e + e)) by lia. apply repr_mul; auto; [lia | unfold two53; lia].
Qed.
Lemma small_prod e (He : -350 <= e <= 320) a b c d x y z w : Z.abs a <= 2 ^ 16 -> Z.abs b <= 2 ^ 16 -> Z.abs c <= 2 ^ 16 -> Z.abs d <= 2 ^ 16 ->
  repr e a x -> repr e b y -> repr e c z -> repr e d w ->
  repr (e + e) (det a b c d) (f64_sub (f64_mul x w) (f64_mul y z)) /\ Z.abs (det a b c d) <= 2 ^ 33.
Proof.
  intros Ha Hb Hc Hd Ra Rb Rc Rd.
  pose proof (abs_mul_bound a d _ _ Ha Hd) as P. pose proof (abs_mul_bound b c _ _ Hb Hc) as Q.
  unfold det in *. split; [|lia].
  apply repr_sub; [lia | unfold two53; lia | |]; apply repr_mul; auto; try lia; unfold two53; lia.
Qed.
Lemma small_diff e (He : -350 <= e <= 320) a b x y : Z.abs a <= 2 ^ 16 -> Z.abs b <= 2 ^ 16 -> repr e a x -> repr e b y ->
  repr e (a - b) (f64_sub x y) /\ Z.abs (a - b) <= 2 ^ 17.
Proof. intros. split; [|lia]. apply repr_sub; auto; [lia | unfold two53; lia]. Qed.


Lemma small_exp e : -350 <= e <= 320 -> grid_exp e.
Proof. unfold grid_exp. lia. Qed.
Lemma small_abs a b : Z.abs a <= 2 ^ 16 -> Z.abs b <= 2 ^ 16 -> Z.abs (a - b) <= 2 ^ 25.
Proof. lia. Qed.

Section Small.
  Variables (e : Z) (a1 b1 a2 b2 a3 b3 a4 b4 : Z) (x1 y1 x2 y2 x3 y3 x4 y4 : f64).
  Hypothesis He : -350 <= e <= 320.
  Hypothesis X1 : repr e a1 x1.
  Hypothesis Y1 : repr e b1 y1.
  Hypothesis X2 : repr e a2 x2.
  Hypothesis Y2 : repr e b2 y2.
  Hypothesis X3 : repr e a3 x3.
  Hypothesis Y3 : repr e b3 y3.
  Hypothesis X4 : repr e a4 x4.
  Hypothesis Y4 : repr e b4 y4.
  Let l1 : line := ((x1, y1), (x2, y2)).
  Let l2 : line := ((x3, y3), (x4, y4)).
  Hypothesis B1 : Z.abs a1 <= 2 ^ 16 /\ Z.abs b1 <= 2 ^ 16.
  Hypothesis B2 : Z.abs a2 <= 2 ^ 16 /\ Z.abs b2 <= 2 ^ 16.
  Hypothesis B3 : Z.abs a3 <= 2 ^ 16 /\ Z.abs b3 <= 2 ^ 16.
  Hypothesis B4 : Z.abs a4 <= 2 ^ 16 /\ Z.abs b4 <= 2 ^ 16.

  Let D := det (a1 - a2) (b1 - b2) (a3 - a4) (b3 - b4).
  Let T := det (a1 - a3) (b1 - b3) (a3 - a4) (b3 - b4).
  Let NX := det a1 b1 a2 b2 * (a3 - a4) - (a1 - a2) * det a3 b3 a4 b4.
  Let NY := det a1 b1 a2 b2 * (b3 - b4) - (b1 - b2) * det a3 b3 a4 b4.

  Lemma quotient_scaled n x y : repr (e + e + e) n x -> repr (e + e) D y -> D <> 0 -> Z.abs n <= 2 ^ 51 ->
    f64_finite (no_negative_zero (f64_div x y)) = true /\
    f64_R (no_negative_zero (f64_div x y)) = rnd (IZR n / IZR D * bpow radix2 e).
  Proof.
    intros (Wx & Fx & Ex) (Wy & Fy & Ey) N Hn. pose proof (bpow_gt_0 radix2 e) as P.
    assert (Dr : IZR D <> 0%R) by now apply IZR_neq.
    rewrite !bpow_plus in Ex. rewrite bpow_plus in Ey.
    assert (Nz : f64_R y <> 0%R) by (rewrite Ey; apply Rmult_integral_contrapositive_currified; [exact Dr | nra]).
    pose proof (div_round x y Wx Wy Fx Fy Nz) as [W H]. rewrite Ex, Ey in H.
    replace (IZR n * (bpow radix2 e * bpow radix2 e * bpow radix2 e) / (IZR D * (bpow radix2 e * bpow radix2 e)))%R
      with (IZR n / IZR D * bpow radix2 e)%R in H by (field; split; (exact Dr || lra)).
    assert (Bd : (Rabs (rnd (IZR n / IZR D * bpow radix2 e)) < huge)%R).
    { assert (Q : (Rabs (IZR n / IZR D * bpow radix2 e) <= IZR (2 ^ 51) * bpow radix2 e)%R).
      { rewrite Rabs_mult, (Rabs_pos_eq (bpow radix2 e)) by lra. apply Rmult_le_compat_r; [lra|].
        unfold Rdiv. rewrite Rabs_mult, Rabs_inv, <- !abs_IZR.
        assert (1 <= IZR (Z.abs D))%R by (apply IZR_le; lia).
        assert (0 <= IZR (Z.abs n) <= IZR (2 ^ 51))%R by (split; apply IZR_le; lia).
        apply Rle_trans with (IZR (Z.abs n) * 1)%R; [|lra]. apply Rmult_le_compat_l; [lra|].
        rewrite <- Rinv_1. apply Rinv_le; lra. }
      assert (G : (Rabs (rnd (IZR n / IZR D * bpow radix2 e)) <= IZR (2 ^ 51) * bpow radix2 e)%R).
      { apply Rabs_le. apply Rabs_def2b in Q || apply Rabs_le_inv in Q. destruct Q as [Q1 Q2].
        rewrite <- (grid_rnd e (2 ^ 51)) by (lia || (vm_compute; discriminate)).
        split; [rewrite <- P_GeojsonNum.rnd_opp|]; apply rnd_le; lra. }
      apply Rle_lt_trans with (1 := G). pose proof (grid_bound e (2 ^ 51) ltac:(lia) ltac:(vm_compute; discriminate)) as K.
      rewrite Rabs_pos_eq in K; [exact K|]. apply Rmult_le_pos; [apply IZR_le; lia | lra]. }
    destruct H as [(F & E & _)|[(-> & K)|(-> & K)]].
    - destruct (nnz_R _ W F) as [F' E']. split; [exact F' | congruence].
    - exfalso. apply Rabs_lt_inv in Bd. lra.
    - exfalso. apply Rabs_lt_inv in Bd. lra.
  Qed.

  Lemma small_point : ~ parallel l1 l2 ->
    exists p, on_line l1 p /\ on_line l2 p /\
    f64_finite (fst (crossing l1 l2)) = true /\ f64_finite (snd (crossing l1 l2)) = true /\
    f64_R (fst (crossing l1 l2)) = rnd (fst p) /\ f64_R (snd (crossing l1 l2)) = rnd (snd p).
  Proof.
    intros Np.
    pose proof (small_exp e He) as Ge.
    pose proof (conj (small_abs _ _ (proj1 B1) (proj1 B2)) (conj (small_abs _ _ (proj2 B1) (proj2 B2))
      (conj (small_abs _ _ (proj1 B1) (proj1 B3)) (conj (small_abs _ _ (proj2 B1) (proj2 B3))
      (conj (small_abs _ _ (proj1 B3) (proj1 B4)) (small_abs _ _ (proj2 B3) (proj2 B4))))))) as Bx.
    assert (N : D <> 0).
    { intros E. apply Np. apply (real_det_parallel e a1 b1 a2 b2 a3 b3 a4 b4); auto. }
    assert (Nr : IZR D <> 0%R) by now apply IZR_neq.
    set (U := - det (a1 - a2) (b1 - b2) (a1 - a3) (b1 - b3)).
    pose proof (proj2 (meets e a1 b1 a2 b2 a3 b3 a4 b4 x1 y1 x2 y2 x3 y3 x4 y4 X1 Y1 X2 Y2 X3 Y3 X4 Y4 (IZR T / IZR D) (IZR U / IZR D) N) (conj eq_refl eq_refl)) as M.
    exists (along (rpt (x1, y1)) (rpt (x2, y2)) (IZR T / IZR D)).
    split; [exists (IZR T / IZR D)%R; reflexivity|].
    split; [exists (IZR U / IZR D)%R; exact M|].
    destruct (grid_den e a1 b1 a2 b2 a3 b3 a4 b4 x1 y1 x2 y2 x3 y3 x4 y4 Ge X1 Y1 X2 Y2 X3 Y3 X4 Y4 Bx) as [Rd _]. fold D in Rd.
    destruct (small_prod e He a1 b1 a2 b2 x1 y1 x2 y2) as [Ra Ba]; try tauto.
    destruct (small_prod e He a3 b3 a4 b4 x3 y3 x4 y4) as [Rb Bb]; try tauto.
    destruct (small_diff e He a1 a2 x1 x2) as [R12 B12]; try tauto.
    destruct (small_diff e He a3 a4 x3 x4) as [R34 B34]; try tauto.
    destruct (small_diff e He b1 b2 y1 y2) as [S12 C12]; try tauto.
    destruct (small_diff e He b3 b4 y3 y4) as [S34 C34]; try tauto.
    destruct (small_nom e He _ _ _ _ _ _ _ _ Ba Bb B12 B34 Ra R34 R12 Rb) as [RX HX].
    destruct (small_nom e He _ _ _ _ _ _ _ _ Ba Bb C12 C34 Ra S34 S12 Rb) as [RY HY].
    destruct (quotient_scaled _ _ _ RX Rd N HX) as [FX EX].
    destruct (quotient_scaled _ _ _ RY Rd N HY) as [FY EY].
    split; [exact FX|]. split; [exact FY|].
    assert (K : along (rpt (x1, y1)) (rpt (x2, y2)) (IZR T / IZR D) =
                ((IZR NX / IZR D * bpow radix2 e)%R, (IZR NY / IZR D * bpow radix2 e)%R)).
    { unfold along, rpt; cbn [fst snd].
      destruct X1 as (_ & _ & ->), Y1 as (_ & _ & ->), X2 as (_ & _ & ->), Y2 as (_ & _ & ->).
      unfold NX, NY, T, D, det in *. rewrite !minus_IZR, !mult_IZR, !minus_IZR, !mult_IZR in *.
      f_equal; field; exact Nr. }
    rewrite K. cbn [fst snd]. split; [exact EX | exact EY].
  Qed.
End Small.

(** ** Top statements *)
Lemma on_grid4 e ns (p q r s : point f64) : on_grid e ns [p; q; r; s] ->
  exists n1 n2 n3 n4, ns = [n1; n2; n3; n4] /\
    (repr e (fst n1) (fst p) /\ repr e (snd n1) (snd p)) /\ (repr e (fst n2) (fst q) /\ repr e (snd n2) (snd q)) /\
    (repr e (fst n3) (fst r) /\ repr e (snd n3) (snd r)) /\ (repr e (fst n4) (fst s) /\ repr e (snd n4) (snd s)).
Proof.
  intros H. inversion H as [|n1 ? ? ? H1 T1]; subst. inversion T1 as [|n2 ? ? ? H2 T2]; subst.
  inversion T2 as [|n3 ? ? ? H3 T3]; subst. inversion T3 as [|n4 ? ? ? H4 T4]; subst. inversion T4; subst.
  exists n1, n2, n3, n4. auto.
Qed.

Theorem segment_exact l1 l2 : near_grid l1 l2 ->
  (snd (segment_intersect l1 l2) = true <-> ~ parallel l1 l2 /\ exists p, on_segment l1 p /\ on_segment l2 p) /\
  (snd (line_intersect l1 l2) = true <-> ~ parallel l1 l2).
Proof.
  intros (e & ns & He & Hg & Hb). destruct l1 as [[x1 y1] [x2 y2]], l2 as [[x3 y3] [x4 y4]]. unfold ends in Hg. cbn [fst snd app] in Hg.
  apply on_grid4 in Hg as ([a1 b1] & [a2 b2] & [a3 b3] & [a4 b4] & -> & [? ?] & [? ?] & [? ?] & [? ?]). cbn [fst snd] in *.
  assert (B : Z.abs (a1 - a2) <= 2 ^ 25 /\ Z.abs (b1 - b2) <= 2 ^ 25 /\ Z.abs (a1 - a3) <= 2 ^ 25 /\
                 Z.abs (b1 - b3) <= 2 ^ 25 /\ Z.abs (a3 - a4) <= 2 ^ 25 /\ Z.abs (b3 - b4) <= 2 ^ 25).
  { pose proof (Hb (a1, b1) (a2, b2) ltac:(now left) ltac:(right; now left)) as [? ?].
    pose proof (Hb (a1, b1) (a3, b3) ltac:(now left) ltac:(right; right; now left)) as [? ?].
    pose proof (Hb (a3, b3) (a4, b4) ltac:(right; right; now left) ltac:(right; right; right; now left)) as [? ?].
    cbn [fst snd] in *. auto 8. }
  split.
  - now apply (grid_exact e a1 b1 a2 b2 a3 b3 a4 b4).
  - now apply (grid_line e a1 b1 a2 b2 a3 b3 a4 b4).
Qed.

Lemma small_near l1 l2 : small_grid l1 l2 -> near_grid l1 l2.
Proof.
  intros (e & ns & He & Hg & Hb). exists e, ns. split; [unfold grid_exp; lia|]. split; [exact Hg|].
  intros p q Hp Hq. destruct (Hb p Hp), (Hb q Hq). lia.
Qed.

Lemma line_ok l1 l2 : snd (line_intersect l1 l2) = true -> line_intersect l1 l2 = (crossing l1 l2, true).
Proof. unfold line_intersect. destruct (f64_eq _ _); [discriminate | reflexivity]. Qed.

Lemma line_res l1 l2 q : line_intersect l1 l2 = (q, true) -> q = crossing l1 l2.
Proof. unfold line_intersect. destruct (f64_eq _ _); congruence. Qed.
Lemma crossing_wf l1 l2 : f64_wf (fst (crossing l1 l2)) = true /\ f64_wf (snd (crossing l1 l2)) = true.
Proof. destruct l1 as [[? ?] [? ?]], l2 as [[? ?] [? ?]]. split; apply nnz_wf, div_wf. Qed.

Theorem point_exact l1 l2 : small_grid l1 l2 -> ~ parallel l1 l2 ->
  exists p, on_line l1 p /\ on_line l2 p /\
    exists q, line_intersect l1 l2 = (q, true) /\ f64_finite (fst q) = true /\ f64_finite (snd q) = true /\
      f64_R (fst q) = rnd (fst p) /\ f64_R (snd q) = rnd (snd p).
Proof.
  intros Hs Np. pose proof (proj2 (proj2 (segment_exact l1 l2 (small_near _ _ Hs))) Np) as L.
  destruct Hs as (e & ns & He & Hg & Hb). destruct l1 as [[x1 y1] [x2 y2]], l2 as [[x3 y3] [x4 y4]]. unfold ends in Hg. cbn [fst snd app] in Hg.
  apply on_grid4 in Hg as ([a1 b1] & [a2 b2] & [a3 b3] & [a4 b4] & -> & [? ?] & [? ?] & [? ?] & [? ?]). cbn [fst snd] in *.
  destruct (small_point e a1 b1 a2 b2 a3 b3 a4 b4 x1 y1 x2 y2 x3 y3 x4 y4) as (p & P1 & P2 & Q); auto.
  { apply (Hb (a1, b1)). now left. } { apply (Hb (a2, b2)). right; now left. }
  { apply (Hb (a3, b3)). right; right; now left. } { apply (Hb (a4, b4)). right; right; right; now left. }
  exists p. split; [exact P1|]. split; [exact P2|].
  exists (crossing ((x1, y1), (x2, y2)) ((x3, y3), (x4, y4))). split; [|exact Q].
  now apply line_ok.
Qed.

Lemma line_unique l1 l2 p q : ~ parallel l1 l2 -> on_line l1 p -> on_line l2 p -> on_line l1 q -> on_line l2 q -> p = q.
Proof.
  intros Np (t & ->) (u & E) (t' & ->) (u' & E'). unfold parallel in Np. unfold along in *.
  destruct (rpt (fst l1)) as [ax ay], (rpt (snd l1)) as [bx by_], (rpt (fst l2)) as [cx cy], (rpt (snd l2)) as [dx dy].
  cbn [fst snd] in *. injection E as E1 E2. injection E' as E3 E4.
  assert (A1 : ((t - t') * (bx - ax) = (u - u') * (dx - cx))%R) by lra.
  assert (A2 : ((t - t') * (by_ - ay) = (u - u') * (dy - cy))%R) by lra.
  assert (K : ((t - t') * ((bx - ax) * (dy - cy) - (by_ - ay) * (dx - cx)) = 0)%R).
  { replace ((t - t') * ((bx - ax) * (dy - cy) - (by_ - ay) * (dx - cx)))%R
      with ((t - t') * (bx - ax) * (dy - cy) - (t - t') * (by_ - ay) * (dx - cx))%R by ring.
    rewrite A1, A2. ring. }
  apply Rmult_integral in K. destruct K as [K|K]; [|exfalso; apply Np; lra].
  assert (t = t') by lra. subst. reflexivity.
Qed.

Theorem segment_point l1 l2 q : small_grid l1 l2 -> segment_intersect l1 l2 = (q, true) ->
  (exists p, on_segment l1 p /\ on_segment l2 p /\
     f64_finite (fst q) = true /\ f64_finite (snd q) = true /\
     f64_R (fst q) = rnd (fst p) /\ f64_R (snd q) = rnd (snd p)) /\
  in_box l1 q /\ in_box l2 q.
Proof.
  intros Hs E. assert (O : snd (segment_intersect l1 l2) = true) by now rewrite E.
  pose proof (segment_line l1 l2 O) as Sl. rewrite E in Sl. cbn [fst] in Sl.
  apply (segment_exact l1 l2 (small_near _ _ Hs)) in O as (Np & p & P1 & P2).
  destruct (point_exact l1 l2 Hs Np) as (p' & Q1 & Q2 & q' & E' & F1 & F2 & R1 & R2).
  assert (p' = p).
  { apply (line_unique l1 l2); auto; [destruct P1 as (t & _ & H) | destruct P2 as (t & _ & H)]; exists t; exact H. }
  subst p'. rewrite Sl in E'. injection E' as <-.
  split; [exists p; auto 8|].
  destruct Hs as (e & ns & He & Hg & Hb). destruct l1 as [[x1 y1] [x2 y2]], l2 as [[x3 y3] [x4 y4]]. unfold ends in Hg. cbn [fst snd app] in Hg.
  apply on_grid4 in Hg as ([a1 b1] & [a2 b2] & [a3 b3] & [a4 b4] & -> & [G1 G2] & [G3 G4] & [G5 G6] & [G7 G8]). cbn [fst snd] in *.
  destruct G1 as (? & ? & _), G2 as (? & ? & _), G3 as (? & ? & _), G4 as (? & ? & _),
           G5 as (? & ? & _), G6 as (? & ? & _), G7 as (? & ? & _), G8 as (? & ? & _).
  assert (Wq : f64_wf (fst q) = true /\ f64_wf (snd q) = true).
  { rewrite (line_res _ _ _ Sl). apply crossing_wf. }
  destruct Wq as [Wq1 Wq2].
  destruct P1 as (t & Ht & Et), P2 as (u & Hu & Eu). unfold along, rpt in Et, Eu. cbn [fst snd] in Et, Eu.
  split; split; cbn [fst snd].
  - apply (rnd_between x1 x2 (fst p)); auto. exists t. rewrite Et. auto.
  - apply (rnd_between y1 y2 (snd p)); auto. exists t. rewrite Et. auto.
  - apply (rnd_between x3 x4 (fst p)); auto. exists u. rewrite Eu. auto.
  - apply (rnd_between y3 y4 (snd p)); auto. exists u. rewrite Eu. auto.
Qed.
