(** Proofs about clipping: lines that pass no corner are clipped exactly *)
From Coq Require Import ZArith Bool List Lia Reals Lra.
From Flocq Require Import Core.Core.
From Verif Require Import Base_Res Base_F64 Base_F64Arith Base_Geom M_Geom M_Extent M_Cmp M_Intersect M_Clip S_Intersect S_Winding S_Cmp S_Clip
  P_F64 P_F64Flocq P_F64Round P_F64Grid P_Intersect P_Intersect2 P_Intersect3 P_Cmp2 P_Clip P_Clip2 P_Clip3.
Import ListNotations.
Open Scope Z_scope.

Definition found (es : list line) (ln : line) : list pt := map fst (filter snd (map (fun ed => segment_intersect ed ln) es)).

Lemma points_found c ln : forall es pts, (length (pts ++ found es ln) <= 2)%nat ->
  ForallOrdPairs (fun a d => point_equal c a d = false) (pts ++ found es ln) ->
  intersect_points c es ln pts = pts ++ found es ln.
Proof.
  induction es as [|ed es IH]; intros pts L F; [cbn; now rewrite app_nil_r|].
  unfold found in *. cbn [map filter] in *. cbn [intersect_points].
  destruct (segment_intersect ed ln) as [p ok]. cbn [snd fst] in *. destruct ok; cbn [negb]; [|now apply IH].
  cbn [map fst] in *. set (rest := map fst (filter snd (map (fun ed => segment_intersect ed ln) es))) in *.
  replace (existsb (fun q => point_equal c q p) pts) with false.
  - change (pts ++ p :: rest) with (pts ++ [p] ++ rest) in *. rewrite app_assoc in *.
    destruct (2 <=? length (pts ++ [p]))%nat eqn:E2.
    + apply Nat.leb_le in E2. rewrite app_length in L. destruct rest; [now rewrite app_nil_r | cbn in L; lia].
    + apply IH; assumption.
  - symmetry. apply not_true_iff_false. intros K. apply existsb_exists in K as (q & I & K).
    clear -F I K. induction pts as [|x pts IH]; [destruct I|]. cbn [app] in F. inversion F as [|? ? F1 F2]; subst.
    destruct I as [->|I]; [|now apply IH]. rewrite Forall_app in F1. destruct F1 as [_ F1]. inversion F1; congruence.
Qed.

Lemma along_along U W r t : along U (along U W r) t = along U W (t * r).
Proof. unfold along. cbn [fst snd]. f_equal; ring. Qed.
Lemma cross_unique (A B U W : R * R) s s' t t' :
  ~ ((fst B - fst A) * (snd W - snd U) = (snd B - snd A) * (fst W - fst U))%R ->
  along U W t = along A B s -> along U W t' = along A B s' -> t = t'.
Proof.
  destruct A as [ax ay], B as [bx by_], U as [ux uy], W as [wx wy]. unfold along. cbn [fst snd]. intros Np O O'.
  apply pair_equal_spec in O as [O1 O2]. apply pair_equal_spec in O' as [O3 O4].
  assert (D1 : ((t - t') * (wx - ux) = (s - s') * (bx - ax))%R) by lra.
  assert (D2 : ((t - t') * (wy - uy) = (s - s') * (by_ - ay))%R) by lra.
  destruct (Req_dec t t') as [|N]; [assumption|]. exfalso. apply Np.
  apply Rmult_eq_reg_l with (t - t')%R; [|lra].
  replace ((t - t') * ((bx - ax) * (wy - uy)))%R with ((bx - ax) * ((t - t') * (wy - uy)))%R by ring. rewrite D2.
  replace ((t - t') * ((by_ - ay) * (wx - ux)))%R with ((by_ - ay) * ((t - t') * (wx - ux)))%R by ring. rewrite D1. ring.
Qed.
Lemma along_rev U W t : along W U t = along U W (1 - t).
Proof. unfold along. cbn [fst snd]. f_equal; ring. Qed.

Lemma in_rect_convex b U W s t r : in_rect b (along U W s) -> in_rect b (along U W t) -> (s <= r <= t)%R -> in_rect b (along U W r).
Proof.
  unfold in_rect, along. cbn [fst snd]. intros [[A1 A2] [A3 A4]] [[B1 B2] [B3 B4]] [S T].
  set (dx := (fst W - fst U)%R) in *. set (dy := (snd W - snd U)%R) in *. clearbody dx dy.
  destruct (Rle_or_lt 0 dx), (Rle_or_lt 0 dy); repeat split; nra.
Qed.

Lemma five (a1 a2 a3 a4 a5 : R) : (0 < a1 -> 0 < a2 -> 0 < a3 -> 0 < a4 -> 0 < a5 ->
  exists d, 0 < d /\ d <= a1 /\ d <= a2 /\ d <= a3 /\ d <= a4 /\ d <= a5)%R.
Proof.
  intros. exists (Rmin a1 (Rmin a2 (Rmin a3 (Rmin a4 a5)))).
  split; [repeat apply Rmin_glb_lt; assumption|].
  pose proof (Rmin_l a1 (Rmin a2 (Rmin a3 (Rmin a4 a5)))). pose proof (Rmin_r a1 (Rmin a2 (Rmin a3 (Rmin a4 a5)))).
  pose proof (Rmin_l a2 (Rmin a3 (Rmin a4 a5))). pose proof (Rmin_r a2 (Rmin a3 (Rmin a4 a5))).
  pose proof (Rmin_l a3 (Rmin a4 a5)). pose proof (Rmin_r a3 (Rmin a4 a5)).
  pose proof (Rmin_l a4 a5). pose proof (Rmin_r a4 a5). lra.
Qed.
Lemma step (m d : R) : (0 < m -> exists e, 0 < e /\ forall x, 0 <= x <= e -> x * Rabs d <= m)%R.
Proof.
  intros Hm. assert (P : (0 < Rabs d + 1)%R) by (pose proof (Rabs_pos d); lra).
  exists (m / (Rabs d + 1))%R. split; [apply Rmult_lt_0_compat; [lra | now apply Rinv_0_lt_compat]|].
  intros x [X1 X2]. apply Rle_trans with (x * (Rabs d + 1))%R; [nra|].
  apply Rle_trans with (m / (Rabs d + 1) * (Rabs d + 1))%R; [apply Rmult_le_compat_r; lra|]. right. field. lra.
Qed.
(** From a point inside a side one can go on into the box. *)
Lemma inward (x y dx dy LX HX LY HY t : R) : (dx <> 0 -> x = LX \/ x = HX -> LX < HX -> LY < y < HY -> 0 < t < 1 ->
  exists h, h <> 0 /\ 0 <= t + h <= 1 /\ LX <= x + h * dx <= HX /\ LY <= y + h * dy <= HY)%R.
Proof.
  intros Nx Ex Lx Ly T.
  destruct (step (HX - LX) dx ltac:(lra)) as (a1 & P1 & K1). destruct (step (y - LY) dy ltac:(lra)) as (a2 & P2 & K2).
  destruct (step (HY - y) dy ltac:(lra)) as (a3 & P3 & K3).
  destruct (five a1 a2 a3 t (1 - t)) as (d & D0 & D1 & D2 & D3 & D4 & D5); try lra.
  specialize (K1 d ltac:(lra)). specialize (K2 d ltac:(lra)). specialize (K3 d ltac:(lra)).
  assert (Ay : (- (d * Rabs dy) <= d * dy <= d * Rabs dy)%R).
  { pose proof (Rle_abs dy). pose proof (Rle_abs (- dy)). rewrite Rabs_Ropp in *. split; nra. }
  assert (S : (0 < dx \/ dx < 0)%R) by lra.
  destruct Ex as [-> | ->], S as [S|S].
  - rewrite Rabs_right in K1 by lra. exists d. split; [lra|]. split; [lra|]. split; [split; [nra | lra] | lra].
  - rewrite Rabs_left in K1 by lra. exists (- d)%R. split; [lra|]. split; [lra|]. split; [split; [nra | lra] | lra].
  - rewrite Rabs_right in K1 by lra. exists (- d)%R. split; [lra|]. split; [lra|]. split; [split; [lra | nra] | lra].
  - rewrite Rabs_left in K1 by lra. exists d. split; [lra|]. split; [lra|]. split; [split; [lra | nra] | lra].
Qed.

Section Apart.
  Variable c : compare.
  Hypothesis Pc : positive c.
  Variables (e : Z) (lo hi nu nw : Z * Z) (b : extent) (ln : line).
  Hypothesis G : on_clip_grid e lo hi nu nw b ln.
  Hypothesis Strict : f64_lt (e0 b) (e2 b) = true /\ f64_lt (e1 b) (e3 b) = true.
  Hypothesis Nu : is_universe (Some b) = false.
  Hypothesis Ap : apart c b ln.

  Notation U := (rpt (fst ln)).
  Notation W := (rpt (snd ln)).

  Definition hits (i : nat) (q : pt) (t : R) : Prop :=
    exists ed, nth_error (sides b) i = Some ed /\ segment_intersect ed ln = (q, true) /\
      hit b ln q (along U W t) t /\ on_segment ed (along U W t).

  Lemma side_edge i ed : nth_error (sides b) i = Some ed -> In ed (edges (Some b) None).
  Proof. intros H. apply nth_error_In in H. exact H. Qed.

  Lemma intersect_hits i ed q : nth_error (sides b) i = Some ed -> segment_intersect ed ln = (q, true) -> exists t, hits i q t.
  Proof.
    intros Hi E. pose proof (side_edge _ _ Hi) as I. pose proof (edge_small _ _ _ _ _ _ _ G ed I) as Hs.
    destruct (segment_point ed ln q Hs E) as ((p & P1 & P2 & R) & _).
    assert (O : snd (segment_intersect ed ln) = true) by now rewrite E.
    pose proof (segment_line _ _ O) as Sl. rewrite E in Sl. cbn [fst] in Sl.
    apply (segment_exact ed ln (small_near _ _ Hs)) in O as (Np & _).
    destruct (edge_point _ _ _ _ _ _ _ G ed p I P1 Np) as [Hin He]. destruct P2 as (t & T & Et). subst p.
    exists t. exists ed. repeat (split; [assumption|]). split; [|exact P1]. constructor; auto.
    rewrite (line_res _ _ _ Sl). apply crossing_wf.
  Qed.

  Lemma hits_unique i q t q' t' : hits i q t -> hits i q' t' -> q = q' /\ t = t'.
  Proof.
    intros (ed & N & E & H & O) (ed' & N' & E' & H' & O'). rewrite N in N'. injection N' as <-. rewrite E in E'. injection E' as <-.
    split; [reflexivity|].
    assert (S : snd (segment_intersect ed ln) = true) by now rewrite E.
    apply (segment_exact ed ln (small_near _ _ (edge_small _ _ _ _ _ _ _ G ed (side_edge _ _ N)))) in S as (Np & _).
    destruct O as (s & _ & O), O' as (s' & _ & O'). exact (cross_unique _ _ _ _ _ _ _ _ Np O O').
  Qed.

  Lemma hits_meets i q t : hits i q t -> meets_side b ln i q.
  Proof.
    intros (ed & N & E & H & O). split; [apply H|]. split; [apply H|]. exists ed, (along U W t).
    repeat split; try assumption; try apply H. exists t. split; [apply H | reflexivity].
  Qed.
  Lemma hits_differ i q t j q' t' : i <> j -> hits i q t -> hits j q' t' -> point_equal c q q' = false /\ t <> t'.
  Proof.
    intros Nij Hi Hj. pose proof (Ap i j q q' Nij (hits_meets _ _ _ Hi) (hits_meets _ _ _ Hj)) as P. split; [exact P|].
    destruct Hi as (? & _ & _ & Hi & _), Hj as (? & _ & _ & Hj & _). exact (hits_apart c Pc _ _ _ _ _ _ _ _ Hi Hj P).
  Qed.

  Lemma no_three q0 t0 q1 t1 q2 t2 : hit b ln q0 (along U W t0) t0 -> hit b ln q1 (along U W t1) t1 -> hit b ln q2 (along U W t2) t2 ->
    (t0 < t1)%R -> (t1 < t2)%R -> False.
  Proof.
    intros H0 H1 H2 T0 T1. pose proof (h_in _ _ _ _ _ H0) as I0. pose proof (h_edge _ _ _ _ _ H1) as Ed.
    pose proof (h_in _ _ _ _ _ H2) as I2. clear H0 H1 H2. unfold real_in, along, rpt in *. cbn [fst snd] in *.
    set (ux := f64_R (fst (fst ln))) in *. set (uy := f64_R (snd (fst ln))) in *.
    set (wx := f64_R (fst (snd ln))) in *. set (wy := f64_R (snd (snd ln))) in *.
    clearbody ux uy wx wy.
    destruct Ed as [[Ed Nx]|[Ed Nx]].
    - assert (P : (0 < wx - ux \/ wx - ux < 0)%R) by lra. destruct P as [P|P].
      + assert (t0 * (wx - ux) < t1 * (wx - ux))%R by (apply Rmult_lt_compat_r; lra).
        assert (t1 * (wx - ux) < t2 * (wx - ux))%R by (apply Rmult_lt_compat_r; lra). lra.
      + assert (t1 * (wx - ux) < t0 * (wx - ux))%R by nra.
        assert (t2 * (wx - ux) < t1 * (wx - ux))%R by nra. lra.
    - assert (P : (0 < wy - uy \/ wy - uy < 0)%R) by lra. destruct P as [P|P].
      + assert (t0 * (wy - uy) < t1 * (wy - uy))%R by (apply Rmult_lt_compat_r; lra).
        assert (t1 * (wy - uy) < t2 * (wy - uy))%R by (apply Rmult_lt_compat_r; lra). lra.
      + assert (t1 * (wy - uy) < t0 * (wy - uy))%R by nra.
        assert (t2 * (wy - uy) < t1 * (wy - uy))%R by nra. lra.
  Qed.
  Lemma three_sides i q t j q' t' k q'' t'' : i <> j -> j <> k -> i <> k -> hits i q t -> hits j q' t' -> hits k q'' t'' -> False.
  Proof.
    intros Nij Njk Nik Hi Hj Hk.
    pose proof (proj2 (hits_differ _ _ _ _ _ _ Nij Hi Hj)) as D1. pose proof (proj2 (hits_differ _ _ _ _ _ _ Njk Hj Hk)) as D2.
    pose proof (proj2 (hits_differ _ _ _ _ _ _ Nik Hi Hk)) as D3.
    destruct Hi as (? & _ & _ & Hi & _), Hj as (? & _ & _ & Hj & _), Hk as (? & _ & _ & Hk & _).
    pose proof no_three as N3.
    destruct (Rtotal_order t t') as [A|[A|A]], (Rtotal_order t' t'') as [B|[B|B]], (Rtotal_order t t'') as [C|[C|C]]; try contradiction; try lra; eauto.
  Qed.

  Lemma unique_found : unique_points c (Some b) ln = found (sides b) ln /\ (length (found (sides b) ln) <= 2)%nat.
  Proof.
    assert (L : (length (found (sides b) ln) <= 2)%nat /\ ForallOrdPairs (fun a d => point_equal c a d = false) (found (sides b) ln)).
    { unfold found, sides. cbn [map].
      destruct (segment_intersect (e0 b, e1 b, (e2 b, e1 b)) ln) as [q0 o0] eqn:E0.
      destruct (segment_intersect (e2 b, e1 b, (e2 b, e3 b)) ln) as [q1 o1] eqn:E1.
      destruct (segment_intersect (e2 b, e3 b, (e0 b, e3 b)) ln) as [q2 o2] eqn:E2.
      destruct (segment_intersect (e0 b, e3 b, (e0 b, e1 b)) ln) as [q3 o3] eqn:E3.
      assert (H0 : o0 = true -> exists t, hits 0 q0 t) by (intros ->; now apply (intersect_hits 0 _ _ eq_refl)).
      assert (H1 : o1 = true -> exists t, hits 1 q1 t) by (intros ->; now apply (intersect_hits 1 _ _ eq_refl)).
      assert (H2 : o2 = true -> exists t, hits 2 q2 t) by (intros ->; now apply (intersect_hits 2 _ _ eq_refl)).
      assert (H3 : o3 = true -> exists t, hits 3 q3 t) by (intros ->; now apply (intersect_hits 3 _ _ eq_refl)).
      clear E0 E1 E2 E3. pose proof three_sides as T3. pose proof hits_differ as Df.
      assert (F2 : forall i j a d s t, i <> j -> hits i a s -> hits j d t -> ForallOrdPairs (fun a d => point_equal c a d = false) [a; d]).
      { intros i j a d s t Nij Ha Hd. repeat constructor. apply (Df i a s j d t); assumption. }
      assert (F1 : forall a, ForallOrdPairs (fun a d => point_equal c a d = false) [a]) by (repeat constructor).
      destruct o0, o1, o2, o3; cbn [map filter snd fst length];
      repeat match goal with H : true = true -> _ |- _ => destruct (H eq_refl) as [? ?]; clear H end;
      try solve [exfalso; match goal with
        | A : hits ?i _ _, B : hits ?j _ _, C : hits ?k _ _ |- _ => refine (T3 _ _ _ _ _ _ _ _ _ _ _ _ A B C); discriminate
        end];
      (split; [lia|]); first [apply F1 | apply FOP_nil |
      match goal with A : hits _ ?a _, B : hits _ ?d _ |- ForallOrdPairs _ [?a; ?d] => refine (F2 _ _ _ _ _ _ _ A B); discriminate end]. }
    destruct L as [L F]. split; [|exact L]. unfold unique_points. rewrite Nu. exact (points_found c ln (sides b) [] L F).
  Qed.

  Lemma found_hits q : In q (found (sides b) ln) <-> exists i t, hits i q t.
  Proof.
    unfold found. rewrite in_map_iff. split.
    - intros ((q' & ok) & <- & I). apply filter_In in I as [I Hk]. cbn in Hk. subst ok. apply in_map_iff in I as (ed & E & I).
      apply In_nth_error in I as [i Hi]. destruct (intersect_hits i ed q' Hi E) as [t H]. now exists i, t.
    - intros (i & t & ed & Hi & E & _). exists (q, true). split; [reflexivity|]. apply filter_In. split; [|reflexivity].
      apply in_map_iff. exists ed. split; [exact E|]. now apply nth_error_In in Hi.
  Qed.
  Lemma hits_same q i t j t' : hits i q t -> hits j q t' -> t = t'.
  Proof.
    intros A B. destruct (Nat.eq_dec i j) as [->|N]; [exact (proj2 (hits_unique _ _ _ _ _ A B))|].
    destruct (hits_differ _ _ _ _ _ _ N A B) as [P _]. rewrite point_equal_refl in P; [discriminate | exact Pc].
  Qed.

  Lemma at_hits ed t : In ed (sides b) -> (0 <= t <= 1)%R -> on_segment ed (along U W t) -> ~ parallel ed ln -> exists i q, hits i q t.
  Proof.
    intros I T O Np.
    assert (E : snd (segment_intersect ed ln) = true).
    { apply (segment_exact ed ln (small_near _ _ (edge_small _ _ _ _ _ _ _ G ed I))). split; [exact Np|].
      exists (along U W t). split; [exact O|]. exists t. auto. }
    destruct (segment_intersect ed ln) as [q ok] eqn:Es. cbn in E. subst ok.
    apply In_nth_error in I as [i Hi].
    destruct (intersect_hits i ed q Hi Es) as (t' & ed' & N' & E' & H' & O').
    rewrite Hi in N'. injection N' as <-.
    assert (K : t' = t) by (destruct O as (s & _ & O), O' as (s' & _ & O'); exact (cross_unique _ _ _ _ _ _ _ _ Np O' O)).
    subst t'. exists i, q, ed. auto.
  Qed.

  Lemma outside_rect p : p = fst ln \/ p = snd ln -> inside b p = false -> ~ in_rect b (rpt p).
  Proof.
    intros Hp Iu K. destruct (ln_words _ _ _ _ _ _ _ G p Hp) as [W1 W2].
    apply (inside_real _ _ _ _ _ _ _ G) in K; auto. congruence.
  Qed.
  Lemma inside_rect p : p = fst ln \/ p = snd ln -> inside b p = true -> in_rect b (rpt p).
  Proof. intros Hp Iu. destruct (ln_words _ _ _ _ _ _ _ G p Hp) as [W1 W2]. now apply (inside_real _ _ _ _ _ _ _ G). Qed.

  (** Before each point in the box there is a hit, if the first end is outside;
      after it, if the last end is. *)
  Lemma hit_before r : (0 <= r <= 1)%R -> inside b (fst ln) = false -> in_rect b (along U W r) ->
    exists i q t, hits i q t /\ (t <= r)%R.
  Proof.
    intros Hr Iu Ir. destruct (strict_R _ _ _ _ _ _ _ G Strict) as [S1 S2].
    destruct (enter_real b U (along U W r) S1 S2 (outside_rect _ (or_introl eq_refl) Iu) Ir) as (ed & t & I & T & O & A).
    rewrite along_along in O.
    assert (Np : ~ parallel ed ln).
    { intros K. apply A. unfold across, parallel, along in *. cbn [fst snd] in *.
      replace (snd U + r * (snd W - snd U) - snd U)%R with (r * (snd W - snd U))%R by ring.
      replace (fst U + r * (fst W - fst U) - fst U)%R with (r * (fst W - fst U))%R by ring. nra. }
    assert (Tr : (0 <= t * r <= 1)%R) by nra.
    destruct (at_hits ed _ I Tr O Np) as (i & q & H). exists i, q, (t * r)%R. split; [exact H | nra].
  Qed.
  Lemma hit_after r : (0 <= r <= 1)%R -> inside b (snd ln) = false -> in_rect b (along U W r) ->
    exists i q t, hits i q t /\ (r <= t)%R.
  Proof.
    intros Hr Iw Ir. destruct (strict_R _ _ _ _ _ _ _ G Strict) as [S1 S2].
    destruct (enter_real b W (along U W r) S1 S2 (outside_rect _ (or_intror eq_refl) Iw) Ir) as (ed & t & I & T & O & A).
    assert (Ea : along W (along U W r) t = along U W (1 - t * (1 - r))) by (unfold along; cbn [fst snd]; f_equal; ring).
    rewrite Ea in O.
    assert (Np : ~ parallel ed ln).
    { intros K. apply A. unfold across, parallel, along in *. cbn [fst snd] in *.
      replace (snd U + r * (snd W - snd U) - snd W)%R with ((r - 1) * (snd W - snd U))%R by ring.
      replace (fst U + r * (fst W - fst U) - fst W)%R with ((r - 1) * (fst W - fst U))%R by ring. nra. }
    assert (Tr : (0 <= 1 - t * (1 - r) <= 1)%R) by nra.
    destruct (at_hits ed _ I Tr O Np) as (i & q & H). exists i, q, (1 - t * (1 - r))%R. split; [exact H | nra].
  Qed.

  (** No hit is a corner. *)
  Lemma no_corner q p t : hit b ln q p t -> (fst p = f64_R (e0 b) \/ fst p = f64_R (e2 b)) -> (snd p = f64_R (e1 b) \/ snd p = f64_R (e3 b)) -> False.
  Proof.
    intros H Ex Ey. destruct (h_wf _ _ _ _ _ H) as [W1 W2]. pose proof (h_q _ _ _ _ _ H) as R.
    assert (O : on_segment ln p) by (exists t; split; [apply H | apply H]).
    assert (M : forall i ed s, nth_error (sides b) i = Some ed -> (0 <= s <= 1)%R -> p = along (rpt (fst ed)) (rpt (snd ed)) s -> meets_side b ln i q).
    { intros i ed s Hi Hs Ep. split; [exact W1|]. split; [exact W2|]. exists ed, p. repeat split; try assumption; try apply R.
      exists s. auto. }
    assert (K : exists i j, i <> j /\ meets_side b ln i q /\ meets_side b ln j q).
    { destruct p as [px py]. cbn [fst snd] in *. destruct Ex as [-> | ->], Ey as [-> | ->].
      - exists 0%nat, 3%nat. split; [discriminate|]. split.
        + apply (M 0%nat _ 0%R eq_refl); [lra|]. unfold along, rpt. cbn [fst snd]. f_equal; ring.
        + apply (M 3%nat _ 1%R eq_refl); [lra|]. unfold along, rpt. cbn [fst snd]. f_equal; ring.
      - exists 2%nat, 3%nat. split; [discriminate|]. split.
        + apply (M 2%nat _ 1%R eq_refl); [lra|]. unfold along, rpt. cbn [fst snd]. f_equal; ring.
        + apply (M 3%nat _ 0%R eq_refl); [lra|]. unfold along, rpt. cbn [fst snd]. f_equal; ring.
      - exists 0%nat, 1%nat. split; [discriminate|]. split.
        + apply (M 0%nat _ 1%R eq_refl); [lra|]. unfold along, rpt. cbn [fst snd]. f_equal; ring.
        + apply (M 1%nat _ 0%R eq_refl); [lra|]. unfold along, rpt. cbn [fst snd]. f_equal; ring.
      - exists 1%nat, 2%nat. split; [discriminate|]. split.
        + apply (M 1%nat _ 1%R eq_refl); [lra|]. unfold along, rpt. cbn [fst snd]. f_equal; ring.
        + apply (M 2%nat _ 0%R eq_refl); [lra|]. unfold along, rpt. cbn [fst snd]. f_equal; ring. }
    destruct K as (i & j & Nij & A & B). specialize (Ap i j q q Nij A B). rewrite point_equal_refl in Ap; [discriminate | exact Pc].
  Qed.

  (** A hit between two outside ends is not the only point in the box. *)
  Lemma not_alone q t : inside b (fst ln) = false -> inside b (snd ln) = false -> hit b ln q (along U W t) t ->
    exists r, (0 <= r <= 1)%R /\ r <> t /\ in_rect b (along U W r).
  Proof.
    intros Iu Iw H. destruct (strict_R _ _ _ _ _ _ _ G Strict) as [S1 S2].
    pose proof (outside_rect _ (or_introl eq_refl) Iu) as Ou. pose proof (outside_rect _ (or_intror eq_refl) Iw) as Ow.
    pose proof (h_in _ _ _ _ _ H) as Hin. pose proof (h_t _ _ _ _ _ H) as T. pose proof (no_corner _ _ _ H) as Nc.
    assert (T0 : t <> 0%R). { intros ->. rewrite along_0 in Hin. exact (Ou Hin). }
    assert (T1 : t <> 1%R). { intros ->. rewrite along_1 in Hin. exact (Ow Hin). }
    assert (T2 : (0 < t < 1)%R) by (split; lra).
    pose proof (h_edge _ _ _ _ _ H) as Ed. clear H Ou Ow. unfold real_in, in_rect in *. destruct Hin as [X Y].
    unfold along in *. cbn [fst snd] in *. change (f64_R (fst (fst ln))) with (fst U) in Ed. change (f64_R (snd (fst ln))) with (snd U) in Ed.
    change (f64_R (fst (snd ln))) with (fst W) in Ed. change (f64_R (snd (snd ln))) with (snd W) in Ed.
    destruct Ed as [[Ed Nx]|[Ed Nx]].
    - destruct (inward (fst U + t * (fst W - fst U)) (snd U + t * (snd W - snd U)) (fst W - fst U) (snd W - snd U)
        (f64_R (e0 b)) (f64_R (e2 b)) (f64_R (e1 b)) (f64_R (e3 b)) t) as (h & Hn & H1 & H2 & H3); [intros K; apply Nx; lra | assumption | assumption | | assumption |].
      { destruct (Req_dec (snd U + t * (snd W - snd U)) (f64_R (e1 b))) as [K|K]; [exfalso; apply Nc; auto|].
        destruct (Req_dec (snd U + t * (snd W - snd U)) (f64_R (e3 b))) as [K'|K']; [exfalso; apply Nc; auto|]. lra. }
      exists (t + h)%R. split; [exact H1|]. split; [lra|]. split; lra.
    - destruct (inward (snd U + t * (snd W - snd U)) (fst U + t * (fst W - fst U)) (snd W - snd U) (fst W - fst U)
        (f64_R (e1 b)) (f64_R (e3 b)) (f64_R (e0 b)) (f64_R (e2 b)) t) as (h & Hn & H1 & H2 & H3); [intros K; apply Nx; lra | assumption | assumption | | assumption |].
      { destruct (Req_dec (fst U + t * (fst W - fst U)) (f64_R (e0 b))) as [K|K]; [exfalso; apply Nc; auto|].
        destruct (Req_dec (fst U + t * (fst W - fst U)) (f64_R (e2 b))) as [K'|K']; [exfalso; apply Nc; auto|]. lra. }
      exists (t + h)%R. split; [exact H1|]. split; [lra|]. split; lra.
  Qed.

  Lemma hits_hit i q t : hits i q t -> hit b ln q (along U W t) t.
  Proof. now intros (? & _ & _ & ? & _). Qed.
  Lemma hit_rect q t : hit b ln q (along U W t) t -> in_rect b (along U W t).
  Proof. intros H. exact (h_in _ _ _ _ _ H). Qed.

  Lemma contribution_clipped : clipped c b ln (contribution c (Some b) ln).
  Proof.
    destruct (ln_words _ _ _ _ _ _ _ G (fst ln) (or_introl eq_refl)) as [Wu1 Wu2].
    destruct (ln_words _ _ _ _ _ _ _ G (snd ln) (or_intror eq_refl)) as [Ww1 Ww2].
    assert (Ru : rounded (fst ln) (along U W 0)) by (rewrite along_0; now apply rounded_self).
    assert (Rw : rounded (snd ln) (along U W 1)) by (rewrite along_1; now apply rounded_self).
    destruct unique_found as [Eu Ul]. unfold contribution. rewrite !contains_inside, Eu.
    pose proof found_hits as Fh. set (us := found (sides b) ln) in *. clearbody us.
    pose proof (inside_rect (fst ln) (or_introl eq_refl)) as InU. pose proof (inside_rect (snd ln) (or_intror eq_refl)) as InW.
    rewrite <- (along_0 U W) in InU. rewrite <- (along_1 U W) in InW.
    unfold clipped.
    destruct (inside b (fst ln)) eqn:Iu, (inside b (snd ln)) eqn:Iw.
    - specialize (InU eq_refl). specialize (InW eq_refl). right. exists (fst ln), (snd ln), 0%R, 1%R.
      repeat (split; [solve [lra | assumption]|]). split; [|left; now rewrite <- surjective_pairing].
      intros r Hr. split; [auto | intros _; now apply (in_rect_convex b U W 0 1)].
    - (* leaving *)
      specialize (InU eq_refl). right.
      destruct (hit_after 0 ltac:(lra) Iw InU) as (i0 & q0 & t0 & H0 & _).
      assert (Iq0 : In q0 us) by (apply Fh; eauto).
      (* the last hit *)
      assert (L : exists i a ta, hits i a ta /\ (forall j q t, hits j q t -> (t <= ta)%R) /\
        (filter (fun x => negb (point_equal c x (fst ln))) us = if point_equal c a (fst ln) then [] else [a])).
      { destruct us as [|a [|d [|? ?]]]; [destruct Iq0 | | | exfalso; clear -Ul; cbn in Ul; lia].
        - destruct (proj1 (Fh a) (or_introl eq_refl)) as (i & ta & Ha). exists i, a, ta. split; [exact Ha|]. split.
          + intros j q t Hq. assert (Iq : In q [a]) by (apply Fh; eauto). destruct Iq as [->|[]]. rewrite (hits_same _ _ _ _ _ Ha Hq). lra.
          + cbn. destruct (point_equal c a (fst ln)); reflexivity.
        - destruct (proj1 (Fh a) (or_introl eq_refl)) as (i & ta & Ha). destruct (proj1 (Fh d) (or_intror (or_introl eq_refl))) as (j & td & Hd).
          assert (Al : forall j q t, hits j q t -> t = ta \/ t = td).
          { intros k q t Hq. assert (Iq : In q [a; d]) by (apply Fh; eauto). destruct Iq as [->|[->|[]]].
            - left. exact (hits_same _ _ _ _ _ Hq Ha).
            - right. exact (hits_same _ _ _ _ _ Hq Hd). }
          assert (Z0 : forall q t q' t', hit b ln q (along U W t) t -> hit b ln q' (along U W t') t' -> (t < t')%R -> point_equal c q (fst ln) = true).
          { intros q t q' t' Hq Hq' Lt. destruct (point_equal c q (fst ln)) eqn:Ep; [reflexivity|]. exfalso.
            pose proof (hit_start c Pc _ _ _ _ _ _ _ G _ _ _ Hq Ep) as Tp. rewrite along_0 in InU.
            exact (exit_once _ _ _ _ _ _ _ _ InU Hq Hq' Tp Lt). }
          destruct (Rtotal_order ta td) as [Lt|[Lt|Lt]].
          + exists j, d, td. split; [exact Hd|]. split; [intros k q t Hq; destruct (Al _ _ _ Hq); lra|].
            cbn. rewrite (Z0 _ _ _ _ (hits_hit _ _ _ Ha) (hits_hit _ _ _ Hd) Lt). cbn. destruct (point_equal c d (fst ln)); reflexivity.
          + exists i, a, ta. split; [exact Ha|]. split; [intros k q t Hq; destruct (Al _ _ _ Hq); lra|].
            exfalso. destruct (Nat.eq_dec i j) as [->|Nij].
            * destruct (hits_unique _ _ _ _ _ Ha Hd) as [-> _]. revert Eu. unfold unique_points. rewrite Nu. intros Eu.
              pose proof (proj2 (points_two c (edges (Some b) None) ln [] (le_S _ _ (le_n 0))) _ _ Eu) as K. rewrite point_equal_refl in K; [discriminate | exact Pc].
            * exact (proj2 (hits_differ _ _ _ _ _ _ Nij Ha Hd) Lt).
          + exists i, a, ta. split; [exact Ha|]. split; [intros k q t Hq; destruct (Al _ _ _ Hq); lra|].
            cbn. rewrite (Z0 _ _ _ _ (hits_hit _ _ _ Hd) (hits_hit _ _ _ Ha) Lt). cbn. destruct (point_equal c a (fst ln)); reflexivity. }
      destruct L as (i & a & ta & Ha & Mx & Ef). apply hits_hit in Ha. pose proof (h_t _ _ _ _ _ Ha) as Ta.
      exists (fst ln), a, 0%R, ta. repeat (split; [solve [lra | assumption | apply Ha]|]). split.
      + intros r Hr. split.
        * intros Ir. split; [lra|]. destruct (hit_after r Hr Iw Ir) as (j & q & t & Hq & Lt). specialize (Mx _ _ _ Hq). lra.
        * intros K. apply (in_rect_convex b U W 0 ta); auto. exact (hit_rect _ _ Ha).
      + rewrite Ef. destruct (point_equal c a (fst ln)) eqn:Ep; [right; auto | left; reflexivity].
    - (* entering *)
      specialize (InW eq_refl). right.
      destruct (hit_before 1 ltac:(lra) Iu InW) as (i0 & q0 & t0 & H0 & _).
      assert (Iq0 : In q0 us) by (apply Fh; eauto).
      assert (L : exists i a ta, hits i a ta /\ (forall j q t, hits j q t -> (ta <= t)%R) /\
        (match us with [] => [] | [a] => [(a, snd ln)] | a :: b0 :: _ => [(if same_direction ln a b0 then a else b0, snd ln)] end) = [(a, snd ln)]).
      { destruct us as [|a [|d [|? ?]]]; [destruct Iq0 | | | exfalso; clear -Ul; cbn in Ul; lia].
        - destruct (proj1 (Fh a) (or_introl eq_refl)) as (i & ta & Ha). exists i, a, ta. split; [exact Ha|]. split; [|reflexivity].
          intros j q t Hq. assert (Iq : In q [a]) by (apply Fh; eauto). destruct Iq as [->|[]]. rewrite (hits_same _ _ _ _ _ Ha Hq). lra.
        - destruct (proj1 (Fh a) (or_introl eq_refl)) as (i & ta & Ha). destruct (proj1 (Fh d) (or_intror (or_introl eq_refl))) as (j & td & Hd).
          assert (Al : forall j q t, hits j q t -> t = ta \/ t = td).
          { intros k q t Hq. assert (Iq : In q [a; d]) by (apply Fh; eauto). destruct Iq as [->|[->|[]]].
            - left. exact (hits_same _ _ _ _ _ Hq Ha).
            - right. exact (hits_same _ _ _ _ _ Hq Hd). }
          assert (Nt : ta <> td).
          { pose proof Eu as Eu'. unfold unique_points in Eu'. rewrite Nu in Eu'.
            pose proof (proj2 (points_two c (edges (Some b) None) ln [] (le_S _ _ (le_n 0))) _ _ Eu') as K.
            exact (hits_apart c Pc _ _ _ _ _ _ _ _ (hits_hit _ _ _ Ha) (hits_hit _ _ _ Hd) K). }
          pose proof (direction_ok _ _ _ _ _ _ _ G _ _ _ _ _ _ (hits_hit _ _ _ Ha) (hits_hit _ _ _ Hd) Nt) as D.
          destruct (same_direction ln a d).
          + exists i, a, ta. split; [exact Ha|]. split; [intros k q t Hq; destruct (Al _ _ _ Hq); lra | reflexivity].
          + exists j, d, td. split; [exact Hd|]. split; [intros k q t Hq; destruct (Al _ _ _ Hq); lra | reflexivity]. }
      destruct L as (i & a & ta & Ha & Mn & Ef). apply hits_hit in Ha. pose proof (h_t _ _ _ _ _ Ha) as Ta.
      exists a, (snd ln), ta, 1%R. repeat (split; [solve [lra | assumption | apply Ha]|]). split; [|left; exact Ef].
      intros r Hr. split.
      + intros Ir. split; [|lra]. destruct (hit_before r Hr Iu Ir) as (j & q & t & Hq & Lt). specialize (Mn _ _ _ Hq). lra.
      + intros K. apply (in_rect_convex b U W ta 1); auto. exact (hit_rect _ _ Ha).
    - (* passing *)
      destruct us as [|a [|d [|? ?]]]; [| | | exfalso; clear -Ul; cbn in Ul; lia].
      + left. split; [reflexivity|]. intros r Hr Ir. destruct (hit_before r Hr Iu Ir) as (i & q & t & Hq & _).
        exact (proj2 (Fh q) (ex_intro _ i (ex_intro _ t Hq))).
      + left. split; [reflexivity|]. destruct (proj1 (Fh a) (or_introl eq_refl)) as (i & ta & Ha).
        assert (Al : forall j q t, hits j q t -> t = ta).
        { intros k q t Hq. assert (Iq : In q [a]) by (apply Fh; eauto). destruct Iq as [->|[]]. exact (hits_same _ _ _ _ _ Hq Ha). }
        assert (K : forall r, (0 <= r <= 1)%R -> in_rect b (along U W r) -> r = ta).
        { intros r Hr Ir. destruct (hit_before r Hr Iu Ir) as (j & q & t & Hq & L1). destruct (hit_after r Hr Iw Ir) as (k & q' & t' & Hq' & L2).
          rewrite (Al _ _ _ Hq) in L1. rewrite (Al _ _ _ Hq') in L2. lra. }
        intros r Hr Ir. destruct (not_alone a ta Iu Iw (hits_hit _ _ _ Ha)) as (r' & Hr' & N & Ir'). exact (N (K r' Hr' Ir')).
      + right. destruct (proj1 (Fh a) (or_introl eq_refl)) as (i & ta & Ha). destruct (proj1 (Fh d) (or_intror (or_introl eq_refl))) as (j & td & Hd).
        assert (Al : forall j q t, hits j q t -> t = ta \/ t = td).
        { intros k q t Hq. assert (Iq : In q [a; d]) by (apply Fh; eauto). destruct Iq as [->|[->|[]]].
          - left. exact (hits_same _ _ _ _ _ Hq Ha).
          - right. exact (hits_same _ _ _ _ _ Hq Hd). }
        assert (Nt : ta <> td).
        { pose proof Eu as Eu'. unfold unique_points in Eu'. rewrite Nu in Eu'.
          pose proof (proj2 (points_two c (edges (Some b) None) ln [] (le_S _ _ (le_n 0))) _ _ Eu') as K.
          exact (hits_apart c Pc _ _ _ _ _ _ _ _ (hits_hit _ _ _ Ha) (hits_hit _ _ _ Hd) K). }
        apply hits_hit in Ha, Hd.
        pose proof (direction_ok _ _ _ _ _ _ _ G _ _ _ _ _ _ Ha Hd Nt) as D.
        pose proof (h_t _ _ _ _ _ Ha) as Ta. pose proof (h_t _ _ _ _ _ Hd) as Td.
        assert (Rg : forall r, (0 <= r <= 1)%R -> in_rect b (along U W r) -> (Rmin ta td <= r <= Rmax ta td)%R).
        { intros r Hr Ir. destruct (hit_before r Hr Iu Ir) as (k & q & t & Hq & L1). destruct (hit_after r Hr Iw Ir) as (k' & q' & t' & Hq' & L2).
          pose proof (Rmin_l ta td). pose proof (Rmin_r ta td). pose proof (Rmax_l ta td). pose proof (Rmax_r ta td).
          destruct (Al _ _ _ Hq), (Al _ _ _ Hq'); lra. }
        destruct (same_direction ln a d).
        * exists a, d, ta, td. repeat (split; [solve [lra | assumption | apply Ha | apply Hd]|]). split; [|now left].
          intros r Hr. split; [intros Ir; specialize (Rg r Hr Ir); rewrite Rmin_left, Rmax_right in Rg by lra; exact Rg|].
          intros K. apply (in_rect_convex b U W ta td); auto; eapply hit_rect; eassumption.
        * exists d, a, td, ta. repeat (split; [solve [lra | assumption | apply Ha | apply Hd]|]). split; [|now left].
          intros r Hr. split; [intros Ir; specialize (Rg r Hr Ir); rewrite Rmin_right, Rmax_left in Rg by lra; exact Rg|].
          intros K. apply (in_rect_convex b U W td ta); auto; eapply hit_rect; eassumption.
  Qed.
End Apart.

Theorem clip_apart c ctx n b ls out n' : positive c -> is_universe (Some b) = false -> clip_grid b ls ->
  f64_lt (e0 b) (e2 b) = true -> f64_lt (e1 b) (e3 b) = true ->
  (forall ln, In ln (segments ls) -> apart c b ln) ->
  clip_line c ctx n (Some b) ls = (Ok out, n') ->
  exists parts, flat_map segments out = concat parts /\ Forall2 (clipped c b) (segments ls) parts.
Proof.
  intros Pc Nu Hg S1 S2 Ap E. apply clip_line_loop in E; [|exact Nu]. exists (map (contribution c (Some b)) (segments ls)).
  split; [rewrite E; apply flat_map_concat_map|]. clear E. pose proof (clip_grid_segment b ls Hg) as K.
  induction (segments ls) as [|ln l IH]; constructor.
  - destruct (K ln (or_introl eq_refl)) as (e & lo & hi & nu & nw & G).
    exact (contribution_clipped c Pc _ _ _ _ _ _ _ G (conj S1 S2) Nu (Ap ln (or_introl eq_refl))).
  - apply IH; intros ln' I; [apply Ap | apply K]; now right.
Qed.
