(** Proofs about clipping: geometry on small grids *)
From Coq Require Import ZArith Bool List Lia Reals Lra.
From Flocq Require Import Core.Core.
From Verif Require Import Base_Res Base_F64 Base_F64Arith Base_Geom M_Geom M_Extent M_Cmp M_Intersect M_Clip S_Intersect S_Winding S_Cmp S_Clip
  P_F64 P_F64Flocq P_F64Round P_F64Grid P_Intersect P_Intersect2 P_Intersect3 P_Cmp2 P_Clip.
Import ListNotations.
Open Scope Z_scope.

(** ** Different fractions with small denominators round to different numbers *)
Local Instance prec53 : Prec_gt_0 53 := eq_refl.
Lemma rnd_error r k : -900 <= k <= 1000 -> (Rabs r <= bpow radix2 k)%R -> (Rabs (rnd r - r) <= bpow radix2 (k - 53))%R.
Proof.
  intros Hk Hr. unfold rnd. change (SpecFloat.fexp 53 1024) with (FLT_exp (-1074) 53).
  eapply Rle_trans; [apply error_le_half_ulp; typeclasses eauto|].
  apply Rle_trans with (/ 2 * ulp radix2 (FLT_exp (-1074) 53) (bpow radix2 k))%R.
  - apply Rmult_le_compat_l; [lra|]. apply ulp_le; try typeclasses eauto.
    rewrite (Rabs_pos_eq (bpow radix2 k)) by apply bpow_ge_0. exact Hr.
  - rewrite ulp_bpow. unfold FLT_exp. rewrite Z.max_l by lia.
    replace (k + 1 - 53) with (1 + (k - 53)) by lia. rewrite bpow_plus. change (bpow radix2 1) with 2%R. lra.
Qed.

Lemma fractions_apart e n0 d0 n1 d1 : d0 <> 0 -> d1 <> 0 -> Z.abs d0 <= 2 ^ 17 -> Z.abs d1 <= 2 ^ 17 ->
  let r0 := (IZR n0 / IZR d0 * bpow radix2 e)%R in let r1 := (IZR n1 / IZR d1 * bpow radix2 e)%R in
  (r0 < r1)%R -> (bpow radix2 (e - 34) <= r1 - r0)%R.
Proof.
  intros N0 N1 B0 B1 r0 r1 L. unfold r0, r1 in *. clear r0 r1.
  pose proof (bpow_gt_0 radix2 e) as P.
  assert (Q0 : IZR d0 <> 0%R) by now apply IZR_neq. assert (Q1 : IZR d1 <> 0%R) by now apply IZR_neq.
  replace (IZR n1 / IZR d1 * bpow radix2 e - IZR n0 / IZR d0 * bpow radix2 e)%R
    with ((IZR n1 / IZR d1 - IZR n0 / IZR d0) * bpow radix2 e)%R by ring.
  assert (L' : (0 < IZR n1 / IZR d1 - IZR n0 / IZR d0)%R) by nra.
  unfold Z.sub. rewrite bpow_plus, Rmult_comm. apply Rmult_le_compat_r; [lra|].
  set (D := IZR (Z.abs d0 * Z.abs d1)).
  assert (D1 : (1 <= D <= IZR (2 ^ 34))%R).
  { unfold D. split; apply IZR_le; [nia|]. pose proof (abs_mul_bound d0 d1 _ _ B0 B1) as K. rewrite Z.abs_mul in K. exact K. }
  assert (E : exists m, ((IZR n1 / IZR d1 - IZR n0 / IZR d0) * D = IZR m)%R).
  { exists ((n1 * d0 - n0 * d1) * Z.sgn d0 * Z.sgn d1)%Z. unfold D.
    rewrite <- (Z.sgn_abs d0), <- (Z.sgn_abs d1). rewrite !mult_IZR, minus_IZR, !mult_IZR. field. auto. }
  destruct E as (m & E).
  assert (M : (1 <= IZR m)%R).
  { apply IZR_le. assert (0 < IZR m)%R by (rewrite <- E; apply Rmult_lt_0_compat; lra). apply lt_IZR in H. lia. }
  rewrite <- E in M. change (bpow radix2 (- (34))) with (/ IZR (2 ^ 34))%R.
  apply Rmult_le_reg_r with (IZR (2 ^ 34)); [apply IZR_lt; lia|]. rewrite Rinv_l by (apply IZR_neq; lia).
  nra.
Qed.

Lemma fractions_order e n0 d0 n1 d1 : -350 <= e <= 320 -> d0 <> 0 -> d1 <> 0 -> Z.abs d0 <= 2 ^ 17 -> Z.abs d1 <= 2 ^ 17 ->
  let r0 := (IZR n0 / IZR d0 * bpow radix2 e)%R in let r1 := (IZR n1 / IZR d1 * bpow radix2 e)%R in
  (Rabs r0 <= bpow radix2 (e + 16))%R -> (Rabs r1 <= bpow radix2 (e + 16))%R ->
  (r0 < r1)%R -> (rnd r0 < rnd r1)%R.
Proof.
  intros He N0 N1 B0 B1 r0 r1 R0 R1 L.
  pose proof (fractions_apart e n0 d0 n1 d1 N0 N1 B0 B1 L) as A. fold r0 r1 in A.
  pose proof (rnd_error r0 (e + 16) ltac:(lia) R0) as E0. pose proof (rnd_error r1 (e + 16) ltac:(lia) R1) as E1.
  apply Rabs_le_inv in E0, E1.
  replace (e + 16 - 53) with (e - 34 + (-3)) in * by lia. rewrite bpow_plus in E0, E1.
  change (bpow radix2 (-3)) with (/ 8)%R in *.
  pose proof (bpow_gt_0 radix2 (e - 34)). lra.
Qed.

Definition b16 (p : Z * Z) : Prop := Z.abs (fst p) <= 2 ^ 16 /\ Z.abs (snd p) <= 2 ^ 16.
Definition at_grid (e : Z) (n : Z * Z) (p : point f64) : Prop := repr e (fst n) (fst p) /\ repr e (snd n) (snd p).

(** A segment and a box on a grid. *)
Record on_clip_grid (e : Z) (lo hi nu nw : Z * Z) (b : extent) (ln : line) : Prop := {
  g_e : -350 <= e <= 320;
  g_lo : at_grid e lo (e0 b, e1 b);
  g_hi : at_grid e hi (e2 b, e3 b);
  g_u : at_grid e nu (fst ln);
  g_w : at_grid e nw (snd ln);
  g_ord : fst lo <= fst hi /\ snd lo <= snd hi;
  g_b1 : b16 lo; g_b2 : b16 hi; g_b3 : b16 nu; g_b4 : b16 nw
}.

(** The box in the plane. *)
Definition real_in (b : extent) (p : R * R) : Prop :=
  (f64_R (e0 b) <= fst p <= f64_R (e2 b))%R /\ (f64_R (e1 b) <= snd p <= f64_R (e3 b))%R.

Lemma repr_words e n w : repr e n w -> f64_wf w = true /\ f64_finite w = true.
Proof. now intros (? & ? & _). Qed.
Lemma repr_val e n w : repr e n w -> f64_R w = (IZR n * bpow radix2 e)%R.
Proof. now intros (_ & _ & ?). Qed.

(** [q] is where the segment meets an edge of the box: [p], at the fraction [t]. *)
Record hit (b : extent) (ln : line) (q : point f64) (p : R * R) (t : R) : Prop := {
  h_wf : f64_wf (fst q) = true /\ f64_wf (snd q) = true;
  h_t : (0 <= t <= 1)%R;
  h_p : p = along (rpt (fst ln)) (rpt (snd ln)) t;
  h_in : real_in b p;
  h_q : rounded q p;
  h_edge : ((fst p = f64_R (e0 b) \/ fst p = f64_R (e2 b)) /\ f64_R (fst (fst ln)) <> f64_R (fst (snd ln))) \/
           ((snd p = f64_R (e1 b) \/ snd p = f64_R (e3 b)) /\ f64_R (snd (fst ln)) <> f64_R (snd (snd ln)))
}.

Lemma between_conv (a b t : R) : (a <= b -> 0 <= t <= 1 -> a <= a + t * (b - a) <= b)%R.
Proof. intros. nra. Qed.
Lemma between_conv' (a b t : R) : (b <= a -> 0 <= t <= 1 -> b <= a + t * (b - a) <= a)%R.
Proof. intros. nra. Qed.

Section Grid.
  Variables (e : Z) (lo hi nu nw : Z * Z) (b : extent) (ln : line).
  Hypothesis G : on_clip_grid e lo hi nu nw b ln.

  Lemma box_ord : (f64_R (e0 b) <= f64_R (e2 b))%R /\ (f64_R (e1 b) <= f64_R (e3 b))%R.
  Proof.
    destruct (g_lo _ _ _ _ _ _ _ G) as [A B], (g_hi _ _ _ _ _ _ _ G) as [C D], (g_ord _ _ _ _ _ _ _ G) as [O1 O2]. cbn [fst snd] in *.
    rewrite (repr_val _ _ _ A), (repr_val _ _ _ B), (repr_val _ _ _ C), (repr_val _ _ _ D).
    pose proof (bpow_gt_0 radix2 e). split; apply Rmult_le_compat_r; try lra; now apply IZR_le.
  Qed.
  Lemma box_words : (f64_wf (e0 b) = true /\ f64_finite (e0 b) = true) /\ (f64_wf (e1 b) = true /\ f64_finite (e1 b) = true) /\
    (f64_wf (e2 b) = true /\ f64_finite (e2 b) = true) /\ (f64_wf (e3 b) = true /\ f64_finite (e3 b) = true).
  Proof.
    destruct (g_lo _ _ _ _ _ _ _ G) as [A B], (g_hi _ _ _ _ _ _ _ G) as [C D]. cbn [fst snd] in *.
    repeat split; (apply (repr_words _ _ _ A) || apply (repr_words _ _ _ B) || apply (repr_words _ _ _ C) || apply (repr_words _ _ _ D)).
  Qed.
  Lemma ln_words : forall p, p = fst ln \/ p = snd ln ->
    (f64_wf (fst p) = true /\ f64_finite (fst p) = true) /\ (f64_wf (snd p) = true /\ f64_finite (snd p) = true).
  Proof.
    destruct (g_u _ _ _ _ _ _ _ G) as [A B], (g_w _ _ _ _ _ _ _ G) as [C D]. cbn [fst snd] in *.
    intros p [-> | ->]; split; (apply (repr_words _ _ _ A) || apply (repr_words _ _ _ B) || apply (repr_words _ _ _ C) || apply (repr_words _ _ _ D)).
  Qed.

  Lemma inside_real p : (f64_wf (fst p) = true /\ f64_finite (fst p) = true) -> (f64_wf (snd p) = true /\ f64_finite (snd p) = true) ->
    inside b p = true <-> real_in b (rpt p).
  Proof.
    intros [? ?] [? ?]. destruct box_words as ([? ?] & [? ?] & [? ?] & [? ?]).
    unfold inside, real_in, rpt. cbn [fst snd]. rewrite !andb_true_iff, !le_R by assumption. tauto.
  Qed.

  Lemma edge_small ed : In ed (edges (Some b) None) -> small_grid ed ln.
  Proof.
    destruct (g_lo _ _ _ _ _ _ _ G) as [A B], (g_hi _ _ _ _ _ _ _ G) as [C D]. cbn [fst snd] in *.
    pose proof (g_u _ _ _ _ _ _ _ G) as U. pose proof (g_w _ _ _ _ _ _ _ G) as W.
    pose proof (g_b1 _ _ _ _ _ _ _ G) as B1. pose proof (g_b2 _ _ _ _ _ _ _ G) as B2.
    pose proof (g_b3 _ _ _ _ _ _ _ G) as B3. pose proof (g_b4 _ _ _ _ _ _ _ G) as B4.
    assert (K : forall n1 p1 n2 p2, at_grid e n1 p1 -> at_grid e n2 p2 -> b16 n1 -> b16 n2 -> small_grid (p1, p2) ln).
    { intros n1 p1 n2 p2 H1 H2 H3 H4. exists e, [n1; n2; nu; nw]. split; [apply (g_e _ _ _ _ _ _ _ G)|].
      split; [repeat (constructor; [assumption|]); constructor|].
      cbn [In]. intros p [<-|[<-|[<-|[<-|[]]]]]; assumption. }
    unfold b16 in *.
    cbn [edges vertices minX minY maxX maxY In]. intros [<-|[<-|[<-|[<-|[]]]]].
    - apply (K lo _ (fst hi, snd lo)); try (split; assumption); unfold b16; cbn; tauto.
    - apply (K (fst hi, snd lo) _ hi); try (split; assumption); unfold b16; cbn; tauto.
    - apply (K hi _ (fst lo, snd hi)); try (split; assumption); unfold b16; cbn; tauto.
    - apply (K (fst lo, snd hi) _ lo); try (split; assumption); unfold b16; cbn; tauto.
  Qed.

  Lemma edge_point ed p : In ed (edges (Some b) None) -> on_segment ed p -> ~ parallel ed ln ->
    real_in b p /\
    (((fst p = f64_R (e0 b) \/ fst p = f64_R (e2 b)) /\ f64_R (fst (fst ln)) <> f64_R (fst (snd ln))) \/
     ((snd p = f64_R (e1 b) \/ snd p = f64_R (e3 b)) /\ f64_R (snd (fst ln)) <> f64_R (snd (snd ln)))).
  Proof.
    destruct box_ord as [O1 O2]. intros I (t & T & ->) Np. unfold parallel, real_in, along, rpt in *.
    revert I Np. cbn [edges vertices minX minY maxX maxY In]. intros [<-|[<-|[<-|[<-|[]]]]]; cbn [fst snd]; intros Np.
    - split; [split; [now apply between_conv | nra]|]. right. split; [left; ring|]. intros E. apply Np. rewrite E. ring.
    - split; [split; [nra | now apply between_conv]|]. left. split; [right; ring|]. intros E. apply Np. rewrite E. ring.
    - split; [split; [now apply between_conv' | nra]|]. right. split; [right; ring|]. intros E. apply Np. rewrite E. ring.
    - split; [split; [nra | now apply between_conv']|]. left. split; [left; ring|]. intros E. apply Np. rewrite E. ring.
  Qed.

  Lemma hit_ok ed q : In ed (edges (Some b) None) -> segment_intersect ed ln = (q, true) -> exists p t, hit b ln q p t.
  Proof.
    intros I E. pose proof (edge_small ed I) as Hs.
    destruct (segment_point ed ln q Hs E) as ((p & P1 & P2 & R) & _).
    assert (O : snd (segment_intersect ed ln) = true) by now rewrite E.
    pose proof (segment_line _ _ O) as Sl. rewrite E in Sl. cbn [fst] in Sl.
    apply (segment_exact ed ln (small_near _ _ Hs)) in O as (Np & _).
    destruct (edge_point ed p I P1 Np) as [Hin He]. destruct P2 as (t & T & Et).
    exists p, t. constructor; auto. rewrite (line_res _ _ _ Sl). apply crossing_wf.
  Qed.

  Lemma hit_inside q p t : hit b ln q p t -> inside b q = true.
  Proof.
    intros H. destruct (h_wf _ _ _ _ _ H) as [W1 W2], (h_q _ _ _ _ _ H) as (F1 & F2 & R1 & R2).
    apply inside_real; auto. destruct (h_in _ _ _ _ _ H) as [[A B] [C D]].
    destruct box_words as ([? ?] & [? ?] & [? ?] & [? ?]).
    apply rnd_le in A, B, C, D. rewrite rnd_id in A, B, C, D by assumption. rewrite <- R1 in A, B. rewrite <- R2 in C, D.
    repeat split; assumption.
  Qed.

  (** Two hits after leaving: one would be outside. *)
  Lemma exit_once q0 p0 t0 q1 p1 t1 : real_in b (rpt (fst ln)) -> hit b ln q0 p0 t0 -> hit b ln q1 p1 t1 ->
    (0 < t0)%R -> (t0 < t1)%R -> False.
  Proof.
    intros U H0 H1 T0 T1. pose proof (h_in _ _ _ _ _ H1) as I1. pose proof (h_p _ _ _ _ _ H1) as E1.
    pose proof (h_p _ _ _ _ _ H0) as E0. pose proof (h_edge _ _ _ _ _ H0) as Ed.
    unfold real_in, along, rpt in *. subst p0 p1. cbn [fst snd] in *.
    set (ux := f64_R (fst (fst ln))) in *. set (uy := f64_R (snd (fst ln))) in *.
    set (wx := f64_R (fst (snd ln))) in *. set (wy := f64_R (snd (snd ln))) in *.
    destruct Ed as [[Ed Nx]|[Ed Nx]].
    - assert (P : (0 < wx - ux \/ wx - ux < 0)%R) by lra. destruct P as [P|P].
      + assert (t0 * (wx - ux) < t1 * (wx - ux))%R by (apply Rmult_lt_compat_r; lra).
        assert (0 < t0 * (wx - ux))%R by (apply Rmult_lt_0_compat; lra). lra.
      + assert (t1 * (wx - ux) < t0 * (wx - ux))%R by nra.
        assert (t0 * (wx - ux) < 0)%R by nra. lra.
    - assert (P : (0 < wy - uy \/ wy - uy < 0)%R) by lra. destruct P as [P|P].
      + assert (t0 * (wy - uy) < t1 * (wy - uy))%R by (apply Rmult_lt_compat_r; lra).
        assert (0 < t0 * (wy - uy))%R by (apply Rmult_lt_0_compat; lra). lra.
      + assert (t1 * (wy - uy) < t0 * (wy - uy))%R by nra.
        assert (t0 * (wy - uy) < 0)%R by nra. lra.
  Qed.

  (** The coordinates of a hit are fractions with small denominators. *)
  Lemma hit_fraction q p t : hit b ln q p t ->
    (exists n d, d <> 0 /\ Z.abs d <= 2 ^ 17 /\ fst p = (IZR n / IZR d * bpow radix2 e)%R) /\
    (exists n d, d <> 0 /\ Z.abs d <= 2 ^ 17 /\ snd p = (IZR n / IZR d * bpow radix2 e)%R).
  Proof.
    intros H. pose proof (h_p _ _ _ _ _ H) as E. pose proof (h_edge _ _ _ _ _ H) as Ed.
    destruct (g_u _ _ _ _ _ _ _ G) as [U1 U2], (g_w _ _ _ _ _ _ _ G) as [W1 W2],
      (g_lo _ _ _ _ _ _ _ G) as [A1 A2], (g_hi _ _ _ _ _ _ _ G) as [C1 C2]. cbn [fst snd] in *.
    apply repr_val in U1, U2, W1, W2, A1, A2, C1, C2. rewrite U1, U2, W1, W2, A1, A2, C1, C2 in Ed.
    unfold along, rpt in E. cbn [fst snd] in E. rewrite U1, U2, W1, W2 in E.
    pose proof (bpow_gt_0 radix2 e) as P.
    pose proof (g_b3 _ _ _ _ _ _ _ G) as [B3 B3']. pose proof (g_b4 _ _ _ _ _ _ _ G) as [B4 B4'].
    clear U1 U2 W1 W2 A1 A2 C1 C2 H.
    assert (Nt : forall v n m, (v = IZR n + t * (IZR m - IZR n))%R -> (IZR m - IZR n <> 0)%R -> (t = (v - IZR n) / (IZR m - IZR n))%R).
    { intros v n m -> K. field. exact K. }
    destruct p as [px py]. cbn [fst snd] in *. injection E as Ex Ey.
    destruct Ed as [[Ed Nx]|[Ed Nx]].
    - assert (Q : exists c, px = (IZR c * bpow radix2 e)%R) by (destruct Ed as [-> | ->]; eexists; reflexivity).
      destruct Q as (c & Q). clear Ed.
      assert (Nz : (IZR (fst nw) - IZR (fst nu) <> 0)%R) by (intros K; apply Nx; replace (IZR (fst nw)) with (IZR (fst nu)) by lra; reflexivity).
      assert (Et : (t = (IZR c - IZR (fst nu)) / (IZR (fst nw) - IZR (fst nu)))%R).
      { apply Nt; [|exact Nz]. rewrite Q in Ex.
        apply Rmult_eq_reg_r with (bpow radix2 e); [|lra]. rewrite Ex. ring. }
      split.
      + exists c, 1. split; [lia|]. split; [lia|]. rewrite Q. field.
      + exists (snd nu * (fst nw - fst nu) + (c - fst nu) * (snd nw - snd nu)), (fst nw - fst nu).
        split; [intros K; apply Nz; rewrite <- minus_IZR, K; reflexivity|]. split; [lia|].
        rewrite Ey, Et. rewrite plus_IZR, !mult_IZR, !minus_IZR. field. exact Nz.
    - assert (Q : exists c, py = (IZR c * bpow radix2 e)%R) by (destruct Ed as [-> | ->]; eexists; reflexivity).
      destruct Q as (c & Q). clear Ed.
      assert (Nz : (IZR (snd nw) - IZR (snd nu) <> 0)%R) by (intros K; apply Nx; replace (IZR (snd nw)) with (IZR (snd nu)) by lra; reflexivity).
      assert (Et : (t = (IZR c - IZR (snd nu)) / (IZR (snd nw) - IZR (snd nu)))%R).
      { apply Nt; [|exact Nz]. rewrite Q in Ey.
        apply Rmult_eq_reg_r with (bpow radix2 e); [|lra]. rewrite Ey. ring. }
      split.
      + exists (fst nu * (snd nw - snd nu) + (c - snd nu) * (fst nw - fst nu)), (snd nw - snd nu).
        split; [intros K; apply Nz; rewrite <- minus_IZR, K; reflexivity|]. split; [lia|].
        rewrite Ex, Et. rewrite plus_IZR, !mult_IZR, !minus_IZR. field. exact Nz.
      + exists c, 1. split; [lia|]. split; [lia|]. rewrite Q. field.
  Qed.

  Lemma grid_abs n w : repr e n w -> Z.abs n <= 2 ^ 16 -> (Rabs (f64_R w) <= bpow radix2 (e + 16))%R.
  Proof.
    intros H B. rewrite (repr_val _ _ _ H), Rabs_mult, (Rabs_pos_eq (bpow radix2 e)) by apply bpow_ge_0.
    rewrite bpow_plus, Rmult_comm. apply Rmult_le_compat_l; [apply bpow_ge_0|]. rewrite <- abs_IZR.
    change (bpow radix2 16) with (IZR (2 ^ 16)). now apply IZR_le.
  Qed.
  Lemma in_abs a c m v : (Rabs a <= m -> Rabs c <= m -> a <= v <= c -> Rabs v <= m)%R.
  Proof. intros A C [H1 H2]. apply Rabs_le. apply Rabs_le_inv in A, C. lra. Qed.
  Lemma hit_abs q p t : hit b ln q p t -> (Rabs (fst p) <= bpow radix2 (e + 16))%R /\ (Rabs (snd p) <= bpow radix2 (e + 16))%R.
  Proof.
    intros H. destruct (h_in _ _ _ _ _ H) as [X Y].
    destruct (g_lo _ _ _ _ _ _ _ G) as [A1 A2], (g_hi _ _ _ _ _ _ _ G) as [C1 C2]. cbn [fst snd] in *.
    pose proof (g_b1 _ _ _ _ _ _ _ G) as [B1 B1']. pose proof (g_b2 _ _ _ _ _ _ _ G) as [B2 B2'].
    split; [apply (in_abs _ _ _ _ (grid_abs _ _ A1 B1) (grid_abs _ _ C1 B2) X) | apply (in_abs _ _ _ _ (grid_abs _ _ A2 B1') (grid_abs _ _ C2 B2') Y)].
  Qed.

  (** The order of two hits is the order of their rounded coordinates. *)
  Lemma hit_order q0 p0 t0 q1 p1 t1 : hit b ln q0 p0 t0 -> hit b ln q1 p1 t1 ->
    ((fst p0 < fst p1)%R -> (f64_R (fst q0) < f64_R (fst q1))%R) /\ ((snd p0 < snd p1)%R -> (f64_R (snd q0) < f64_R (snd q1))%R).
  Proof.
    intros H0 H1. destruct (h_q _ _ _ _ _ H0) as (_ & _ & R1 & R2), (h_q _ _ _ _ _ H1) as (_ & _ & R3 & R4).
    destruct (hit_fraction _ _ _ H0) as [(n0 & d0 & N0 & B0 & E0) (m0 & c0 & M0 & C0 & F0)].
    destruct (hit_fraction _ _ _ H1) as [(n1 & d1 & N1 & B1 & E1) (m1 & c1 & M1 & C1 & F1)].
    destruct (hit_abs _ _ _ H0) as [X0 Y0], (hit_abs _ _ _ H1) as [X1 Y1].
    rewrite R1, R2, R3, R4, E0, E1, F0, F1 in *. pose proof (g_e _ _ _ _ _ _ _ G).
    split; intros L; apply fractions_order; assumption.
  Qed.

  Lemma xy_less_R p q : (f64_wf (fst p) = true /\ f64_finite (fst p) = true) -> (f64_wf (snd p) = true /\ f64_finite (snd p) = true) ->
    (f64_wf (fst q) = true /\ f64_finite (fst q) = true) -> (f64_wf (snd q) = true /\ f64_finite (snd q) = true) ->
    xy_less p q = true <-> (f64_R (fst p) < f64_R (fst q) \/ f64_R (fst p) = f64_R (fst q) /\ f64_R (snd p) < f64_R (snd q))%R.
  Proof.
    intros [? ?] [? ?] [? ?] [? ?]. unfold xy_less, f64_ne. destruct (f64_eq (fst p) (fst q)) eqn:E; cbn [negb].
    - apply eq_R in E; auto. rewrite lt_R by assumption. split; [intros; right; auto|]. intros [K|[_ K]]; [lra | exact K].
    - assert (N : f64_R (fst p) <> f64_R (fst q)) by (intros K; apply eq_R in K; auto; congruence).
      rewrite lt_R by assumption. split; [intros; left; auto|]. intros [K|[K _]]; [exact K | lra].
  Qed.

  (** The hits are put in the direction of the segment. *)
  Lemma direction_ok q0 p0 t0 q1 p1 t1 : hit b ln q0 p0 t0 -> hit b ln q1 p1 t1 -> t0 <> t1 ->
    if same_direction ln q0 q1 then (t0 < t1)%R else (t1 < t0)%R.
  Proof.
    intros H0 H1 Nt. unfold same_direction.
    destruct (ln_words (fst ln) (or_introl eq_refl)) as [Wu1 Wu2], (ln_words (snd ln) (or_intror eq_refl)) as [Ww1 Ww2].
    destruct (h_wf _ _ _ _ _ H0) as [W1 W2], (h_wf _ _ _ _ _ H1) as [W3 W4].
    destruct (h_q _ _ _ _ _ H0) as (F1 & F2 & R1 & R2), (h_q _ _ _ _ _ H1) as (F3 & F4 & R3 & R4).
    pose proof (xy_less_R (fst ln) (snd ln) Wu1 Wu2 Ww1 Ww2) as X.
    pose proof (xy_less_R q0 q1 (conj W1 F1) (conj W2 F2) (conj W3 F3) (conj W4 F4)) as Y.
    destruct (hit_order _ _ _ _ _ _ H0 H1) as [O1 O2]. destruct (hit_order _ _ _ _ _ _ H1 H0) as [O3 O4].
    pose proof (h_p _ _ _ _ _ H0) as E0. pose proof (h_p _ _ _ _ _ H1) as E1.
    pose proof (h_edge _ _ _ _ _ H0) as Ed.
    unfold along, rpt in E0, E1. subst p0 p1. cbn [fst snd] in *.
    set (ux := f64_R (fst (fst ln))) in *. set (uy := f64_R (snd (fst ln))) in *.
    set (wx := f64_R (fst (snd ln))) in *. set (wy := f64_R (snd (snd ln))) in *.
    assert (Nd : (ux <> wx \/ uy <> wy)%R) by tauto. clear Ed.
    assert (M : forall a c d, (0 < d -> a < c -> a * d < c * d)%R) by (intros; apply Rmult_lt_compat_r; auto).
    destruct (Rtotal_order t0 t1) as [L|[L|L]]; [|lra|].
    - assert (K : Bool.eqb (xy_less (fst ln) (snd ln)) (xy_less q0 q1) = true).
      { destruct (Rtotal_order ux wx) as [A|[A|A]].
        - assert (B : (ux + t0 * (wx - ux) < ux + t1 * (wx - ux))%R) by (pose proof (M t0 t1 (wx - ux)%R); lra).
          apply O1 in B. rewrite (proj2 X), (proj2 Y); auto.
        - assert (Ex : (f64_R (fst q0) = f64_R (fst q1))%R) by (rewrite R1, R3, A; f_equal; ring).
          destruct (Rtotal_order uy wy) as [C|[C|C]]; [|lra|].
          + assert (B : (uy + t0 * (wy - uy) < uy + t1 * (wy - uy))%R) by (pose proof (M t0 t1 (wy - uy)%R); lra).
            apply O2 in B. rewrite (proj2 X), (proj2 Y); auto.
          + assert (B : (uy + t1 * (wy - uy) < uy + t0 * (wy - uy))%R) by (pose proof (M t0 t1 (uy - wy)%R); lra).
            apply O4 in B. destruct (xy_less (fst ln) (snd ln)); [destruct (proj1 X eq_refl); lra|].
            destruct (xy_less q0 q1); [destruct (proj1 Y eq_refl); lra | reflexivity].
        - assert (B : (ux + t1 * (wx - ux) < ux + t0 * (wx - ux))%R) by (pose proof (M t0 t1 (ux - wx)%R); lra).
          apply O3 in B. destruct (xy_less (fst ln) (snd ln)); [destruct (proj1 X eq_refl); lra|].
          destruct (xy_less q0 q1); [destruct (proj1 Y eq_refl); lra | reflexivity]. }
      now rewrite K.
    - assert (K : Bool.eqb (xy_less (fst ln) (snd ln)) (xy_less q0 q1) = false).
      { destruct (Rtotal_order ux wx) as [A|[A|A]].
        - assert (B : (ux + t1 * (wx - ux) < ux + t0 * (wx - ux))%R) by (pose proof (M t1 t0 (wx - ux)%R); lra).
          apply O3 in B. rewrite (proj2 X) by auto. destruct (xy_less q0 q1); [destruct (proj1 Y eq_refl); lra | reflexivity].
        - assert (Ex : (f64_R (fst q0) = f64_R (fst q1))%R) by (rewrite R1, R3, A; f_equal; ring).
          destruct (Rtotal_order uy wy) as [C|[C|C]]; [|lra|].
          + assert (B : (uy + t1 * (wy - uy) < uy + t0 * (wy - uy))%R) by (pose proof (M t1 t0 (wy - uy)%R); lra).
            apply O4 in B. rewrite (proj2 X) by auto. destruct (xy_less q0 q1); [destruct (proj1 Y eq_refl); lra | reflexivity].
          + assert (B : (uy + t0 * (wy - uy) < uy + t1 * (wy - uy))%R) by (pose proof (M t1 t0 (uy - wy)%R); lra).
            apply O2 in B. rewrite (proj2 Y) by auto. destruct (xy_less (fst ln) (snd ln)); [destruct (proj1 X eq_refl); lra | reflexivity].
        - assert (B : (ux + t0 * (wx - ux) < ux + t1 * (wx - ux))%R) by (pose proof (M t1 t0 (ux - wx)%R); lra).
          apply O1 in B. rewrite (proj2 Y) by auto. destruct (xy_less (fst ln) (snd ln)); [destruct (proj1 X eq_refl); lra | reflexivity]. }
      now rewrite K.
  Qed.
End Grid.
