(** * Points on lines, distances *)
From Coq Require Import ZArith Bool List Lia Reals Lra Psatz.
From Flocq Require Import Core.Core.
From Verif Require Import Base_Res Base_F64 Base_F64Arith Base_Geom M_Geom M_Extent M_Cmp M_Triangle M_Planar
  S_Cmp S_Winding S_Intersect S_Planar
  P_F64 P_F64Flocq P_F64Round P_F64Grid P_F64Err P_F64Sqrt P_F64X P_Cmp P_Cmp2 P_Cmp3 P_Intersect4 P_Circle.
Import ListNotations.
Open Scope Z_scope.

(** ** Boxes *)
Lemma sort_between a b v :
  let '(lo, hi) := if f64_gt a b then (b, a) else (a, b) in
  f64_le lo v && f64_le v hi = true <-> between a b v.
Proof.
  unfold f64_gt, between. destruct (f64_lt b a) eqn:E; rewrite andb_true_iff; split.
  - tauto.
  - intros [[A B]|H]; [exfalso|exact H]. pose proof (f64_le_trans _ _ _ A B) as C.
    apply lt_inv in E as (? & ? & ?). apply le_inv in C as (? & ? & ?). lia.
  - tauto.
  - intros [H|[A B]]; [exact H|].
    apply le_inv in A as (N1 & N2 & A), B as (N3 & N4 & B). rewrite lt_key in E by auto. apply Z.ltb_ge in E.
    rewrite !le_key by auto. lia.
Qed.

Theorem contains_box l p : line_contains_point l p = true <-> in_box l p.
Proof.
  destruct l as [[x1 y1] [x2 y2]]. unfold line_contains_point, in_box. cbn [fst snd].
  pose proof (sort_between x1 x2 (fst p)) as A. pose proof (sort_between y1 y2 (snd p)) as B.
  destruct (if f64_gt x1 x2 then _ else _) as [lx hx], (if f64_gt y1 y2 then _ else _) as [ly hy].
  rewrite <- A, <- B, !andb_true_iff. tauto.
Qed.

(** Words which are not NaN: neither test rejects. *)
Lemma refuse_between a b v : nn a -> nn b -> nn v ->
  let '(lo, hi) := if f64_gt a b then (b, a) else (a, b) in
  f64_gt lo v || f64_lt hi v = false <-> between a b v.
Proof.
  intros Na Nb Nv. pose proof (sort_between a b v) as H.
  destruct (f64_gt a b); rewrite <- H, orb_false_iff, andb_true_iff; unfold f64_gt; rewrite !lt_key, !le_key by assumption;
  rewrite !Z.ltb_ge, !Z.leb_le; tauto.
Qed.

Lemma on_segment_test c l p : number (fst l) -> number (snd l) -> number p ->
  is_point_on_segment c p l = true <-> in_box l p /\ is_point_on_line c p (fst l) (snd l) = true.
Proof.
  destruct l as [[x1 y1] [x2 y2]], p as [px py]. unfold number. cbn [fst snd]. intros [A1 A2] [B1 B2] [C1 C2].
  unfold is_point_on_segment, in_box. cbn [fst snd].
  pose proof (refuse_between x1 x2 px A1 B1 C1) as A. pose proof (refuse_between y1 y2 py A2 B2 C2) as B.
  destruct (if f64_gt x1 x2 then _ else _) as [lx hx], (if f64_gt y1 y2 then _ else _) as [ly hy].
  rewrite <- A, <- B, !orb_false_iff.
  destruct (f64_gt lx px), (f64_lt hx px), (f64_gt ly py), (f64_lt hy py); cbn [orb];
  try (split; [discriminate | intros [[[? ?] [? ?]] _]; discriminate]). split; [intros H; auto | tauto].
Qed.

Lemma number_finite p : f64_finite (fst p) = true -> f64_finite (snd p) = true -> number p.
Proof. split; now apply finite_nn. Qed.

(** ** Horizontal and vertical lines *)
Lemma axis_box l p : finite_line l -> axis_parallel l ->
  f64_wf (fst p) = true -> f64_finite (fst p) = true -> f64_wf (snd p) = true -> f64_finite (snd p) = true ->
  in_box l p <-> on_segment l (rpt p).
Proof.
  intros [W F] Ax Wp Fp Wq Fq. destruct l as [[x1 y1] [x2 y2]], p as [p q].
  destruct (W (x1, y1)) as [? ?]; [now left|]. destruct (W (x2, y2)) as [? ?]; [right; now left|].
  destruct (F (x1, y1)) as [? ?]; [now left|]. destruct (F (x2, y2)) as [? ?]; [right; now left|].
  unfold axis_parallel in Ax. cbn [fst snd] in *.
  unfold in_box, on_segment, along, rpt. cbn [fst snd]. rewrite !between_R by assumption. split.
  - intros [(t & T & E) (u & U & K)]. destruct Ax as [Ax|Ax].
    + exists u. split; [exact U|]. f_equal; [rewrite E, Ax; ring | exact K].
    + exists t. split; [exact T|]. f_equal; [exact E | rewrite K, Ax; ring].
  - intros (t & T & E). apply pair_equal_spec in E as [E K]. split; exists t; auto.
Qed.

Lemma between_same a b v : f64_wf a = true -> f64_finite a = true -> f64_wf b = true -> f64_finite b = true ->
  f64_wf v = true -> f64_finite v = true -> f64_R a = f64_R b -> between a b v -> f64_eq v a = true.
Proof.
  intros ? ? ? ? ? ? E. unfold between. rewrite !le_R by assumption. rewrite <- E. intros K. apply eq_R; try assumption.
  lra.
Qed.

Lemma axis_on_line c l p : positive c -> finite_line l -> axis_parallel l ->
  f64_wf (fst p) = true -> f64_finite (fst p) = true -> f64_wf (snd p) = true -> f64_finite (snd p) = true ->
  in_box l p -> is_point_on_line c p (fst l) (snd l) = true.
Proof.
  intros [Pt [Pb _]] [W F] Ax Wp Fp Wq Fq. destruct l as [[x1 y1] [x2 y2]], p as [p q].
  destruct (W (x1, y1)) as [? ?]; [now left|]. destruct (W (x2, y2)) as [? ?]; [right; now left|].
  destruct (F (x1, y1)) as [? ?]; [now left|]. destruct (F (x2, y2)) as [? ?]; [right; now left|].
  unfold axis_parallel in Ax. cbn [fst snd] in *.
  unfold in_box. cbn [fst snd]. intros [B1 B2].
  unfold is_point_on_line, slope. cbn [fst snd]. unfold f64_ne.
  assert (Zx : f64_eq (f64_sub x2 x1) f64_zero = true <-> f64_R x2 = f64_R x1) by now apply sub_zero.
  assert (Zy : f64_eq (f64_sub y2 y1) f64_zero = true <-> f64_R y2 = f64_R y1) by now apply sub_zero.
  destruct (f64_eq (f64_sub x2 x1) f64_zero) eqn:Ex.
  - cbn [orb negb]. apply float_same; try assumption. apply (between_same x1 x2); try assumption. symmetry. now apply Zx.
  - destruct (f64_eq (f64_sub y2 y1) f64_zero) eqn:Ey.
    + cbn [orb negb].
      replace (f64_eq f64_zero f64_zero) with true by reflexivity.
      apply float_same; try assumption. apply (between_same y1 y2); try assumption. symmetry. now apply Zy.
    + exfalso. destruct Ax as [Ax|Ax]; [assert (false = true) by now apply Zx|assert (false = true) by now apply Zy]; discriminate.
Qed.

Theorem axis_segment c l p : positive c -> finite_line l -> axis_parallel l ->
  f64_wf (fst p) = true -> f64_finite (fst p) = true -> f64_wf (snd p) = true -> f64_finite (snd p) = true ->
  (line_contains_point l p = true <-> on_segment l (rpt p)) /\
  (is_point_on_segment c p l = true <-> on_segment l (rpt p)).
Proof.
  intros Pc Fl Ax Wp Fp Wq Fq. pose proof (axis_box l p Fl Ax Wp Fp Wq Fq) as K. split.
  - rewrite contains_box. exact K.
  - rewrite on_segment_test.
    + rewrite <- K. split; [tauto|]. intros B. split; [exact B|]. now apply axis_on_line.
    + destruct Fl as [_ F]. destruct (F (fst l)); [now left|]. now apply number_finite.
    + destruct Fl as [_ F]. destruct (F (snd l)); [right; now left|]. now apply number_finite.
    + now apply number_finite.
Qed.

(** ** Lines of integer slope *)
Lemma repr_div_int e k m x y : -1074 <= e <= 970 -> Z.abs k <= two53 -> m <> 0 ->
  repr e (k * m) x -> repr e m y -> repr 0 k (f64_div x y).
Proof.
  intros He Hk Hm (Wx & Fx & Ex) (Wy & Fy & Ey).
  assert (B : (0 < bpow radix2 e)%R) by apply bpow_gt_0.
  assert (M : IZR m <> 0%R) by (intros K; apply Hm; now apply eq_IZR in K).
  assert (N : f64_R y <> 0%R) by (rewrite Ey; apply Rmult_integral_contrapositive_currified; lra).
  apply (is_round_repr 0 k _ _ ltac:(lia) Hk (div_round x y Wx Wy Fx Fy N)).
  rewrite Ex, Ey, mult_IZR. cbn [bpow]. field. split; lra.
Qed.

Lemma repr_eq e n x y : repr e n x -> repr e n y -> f64_eq x y = true.
Proof. intros (Wx & Fx & Ex) (Wy & Fy & Ey). apply eq_R; try assumption. congruence. Qed.

Lemma abs_mul a b x y : Z.abs a <= x -> Z.abs b <= y -> Z.abs (a * b) <= x * y.
Proof. intros. rewrite Z.abs_mul. apply Z.mul_le_mono_nonneg; lia. Qed.

Lemma steep_words c e k a1 b1 a2 b2 a b x1 y1 x2 y2 x y : positive c -> -1000 <= e <= 900 ->
  repr e a1 x1 -> repr e b1 y1 -> repr e a2 x2 -> repr e b2 y2 -> repr e a x -> repr e b y ->
  Z.abs k <= 2 ^ 20 -> k <> 0 -> a1 <> a2 ->
  Z.abs a1 <= 2 ^ 30 -> Z.abs b1 <= 2 ^ 50 -> Z.abs a2 <= 2 ^ 30 -> Z.abs a <= 2 ^ 30 ->
  b2 - b1 = k * (a2 - a1) -> b - b1 = k * (a - a1) ->
  is_point_on_line c (x, y) (x1, y1) (x2, y2) = true.
Proof.
  intros [Pt [Pb _]] He X1 Y1 X2 Y2 X Y Hk Nk Na A1 B1 A2 A E2 E.
  assert (P1 : Z.abs (k * a1) <= 2 ^ 50) by (change (2 ^ 50) with (2 ^ 20 * 2 ^ 30); now apply abs_mul).
  assert (P2 : Z.abs (k * a) <= 2 ^ 50) by (change (2 ^ 50) with (2 ^ 20 * 2 ^ 30); now apply abs_mul).
  assert (P3 : Z.abs (k * a2) <= 2 ^ 50) by (change (2 ^ 50) with (2 ^ 20 * 2 ^ 30); now apply abs_mul).
  assert (D1 : Z.abs (a2 - a1) <= two53) by (clear - A1 A2; unfold two53; lia).
  assert (D2 : Z.abs (b2 - b1) <= two53) by (rewrite E2, Z.mul_sub_distr_l; clear - P1 P3; unfold two53; lia).
  assert (D3 : Z.abs k <= two53) by (clear - Hk; unfold two53; lia).
  assert (D4 : Z.abs (k * a1) <= two53) by (clear - P1; unfold two53; lia).
  assert (D5 : Z.abs (k * a) <= two53) by (clear - P2; unfold two53; lia).
  assert (D6 : Z.abs (b1 - k * a1) <= two53) by (clear - P1 B1; unfold two53; lia).
  assert (D7 : Z.abs (k * a + (b1 - k * a1)) <= two53) by (clear - P1 P2 B1; unfold two53; lia).
  assert (He' : -1074 <= e <= 970) by (clear - He; lia).
  assert (H0e : -1074 <= 0 + e <= 970) by (clear - He; lia).
  pose proof (repr_sub e a2 a1 _ _ He' D1 X2 X1) as DX. pose proof (repr_sub e b2 b1 _ _ He' D2 Y2 Y1) as DY.
  assert (Nm : a2 - a1 <> 0) by (clear - Na; lia).
  assert (Nn : b2 - b1 <> 0) by (rewrite E2; clear - Nm Nk; nia).
  pose proof (repr_eq_zero _ _ _ DX) as ZX. pose proof (repr_eq_zero _ _ _ DY) as ZY.
  rewrite (proj2 (Z.eqb_neq _ _) Nm) in ZX. rewrite (proj2 (Z.eqb_neq _ _) Nn) in ZY.
  rewrite E2 in DY. pose proof (repr_div_int e k (a2 - a1) _ _ He' D3 Nm DY DX) as M.
  pose proof (repr_eq_zero _ _ _ M) as ZM. rewrite (proj2 (Z.eqb_neq _ _) Nk) in ZM.
  pose proof (repr_mul 0 e k a1 _ _ H0e D4 M X1) as M1. pose proof (repr_mul 0 e k a _ _ H0e D5 M X) as M2.
  rewrite Z.add_0_l in M1, M2.
  pose proof (repr_sub e b1 (k * a1) _ _ He' D6 Y1 M1) as Bq.
  pose proof (repr_add e (k * a) (b1 - k * a1) _ _ He' D7 M2 Bq) as V.
  unfold is_point_on_line, slope. cbn [fst snd]. rewrite ZX, ZY. cbn [orb negb]. rewrite ZM.
  assert (Eb : b = k * a + (b1 - k * a1)) by (clear - E; lia). rewrite Eb in Y.
  apply float_same; try assumption; [apply Y|apply V|]. exact (repr_eq _ _ _ _ Y V).
Qed.

Theorem steep_segment c e ns l p k : positive c -> -1000 <= e <= 900 -> on_grid e ns (ends l ++ [p]) ->
  (forall n, In n ns -> Z.abs (fst n) <= 2 ^ 30 /\ Z.abs (snd n) <= 2 ^ 50) ->
  Z.abs k <= 2 ^ 20 ->
  (f64_R (snd (snd l)) - f64_R (snd (fst l)) = IZR k * (f64_R (fst (snd l)) - f64_R (fst (fst l))))%R ->
  on_segment l (rpt p) -> is_point_on_segment c p l = true.
Proof.
  intros Pc He G Bd Hk Sl Hs. destruct l as [[x1 y1] [x2 y2]], p as [x y]. unfold ends in G. cbn [fst snd app] in *.
  inversion G as [|[a1 b1] q1 ns1 ps1 [X1 Y1] G1]; subst. inversion G1 as [|[a2 b2] q2 ns2 ps2 [X2 Y2] G2]; subst.
  inversion G2 as [|[a b] q3 ns3 ps3 [X Y] G3]; subst. inversion G3; subst. clear G G1 G2 G3. cbn [fst snd] in *.
  destruct (Bd (a1, b1)) as [A1 B1]; [now left|]. destruct (Bd (a2, b2)) as [A2 B2]; [right; now left|].
  destruct (Bd (a, b)) as [A B]; [right; right; now left|]. clear Bd. cbn [fst snd] in *.
  pose proof X1 as (Wx1 & Fx1 & Rx1). pose proof Y1 as (Wy1 & Fy1 & Ry1). pose proof X2 as (Wx2 & Fx2 & Rx2).
  pose proof Y2 as (Wy2 & Fy2 & Ry2). pose proof X as (Wx & Fx & Rx). pose proof Y as (Wy & Fy & Ry).
  assert (Fl : finite_line ((x1, y1), (x2, y2))).
  { split; intros q [<-|[<-|[]]]; auto. }
  assert (P : (0 < bpow radix2 e)%R) by apply bpow_gt_0.
  assert (E2 : b2 - b1 = k * (a2 - a1)).
  { apply eq_IZR. rewrite mult_IZR, !minus_IZR. rewrite Rx1, Rx2, Ry1, Ry2 in Sl. clear - Sl P.
    apply Rmult_eq_reg_r with (bpow radix2 e); [nra | lra]. }
  assert (Ax : axis_parallel ((x1, y1), (x2, y2)) -> is_point_on_segment c (x, y) ((x1, y1), (x2, y2)) = true).
  { intros Ax. apply axis_segment; assumption. }
  destruct (Z.eq_dec a1 a2) as [Na|Na].
  { apply Ax. left. cbn [fst snd]. rewrite Rx1, Rx2, Na. reflexivity. }
  destruct (Z.eq_dec k 0) as [Nk|Nk].
  { apply Ax. right. cbn [fst snd]. rewrite Ry1, Ry2. replace b2 with b1 by (clear - E2 Nk; subst k; lia). reflexivity. }
  clear Ax. apply on_segment_test; try now apply number_finite.
  assert (Hb : in_box ((x1, y1), (x2, y2)) (x, y)).
  { destruct Hs as (t & T & E). unfold rpt, along in E. cbn [fst snd] in E. apply pair_equal_spec in E as [Ea Eb].
    unfold in_box. cbn [fst snd]. rewrite !between_R by assumption. split; exists t; auto. }
  split; [exact Hb|]. cbn [fst snd].
  apply (steep_words c e k a1 b1 a2 b2 a b); try assumption.
  destruct Hs as (t & T & E). unfold rpt, along in E. cbn [fst snd] in E. apply pair_equal_spec in E as [Ea Eb].
  apply eq_IZR. rewrite mult_IZR, !minus_IZR. rewrite Rx1, Rx2, Ry1, Ry2, Rx, Ry in *. clear - Sl Ea Eb P.
  apply Rmult_eq_reg_r with (bpow radix2 e); [|lra]. 
  replace ((IZR b - IZR b1) * bpow radix2 e)%R with (t * (IZR b2 * bpow radix2 e - IZR b1 * bpow radix2 e))%R by lra.
  rewrite Sl. replace (IZR k * (IZR a - IZR a1) * bpow radix2 e)%R with (IZR k * (IZR a * bpow radix2 e - IZR a1 * bpow radix2 e))%R by ring.
  rewrite Ea. ring.
Qed.

(** ** Wrong answers *)
(** The box of a line contains points which are not on it. *)
Lemma box_not_line : line_contains_point (zline ((0, 0), (4, 4))) (zpt (4, 0)) = true /\
  ~ on_line (zline ((0, 0), (4, 4))) (rpt (zpt (4, 0))).
Proof.
  split; [vm_compute; reflexivity|]. intros (t & E). unfold along, rpt, zline in E. cbn [fst snd] in E.
  apply pair_equal_spec in E as [E1 E2].
  assert (R0 : f64_R (snd (zpt (4, 0))) = 0%R) by (destruct (repr_ofZ 0 ltac:(cbv; discriminate)) as (_ & _ & H); cbn [zpt fst snd]; rewrite H; ring).
  assert (R4 : f64_R (f64_ofZ 4) = 4%R) by (destruct (repr_ofZ 4 ltac:(cbv; discriminate)) as (_ & _ & H); rewrite H; cbn [bpow]; ring).
  unfold zpt in *. cbn [fst snd] in *. rewrite R0, R4 in *. lra.
Qed.
Definition steep_seg : line := ((f64_ofZ 1000000, f64_ofZ 1), (f64_ofZ 1000003, 0x3e29c511dc3a41df)).
Lemma end_refused : is_point_on_segment default_compare (snd steep_seg) steep_seg = false.
Proof. vm_compute. reflexivity. Qed.
Lemma nan_accepted : is_point_on_segment default_compare (f64_zero, f64_nan) (zline ((0, 0), (0, 1))) = true.
Proof. vm_compute. reflexivity. Qed.

(** ** Distances *)
Local Open Scope R_scope.
Lemma Req_bool_0 r : Req_bool r 0 = true <-> r = 0.
Proof. destruct (Req_bool_spec r 0); split; congruence. Qed.

Lemma square_least (A B L t0 t : R) : 0 < L -> 0 <= t <= 1 ->
  t0 = Rmax 0 (Rmin 1 (A / L)) ->
  B - 2 * t0 * A + t0 * t0 * L <= B - 2 * t * A + t * t * L.
Proof.
  intros HL [T1 T2] E. set (q := A / L) in *. assert (EA : A = q * L) by (unfold q; field; lra). rewrite EA. clearbody q. clear EA.
  unfold Rmax, Rmin in E. destruct (Rle_dec 1 q) as [K1|K1].
  - destruct (Rle_dec 0 1) as [_|]; [|lra]. subst t0.
    enough (0 <= (1 - t) * (2 * q - (1 + t)) * L) by nra. apply Rmult_le_pos; [|lra]. apply Rmult_le_pos; lra.
  - destruct (Rle_dec 0 q) as [K2|K2]; subst t0.
    + enough (0 <= (q - t) * (q - t) * L) by nra. apply Rmult_le_pos; [|lra]. apply Rle_0_sqr.
    + enough (0 <= t * (t - 2 * q) * L) by nra. apply Rmult_le_pos; [|lra]. apply Rmult_le_pos; lra.
Qed.

Lemma sum_squares_zero a b c d : (a - b) * (a - b) + (c - d) * (c - d) = 0 -> a = b /\ c = d.
Proof.
  intros H. pose proof (Rle_0_sqr (a - b)) as P. pose proof (Rle_0_sqr (c - d)) as Q. unfold Rsqr in *.
  assert (A : Rsqr (a - b) = 0) by (unfold Rsqr; lra). assert (B : Rsqr (c - d) = 0) by (unfold Rsqr; lra).
  apply Rsqr_0_uniq in A. apply Rsqr_0_uniq in B. lra.
Qed.

Theorem segment_distance_real p v w : least_distance p v w (distance_to_segmentR p v w).
Proof.
  unfold distance_to_segmentR, segment_dist_of, dist_of, dist2_of.
  destruct (Req_bool _ 0) eqn:Zz.
  - apply Req_bool_0 in Zz.
    assert (Z1 : fst v = fst w /\ snd v = snd w) by (apply sum_squares_zero; exact Zz). destruct Z1 as [Z1 Z2].
    assert (K : forall t, along v w t = v).
    { intros t. unfold along. destruct v as [v1 v2], w as [w1 w2]. cbn [fst snd] in *. subst. f_equal; ring. }
    split.
    + exists 0. split; [lra|]. rewrite K. reflexivity.
    + intros t _. rewrite K. apply Rle_refl.
  - set (L := (fst v - fst w) * (fst v - fst w) + (snd v - snd w) * (snd v - snd w)) in *.
    assert (HL : 0 < L).
    { assert (L <> 0) by (intros K; apply Req_bool_0 in K; congruence). assert (0 <= L) by (unfold L; apply Rplus_le_le_0_compat; apply Rle_0_sqr). clear - H H0; lra. }
    set (A := (fst p - fst v) * (fst w - fst v) + (snd p - snd v) * (snd w - snd v)) in *.
    set (t0 := Rmax 0 (Rmin 1 (A / L))) in *.
    assert (T : 0 <= t0 <= 1).
    { unfold t0, Rmax, Rmin. destruct (Rle_dec 1 (A / L)); destruct (Rle_dec 0 _); lra. }
    set (B := (fst p - fst v) * (fst p - fst v) + (snd p - snd v) * (snd p - snd v)).
    assert (K : forall t, (fst p - fst (along v w t)) * (fst p - fst (along v w t)) +
                          (snd p - snd (along v w t)) * (snd p - snd (along v w t)) = B - 2 * t * A + t * t * L).
    { intros t. unfold along, A, B, L. cbn [fst snd]. ring. }
    split.
    + exists t0. split; [exact T|]. reflexivity.
    + intros t Ht. unfold distR. rewrite (K t). change (fst v + t0 * (fst w - fst v), snd v + t0 * (snd w - snd v)) with (along v w t0).
      rewrite (K t0). apply sqrt_le_1_alt. apply square_least; auto.
Qed.

Local Close Scope R_scope.
Lemma square_le a : Z.abs a <= 2 ^ 26 -> 0 <= a * a <= 2 ^ 52.
Proof.
  intros H. split; [apply Z.square_nonneg|]. rewrite <- Z.abs_square. change (2 ^ 52) with (2 ^ 26 * 2 ^ 26).
  apply Z.mul_le_mono_nonneg; lia.
Qed.
Lemma dist2_repr e n m p q : -500 <= e <= 400 -> repr e (fst n) (fst p) -> repr e (snd n) (snd p) ->
  repr e (fst m) (fst q) -> repr e (snd m) (snd q) ->
  Z.abs (fst n - fst m) <= 2 ^ 26 -> Z.abs (snd n - snd m) <= 2 ^ 26 ->
  repr (e + e) ((fst n - fst m) * (fst n - fst m) + (snd n - snd m) * (snd n - snd m)) (point_distance2 p q).
Proof.
  intros He A B C D H1 H2. pose proof (square_le _ H1) as S1. pose proof (square_le _ H2) as S2.
  unfold point_distance2, dist2_of.
  assert (X : repr e (fst n - fst m) (f64_sub (fst p) (fst q))) by (apply repr_sub; try assumption; [lia|clear - H1; unfold two53; lia]).
  assert (Y : repr e (snd n - snd m) (f64_sub (snd p) (snd q))) by (apply repr_sub; try assumption; [lia|clear - H2; unfold two53; lia]).
  assert (He2 : -1074 <= e + e <= 970) by (clear - He; lia).
  generalize dependent (fst n - fst m). generalize dependent (snd n - snd m). intros y H2 S2 Y x H1 S1 X.
  apply repr_add; [exact He2|clear - S1 S2; unfold two53; lia| |].
  - apply repr_mul; try assumption. clear - S1; unfold two53; lia.
  - apply repr_mul; try assumption. clear - S2; unfold two53; lia.
Qed.

Lemma distance_def p q : point_distance p q = f64_sqrt (point_distance2 p q).
Proof. unfold point_distance, point_distance2, dist_of. reflexivity. Qed.

Theorem distance_grid e n m p q : -500 <= e <= 400 -> on_grid e [n; m] [p; q] ->
  Z.abs (fst n - fst m) <= 2 ^ 26 -> Z.abs (snd n - snd m) <= 2 ^ 26 ->
  f64_finite (point_distance2 p q) = true /\ f64_R (point_distance2 p q) = (distR (rpt p) (rpt q) * distR (rpt p) (rpt q))%R /\
  f64_finite (point_distance p q) = true /\ f64_R (point_distance p q) = rnd (distR (rpt p) (rpt q)).
Proof.
  intros He G H1 H2. inversion G as [|? ? ? ? [A B] G1]; subst. inversion G1 as [|? ? ? ? [C D] G2]; subst. clear G G1 G2.
  pose proof (dist2_repr e n m p q He A B C D H1 H2) as (W & F & V).
  set (d2 := ((fst (rpt p) - fst (rpt q)) * (fst (rpt p) - fst (rpt q)) + (snd (rpt p) - snd (rpt q)) * (snd (rpt p) - snd (rpt q)))%R).
  assert (Ev : f64_R (point_distance2 p q) = d2).
  { rewrite V. unfold d2, rpt. cbn [fst snd]. destruct A as (_ & _ & ->), B as (_ & _ & ->), C as (_ & _ & ->), D as (_ & _ & ->).
    rewrite plus_IZR, !mult_IZR, !minus_IZR, bpow_plus. ring. }
  assert (P2 : (0 <= d2)%R) by (unfold d2; apply Rplus_le_le_0_compat; apply Rle_0_sqr).
  split; [exact F|]. split; [rewrite Ev; unfold distR; symmetry; now apply sqrt_sqrt|].
  assert (Pw : (0 <= f64_R (point_distance2 p q))%R) by now rewrite Ev.
  pose proof (sqrt_finite _ W F Pw) as S. rewrite Ev in S. rewrite distance_def. generalize dependent (f64_sqrt (point_distance2 p q)). intros w S.
  destruct S as [Ws [(Fs & Vs & _)|[(_ & Vs)|(_ & Vs)]]].
  - split; [exact Fs|exact Vs].
  - exfalso. assert (K : (sqrt d2 <= bpow radix2 1000)%R).
    { rewrite <- (sqrt_square (bpow radix2 1000)) by apply bpow_ge_0. apply sqrt_le_1_alt. rewrite <- bpow_plus.
      rewrite <- Ev. left. eapply Rle_lt_trans; [apply Rle_abs|]. eapply Rlt_trans; [apply Binary.abs_B2R_lt_emax|]. apply bpow_lt. reflexivity. }
    pose proof (rnd_bound 1000 (sqrt d2) ltac:(lia)) as K2. rewrite (Rabs_pos_eq (sqrt d2)) in K2 by apply sqrt_pos. specialize (K2 K). apply Rabs_le_inv in K2. unfold huge in Vs.
    assert (bpow radix2 1000 < bpow radix2 1024)%R by (apply bpow_lt; lia). lra.
  - exfalso. pose proof (rnd_le _ _ (sqrt_pos d2)) as K. rewrite rnd_0 in K. unfold huge in Vs. pose proof (bpow_gt_0 radix2 1024). lra.
Qed.
Lemma distance_345 : point_distance (zpt (1, 2)) (zpt (4, 6)) = f64_ofZ 5 /\
  distance_to_segment (zpt (2, 7)) (zpt (0, 0)) (zpt (10, 0)) = f64_ofZ 7 /\
  distance_to_segment (zpt (13, 4)) (zpt (0, 0)) (zpt (10, 0)) = f64_ofZ 5.
Proof. vm_compute. auto. Qed.
(** A point's distance from a segment which ends in it. *)
Lemma end_not_zero : exists v w : pt, f64_lt f64_zero (distance_to_segment w v w) = true /\
  f64_finite (fst v) = true /\ f64_finite (fst w) = true.
Proof. exists (f64_ofZ (2 ^ 60), f64_zero), (f64_ofZ 1, f64_zero). vm_compute. auto. Qed.
