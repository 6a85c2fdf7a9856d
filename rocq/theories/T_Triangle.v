(** * C56, C81 - C85: triangles and circles

    The functions are those of triangle.go and circle.go on float64 words
    (M_Triangle.v).  [near3]: the vertices are integers times [2^e], at most
    [2^25 * 2^e] apart in each coordinate; [area2] (S_Winding.v) is twice the
    signed area of integer points. *)
From Coq Require Import ZArith Bool List Reals Permutation.
From Verif Require Import Base_Res Base_F64 Base_F64Arith Base_Geom M_Geom M_Extent M_Cmp M_Triangle
  S_Intersect S_Winding S_Triangle P_F64Flocq P_F64Round P_F64Grid P_Intersect4 P_Triangle P_Circle.
Import ListNotations.
Open Scope Z_scope.

(** ** C56: Circle.AsSegments for k >= 3 *)
(** [pos k i] is the i-th of k points on the circle, whatever it is. *)
Theorem C56_chain : forall pos k, (3 <= k)%nat ->
  length (as_points pos k) = k /\ exists ls, as_segments pos k = Ok ls /\ closed_chain (as_points pos k) ls.
Proof. exact segments_chain. Qed.
Print Assumptions C56_chain.

Example C56_nonvacuous : let pos := fun _ i => zpt (Z.of_nat i, 0) in
  as_segments pos 3 = Ok [(zpt (2, 0), zpt (0, 0)); (zpt (0, 0), zpt (1, 0)); (zpt (1, 0), zpt (2, 0))].
Proof. reflexivity. Qed.

(** ** C81: Circle.AsSegments for k < 3 *)
(** The points are those of k = 30, *)
Theorem C81_points_partial : forall pos k, (k < 3)%nat -> as_points pos k = as_points pos 30.
Proof. exact points_default. Qed.
Print Assumptions C81_points_partial.
(** but the segments of 0 panic, whatever the circle, *)
Theorem C81_zero_refuted : forall pos, as_segments pos 0 = Panic.
Proof. exact segments_zero. Qed.
Print Assumptions C81_zero_refuted.
(** and those of 1 and 2 are not closed, unless the first or second point is the last one. *)
Theorem C81_small_refuted : forall pos k, (1 <= k < 3)%nat -> pos 30%nat (k - 1)%nat <> pos 30%nat 29%nat ->
  exists ls, as_segments pos k = Ok ls /\ length ls = 30%nat /\ ~ closed_chain (as_points pos k) ls.
Proof. exact segments_small. Qed.
Print Assumptions C81_small_refuted.
Example C81_nonvacuous : let pos := fun (_ : nat) i => zpt (Z.of_nat i, 0) in pos 30%nat 0%nat <> pos 30%nat 29%nat.
Proof. vm_compute. discriminate. Qed.

(** ** C82: area, centre, colinearity and the third point *)
Theorem C82_area : forall e a b c t, near3 e a b c t -> repr (e + e) (area2 [a; b; c]) (tri_area t).
Proof. exact area_exact. Qed.
Print Assumptions C82_area.
Theorem C82_colinear : forall e a b c p q r, near3 e a b c (p, q, r) ->
  (is_colinear p q r = true <-> area2 [a; b; c] = 0).
Proof. exact colinear3_exact. Qed.
Print Assumptions C82_colinear.
(** The mean of the vertices, rounded once. *)
Theorem C82_center : forall e a b c t, -1000 <= e <= 960 -> on_grid e [a; b; c] (vertices3 t) ->
  Forall (fun n => Z.abs (fst n) <= 2 ^ 50 /\ Z.abs (snd n) <= 2 ^ 50) [a; b; c] ->
  let sum (f : pt -> f64) := fold_right (fun p s => (f64_R (f p) + s)%R) 0%R (vertices3 t) in
  f64_finite (fst (center t)) = true /\ f64_finite (snd (center t)) = true /\
  f64_R (fst (center t)) = rnd (sum fst / 3) /\ f64_R (snd (center t)) = rnd (sum snd / 3).
Proof. exact center_exact. Qed.
Print Assumptions C82_center.
(** All words: of three points which the comparator tells apart, given two, the third. *)
Theorem C82_third : forall t p q r,
  (forall a b, In (a, b) [(p, q); (q, r); (p, r)] -> point_equal nano_compare a b = false) ->
  Permutation (vertices3 t) [p; q; r] -> third_point t p q = r.
Proof. exact third_point_spec. Qed.
Print Assumptions C82_third.
Example C82_nonvacuous : near3 0 (0, 0) (4, 0) (0, 3) tri345 /\ tri_area tri345 = f64_ofZ 12 /\
  third_point tri345 (zpt (4, 0)) (zpt (0, 0)) = zpt (0, 3) /\ third_point tri345 (zpt (0, 3)) (zpt (4, 0)) = zpt (0, 0) /\
  is_colinear (zpt (0, 0)) (zpt (1, 2)) (zpt (3, 6)) = true.
Proof. exact (conj near345 (conj eq_refl (conj eq_refl (conj eq_refl eq_refl)))). Qed.

(** ** C83: NewTriangleContaining *)
(** Every coordinate finite and at most 2^40 in absolute value, not only on a
    grid: the triangle has an area and each point is strictly inside. *)
Theorem C83_contains : forall pts, pts <> [] -> Forall (point_upto 40) pts ->
  exists a b c, triangle_containing pts = Ok (a, b, c) /\ finite_pt a /\ finite_pt b /\ finite_pt c /\
    ~ colinearR (rpt a) (rpt b) (rpt c) /\ forall p, In p pts -> inside3 (rpt a) (rpt b) (rpt c) (rpt p).
Proof. exact triangle_encloses. Qed.
Print Assumptions C83_contains.
(** It panics for no points and only then. *)
Theorem C83_panics : forall pts, triangle_containing pts = Panic <-> pts = [].
Proof. exact triangle_panics. Qed.
Print Assumptions C83_panics.
(** Far from the origin its vertices are on one line. *)
Theorem C91_flat_refuted : exists a b c,
  finite_pt far /\ triangle_containing [far] = Ok (a, b, c) /\ colinearR (rpt a) (rpt b) (rpt c).
Proof. exact triangle_flat. Qed.
Print Assumptions C91_flat_refuted.
Example C83_nonvacuous : Forall (point_upto 40) [zpt (1, 2); zpt (-3, 4)] /\
  triangle_containing [zpt (1, 2); zpt (-3, 4)] = Ok (zpt (-33, -28), zpt (-1, 54), zpt (31, -28)).
Proof.
  exact (conj (Forall_cons _ (ofZ_upto 40 1 2 ltac:(now apply Z.leb_le) ltac:(now apply Z.leb_le) ltac:(split; now apply Z.leb_le))
    (Forall_cons _ (ofZ_upto 40 (-3) 4 ltac:(now apply Z.leb_le) ltac:(now apply Z.leb_le) ltac:(split; now apply Z.leb_le)) (Forall_nil _))) eq_refl).
Qed.

(** ** C84: CircleFromPoints returns *)
(** For finite points, if the differences of the second coordinates are finite,
    after at most two rotations of the points; on every longer run the same. *)
Theorem C84_terminates : forall a b c, finite_pt a -> finite_pt b -> finite_pt c ->
  f64_finite (f64_sub (snd b) (snd a)) = true -> f64_finite (f64_sub (snd c) (snd b)) = true ->
  exists r, forall fuel, (2 <= fuel)%nat -> circle_from_points fuel a b c = Some r.
Proof. exact circle_terminates. Qed.
Print Assumptions C84_terminates.
(** If they overflow it can loop forever. *)
Theorem C92_loops_refuted : finite_pt loop_a /\ finite_pt loop_b /\ finite_pt loop_c /\
  forall fuel, circle_from_points fuel loop_a loop_b loop_c = None.
Proof. exact circle_loops. Qed.
Print Assumptions C92_loops_refuted.

(** ** C85: the circle passes through the points *)
(** Computed with exact real numbers it does, and the error is returned for colinear points only. *)
Theorem C85_real_partial : forall a b c, ~ colinearR a b c ->
  exists o, (forall fuel, (2 <= fuel)%nat -> circle_centreR fuel a b c = Some (Some o)) /\
    dist2R o a = dist2R o b /\ dist2R o b = dist2R o c.
Proof. exact circle_real. Qed.
Print Assumptions C85_real_partial.
Theorem C85_colinear_partial : forall fuel a b c, colinearR a b c -> circle_centreR fuel a b c = Some None.
Proof. exact circle_real_colinear. Qed.
Print Assumptions C85_colinear_partial.
(** With float64 a circle can miss a point it was made from, *)
Theorem C85_misses_refuted : exists o,
  circle_from_points 2 own_a own_b own_c = Some (Ok o) /\ circle_contains o own_c = false.
Proof. exact circle_misses. Qed.
Print Assumptions C85_misses_refuted.
(** and its centre can be infinite or NaN. *)
Theorem C85_infinite_refuted : exists o,
  circle_from_points 2 thin_a thin_b thin_c = Some (Ok o) /\ f64_finite (fst (c_center o)) = false.
Proof. exact circle_infinite. Qed.
Print Assumptions C85_infinite_refuted.
Example C84_C85_nonvacuous : exists o, circle_from_points 2 (zpt (0, 0)) (zpt (6, 0)) (zpt (0, 8)) = Some (Ok o) /\
  c_center o = zpt (3, 4) /\ c_radius o = f64_ofZ 5 /\
  circle_contains o (zpt (6, 8)) = true /\ circle_contains o (zpt (9, 4)) = false.
Proof. exact circle_example. Qed.
