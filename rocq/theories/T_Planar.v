(** * C48, C86 - C90: centroids, points on lines, sets of lines, distances

    The functions are those of planar/centriod.go, planar/planar.go,
    planar/distance.go, planar/line_helpers.go and line.go on float64 words
    (M_Planar.v).  [rpt p] is the point of the plane with the coordinates of p. *)
From Coq Require Import ZArith Bool List Reals.
From Flocq Require Import Core.Core.
From Verif Require Import Base_Res Base_F64 Base_F64Arith Base_Geom M_Geom M_Extent M_Cmp M_Planar
  S_Cmp S_Winding S_Intersect S_Planar P_F64Flocq P_F64Round P_F64Grid P_Cmp3 P_Intersect4 P_Planar P_PlanarLine P_PlanarUniq.
Import ListNotations.
Open Scope Z_scope.

(** ** C48: PointsCentriod is the centre of mass of the ring *)
(** True of a triangle whose first vertex is the origin: the centre of mass, rounded once. *)
Theorem C48_origin_partial : forall e p q w ps, -300 <= e <= 300 -> small_points [(0, 0); p; q] ->
  on_grid e [(0, 0); p; q] ps -> cross p q <> 0 -> w = points_centroid ps ->
  f64_finite (fst w) = true /\ f64_finite (snd w) = true /\
  f64_R (fst w) = rnd (fst (centre_of_mass e [(0, 0); p; q])) /\
  f64_R (snd w) = rnd (snd (centre_of_mass e [(0, 0); p; q])).
Proof. exact centroid_origin. Qed.
Print Assumptions C48_origin_partial.
(** What it computes: the first moments of the open path, divided by three
    times the cross product of its last side, not by the area. *)
Theorem C48_formula : forall e n m ns ps, -300 <= e <= 300 -> small_points (n :: m :: ns) ->
  on_grid e (n :: m :: ns) ps -> last_cross n 0 (m :: ns) <> 0 ->
  let k := IZR (3 * last_cross n 0 (m :: ns)) in
  let cent := points_centroid ps in
  f64_finite (fst cent) = true /\ f64_finite (snd cent) = true /\
  f64_R (fst cent) = rnd (IZR (path_moment fst (n :: m :: ns)) / k * bpow radix2 e) /\
  f64_R (snd cent) = rnd (IZR (path_moment snd (n :: m :: ns)) / k * bpow radix2 e).
Proof. exact centroid_formula. Qed.
Print Assumptions C48_formula.
(** The result for (10,10) (14,10) (10,13) is left of all three, *)
Theorem C48_away_refuted : f64_lt (fst (points_centroid (map zpt tri_away))) (f64_ofZ 10) = true.
Proof. exact centroid_away. Qed.
Print Assumptions C48_away_refuted.
(** and infinite for the closed ring (0,0) (4,0) (0,3) (0,0). *)
Theorem C48_closed_refuted : points_centroid (map zpt tri_closed) = (f64_pinf, f64_pinf).
Proof. exact centroid_closed. Qed.
Print Assumptions C48_closed_refuted.
Example C48_nonvacuous : points_centroid (map zpt [(0, 0); (6, 0); (0, 3)]) = zpt (2, 1) /\
  centre_of_mass 0 [(0, 0); (6, 0); (0, 3)] = (2%R, 1%R).
Proof. exact centroid_345. Qed.

(** ** C86: Line.ContainsPoint and IsPointOnLineSegment *)
(** All words, NaN and infinities included: Line.ContainsPoint is the test of the bounding box. *)
Theorem C86_box : forall l p, line_contains_point l p = true <-> in_box l p.
Proof. exact contains_box. Qed.
Print Assumptions C86_box.
(** On horizontal and vertical lines both functions are exact. *)
Theorem C86_axis : forall c l p, positive c -> finite_line l -> axis_parallel l ->
  f64_wf (fst p) = true -> f64_finite (fst p) = true -> f64_wf (snd p) = true -> f64_finite (snd p) = true ->
  (line_contains_point l p = true <-> on_segment l (rpt p)) /\
  (is_point_on_segment c p l = true <-> on_segment l (rpt p)).
Proof. exact axis_segment. Qed.
Print Assumptions C86_axis.
(** Whatever is accepted is in the bounding box. *)
Theorem C86_segment_box : forall c l p, number (fst l) -> number (snd l) -> number p ->
  is_point_on_segment c p l = true -> in_box l p.
Proof. exact (fun c l p A B C H => proj1 (proj1 (on_segment_test c l p A B C) H)). Qed.
Print Assumptions C86_segment_box.
(** Points on a segment whose slope is an integer are accepted. *)
Theorem C86_integer_slope : forall c e ns l p k, positive c -> -1000 <= e <= 900 -> on_grid e ns (ends l ++ [p]) ->
  (forall n, In n ns -> Z.abs (fst n) <= 2 ^ 30 /\ Z.abs (snd n) <= 2 ^ 50) ->
  Z.abs k <= 2 ^ 20 ->
  (f64_R (snd (snd l)) - f64_R (snd (fst l)) = IZR k * (f64_R (fst (snd l)) - f64_R (fst (fst l))))%R ->
  on_segment l (rpt p) -> is_point_on_segment c p l = true.
Proof. exact steep_segment. Qed.
Print Assumptions C86_integer_slope.
Example C86_nonvacuous :
  is_point_on_segment default_compare (zpt (2, 5)) (zline ((0, 1), (3, 7))) = true /\
  is_point_on_segment default_compare (zpt (2, 4)) (zline ((0, 1), (3, 7))) = false /\
  is_point_on_segment default_compare (zpt (4, 9)) (zline ((0, 1), (3, 7))) = false /\
  line_contains_point (zline ((3, 1), (0, 1))) (zpt (2, 1)) = true.
Proof. exact (conj eq_refl (conj eq_refl (conj eq_refl eq_refl))). Qed.

(** ** C89: they accept the points of the segment and no others *)
(** A point of the box which is not on the line. *)
Theorem C89_box_refuted : line_contains_point (zline ((0, 0), (4, 4))) (zpt (4, 0)) = true /\
  ~ on_line (zline ((0, 0), (4, 4))) (rpt (zpt (4, 0))).
Proof. exact box_not_line. Qed.
Print Assumptions C89_box_refuted.
(** A segment and its own end point. *)
Theorem C89_end_refuted : is_point_on_segment default_compare (snd steep_seg) steep_seg = false.
Proof. exact end_refused. Qed.
Print Assumptions C89_end_refuted.
Theorem C89_nan_refuted : is_point_on_segment default_compare (f64_zero, f64_nan) (zline ((0, 0), (0, 1))) = true.
Proof. exact nan_accepted. Qed.
Print Assumptions C89_nan_refuted.

(** ** C87: NormalizeUniqueLines *)
(** Numbers whose places the comparator tells apart, any sorting routine: each
    line of the result is a line of the argument, directed; each line of the
    argument is in the result, in some direction; the result is in strict
    lexicographic order and no segment is in it twice.  The result takes the
    place of the first lines of the argument. *)
Theorem C87_unique : forall c sort ls, positive c -> sort_ok sort -> number_lines ls -> told_apart c ls ->
  forall out arr, normalize_unique c sort ls = (out, arr) ->
  (forall l, In l out -> directed l /\ (In l ls \/ In (snd l, fst l) ls)) /\
  (forall l, In l ls -> exists l', In l' out /\ same_segment l l') /\
  (forall i j a b, (i < j)%nat -> nth_error out i = Some a -> nth_error out j = Some b -> line_before a b /\ ~ same_segment a b) /\
  length arr = length ls /\ firstn (length out) arr = out.
Proof. exact unique_lines. Qed.
Print Assumptions C87_unique.
Example C87_nonvacuous : let ls := [zline ((3, 4), (1, 2)); zline ((0, 0), (5, 0)); zline ((1, 2), (3, 4)); zline ((5, 0), (0, 0))] in
  number_lines ls /\ told_apart default_compare ls /\
  fst (normalize_unique default_compare (fun less => isort less) ls) = [zline ((0, 0), (5, 0)); zline ((1, 2), (3, 4))].
Proof. exact unique_example. Qed.
Example C87_sort_nonvacuous : positive default_compare /\ sort_ok (fun less => isort less).
Proof. exact (conj default_positive isort_ok). Qed.

(** ** C90: no line is returned twice, whatever the tolerance *)
(** The order is not one if points are equal within the tolerance: with the
    insertion sort of Go's library, and the default comparator, the first and
    the last line of the result are the same. *)
Theorem C90_twice_refuted : let out := fst (normalize_unique default_compare go_sort cycle) in
  number_lines cycle /\ length out = 4%nat /\ nth_error out 0 = nth_error out 3.
Proof. exact cycle_repeats. Qed.
Print Assumptions C90_twice_refuted.

(** ** C88: PointDistance and DistanceToLineSegment *)
(** On a grid, differences up to 2^26 steps: the square of the distance, and the distance rounded once. *)
Theorem C88_points : forall e n m p q, -500 <= e <= 400 -> on_grid e [n; m] [p; q] ->
  Z.abs (fst n - fst m) <= 2 ^ 26 -> Z.abs (snd n - snd m) <= 2 ^ 26 ->
  f64_finite (point_distance2 p q) = true /\ f64_R (point_distance2 p q) = (distR (rpt p) (rpt q) * distR (rpt p) (rpt q))%R /\
  f64_finite (point_distance p q) = true /\ f64_R (point_distance p q) = rnd (distR (rpt p) (rpt q)).
Proof. exact distance_grid. Qed.
Print Assumptions C88_points.
(** Computed with exact real numbers, the distance from the closest point of
    the segment.  Missing: a bound of the rounding error. *)
Theorem C88_segment_partial : forall p v w, least_distance p v w (distance_to_segmentR p v w).
Proof. exact segment_distance_real. Qed.
Print Assumptions C88_segment_partial.
(** With float64 the distance from an end point need not be 0. *)
Theorem C88_end_refuted : exists v w : pt, f64_lt f64_zero (distance_to_segment w v w) = true /\
  f64_finite (fst v) = true /\ f64_finite (fst w) = true.
Proof. exact end_not_zero. Qed.
Print Assumptions C88_end_refuted.
Example C88_nonvacuous : point_distance (zpt (1, 2)) (zpt (4, 6)) = f64_ofZ 5 /\
  distance_to_segment (zpt (2, 7)) (zpt (0, 0)) (zpt (10, 0)) = f64_ofZ 7 /\
  distance_to_segment (zpt (13, 4)) (zpt (0, 0)) (zpt (10, 0)) = f64_ofZ 5.
Proof. exact distance_345. Qed.
