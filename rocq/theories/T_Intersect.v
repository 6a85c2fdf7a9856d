(** * C46, C78, C79: intersection of lines and segments

    [segment_intersect], [line_intersect] and [are_lines_colinear] are the
    functions of planar/line_intersect.go on float64 words; [on_line],
    [on_segment], [parallel] and the grids are in S_Intersect.v, on the real
    values of the words.  [rnd] is rounding to the nearest float64. *)
From Coq Require Import ZArith Bool List Reals.
From Flocq Require Import Core.Core.
From Verif Require Import Base_F64 Base_F64Arith Base_Geom M_Geom M_Cmp M_Intersect S_Intersect
  P_F64Flocq P_F64Round P_Intersect P_Intersect3 P_Intersect4.
Import ListNotations.

(** ** C46 *)
(** All words, NaN and infinities included: exchanging the segments changes
    neither the answer nor the point. *)
Theorem C46_symmetric : forall l1 l2, wf_line l1 -> wf_line l2 ->
  (snd (segment_intersect l1 l2) = snd (segment_intersect l2 l1) /\
   same_point (fst (segment_intersect l1 l2)) (fst (segment_intersect l2 l1))) /\
  (snd (line_intersect l1 l2) = snd (line_intersect l2 l1) /\
   same_point (fst (line_intersect l1 l2)) (fst (line_intersect l2 l1))).
Proof. exact (fun l1 l2 A B => conj (segment_symmetric l1 l2 A B) (line_symmetric l1 l2 A B)). Qed.
Print Assumptions C46_symmetric.

(** Two segments are reported exactly if they are not parallel and meet; two
    lines exactly if they are not parallel. *)
Theorem C46_exact : forall l1 l2, near_grid l1 l2 ->
  (snd (segment_intersect l1 l2) = true <-> ~ parallel l1 l2 /\ exists p, on_segment l1 p /\ on_segment l2 p) /\
  (snd (line_intersect l1 l2) = true <-> ~ parallel l1 l2).
Proof. exact segment_exact. Qed.
Print Assumptions C46_exact.

(** The reported point is the common point, each coordinate correctly rounded,
    and lies in the bounding boxes of both segments. *)
Theorem C46_point : forall l1 l2 q, small_grid l1 l2 -> segment_intersect l1 l2 = (q, true) ->
  (exists p, on_segment l1 p /\ on_segment l2 p /\
     f64_finite (fst q) = true /\ f64_finite (snd q) = true /\
     f64_R (fst q) = rnd (fst p) /\ f64_R (snd q) = rnd (snd p)) /\
  in_box l1 q /\ in_box l2 q.
Proof. exact segment_point. Qed.
Print Assumptions C46_point.

Theorem C46_line_point : forall l1 l2, small_grid l1 l2 -> ~ parallel l1 l2 ->
  exists p, on_line l1 p /\ on_line l2 p /\
    exists q, line_intersect l1 l2 = (q, true) /\ f64_finite (fst q) = true /\ f64_finite (snd q) = true /\
      f64_R (fst q) = rnd (fst p) /\ f64_R (snd q) = rnd (snd p).
Proof. exact point_exact. Qed.
Print Assumptions C46_line_point.

(** All words: the point of two segments is the point of their lines. *)
Theorem C46_same_point : forall l1 l2, snd (segment_intersect l1 l2) = true ->
  line_intersect l1 l2 = (fst (segment_intersect l1 l2), true).
Proof. exact segment_line. Qed.
Print Assumptions C46_same_point.

Example C46_nonvacuous :
  let x := zline ((0, 0), (4, 4))%Z in
  small_grid x (zline ((0, 3), (6, 0))%Z) /\ segment_intersect x (zline ((0, 3), (6, 0))%Z) = (zpt (2, 2)%Z, true) /\
  segment_intersect x (zline ((0, 9), (9, 0))%Z) = ((f64_div (f64_ofZ 9) (f64_ofZ 2), f64_div (f64_ofZ 9) (f64_ofZ 2)), false) /\
  segment_intersect x (zline ((4, 4), (5, 0))%Z) = (zpt (4, 4)%Z, true) /\
  are_lines_colinear (zline ((0, 1), (7, 1))%Z) (zline ((5, 1), (9, 1))%Z) = true.
Proof. exact intersect_examples. Qed.

(** ** C78: AreLinesColinear *)
(** It looks for an end of the second line in the bounding box of the first. *)
Theorem C78_exact : forall l1 l2, near_grid l1 l2 ->
  are_lines_colinear l1 l2 = true <-> parallel l1 l2 /\ exists p, In p (ends l2) /\ in_box l1 p.
Proof. exact colinear_exact. Qed.
Print Assumptions C78_exact.

(** Which is an end on the first line if that is horizontal or vertical. *)
Theorem C78_axis_partial : forall l1 l2, near_grid l1 l2 ->
  f64_R (fst (fst l1)) = f64_R (fst (snd l1)) \/ f64_R (snd (fst l1)) = f64_R (snd (snd l1)) ->
  are_lines_colinear l1 l2 = true <-> parallel l1 l2 /\ exists p, In p (ends l2) /\ on_segment l1 (rpt p).
Proof. exact colinear_axis. Qed.
Print Assumptions C78_axis_partial.

(** Otherwise parallel lines without a common point can be called colinear, *)
Theorem C78_apart_refuted : exists l1 l2,
  near_grid l1 l2 /\ are_lines_colinear l1 l2 = true /\ forall p, ~ (on_line l1 p /\ on_line l2 p).
Proof. exact colinear_apart. Qed.
Print Assumptions C78_apart_refuted.

(** and a segment inside the other is not colinear with it, but the other way round it is. *)
Theorem C78_inside_refuted : exists l1 l2,
  near_grid l1 l2 /\ (forall p, on_segment l1 p -> on_segment l2 p) /\
  are_lines_colinear l1 l2 = false /\ are_lines_colinear l2 l1 = true.
Proof. exact colinear_inside. Qed.
Print Assumptions C78_inside_refuted.

(** ** C79: shared end points, and coordinates of any size *)
(** Segments which share an end point, the first of at least one of them, are
    reported if their lines are. *)
Theorem C79_shared_partial : forall l1 l2, moderate l1 -> moderate l2 ->
  rpt (fst l1) = rpt (fst l2) \/ rpt (snd l1) = rpt (fst l2) \/ rpt (fst l1) = rpt (snd l2) ->
  snd (line_intersect l1 l2) = true -> snd (segment_intersect l1 l2) = true.
Proof. exact shared_start. Qed.
Print Assumptions C79_shared_partial.

(** If they share their last points the crossing can be missed. *)
Theorem C79_shared_refuted : exists l1 l2,
  moderate l1 /\ moderate l2 /\ snd l1 = snd l2 /\
  snd (line_intersect l1 l2) = true /\ snd (segment_intersect l1 l2) = false.
Proof. exact missed_end. Qed.
Print Assumptions C79_shared_refuted.

(** Far from the origin the reported point can lie outside both bounding boxes. *)
Theorem C79_point_refuted : exists l1 l2 q,
  near_grid l1 l2 /\ segment_intersect l1 l2 = (q, true) /\ ~ in_box l1 q /\ ~ in_box l2 q.
Proof. exact far_point. Qed.
Print Assumptions C79_point_refuted.

Example C79_nonvacuous : moderate line_a /\ moderate line_b' /\ snd line_a = fst line_b' /\
  snd (line_intersect line_a line_b') = true /\ snd (segment_intersect line_a line_b') = true.
Proof. exact found_end. Qed.
