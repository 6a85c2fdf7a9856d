(** * C122 to C125: triangulating a polygon (pseudopolygon.Triangulate)

    This file contains only statements; the proofs are in P_Pseudo.v to
    P_Pseudo8.v, the vocabulary in S_Pseudo.v. *)
From Coq Require Import ZArith Bool List Lia Reals.
From Verif Require Import Base_Res Base_F64 Base_F64Arith Base_Geom M_Cmp M_Winding M_Walker M_Pseudo
  S_Intersect S_Winding S_Walker S_Pseudo P_Pseudo3 P_Pseudo5 P_Pseudo6 P_Pseudo7 P_Pseudo8.
Import ListNotations.
Local Open Scope nat_scope.

(** ** C122: the lines are a triangulation of the polygon *)

(** If the points are distinct and Triangulate returns lines, then these are the
    sides of the polygon and chords of it which do not cross, and there is no chord
    left to add. *)
Theorem C122_triangulation : forall ypd pts lines, distinct pts -> 3 <= length pts -> triangulate_points ypd pts = Ok lines ->
  exists E, triangulation (length pts) E /\
    lines = map (fun e => (nth (fst e) pts (f64_zero, f64_zero), nth (snd e) pts (f64_zero, f64_zero))) E.
Proof. exact triangulates. Qed.
Print Assumptions C122_triangulation.
Example C122_nonvacuous : distinct (map fpt ex_crossed) /\ 3 <= length (map fpt ex_crossed) /\
  exists lines, triangulate_points false (map fpt ex_crossed) = Ok lines.
Proof. split; [exact ex_crossed_distinct|]. split; [cbn; lia|]. destruct ex_crossed_lines as (l & H & _). now exists l. Qed.

(** ** C123: it ends, with lines between the points *)

Theorem C123_ends : forall ypd pts, Forall finite_pt pts -> triangulate_points ypd pts <> Err EOutOfFuel.
Proof. exact always_ends. Qed.
Print Assumptions C123_ends.

Theorem C123_joins : forall ypd pts lines, Forall finite_pt pts -> triangulate_points ypd pts = Ok lines ->
  forall l, In l lines -> joins pts l.
Proof. exact lines_join. Qed.
Print Assumptions C123_joins.

(** On small integer points, repeated or not, it returns lines, "too small" or
    "colinear"; it does not panic and CircleFromPoints returns. *)
Theorem C123_safe : forall ypd r, small_polygon r ->
  (exists lines, triangulate_points ypd (map fpt r) = Ok lines) \/
  triangulate_points ypd (map fpt r) = Err ETooSmall \/ triangulate_points ypd (map fpt r) = Err EAllColinear.
Proof. exact small_outcomes. Qed.
Print Assumptions C123_safe.
Example C123_nonvacuous : small_polygon ex_lost /\ Forall finite_pt (map fpt ex_lost) /\
  exists lines, triangulate_points false (map fpt ex_lost) = Ok lines.
Proof. split; [exact ex_lost_small|]. split; [exact (small_finite _ ex_lost_small)|]. eexists. exact ex_lost_lines. Qed.

(** ** C124: convex polygons *)

(** Every strictly convex polygon of small integer points is triangulated, and no
    two of the lines cross. *)
Theorem C124_convex : forall ypd r, convex r -> small_polygon r -> 3 <= length r ->
  exists E, triangulation (length r) E /\
    triangulate_points ypd (map fpt r) = Ok (map (fun e => (fpt (nth (fst e) r (0, 0)%Z), fpt (nth (snd e) r (0, 0)%Z))) E) /\
    forall e f, In e E -> In f E ->
      ~ proper_crossing (nth (fst e) r (0, 0)%Z) (nth (snd e) r (0, 0)%Z) (nth (fst f) r (0, 0)%Z) (nth (snd f) r (0, 0)%Z).
Proof. exact convex_triangulated. Qed.
Print Assumptions C124_convex.
Example C124_nonvacuous : convex ex_convex /\ small_polygon ex_convex /\ 3 <= length ex_convex.
Proof. split; [exact ex_convex_convex|]. split; [exact ex_convex_small|cbn; lia]. Qed.

(** ** C125: every simple polygon (refuted) *)

(** A ring that ends in its first point is rejected, whatever its other points. *)
Theorem C125_closed_refuted : forall ypd p rest, distinct (p :: rest) -> rest <> [] ->
  triangulate_points ypd (p :: rest ++ [p]) =
    match triangulate_points ypd (p :: rest) with Ok _ => Err ETooSmall | Err e => Err e | Panic => Panic end.
Proof. exact closed_ring. Qed.
Print Assumptions C125_closed_refuted.

(** Lines for a simple polygon may cross its sides. *)
Theorem C125_crossing_refuted : exists r, simple_polygon r /\ small_polygon r /\
  exists lines a b c d, triangulate_points false (map fpt r) = Ok lines /\
    In (fpt a, fpt b) lines /\ In (fpt c, fpt d) lines /\ proper_crossing a b c d.
Proof. exact crossing_lines. Qed.
Print Assumptions C125_crossing_refuted.

(** A polygon with area is reported as colinear if three points in a row are. *)
Theorem C125_colinear_refuted : exists r, small_polygon r /\ area2 r <> 0%Z /\
  triangulate_points false (map fpt r) = Err EAllColinear.
Proof. exact colinear_run. Qed.
Print Assumptions C125_colinear_refuted.

(** The triangulation of a convex polygon need not be Delaunay: a corner may be
    inside the circle of a triangle. *)
Theorem C125_delaunay_refuted : exists r, convex r /\ small_polygon r /\
  exists lines a b c p, triangulate_points false (map fpt r) = Ok lines /\
    In (fpt a, fpt b) lines /\ In (fpt a, fpt c) lines /\ In (fpt c, fpt b) lines /\ In p r /\ in_circle b c a p.
Proof. exact not_delaunay. Qed.
Print Assumptions C125_delaunay_refuted.

(** If what is left around an inner ring is a line, the lines of the inner ring are
    lost: all but one of the sides are missing. *)
Theorem C125_lost_refuted : exists r, small_polygon r /\ length r = 5 /\ area2 r <> 0%Z /\
  exists a b, triangulate_points false (map fpt r) = Ok [(fpt a, fpt b)].
Proof. exact lost_ring. Qed.
Print Assumptions C125_lost_refuted.
