(** * Specification of inserting a point into a triangulation *)
From Coq Require Import Bool List Arith ZArith.
From Verif Require Import Base_F64 Base_Geom S_Winding M_Quadedge S_Quadedge S_Subdivision S_ResolveEdge.
Import ListNotations.
Open Scope Z_scope.

(** The graph of [se] is a triangulation of its points: edges with two ends, points
    which are equal exactly at the same vertex, three edges around every face (the
    outer one too). *)
Definition triangulation (m : mem (point f64)) (se : edge) : Prop :=
  history m /\ primal m se /\ labelled m se /\ loop_free m se /\ all_triangles m se.
Definition vertex_of (m : mem (point f64)) (se : edge) (p : point f64) : Prop :=
  exists a, connected m se a /\ orig m a = Some p.
(** The points are integers for which the float64 arithmetic is exact. *)
Definition integral (m : mem (point f64)) (se : edge) : Prop :=
  forall p, vertex_of m se p -> exists z, moderate z /\ p = fpt z.

(** Seen from [x], the ends of the edge and the third corners of the two triangles
    beside it follow each other counter-clockwise: origin, right corner,
    destination, left corner. *)
Definition around (ypd : bool) (m : mem (point f64)) (x : Z * Z) (e : edge) : Prop :=
  exists p q r s, corners m e (fpt p, fpt q, fpt r) /\ corners m (sym e) (fpt q, fpt p, fpt s)
  /\ moderate p /\ moderate q /\ moderate r /\ moderate s
  /\ 0 < cross (vec ypd x p) (vec ypd x s) /\ 0 < cross (vec ypd x s) (vec ypd x q)
  /\ 0 < cross (vec ypd x q) (vec ypd x r) /\ 0 < cross (vec ypd x r) (vec ypd x p).
(** The corners are counter-clockwise. *)
Definition ccw_triangle (ypd : bool) (p q r : Z * Z) : Prop := 0 < cross (vec ypd p q) (vec ypd p r).
(** [x] lies strictly between [p] and [q]. *)
Definition inside_segment (x p q : Z * Z) : Prop :=
  exists k n, 0 < k < n /\ n * fst x = n * fst p + k * (fst q - fst p) /\ n * snd x = n * snd p + k * (snd q - snd p).
