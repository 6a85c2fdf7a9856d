(** * Specification: Delaunay triangulations *)
From Coq Require Import Bool List Arith ZArith.
From Verif Require Import Base_F64 Base_Geom S_Winding M_Quadedge S_Quadedge S_Subdivision S_ResolveEdge S_Insert.
Import ListNotations.
Open Scope Z_scope.

(** The square of the distance of [v] from the point with the coordinates [cx/n] and
    [cy/n], times [n] squared. *)
Definition dist2 (n cx cy : Z) (v : Z * Z) : Z :=
  (n * fst v - cx) * (n * fst v - cx) + (n * snd v - cy) * (n * snd v - cy).
(** [v] is strictly inside a circle through [p], [q] and [r]. *)
Definition inside_circle (p q r v : Z * Z) : Prop :=
  exists n cx cy, 0 < n /\ dist2 n cx cy p = dist2 n cx cy q /\ dist2 n cx cy p = dist2 n cx cy r
  /\ dist2 n cx cy v < dist2 n cx cy p.
(** No vertex is inside the circle around a triangle, for vertices of moderate size,
    where [fpt] is exact. *)
Definition delaunay (ypd : bool) (m : mem (point f64)) (se : edge) : Prop :=
  forall e p q r v, moderate p -> moderate q -> moderate r -> moderate v -> connected m se e -> corners m e (fpt p, fpt q, fpt r) -> ccw_triangle ypd p q r ->
    vertex_of m se (fpt v) -> ~ inside_circle p q r v.
