(** * Specification vocabulary for simplification *)
From Coq Require Import ZArith Bool List.
From Verif Require Import Base_F64 Base_Geom M_Geom M_Simplify.
Import ListNotations.

(** [keeps l r]: [r] walks along [l] from its first vertex to its last, skipping
    only vertices that are not farther than the tolerance from the segment that
    replaces them. *)
Inductive keeps (dist : line -> pt -> f64) (tolerance : f64) : list pt -> list pt -> Prop :=
| keeps_none : keeps dist tolerance [] []
| keeps_one p : keeps dist tolerance [p] [p]
| keeps_segment p skipped q rest r :
    Forall (fun v => f64_gt (dist (p, q) v) tolerance = false) skipped ->
    keeps dist tolerance (q :: rest) (q :: r) ->
    keeps dist tolerance (p :: skipped ++ q :: rest) (p :: q :: r).

(** [far l v mid]: [v] is the first of the vertices of [mid] farthest from [l]. *)
Definition first_farthest (dist : line -> pt -> f64) (l : line) (before : list pt) (v : pt) (after : list pt) : Prop :=
  Forall (fun u => f64_gt (dist l v) (dist l u) = true \/ f64_isnan (dist l u) = true) before /\
  Forall (fun u => f64_gt (dist l u) (dist l v) = false) after.

(** The recursive definition of the algorithm: split at the farthest vertex
    while it is beyond the tolerance. *)
Inductive rdp (dist : line -> pt -> f64) (tolerance : f64) : list pt -> list pt -> Prop :=
| rdp_short l : (length l <= 2)%nat -> rdp dist tolerance l l
| rdp_flat p mid q : mid <> [] ->
    Forall (fun v => f64_gt (dist (p, q) v) tolerance = false) mid ->
    rdp dist tolerance (p :: mid ++ [q]) [p; q]
| rdp_split p mid1 v mid2 q s1 s2 :
    f64_gt (dist (p, q) v) tolerance = true ->
    first_farthest dist (p, q) mid1 v mid2 ->
    rdp dist tolerance (p :: mid1 ++ [v]) (s1 ++ [v]) ->
    rdp dist tolerance (v :: mid2 ++ [q]) s2 ->
    rdp dist tolerance (p :: mid1 ++ v :: mid2 ++ [q]) (s1 ++ s2).

(** Same kind and number of parts, each part related to the corresponding one. *)
Inductive same_structure (line_rel ring_rel : list pt -> list pt -> Prop) : geom f64 -> geom f64 -> Prop :=
| st_point p : same_structure line_rel ring_rel (GPoint p) (GPoint p)
| st_multipoint ps : same_structure line_rel ring_rel (GMultiPoint ps) (GMultiPoint ps)
| st_unknown : same_structure line_rel ring_rel GUnknown GUnknown
| st_line l l' : line_rel l l' -> same_structure line_rel ring_rel (GLineString l) (GLineString l')
| st_multiline ls ls' : Forall2 line_rel ls ls' ->
    same_structure line_rel ring_rel (GMultiLineString ls) (GMultiLineString ls')
| st_polygon rs rs' : Forall2 ring_rel rs rs' ->
    same_structure line_rel ring_rel (GPolygon rs) (GPolygon rs')
| st_multipolygon ps ps' : Forall2 (Forall2 ring_rel) ps ps' ->
    same_structure line_rel ring_rel (GMultiPolygon ps) (GMultiPolygon ps')
| st_collection gs gs' : Forall2 (same_structure line_rel ring_rel) gs gs' ->
    same_structure line_rel ring_rel (GCollection gs) (GCollection gs').

(** Left-over in the original order. *)
Inductive subsequence {A} : list A -> list A -> Prop :=
| sub_nil : subsequence [] []
| sub_take x l m : subsequence l m -> subsequence (x :: l) (x :: m)
| sub_drop x l m : subsequence l m -> subsequence l (x :: m).


(** What becomes of a polygon ring: the simplifier's result, or nothing when that
    has no more than two points. *)
Definition ring_result (R : bool -> list pt -> list pt -> Prop) (l r : list pt) : Prop :=
  (R true l r /\ (2 < length r)%nat) \/ (r = [] /\ exists r', R true l r' /\ (length r' <= 2)%nat).

(** The number of points of a geometry. *)
Fixpoint points (g : geom f64) : nat :=
  match g with
  | GPoint _ => 1
  | GMultiPoint ps | GLineString ps => length ps
  | GMultiLineString ls | GPolygon ls => length (List.concat ls)
  | GMultiPolygon ps => length (List.concat (List.concat ps))
  | GCollection gs => fold_right (fun g n => (points g + n)%nat) O gs
  | GUnknown => 0
  end.

