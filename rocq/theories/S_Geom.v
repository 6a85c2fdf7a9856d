(** * Specification vocabulary for traversal theorems *)
From Coq Require Import ZArith Bool List.
From Verif Require Import Base_F64 Base_Geom M_Geom.
Import ListNotations.

(** All coordinates of a geometry, in storage order (unknown values have none). *)
Fixpoint coords {C} (g : geom C) : list (point C) :=
  match g with
  | GPoint p => [p]
  | GMultiPoint ps | GLineString ps => ps
  | GMultiLineString ls => concat ls
  | GPolygon rs => concat rs
  | GMultiPolygon pls => concat (concat pls)
  | GCollection gs => flat_map coords gs
  | GUnknown => []
  end.

(** Some leaf of the geometry is not a known kind of geometry. *)
Fixpoint unknown_inside {C} (g : geom C) : bool :=
  match g with
  | GCollection gs => existsb unknown_inside gs
  | GUnknown => true
  | _ => false
  end.

(** What a geometry draws, in storage order: open polylines and rings. *)
Inductive path (C : Type) := Open (v : list (point C)) | Ring (v : list (point C)).
Arguments Open {C} v.
Arguments Ring {C} v.
Fixpoint paths {C} (g : geom C) : list (path C) :=
  match g with
  | GLineString ps => [Open ps]
  | GMultiLineString ls => map Open ls
  | GPolygon rs => map Ring rs
  | GMultiPolygon pls => map Ring (concat pls)
  | GCollection gs => flat_map paths gs
  | GPoint _ | GMultiPoint _ | GUnknown => []
  end.

(** [segment_at v i s]: [s] joins vertex [i] of [v] to the next one. *)
Definition segment_at {A} (v : list A) (i : nat) (s : A * A) : Prop :=
  nth_error v i = Some (fst s) /\ nth_error v (S i) = Some (snd s).

Definition ring_closed (r : list (point f64)) : bool :=
  match r with
  | p :: ((_ :: _) as tl) =>
      f64_eq (fst p) (fst (last tl p)) && f64_eq (snd p) (snd (last tl p))
  | _ => false
  end.

(** [l] lists the segments between consecutive vertices of [v]. *)
Definition segments_between {A} (v : list A) (l : list (A * A)) : Prop :=
  length l = (length v - 1)%nat /\
  forall i s, nth_error l i = Some s <-> segment_at v i s.

(** The segments of one path: a ring of more than two vertices whose last
    vertex is not its first also has the segment closing it. *)
Definition path_lines (p : path f64) (l : list (point f64 * point f64)) : Prop :=
  match p with
  | Open v => segments_between v l
  | Ring v =>
      exists l', segments_between v l' /\
      if ((2 <? length v)%nat && negb (ring_closed v))%bool
      then exists first mid lst, v = first :: mid ++ [lst] /\ l = l' ++ [(lst, first)]
      else l = l'
  end.

(** [c] is a closed chain of segments through the vertices [r]: its segments end
    at the vertices in order, each starting where the previous one ends, the
    first one at the last vertex. *)
Definition closed_chain {A} (r : list A) (c : list (A * A)) : Prop :=
  exists init lst, r = init ++ [lst] /\ map snd c = r /\ map fst c = lst :: init.

(** Same kind, same shape. *)
Definition same_lengths {A B} (l : list A) (m : list B) : Prop := length l = length m.
Inductive same_shape {C} : geom C -> geom C -> Prop :=
| SS_Point p q : same_shape (GPoint p) (GPoint q)
| SS_MultiPoint ps qs : length ps = length qs -> same_shape (GMultiPoint ps) (GMultiPoint qs)
| SS_LineString ps qs : length ps = length qs -> same_shape (GLineString ps) (GLineString qs)
| SS_MultiLineString ls ms : Forall2 same_lengths ls ms ->
    same_shape (GMultiLineString ls) (GMultiLineString ms)
| SS_Polygon ls ms : Forall2 same_lengths ls ms -> same_shape (GPolygon ls) (GPolygon ms)
| SS_MultiPolygon ls ms : Forall2 (Forall2 same_lengths) ls ms ->
    same_shape (GMultiPolygon ls) (GMultiPolygon ms).

(** Concrete kinds handled by Clone and ApplyToPoints. *)
Definition basic_kind {C} (g : geom C) : bool :=
  match g with GCollection _ | GUnknown => false | _ => true end.

(** Run [f] over a list of points, left to right, stopping at the first
    failure: [None] if it fails, the images otherwise; and the final state. *)
Inductive run_f {C S} (f : S -> list C -> S * option (list C))
  : S -> list (point C) -> S -> option (list (point C)) -> Prop :=
| RF_nil s : run_f f s [] s (Some [])
| RF_step s s1 s2 p x y more tl r :
    f s [fst p; snd p] = (s1, Some (x :: y :: more)) ->
    run_f f s1 tl s2 r ->
    run_f f s (p :: tl) s2 (option_map (cons (x, y)) r)
| RF_error s s1 p tl : f s [fst p; snd p] = (s1, None) -> run_f f s (p :: tl) s1 None
| RF_short s s1 p tl out :
    f s [fst p; snd p] = (s1, Some out) -> (length out < 2)%nat ->
    run_f f s (p :: tl) s1 None.

(** The value of a geometry with storage, and the addresses it occupies. *)
Definition val {C} (g : hgeom C) : geom C :=
  match g with
  | HPoint p => GPoint p
  | HMultiPoint s => GMultiPoint (elems s)
  | HLineString s => GLineString (elems s)
  | HMultiLineString s => GMultiLineString (map elems (elems s))
  | HPolygon s => GPolygon (map elems (elems s))
  | HMultiPolygon s => GMultiPolygon (map (fun p => map elems (elems p)) (elems s))
  | HOther g => g
  end.
Definition addr1 {A} (s : slice A) : list nat := let (a, _) := s in [a].
Definition addr2 {A} (s : slice (slice A)) : list nat := addr1 s ++ flat_map addr1 (elems s).
Definition addr3 {A} (s : slice (slice (slice A))) : list nat := addr1 s ++ flat_map addr2 (elems s).
Definition addrs {C} (g : hgeom C) : list nat :=
  match g with
  | HPoint _ | HOther _ => []
  | HMultiPoint s | HLineString s => addr1 s
  | HMultiLineString s | HPolygon s => addr2 s
  | HMultiPolygon s => addr3 s
  end.

