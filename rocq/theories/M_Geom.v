(** * Model of geometry traversal (geom.go, utils.go, line_string.go, polygon.go,
    multi_line_string.go, multi_polygon.go)

    Slices are lists (nil = empty).  Type switches over interfaces become a
    match on [geom]. *)
From Coq Require Import ZArith Bool List.
From Verif Require Import Base_Res Base_F64 Base_Geom.
Import ListNotations.

Definition line : Type := (point f64 * point f64)%type.

(** geom.go 323-398, getCoordinates/GetCoordinates: the points appended to
    [*pts] and whether an error is returned.  Points appended before the error
    are returned with it.  The calls on LineString(ls) and Polygon(p) are
    inlined: they append the points of [ls], resp. of the rings of [p]. *)
Fixpoint get_coordinates (g : geom f64) {struct g} : list (point f64) * bool :=
  match g with
  | GPoint p => ([p], false)
  | GMultiPoint ps => (ps, false)
  | GLineString ps => (ps, false)
  | GMultiLineString ls => (concat ls, false)
  | GPolygon rs => (concat rs, false)
  | GMultiPolygon pls => (concat (map (@concat _) pls), false)
  | GCollection gs =>
      (fix members (l : list (geom f64)) : list (point f64) * bool :=
         match l with
         | [] => ([], false)
         | x :: xs =>
             let (a, e) := get_coordinates x in
             if e then (a, true)
             else let (b, e') := members xs in (a ++ b, e')
         end) gs
  | GUnknown => ([], true)
  end.

(** line_string.go 25-31, IsRing *)
Definition is_ring (ls : list (point f64)) : bool :=
  if (1 <? length ls)%nat then
    match nth_error ls 0, nth_error ls (length ls - 1) with
    | Some p, Some q => f64_eq (fst p) (fst q) && f64_eq (snd p) (snd q)
    | _, _ => false (* unreachable *)
    end
  else false.

(** geom.go 479-482: [for i := 0; i < len(v)-1; i++ { append(Line{v[i], v[i+1]}) }] *)
Fixpoint consecutive {A} (v : list A) : list (A * A) :=
  match v with
  | p :: ((q :: _) as tl) => (p, q) :: consecutive tl
  | _ => []
  end.

(** geom.go 496-506: the lines of one ring. *)
Definition ring_lines (v : list (point f64)) : list line :=
  consecutive v ++
  (if (2 <? length v)%nat && negb (is_ring v) then
     match nth_error v (length v - 1), nth_error v 0 with
     | Some q, Some p => [(q, p)]
     | _, _ => [] (* unreachable *)
     end
   else []).

(** geom.go 462-538, extractLines/ExtractLines: the lines appended and whether
    an error is returned. *)
Fixpoint extract_lines (g : geom f64) {struct g} : list line * bool :=
  match g with
  | GPoint _ => ([], false)
  | GMultiPoint _ => ([], false)
  | GLineString ps => (consecutive ps, false)
  | GMultiLineString ls => (flat_map consecutive ls, false)
  | GPolygon rs => (flat_map ring_lines rs, false)
  | GMultiPolygon pls => (flat_map (flat_map ring_lines) pls, false)
  | GCollection gs =>
      (fix members (l : list (geom f64)) : list line * bool :=
         match l with
         | [] => ([], false)
         | x :: xs =>
             let (a, e) := extract_lines x in
             if e then (a, true)
             else let (b, e') := members xs in (a ++ b, e')
         end) gs
  | GUnknown => ([], true)
  end.

(** line_string.go 46-61, LineString.AsSegments; None is the error. *)
Definition ls_as_segments (ls : list (point f64)) : option (list line) :=
  match ls with
  | [] => Some []
  | [_] => None
  | [a; b] => Some [(a, b)]
  | _ => Some (consecutive ls)
  end.

(** multi_line_string.go 27-40 *)
Fixpoint mls_as_segments (mls : list (list (point f64))) : option (list (list line)) :=
  match mls with
  | [] => Some []
  | ls :: tl =>
      match ls_as_segments ls with
      | None => None
      | Some ss => option_map (cons ss) (mls_as_segments tl)
      end
  end.

(** polygon.go 56-62: subr[j] = Line{p[i][pj], p[i][j]} with pj the previous
    index, starting at the last one. *)
Fixpoint chain_from (prev : point f64) (r : list (point f64)) : list line :=
  match r with
  | [] => []
  | p :: tl => (prev, p) :: chain_from p tl
  end.

(** polygon.go 46-64: one ring. *)
Definition ring_segments (r : list (point f64)) : list (list line) :=
  match length r with
  | 0%nat | 1%nat | 2%nat => []
  | S n =>
      match nth_error r n with
      | Some lst => [chain_from lst r]
      | None => [] (* unreachable *)
      end
  end.

(** polygon.go 38-67, Polygon.AsSegments (never an error). *)
Definition polygon_as_segments (p : list (list (point f64))) : list (list line) :=
  flat_map ring_segments p.

(** multi_polygon.go 27-41 *)
Definition mp_as_segments (mp : list (list (list (point f64)))) : list (list (list line)) :=
  map polygon_as_segments mp.

(** ** utils.go 6-110, ApplyToPoints

    [f] may have side effects: it is a function of a state [S] (anything it
    closes over) and of the coordinates, returning the new state and either an
    error (None) or a slice.  A panic of [f] is not modelled.  The error value
    is one of the three kinds below (the nesting of "got error converting ..."
    messages is dropped).  The recursive calls on LineString(line) and
    Polygon(poly) are the functions below, and the type assertions that follow
    them cannot fail. *)
Inductive apply_err := AE_unknown | AE_f | AE_short.

Section Apply.
  Context {C S : Type}.
  Variable f : S -> list C -> S * option (list C).

  (** utils.go 25-32 *)
  Definition apply_pt (s : S) (p : point C) : S * res apply_err (point C) :=
    let (s', r) := f s [fst p; snd p] in
    match r with
    | None => (s', Err AE_f)
    | Some (x :: y :: _) => (s', Ok (x, y))
    | Some _ => (s', Err AE_short)
    end.

  (** A loop over a slice that stops at the first error. *)
  Fixpoint apply_each {A B} (h : S -> A -> S * res apply_err B) (s : S) (l : list A)
    : S * res apply_err (list B) :=
    match l with
    | [] => (s, Ok [])
    | a :: tl =>
        let (s1, r) := h s a in
        match r with
        | Ok b => let (s2, r') := apply_each h s1 tl in (s2, map_res (cons b) r')
        | Err e => (s1, Err e)
        | Panic => (s1, Panic)
        end
    end.

  Definition apply_line := apply_each apply_pt.         (* utils.go 36-48 *)
  Definition apply_lines := apply_each apply_line.      (* utils.go 50-88 *)
  Definition apply_polys := apply_each apply_lines.     (* utils.go 90-108 *)

  (** The switch is on concrete types: a Collection, or any other value, is
      "unknown Geometry" (utils.go 8-9). *)
  Definition apply_to_points (s : S) (g : geom C) : S * res apply_err (geom C) :=
    match g with
    | GPoint p => let (s', r) := apply_pt s p in (s', map_res GPoint r)
    | GMultiPoint ps => let (s', r) := apply_line s ps in (s', map_res GMultiPoint r)
    | GLineString ps => let (s', r) := apply_line s ps in (s', map_res GLineString r)
    | GMultiLineString ls => let (s', r) := apply_lines s ls in (s', map_res GMultiLineString r)
    | GPolygon rs => let (s', r) := apply_lines s rs in (s', map_res GPolygon r)
    | GMultiPolygon pls => let (s', r) := apply_polys s pls in (s', map_res GMultiPolygon r)
    | GCollection _ | GUnknown => (s, Err AE_unknown)
    end.
End Apply.

(** ** utils.go 113-192, Clone, with storage made visible

    A slice is a backing-array address and its elements.  [make] takes a fresh
    address from the counter. *)
Inductive slice (A : Type) : Type := Slice (addr : nat) (elems : list A).
Arguments Slice {A} addr elems.
Definition elems {A} (s : slice A) : list A := let (_, l) := s in l.

Inductive hgeom (C : Type) : Type :=
| HPoint (p : point C)
| HMultiPoint (ps : slice (point C))
| HLineString (ps : slice (point C))
| HMultiLineString (ls : slice (slice (point C)))
| HPolygon (rs : slice (slice (point C)))
| HMultiPolygon (pls : slice (slice (slice (point C))))
| HOther (g : geom C).  (* Collection and unknown values *)
Arguments HPoint {C} p.
Arguments HMultiPoint {C} ps.
Arguments HLineString {C} ps.
Arguments HMultiLineString {C} ls.
Arguments HPolygon {C} rs.
Arguments HMultiPolygon {C} pls.
Arguments HOther {C} g.

Section Clone.
  Context {C : Type}.
  (** utils.go 121-133: make, then copy the elements. *)
  Definition clone_pts (a : nat) (s : slice (point C)) : nat * slice (point C) :=
    (S a, Slice a (elems s)).
  (** A loop over a slice of slices, cloning each (utils.go 137-151, 157-170,
      175-189): the outer array is made first. *)
  Fixpoint clone_each {A B} (h : nat -> A -> nat * B) (a : nat) (l : list A) : nat * list B :=
    match l with
    | [] => (a, [])
    | x :: tl =>
        let (a1, y) := h a x in
        let (a2, ys) := clone_each h a1 tl in (a2, y :: ys)
    end.
  Definition clone_nest {A B} (h : nat -> A -> nat * B) (a : nat) (s : slice A) : nat * slice B :=
    let (a', l) := clone_each h (S a) (elems s) in (a', Slice a l).

  Definition clone (a : nat) (g : hgeom C) : nat * option (hgeom C) :=
    match g with
    | HPoint p => (a, Some (HPoint p))
    | HMultiPoint ps => let (a', s) := clone_pts a ps in (a', Some (HMultiPoint s))
    | HLineString ps => let (a', s) := clone_pts a ps in (a', Some (HLineString s))
    | HMultiLineString ls =>
        let (a', s) := clone_nest clone_pts a ls in (a', Some (HMultiLineString s))
    | HPolygon rs => let (a', s) := clone_nest clone_pts a rs in (a', Some (HPolygon s))
    | HMultiPolygon pls =>
        let (a', s) := clone_nest (clone_nest clone_pts) a pls in (a', Some (HMultiPolygon s))
    | HOther _ => (a, None)
    end.
End Clone.
