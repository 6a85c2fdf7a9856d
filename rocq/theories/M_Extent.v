(** * Model of bbox.go (Extent)

    A *Extent is an [option extent] (None = nil).  Sides are float64 words.
    Methods that update the receiver in place return the new value. *)
From Coq Require Import ZArith Bool List.
From Verif Require Import Base_Res Base_F64 Base_F64Arith Base_Geom M_Geom.
Import ListNotations.

(** bbox.go 29: [4]float64 minx, miny, maxx, maxy *)
Record extent := Ext { e0 : f64; e1 : f64; e2 : f64; e3 : f64 }.

(** bbox.go 62-91 *)
Definition maxX (e : option extent) : f64 := match e with None => f64_max | Some e => e2 e end.
Definition minX (e : option extent) : f64 := match e with None => f64_nmax | Some e => e0 e end.
Definition maxY (e : option extent) : f64 := match e with None => f64_max | Some e => e3 e end.
Definition minY (e : option extent) : f64 := match e with None => f64_nmax | Some e => e1 e end.

(** bbox.go 35-42, Vertices *)
Definition vertices (e : option extent) : list (point f64) :=
  [(minX e, minY e); (maxX e, minY e); (maxX e, maxY e); (minX e, maxY e)].

(** bbox.go 48-59, Edges; [cw] is the clockwise function, None when nil. *)
Definition edges (e : option extent) (cw : option (list (point f64) -> bool)) : list line :=
  let v := vertices e in
  let v := match cw with
           | Some f => if negb (f v) then rev v else v
           | None => v
           end in
  match v with
  | [a; b; c; d] => [(a, b); (b, c); (c, d); (d, a)]
  | _ => [] (* unreachable *)
  end.

(** bbox.go 105-118 *)
Definition xspan (e : option extent) : f64 :=
  match e with None => f64_pinf | Some e => f64_sub (e2 e) (e0 e) end.
Definition yspan (e : option extent) : f64 :=
  match e with None => f64_pinf | Some e => f64_sub (e3 e) (e1 e) end.

(** bbox.go 128-136, Add.  The argument is read through MinMaxer; here it is
    its four values. *)
Definition add_ext (e : option extent) (n : extent) : option extent :=
  match e with
  | None => None
  | Some e => Some (Ext (f64_min (e0 e) (e0 n)) (f64_min (e1 e) (e1 n))
                        (f64_maxf (e2 e) (e2 n)) (f64_maxf (e3 e) (e3 n)))
  end.

(** bbox.go 147-152, one iteration *)
Definition add_point1 (e : extent) (p : point f64) : extent :=
  Ext (f64_min (fst p) (e0 e)) (f64_min (snd p) (e1 e))
      (f64_maxf (fst p) (e2 e)) (f64_maxf (snd p) (e3 e)).

(** bbox.go 139-153, AddPoints *)
Definition add_points (e : option extent) (ps : list (point f64)) : option extent :=
  match e with None => None | Some e => Some (fold_left add_point1 ps e) end.

(** bbox.go 156-160, AddPointers (no nil pointer inside) *)
Definition add_pointers (e : option extent) (ps : list (point f64)) : option extent :=
  fold_left (fun e p => add_points e [p]) ps e.

(** geom.go 402-458, getExtent; also AddGeometry (bbox.go 163-165).  The flag is
    the error; on error the extent has already grown by what came before. *)
Fixpoint get_extent (g : geom f64) (e : option extent) {struct g} : option extent * bool :=
  match g with
  | GPoint p => (add_points e [p], false)
  | GMultiPoint ps => (add_points e ps, false)
  | GLineString ps => (add_points e ps, false)
  | GMultiLineString ls => (fold_left add_points ls e, false)
  | GPolygon rs => (fold_left add_points rs e, false)
  | GMultiPolygon pls => (fold_left (fun e rs => fold_left add_points rs e) pls e, false)
  | GCollection gs =>
      (fix members (l : list (geom f64)) (e : option extent) : option extent * bool :=
         match l with
         | [] => (e, false)
         | x :: xs =>
             let (e', bad) := get_extent x e in
             if bad then (e', true) else members xs e'
         end) gs e
  | GUnknown => (e, true)
  end.
Definition add_geometry (e : option extent) (g : geom f64) := get_extent g e.

(** bbox.go 168 *)
Definition as_polygon (e : option extent) : geom f64 := GPolygon [vertices e].

(** bbox.go 171-173 (the comment says a nil extent has area 0; the code
    computes with +-MaxFloat64) *)
Definition area (e : option extent) : f64 :=
  f64_abs (f64_mul (f64_sub (maxY e) (minY e)) (f64_sub (maxX e) (minX e))).

(** bbox.go 189-201: the body of the loop *)
Definition widen1 (e : extent) (p : point f64) : extent :=
  let e := if f64_lt (fst p) (e0 e) then Ext (fst p) (e1 e) (e2 e) (e3 e)
           else if f64_gt (fst p) (e2 e) then Ext (e0 e) (e1 e) (fst p) (e3 e)
           else e in
  if f64_lt (snd p) (e1 e) then Ext (e0 e) (snd p) (e2 e) (e3 e)
  else if f64_gt (snd p) (e3 e) then Ext (e0 e) (e1 e) (e2 e) (snd p)
  else e.

(** bbox.go 176-204, NewExtent, and 207-233, NewExtentFromPoints (same loop) *)
Definition new_extent (points : list (point f64)) : option extent :=
  match points with
  | [] => None
  | p :: tl => Some (fold_left widen1 tl (Ext (fst p) (snd p) (fst p) (snd p)))
  end.

(** bbox.go 236-250, NewExtentFromGeometry; None is the error. *)
Definition new_extent_from_geometry (g : geom f64) : option (option extent) :=
  let (pts, err) := get_coordinates g in
  if err then None
  else match pts with
       | [] => Some None
       | p :: _ => Some (add_pointers (Some (Ext (fst p) (snd p) (fst p) (snd p))) pts)
       end.

(** bbox.go 253-265, Contains, for a non-nil argument. *)
Definition contains (e : option extent) (n : extent) : bool :=
  match e with
  | None => true
  | Some e => f64_le (e0 e) (e0 n) && f64_ge (e2 e) (e2 n)
              && f64_le (e1 e) (e1 n) && f64_ge (e3 e) (e3 n)
  end.

(** bbox.go 268-275 *)
Definition contains_point (e : option extent) (p : point f64) : bool :=
  match e with
  | None => true
  | Some e => f64_le (e0 e) (fst p) && f64_le (fst p) (e2 e)
              && f64_le (e1 e) (snd p) && f64_le (snd p) (e3 e)
  end.

(** bbox.go 278-283 *)
Definition contains_line (e : option extent) (l : line) : bool :=
  match e with
  | None => true
  | Some _ => contains_point e (fst l) && contains_point e (snd l)
  end.

(** bbox.go 386-389 *)
Definition is_universe (e : option extent) : bool :=
  match e with
  | None => true
  | Some x => f64_eq (e0 x) f64_nmax && f64_eq (e2 x) f64_max
              && f64_eq (e1 x) f64_nmax && f64_eq (e3 x) f64_max
  end.

(** bbox.go 286-300, ContainsGeom; None is the error.  Of the modelled kinds
    only Point implements MinMaxer (point.go 48-57); an *Extent argument is
    [contains]. *)
Definition contains_geom (e : option extent) (g : geom f64) : option bool :=
  if is_universe e then Some true
  else match g with
       | GPoint p => Some (contains e (Ext (fst p) (snd p) (fst p) (snd p)))
       | _ =>
           let (ne, err) := add_geometry (Some (Ext 0 0 0 0)) g in
           if err then None
           else match ne with
                | Some n => Some (contains e n)
                | None => None (* unreachable: ne is new(Extent) *)
                end
       end.

(** bbox.go 303-311 and 314-322 *)
Definition scale_by (e : option extent) (s : f64) : option extent :=
  match e with
  | None => None
  | Some e => new_extent [(f64_mul (e0 e) s, f64_mul (e1 e) s); (f64_mul (e2 e) s, f64_mul (e3 e) s)]
  end.
Definition expand_by (e : option extent) (s : f64) : option extent :=
  match e with
  | None => None
  | Some e => new_extent [(f64_sub (e0 e) s, f64_sub (e1 e) s); (f64_add (e2 e) s, f64_add (e3 e) s)]
  end.

(** bbox.go 347-383, Intersect *)
Definition intersect (e n : option extent) : option extent * bool :=
  match e, n with
  | None, _ => (n, true)
  | _, None => (e, true)
  | Some a, Some b =>
      let minx := if f64_lt (e0 a) (e0 b) then e0 b else e0 a in
      let maxx := if f64_gt (e2 a) (e2 b) then e2 b else e2 a in
      if f64_ge minx maxx then (None, false)
      else
        let miny := if f64_lt (e1 a) (e1 b) then e1 b else e1 a in
        let maxy := if f64_gt (e3 a) (e3 b) then e3 b else e3 a in
        if f64_ge miny maxy then (None, false)
        else (Some (Ext minx miny maxx maxy), true)
  end.
