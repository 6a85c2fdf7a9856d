(** * Specification vocabulary for Mapbox vector tiles: geometry

    Written from the Mapbox vector tile specification 2.1, independently of the
    encoder. *)
From Coq Require Import ZArith Bool List.
From Verif Require Import Base_F64 Base_Geom S_Winding.
Import ListNotations.
Open Scope Z_scope.

Definition int32 (z : Z) : Prop := - 2 ^ 31 <= z < 2 ^ 31.
Definition uint32 (z : Z) : Prop := 0 <= z < 2 ^ 32.

(** A path of integer points the wire format can hold: every step from the
    cursor position (at first [c]) to the next point fits 32 bits. *)
Fixpoint steps_fit (c : Z * Z) (pts : list (Z * Z)) : Prop :=
  match pts with
  | [] => True
  | p :: tl => int32 (fst p - fst c) /\ int32 (snd p - snd c) /\ steps_fit p tl
  end.
(** Every coordinate is an integer that float64 holds exactly. *)
Definition exact_pts (pts : list (Z * Z)) : Prop :=
  Forall (fun p => Z.abs (fst p) <= 2 ^ 53 /\ Z.abs (snd p) <= 2 ^ 53) pts.
Definition fits (pts : list (Z * Z)) : Prop := steps_fit (0, 0) pts /\ exact_pts pts.

(** Number of repetitions a command can carry (29 bits). *)
Definition max_count : Z := 2 ^ 29.
Definition countable {A} (l : list A) : Prop := Z.of_nat (length l) < max_count.

(** The geometry as float64 values. *)
Fixpoint fgeom (g : geom (Z)) : geom f64 :=
  match g with
  | GPoint p => GPoint (fpt p)
  | GMultiPoint ps => GMultiPoint (map fpt ps)
  | GLineString ps => GLineString (map fpt ps)
  | GMultiLineString ls => GMultiLineString (map (map fpt) ls)
  | GPolygon rs => GPolygon (map (map fpt) rs)
  | GMultiPolygon pls => GMultiPolygon (map (map (map fpt)) pls)
  | GCollection gs => GCollection (map fgeom gs)
  | GUnknown => GUnknown
  end.

(** A tile cannot tell a multi-geometry with one member from the member. *)
Definition single_mp (ps : list (Z * Z)) : geom Z :=
  match ps with [p] => GPoint p | _ => GMultiPoint ps end.
Definition single_ml (ls : list (list (Z * Z))) : geom Z :=
  match ls with [l] => GLineString l | _ => GMultiLineString ls end.
Definition single_mpoly (pls : list (list (list (Z * Z)))) : geom Z :=
  match pls with [p] => GPolygon p | _ => GMultiPolygon pls end.

(** Rings in tile space (y down): an exterior ring has positive area by the
    surveyor's formula, an interior ring negative area. *)
Definition exterior (r : list (Z * Z)) : list (Z * Z) := if 0 <? area2 r then r else rev r.
Definition interior (r : list (Z * Z)) : list (Z * Z) := if area2 r <? 0 then r else rev r.
Definition has_area (r : list (Z * Z)) : bool := negb (area2 r =? 0).
Definition tile_polygon (rs : list (list (Z * Z))) : list (list (Z * Z)) :=
  match rs with
  | [] => []
  | outer :: inner => exterior outer :: map interior (filter has_area inner)
  end.

(** A line has at least two points. *)
Definition good_line (l : list (Z * Z)) : Prop := (2 <= length l)%nat /\ countable l.
(** A ring whose float64 orientation is exact (see S_Winding). *)
Definition ok_ring (r : list (Z * Z)) : Prop := exact_pts r /\ small_ring r /\ countable r.
(** A polygon with a real outer ring. *)
Definition ok_polygon (rs : list (list (Z * Z))) : Prop :=
  match rs with [] => False | outer :: _ => has_area outer = true /\ Forall ok_ring rs end.

(** ** Wire format (Mapbox vector tile specification 2.1, section 4.3)

    Command integers are [id | count << 3] with MoveTo = 1, LineTo = 2,
    ClosePath = 7; parameters are zig-zag encoded differences from the cursor. *)
Definition wire_param (n : Z) : Z := if n <? 0 then - 2 * n - 1 else 2 * n.
Definition wire_command (id count : Z) : Z := id + 8 * count.
Fixpoint wire_path (c : Z * Z) (pts : list (Z * Z)) : list Z :=
  match pts with
  | [] => []
  | p :: tl => wire_param (fst p - fst c) :: wire_param (snd p - snd c) :: wire_path p tl
  end.
Definition wire_points (ps : list (Z * Z)) : list Z :=
  wire_command 1 (Z.of_nat (length ps)) :: wire_path (0, 0) ps.
(** A line or ring started from cursor [c]; lines have at least two points. *)
Definition wire_line (c : Z * Z) (l : list (Z * Z)) : list Z :=
  match l with
  | [] => []
  | p :: tl => wire_command 1 1 :: wire_path c [p] ++
               wire_command 2 (Z.of_nat (length tl)) :: wire_path p tl
  end.
Fixpoint wire_lines (c : Z * Z) (ls : list (list (Z * Z))) : list Z :=
  match ls with
  | [] => []
  | l :: tl => wire_line c l ++ wire_lines (last l c) tl
  end.
Fixpoint wire_rings (c : Z * Z) (rs : list (list (Z * Z))) : list Z :=
  match rs with
  | [] => []
  | r :: tl => wire_line c r ++ wire_command 7 1 :: wire_rings (last r c) tl
  end.

(** Geometry buffers in which no line or ring is ever drawn: MoveTo commands
    and integers that are no command at all. *)
Inductive idle : list Z -> Prop :=
| idle_nil : idle []
| idle_move m x y tl : m mod 8 = 1 -> idle tl -> idle (m :: x :: y :: tl)
| idle_other u tl : u mod 8 <> 1 -> u mod 8 <> 2 -> u mod 8 <> 7 -> idle tl -> idle (u :: tl).

(** A MoveTo of count zero (the integer 1) with fewer than two integers after
    it. *)
Definition dangling_move (buf : list Z) : Prop :=
  exists pre tail, buf = pre ++ 1 :: tail /\ (length tail < 2)%nat.

(** A line of the geometry has no points. *)
Definition empty_line {C} (g : geom C) : Prop :=
  match g with
  | GLineString l => l = []
  | GMultiLineString ls => In [] ls
  | _ => False
  end.

(** [h] is one of the simple geometries a geometry is made of, at any depth of
    nested collections. *)
Inductive simple_member {C} (h : geom C) : geom C -> Prop :=
| sm_self : (match h with GCollection _ | GUnknown => False | _ => True end) -> simple_member h h
| sm_in g gs : In g gs -> simple_member h g -> simple_member h (GCollection gs).
