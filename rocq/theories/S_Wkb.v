(** * Specification vocabulary for the WKB theorems *)
From Coq Require Import ZArith Bool List.
From Verif Require Import Base_F64 Base_Geom.
Import ListNotations.
Open Scope Z_scope.

(** Float equality and NaN-ness of points. *)
Definition pt_eqb (p q : point f64) : bool := f64_eq (fst p) (fst q) && f64_eq (snd p) (snd q).
Definition pt_isnan (p : point f64) : bool := f64_isnan (fst p) || f64_isnan (snd p).
Definition pt_wf (p : point f64) : bool := f64_wf (fst p) && f64_wf (snd p).

(** The number of elements of a slice fits a uint32, with room for one more. *)
Definition count_ok {A} (l : list A) : bool := Z.of_nat (length l) <? 2 ^ 32 - 1.

(** What a ring looks like after a trip through WKB: the closing point of an
    explicitly closed ring is gone; a ring that starts with a NaN point is
    never recognised as closed and comes back with that point repeated. *)
Definition norm_ring (r : list (point f64)) : list (point f64) :=
  match r with
  | [] => []
  | p :: _ =>
      if pt_isnan p then r ++ [p]
      else if (1 <? length r)%nat && pt_eqb p (last r p) then removelast r
      else r
  end.

Fixpoint norm (g : geom f64) : geom f64 :=
  match g with
  | GPolygon rs => GPolygon (map norm_ring rs)
  | GMultiPolygon pls => GMultiPolygon (map (map norm_ring) pls)
  | GCollection gs => GCollection (map norm gs)
  | _ => g
  end.

(** A ring in the library's open form (geom.go 253-256: "the first point is NOT
    duplicated at the end"), starting with a real point. *)
Definition ring_open (r : list (point f64)) : bool :=
  match r with
  | [] => true
  | p :: tl => negb (pt_isnan p) && match tl with [] => true | _ => negb (pt_eqb p (last tl p)) end
  end.

(** Every coordinate is a float64 word and every count fits. *)
Definition pts_ok (ps : list (point f64)) : bool := count_ok ps && forallb pt_wf ps.

Fixpoint encodable (g : geom f64) : bool :=
  match g with
  | GPoint p => pt_wf p
  | GMultiPoint ps => pts_ok ps
  | GLineString ps => pts_ok ps
  | GMultiLineString ls => count_ok ls && forallb pts_ok ls
  | GPolygon rs => count_ok rs && forallb pts_ok rs
  | GMultiPolygon pls => count_ok pls && forallb (fun rs => count_ok rs && forallb pts_ok rs) pls
  | GCollection gs => count_ok gs && forallb encodable gs
  | GUnknown => false
  end.

(** All rings, at any depth, are in open form. *)
Fixpoint rings_open (g : geom f64) : bool :=
  match g with
  | GPolygon rs => forallb ring_open rs
  | GMultiPolygon pls => forallb (forallb ring_open) pls
  | GCollection gs => forallb rings_open gs
  | _ => true
  end.

(** Some leaf of the geometry is not a known kind of geometry. *)
Fixpoint has_unknown {C} (g : geom C) : bool :=
  match g with
  | GCollection gs => existsb has_unknown gs
  | GUnknown => true
  | _ => false
  end.

(** Close a ring explicitly. *)
Definition close_ring (r : list (point f64)) : list (point f64) :=
  match r with [] => [] | p :: _ => r ++ [p] end.

(** ** The OGC layout of WKB, written down independently of the encoder

    [wire g bs]: [bs] is a well-formed WKB serialisation of [g] in which every
    element that carries a byte-order mark may use its own byte order.  Rings
    are listed as they stand in the file. *)
From Verif Require Import Base_Bytes.

Definition mark (bo : byte_order) : Z := match bo with BigEndian => 0 | LittleEndian => 1 end.
Definition wire_header (bo : byte_order) (typ : Z) : list Z := mark bo :: put_uint bo 4 typ.
Definition wire_count {A} (bo : byte_order) (l : list A) : list Z :=
  put_uint bo 4 (Z.of_nat (length l)).
Definition wire_xy (bo : byte_order) (p : point f64) : list Z :=
  put_uint bo 8 (fst p) ++ put_uint bo 8 (snd p).
Definition wire_seq (bo : byte_order) (ps : list (point f64)) : list Z :=
  wire_count bo ps ++ flat_map (wire_xy bo) ps.

Inductive wire : geom f64 -> list Z -> Prop :=
| W_Point bo p :
    wire (GPoint p) (wire_header bo 1 ++ wire_xy bo p)
| W_LineString bo ps :
    wire (GLineString ps) (wire_header bo 2 ++ wire_seq bo ps)
| W_Polygon bo rs :
    wire (GPolygon rs) (wire_header bo 3 ++ wire_count bo rs ++ flat_map (wire_seq bo) rs)
| W_MultiPoint bo ps bss :
    Forall2 (fun p bs => wire (GPoint p) bs) ps bss ->
    wire (GMultiPoint ps) (wire_header bo 4 ++ wire_count bo ps ++ concat bss)
| W_MultiLineString bo ls bss :
    Forall2 (fun l bs => wire (GLineString l) bs) ls bss ->
    wire (GMultiLineString ls) (wire_header bo 5 ++ wire_count bo ls ++ concat bss)
| W_MultiPolygon bo pls bss :
    Forall2 (fun pl bs => wire (GPolygon pl) bs) pls bss ->
    wire (GMultiPolygon pls) (wire_header bo 6 ++ wire_count bo pls ++ concat bss)
| W_Collection bo gs bss :
    Forall2 wire gs bss ->
    wire (GCollection gs) (wire_header bo 7 ++ wire_count bo gs ++ concat bss).

(** Same, with one byte order throughout. *)
Fixpoint wire_with (bo : byte_order) (g : geom f64) : list Z :=
  match g with
  | GPoint p => wire_header bo 1 ++ wire_xy bo p
  | GLineString ps => wire_header bo 2 ++ wire_seq bo ps
  | GPolygon rs => wire_header bo 3 ++ wire_count bo rs ++ flat_map (wire_seq bo) rs
  | GMultiPoint ps =>
      wire_header bo 4 ++ wire_count bo ps
      ++ flat_map (fun p => wire_header bo 1 ++ wire_xy bo p) ps
  | GMultiLineString ls =>
      wire_header bo 5 ++ wire_count bo ls
      ++ flat_map (fun l => wire_header bo 2 ++ wire_seq bo l) ls
  | GMultiPolygon pls =>
      wire_header bo 6 ++ wire_count bo pls
      ++ flat_map (fun rs => wire_header bo 3 ++ wire_count bo rs ++ flat_map (wire_seq bo) rs) pls
  | GCollection gs => wire_header bo 7 ++ wire_count bo gs ++ flat_map (wire_with bo) gs
  | GUnknown => []
  end.

(** Apply a function to every ring. *)
Fixpoint map_rings (f : list (point f64) -> list (point f64)) (g : geom f64) : geom f64 :=
  match g with
  | GPolygon rs => GPolygon (map f rs)
  | GMultiPolygon pls => GMultiPolygon (map (map f) pls)
  | GCollection gs => GCollection (map (map_rings f) gs)
  | _ => g
  end.

(** A ring as it must stand in a file: the first point repeated at the end
    unless the last point already equals it. *)
Definition file_ring (r : list (point f64)) : list (point f64) :=
  match r with
  | [] => []
  | p :: _ => if pt_eqb p (last r p) then r else r ++ [p]
  end.

(** A ring as the library represents it: a ring of two or more points whose
    last point equals the first loses its last point. *)
Definition lib_ring (r : list (point f64)) : list (point f64) :=
  match r with
  | p :: _ :: _ => if pt_eqb p (last r p) then removelast r else r
  | _ => r
  end.

(** Like [encodable], for what stands in a file: counts are uint32. *)
Definition file_count {A} (l : list A) : bool := Z.of_nat (length l) <? 2 ^ 32.
Definition file_pts (ps : list (point f64)) : bool := file_count ps && forallb pt_wf ps.
Fixpoint file_ok (g : geom f64) : bool :=
  match g with
  | GPoint p => pt_wf p
  | GMultiPoint ps => file_pts ps
  | GLineString ps => file_pts ps
  | GMultiLineString ls => file_count ls && forallb file_pts ls
  | GPolygon rs => file_count rs && forallb file_pts rs
  | GMultiPolygon pls =>
      file_count pls && forallb (fun rs => file_count rs && forallb file_pts rs) pls
  | GCollection gs => file_count gs && forallb file_ok gs
  | GUnknown => false
  end.
