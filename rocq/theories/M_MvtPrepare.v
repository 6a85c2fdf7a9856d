(** * Model of encoding/mvt/prepare.go

    The tile is a pointer to an extent, [None] the nil pointer, which the
    methods of Extent accept (M_Extent.v).  A nil slice and an empty slice are
    both the empty list.  The geometry comes by value; a pointer to a
    MultiPolygon (lines 64-75) is handled as the MultiPolygon is, or gives nil. *)
From Coq Require Import ZArith Bool List.
From Verif Require Import Base_Res Base_F64 Base_F64Arith Base_Geom M_Extent M_Cmp M_Winding M_Triangle M_Walker.
Import ListNotations.
Open Scope nat_scope.

(** prepare.go 81-87 *)
Definition prepare_pt (tile : option extent) (pixels : f64) (p : pt) : pt :=
  (f64_mul (f64_div (f64_sub (fst p) (minX tile)) (xspan tile)) pixels,
   f64_mul (f64_div (f64_sub (maxY tile) (snd p)) (yspan tile)) pixels).

(** prepare.go 98-106, for the points after the first; [lst] is ls[len(ls)-1] *)
Fixpoint thin (tile : option extent) (pixels : f64) (lst : pt) (pts : list pt) : list pt :=
  match pts with
  | [] => []
  | p :: tl =>
      let npt := prepare_pt tile pixels p in
      if point_equal hi_cmp lst npt then thin tile pixels lst tl
      else npt :: thin tile pixels npt tl
  end.
(** prepare.go 89-112 *)
Definition prepare_line (tile : option extent) (pixels : f64) (pts : list pt) : list pt :=
  if (length pts <? 2) then []
  else
    let ls := match pts with [] => [] | p :: tl => let q := prepare_pt tile pixels p in q :: thin tile pixels q tl end in
    if (length ls <? 2) then [] else ls.

(** prepare.go 131-135: the line of a ring; ln[0] panics for an empty line *)
Definition prepare_ring (tile : option extent) (pixels : f64) (ring : list pt) : res unit (list pt) :=
  let ln := prepare_line tile pixels ring in
  match ln with
  | [] => Panic
  | p :: _ => Ok (if point_equal hi_cmp p (last ln p) then removelast ln else ln)
  end.
(** prepare.go 122-144 *)
Fixpoint prepare_rings (tile : option extent) (pixels : f64) (rings : list (list pt)) : res unit (list (list pt)) :=
  match rings with
  | [] => Ok []
  | r :: tl =>
      if (length r <? 2) then prepare_rings tile pixels tl
      else
        do ln <- prepare_ring tile pixels r;
        do rest <- prepare_rings tile pixels tl;
        Ok (if (length ln <? 2) then rest else ln :: rest)
  end.
(** prepare.go 114-150; the nil of RectifyPolygon is the empty polygon.  The
    rings which it reverses in place are those made here. *)
Definition prepare_polygon (tile : option extent) (pixels : f64) (rings : list (list pt)) : res unit (list (list pt)) :=
  match rings with
  | [] => Ok []
  | _ =>
      do p <- prepare_rings tile pixels rings;
      Ok (match fst (rectify_polygon false p) with None => [] | Some p => p end)
  end.

(** prepare.go 43-50 *)
Definition prepare_lines (tile : option extent) (pixels : f64) (ls : list (list pt)) : list (list pt) :=
  filter (fun l => 0 <? length l) (map (prepare_line tile pixels) ls).
(** prepare.go 56-63, 68-75 *)
Fixpoint prepare_polygons (tile : option extent) (pixels : f64) (pls : list (list (list pt))) : res unit (list (list (list pt))) :=
  match pls with
  | [] => Ok []
  | p :: tl =>
      do np <- prepare_polygon tile pixels p;
      do rest <- prepare_polygons tile pixels tl;
      Ok (if (0 <? length np) then np :: rest else rest)
  end.

(** prepare.go 21-79; [None] is the nil geometry *)
Definition prepare_geo (g : geom f64) (tile : option extent) (pixels : f64) : res unit (option (geom f64)) :=
  match g with
  | GPoint p => Ok (Some (GPoint (prepare_pt tile pixels p)))
  | GMultiPoint [] => Ok None
  | GMultiPoint ps => Ok (Some (GMultiPoint (map (prepare_pt tile pixels) ps)))
  | GLineString l => Ok (Some (GLineString (prepare_line tile pixels l)))
  | GMultiLineString ls => Ok (Some (GMultiLineString (prepare_lines tile pixels ls)))
  | GPolygon rs => do p <- prepare_polygon tile pixels rs; Ok (Some (GPolygon p))
  | GMultiPolygon pls => do ps <- prepare_polygons tile pixels pls; Ok (Some (GMultiPolygon ps))
  | GCollection _ | GUnknown => Ok None
  end.
