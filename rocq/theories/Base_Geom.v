(** * Geometry values

    [geom C] is a Go value of the empty interface type [geom.Geometry]
    (geom.go 9-11), seen through the type switches of the library: one
    constructor per interface kind (geom.go 14-319), [GUnknown] for every other
    value (including nil).  [C] is the type of a coordinate (float64 words or,
    for exact-arithmetic results, real numbers).  A [[][2]float64] is a list of
    pairs; nil and empty slices are identified unless a definition says
    otherwise. *)
From Coq Require Import List.
Import ListNotations.

Definition point (C : Type) : Type := (C * C)%type.

Inductive geom (C : Type) : Type :=
| GPoint (p : point C)
| GMultiPoint (ps : list (point C))
| GLineString (ps : list (point C))
| GMultiLineString (ls : list (list (point C)))
| GPolygon (rs : list (list (point C)))
| GMultiPolygon (pls : list (list (list (point C))))
| GCollection (gs : list (geom C))
| GUnknown.
Arguments GPoint {C} p.
Arguments GMultiPoint {C} ps.
Arguments GLineString {C} ps.
Arguments GMultiLineString {C} ls.
Arguments GPolygon {C} rs.
Arguments GMultiPolygon {C} pls.
Arguments GCollection {C} gs.
Arguments GUnknown {C}.

(** Induction principle with the members of a collection available. *)
Section GeomInd.
  Context {C : Type} (P : geom C -> Prop).
  Hypothesis HPoint : forall p, P (GPoint p).
  Hypothesis HMultiPoint : forall ps, P (GMultiPoint ps).
  Hypothesis HLineString : forall ps, P (GLineString ps).
  Hypothesis HMultiLineString : forall ls, P (GMultiLineString ls).
  Hypothesis HPolygon : forall rs, P (GPolygon rs).
  Hypothesis HMultiPolygon : forall pls, P (GMultiPolygon pls).
  Hypothesis HCollection : forall gs, Forall P gs -> P (GCollection gs).
  Hypothesis HUnknown : P GUnknown.

  Fixpoint geom_ind' (g : geom C) : P g :=
    match g with
    | GPoint p => HPoint p
    | GMultiPoint ps => HMultiPoint ps
    | GLineString ps => HLineString ps
    | GMultiLineString ls => HMultiLineString ls
    | GPolygon rs => HPolygon rs
    | GMultiPolygon pls => HMultiPolygon pls
    | GCollection gs =>
        HCollection gs
          ((fix go (l : list (geom C)) : Forall P l :=
              match l with
              | [] => Forall_nil P
              | x :: xs => Forall_cons x (geom_ind' x) (go xs)
              end) gs)
    | GUnknown => HUnknown
    end.
End GeomInd.
