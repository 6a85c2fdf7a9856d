(** * Specification vocabulary for hit maps *)
From Coq Require Import ZArith Bool List Reals.
From Flocq Require Import Core.Core.
From Verif Require Import Base_Res Base_F64 Base_Geom M_Geom M_Cmp S_Intersect S_Ring.
Import ListNotations.

(** In or on the ring, by the even-odd rule; strictly in it. *)
Definition covers (r : list pt) (p : pt) : Prop :=
  on_ring (map rpt r) (rpt p) \/ S_Ring.inside (map rpt r) (rpt p) = true.
Definition within (r : list pt) (p : pt) : Prop :=
  ~ on_ring (map rpt r) (rpt p) /\ S_Ring.inside (map rpt r) (rpt p) = true.

(** An outer ring covers the point and no hole, of whichever polygon, has it
    strictly within.  The holes of a polygon whose outer ring is empty do not count. *)
Definition hit (plys : list (list (list pt))) (p : pt) : Prop :=
  (exists outer holes, In (outer :: holes) plys /\ covers outer p) /\
  (forall outer holes h, In (outer :: holes) plys -> outer <> [] -> In h holes -> ~ within h p).

(** What a user expects of polygons: one of them covers the point, and none of its
    own holes has it strictly within. *)
Definition in_polygons (plys : list (list (list pt))) (p : pt) : Prop :=
  exists outer holes, In (outer :: holes) plys /\ covers outer p /\ forall h, In h holes -> ~ within h p.

(** Some polygon or multipolygon of the geometry is hit. *)
Inductive hit_geom (p : pt) : geom f64 -> Prop :=
| hit_polygon rs : hit [rs] p -> hit_geom p (GPolygon rs)
| hit_multi pls : hit pls p -> hit_geom p (GMultiPolygon pls)
| hit_member g gs : In g gs -> hit_geom p g -> hit_geom p (GCollection gs).

(** The polygons have small coordinates (S_Ring.v). *)
Inductive small_geom : geom f64 -> Prop :=
| sg_unknown : small_geom GUnknown
| sg_point q : small_geom (GPoint q)
| sg_multipoint l : small_geom (GMultiPoint l)
| sg_line l : small_geom (GLineString l)
| sg_multiline l : small_geom (GMultiLineString l)
| sg_polygon rs : Forall (Forall small_pt) rs -> small_geom (GPolygon rs)
| sg_multi pls : Forall (Forall (Forall small_pt)) pls -> small_geom (GMultiPolygon pls)
| sg_collection gs : Forall small_geom gs -> small_geom (GCollection gs).

(** A geometry without a hit map of its own: not a polygon, multipolygon or collection. *)
Definition thin (g : geom f64) : bool :=
  match g with GPolygon _ | GMultiPolygon _ | GCollection _ => false | _ => true end.

(** A real number with at most 20 significant bits. *)
Definition bits20 (x : R) : Prop := exists m e, x = (IZR m * bpow radix2 e)%R /\ (Z.abs m <= 2 ^ 20)%Z.
