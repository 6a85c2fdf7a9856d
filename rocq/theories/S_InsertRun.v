(** * Specification: the subdivisions which New and InsertSite make *)
From Coq Require Import Bool List Arith ZArith.
From Verif Require Import Base_F64 Base_Res Base_Geom S_Winding M_Quadedge S_Quadedge S_Subdivision M_ResolveEdge S_ResolveEdge M_Insert S_Insert.
Import ListNotations.

(** The point is not on the starting edge. *)
Definition start_safe (m : mem (point f64)) (x : point f64) (se : edge) : Prop := on_edge m x se = false /\ on_edge m x (sym se) = false.
(** [ps] are the points of the frame and the points for which InsertSite has
    returned true. *)
Inductive reached (ypd : bool) : subdivision -> list (Z * Z) -> Prop :=
| r_new a b c m se : moderate a -> moderate b -> moderate c -> a <> b -> b <> c -> a <> c ->
    new_subdivision ypd (fpt a) (fpt b) (fpt c) = Ok (m, Some se) -> reached ypd (Subd m se 3) [a; b; c]
| r_insert sd ps x sd' done : reached ypd sd ps -> moderate x -> ~ In x ps ->
    (forall a, connected (sd_mem sd) (sd_start sd) a -> on_edge (sd_mem sd) (fpt x) a = true -> around ypd (sd_mem sd) x a) ->
    start_safe (sd_mem sd) (fpt x) (sd_start sd) ->
    insert_site ypd sd (fpt x) = Ok (sd', done) -> reached ypd sd' (if done then x :: ps else ps).

