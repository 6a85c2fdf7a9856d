(** * Specification of quadedge.Validate *)
From Coq Require Import Bool List ZArith.
From Verif Require Import Base_F64 Base_Geom M_Cmp M_Walker S_Winding M_Quadedge S_Quadedge S_ResolveEdge.
Import ListNotations.
Open Scope Z_scope.

(** Turning from the edge to the next one is turning counter-clockwise by less than half
    a turn, except perhaps at the edge [x0]. *)
Definition convex_but (ypd : bool) (m : mem (point f64)) (ring : list edge) (o : Z * Z) (at_ : edge -> Z * Z) (x0 : edge) : Prop :=
  forall x, In x ring -> x <> x0 -> 0 < cross (vec ypd o (at_ x)) (vec ypd o (at_ (onext m x))).
(** The edges of the ring have both ends, leave the origin of [e] and end in points
    which the comparison of the package tells apart. *)
Definition well_formed (m : mem (point f64)) (e : edge) (ring : list edge) : Prop :=
  exists o ds, orig m e = Some o /\ map (dest m) ring = map Some ds
  /\ (forall x, In x ring -> exists o', orig m x = Some o' /\ point_equal hi_cmp o' o = true)
  /\ ForallOrdPairs (fun p q => point_equal hi_cmp q p = false) ds.
(** The edges of [ring] leave [o] one after the other and end in the points [ps]. *)
Definition leaves (m : mem (point f64)) (ring : list edge) (o : Z * Z) (ps : list (Z * Z)) : Prop :=
  around_origin m ring /\ (forall x, In x ring -> orig m x = Some (fpt o)) /\ map (dest m) ring = map (fun p => Some (fpt p)) ps.
(** How many turns to the next edge are counter-clockwise ([s] = 1) or clockwise
    ([s] = -1). *)
Definition turns (s : Z) (ypd : bool) (m : mem (point f64)) (ring : list edge) (o : Z * Z) (at_ : edge -> Z * Z) : nat :=
  length (filter (fun x => Z.sgn (cross (vec ypd o (at_ x)) (vec ypd o (at_ (onext m x)))) =? s) ring).
