(** * Specification of inserting constraints into a subdivision *)
From Coq Require Import Bool List Arith ZArith.
From Verif Require Import Base_F64 Base_Res Base_Geom M_Cmp M_Walker M_Triangle M_Planar M_Intersect S_Winding M_Quadedge S_Quadedge M_Subdivision S_Subdivision M_ResolveEdge S_ResolveEdge M_Insert M_Constraint.
Import ListNotations.

(** All edges which leave a vertex have the same origin. *)
Definition uniform (m : mem pt) : Prop := forall e, primal m e -> orig m (onext m e) = orig m e.
(** The edge which the index holds for a key is an edge from a point with that key. *)
Definition index_ok (m : mem pt) (vx : vindex) : Prop :=
  forall k e, lookup go_eq vx k = Some e -> primal m e /\ exists p, orig m e = Some p /\ go_eq k (round_pt p) = true.
(** The edges keep their ends, and there are no points which were not there before. *)
Definition keeps_points (m m' : mem pt) : Prop :=
  (forall e, exists_in m e -> exists_in m' e /\ orig m' e = orig m e)
  /\ forall e p, exists_in m' e -> orig m' e = Some p -> exists f, exists_in m f /\ orig m f = Some p.
(** [p] is the point [s] up to rounding: insertEdge rounds, and the index once more. *)
Definition is_at (s p : pt) : Prop :=
  go_eq (round_pt (round_pt s)) (round_pt p) = true \/ point_equal hi_cmp (round_pt s) p = true.
(** An edge of the memory between two points. *)
Definition joined (m : mem pt) (s t : pt) : Prop :=
  exists e p q, primal m e /\ orig m e = Some p /\ dest m e = Some q /\ is_at s p /\ is_at t q.
(** ResolveEdge reports, from one of the two points, an edge in the direction of the
    other. *)
Definition seen_colinear (ypd : bool) (m : mem pt) (vx : vindex) (s t : pt) : Prop :=
  exists e r, vx_get go_eq round_pt vx (round_pt s) = Some e /\ resolve_edge ypd m e (round_pt t) = Ok (r, Some EColinear).
(** SegmentIntersect reports that the edge meets the line. *)
Definition crosses (m : mem pt) (ln : pt * pt) (e : edge) : Prop := snd (segment_intersect ln (as_line m e)) = true.
(** The segments have one inner point in common. *)
Definition cut (p q s t : Z * Z) : Prop :=
  (cross (vec false p q) (vec false p s) * cross (vec false p q) (vec false p t) < 0
   /\ cross (vec false s t) (vec false s p) * cross (vec false s t) (vec false s q) < 0)%Z.
(** InsertConstraint with an index which was made for the subdivision. *)
Definition constrain (frame : pt * pt * pt) (sd : subdivision) (s t : Z * Z) (r : c_result) : Prop :=
  exists vx, new_vertex_index go_eq round_pt (sd_mem sd) (Some (sd_start sd)) = Ok vx
  /\ insert_constraint false frame (sd_mem sd) vx (fpt s) (fpt t) = Ok r.
