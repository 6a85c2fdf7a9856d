(** * Theorems: the methods of subdivision.Triangle *)
From Coq Require Import Bool List Arith ZArith.
From Verif Require Import Base_F64 Base_Res Base_Geom M_Cmp M_Walker S_Winding M_Quadedge S_Quadedge S_Subdivision S_ResolveEdge M_Insert S_Insert S_InsertRun M_Constraint P_Constraint3 M_Face S_Face P_Face P_Face2.
Import ListNotations.
Local Open Scope Z_scope.

(** AsGeom returns the corners of the face on the right of the edge, counter-clockwise
    from its origin. *)
Theorem C149_corners : forall (P : Type) (m : mem P) e a b c, history m -> same_points m -> primal m e -> right_face m e a b c -> as_geom m e = Ok (b, c, a).
Proof. exact @as_geom_ok. Qed.
Print Assumptions C149_corners.

(** IntersectsPoint tells whether the point is in the triangle. *)
Theorem C150_inside : forall m e a b c p, history m -> same_points m -> primal m e -> right_face m e (fpt a) (fpt b) (fpt c) ->
  moderate a -> moderate b -> moderate c -> moderate p -> counter_clockwise a b c ->
  exists r, intersects_point m (Some e) (fpt p) = Ok r /\ (r = true <-> in_triangle a b c p).
Proof. exact intersects_ok. Qed.
Print Assumptions C150_inside.

(** SharedEdge returns a side of the first triangle which is a side of the other one in
    the opposite direction, or nil if there is none. *)
Theorem C151_shared : forall (P : Type) (eq : P -> P -> bool) (m : mem P) e a b c f a' b' c',
  history m -> same_points m -> primal m e -> primal m f -> right_face m e a b c -> right_face m f a' b' c' ->
  (forall p, In p [a'; b'; c'] -> tells eq [a; b; c] p) ->
  exists r, shared_edge eq m e f = Ok r
  /\ match r with
     | Some x => same_right m e x /\ exists y, same_right m f y /\ orig m x = dest m y /\ dest m x = orig m y
     | None => forall x y, exists_in m x -> exists_in m y -> same_right m e x -> same_right m f y -> ~ (orig m x = dest m y /\ dest m x = orig m y)
     end.
Proof. exact @shared_ok. Qed.
Print Assumptions C151_shared.
(** The comparison of the package tells integer points apart. *)
Theorem C151_tells : forall l p, Forall moderate l -> moderate p -> tells hi_eq (map fpt l) (fpt p).
Proof. exact tells_int. Qed.
Print Assumptions C151_tells.

(** OppositeVertex returns a corner of the first triangle. *)
Theorem C152_own : forall (P : Type) (eq : P -> P -> bool) (m : mem P) e a b c f a' b' c',
  history m -> same_points m -> primal m e -> primal m f -> right_face m e a b c -> right_face m f a' b' c' ->
  exists v, opposite_vertex eq m e f = Ok v /\ forall p, v = Some p -> In p [a; b; c].
Proof. exact @vertex_own. Qed.
Print Assumptions C152_own.
(** Two triangles of a triangulation share the side (10,0), (0,1000).  Their other corners
    are (-1000,-1000) and (1000,-1000); OppositeVertex of the first one and the second one
    is (-1000,-1000). *)
Theorem C152_opposite_refuted : reached false (run_of one_point) (rev one_point ++ frame_points)
  /\ exists e, right_face (sd_mem (run_of one_point)) e (fpt (10, 0)) (fpt (0, 1000)) (fpt (-1000, -1000))
     /\ right_face (sd_mem (run_of one_point)) (sym e) (fpt (0, 1000)) (fpt (10, 0)) (fpt (1000, -1000))
     /\ opposite_vertex hi_eq (sd_mem (run_of one_point)) e (sym e) = Ok (Some (fpt (-1000, -1000))).
Proof. exact wrong_vertex. Qed.
Print Assumptions C152_opposite_refuted.

(** OppositeTriangle returns the triangle on the other side of the side which does not
    touch the given corner, and an error if the point is not a corner. *)
Theorem C153_opposite : forall (P : Type) (eq : P -> P -> bool) (m : mem P) e a b c p,
  history m -> same_points m -> primal m e -> right_face m e a b c -> a <> b -> b <> c -> a <> c -> tells eq [a; b; c] p ->
  exists r, opposite_triangle eq m e p = Ok r
  /\ match r with
     | Some o => In p [a; b; c] /\ same_right m e (sym o) /\ orig m o <> Some p /\ dest m o <> Some p
     | None => ~ In p [a; b; c]
     end.
Proof. exact @opposite_ok. Qed.
Print Assumptions C153_opposite.

(** A triangulation and two of its triangles meet the hypotheses of these theorems. *)
Example C149_nonvacuous : exists m e, (history m /\ same_points m) /\ (primal m e /\ primal m (sym e))
  /\ (right_face m e (fpt (10, 0)) (fpt (0, 1000)) (fpt (-1000, -1000)) /\ right_face m (sym e) (fpt (0, 1000)) (fpt (10, 0)) (fpt (1000, -1000)))
  /\ shared_edge hi_eq m e (sym e) = Ok (Some e) /\ opposite_triangle hi_eq m e (fpt (-1000, -1000)) = Ok (Some (sym e)).
Proof. exact face_case. Qed.
Example C150_nonvacuous : counter_clockwise (10, 0) (0, 1000) (-1000, -1000) /\ in_triangle (10, 0) (0, 1000) (-1000, -1000) (-100, 0) /\ ~ in_triangle (10, 0) (0, 1000) (-1000, -1000) (25, 1).
Proof. exact inside_case. Qed.
