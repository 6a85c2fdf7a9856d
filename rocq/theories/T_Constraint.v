(** * Theorems: constraints in a subdivision *)
From Coq Require Import Bool List Arith ZArith.
From Verif Require Import Base_F64 Base_Res Base_Geom M_Cmp S_Winding M_Quadedge S_Quadedge M_Subdivision S_Subdivision S_ResolveEdge M_Insert S_Insert S_InsertRun M_Constraint S_Constraint S_Classify P_Classify P_Constraint P_Constraint2 P_Constraint3.
Import ListNotations.
Local Open Scope Z_scope.

(** FindIntersectingEdges ends, and what it returns are edges of the subdivision which
    cross the segment between the two origins. *)
Theorem C140_crossing : forall ypd m e f s t, history m -> uniform m -> primal m e -> primal m f -> orig m e = Some s -> orig m f = Some t ->
  find_intersecting ypd m (Some e) (Some f) <> Err tt
  /\ forall l, find_intersecting ypd m (Some e) (Some f) = Ok (Some l) -> Forall (fun x => primal m x /\ crosses m (s, t) x) l.
Proof. exact find_intersecting_top. Qed.
Print Assumptions C140_crossing.

Example C140_nonvacuous : exists e f l, (history (sd_mem (run_of diamond)) /\ uniform (sd_mem (run_of diamond)) /\ primal (sd_mem (run_of diamond)) e /\ primal (sd_mem (run_of diamond)) f)
  /\ orig (sd_mem (run_of diamond)) e = Some (fpt (10, 0)) /\ orig (sd_mem (run_of diamond)) f = Some (fpt (30, 0))
  /\ find_intersecting false (sd_mem (run_of diamond)) (Some e) (Some f) = Ok (Some l) /\ l <> [].
Proof. exact found_diamond. Qed.

(** FindIntersectingEdges never returns more than 21 edges: InsertConstraint does not clear
    the way for a constraint which crosses more of them. *)
Theorem C141_limit_partial : forall ypd m se ee l, find_intersecting ypd m se ee = Ok (Some l) -> (length l <= 21)%nat.
Proof. exact found_length. Qed.
Print Assumptions C141_limit_partial.

(** InsertConstraint ends.  Whatever it returns, the edges keep their ends, there is no
    new point, all edges out of a vertex have the same origin, and the index holds edges
    from the points they are filed under. *)
Theorem C142_kept : forall ypd frame m vx s t, history m -> uniform m -> index_ok m vx ->
  insert_constraint ypd frame m vx s t <> Err tt
  /\ forall m' vx' e, insert_constraint ypd frame m vx s t = Ok (m', vx', e) -> history m' /\ uniform m' /\ index_ok m' vx' /\ keeps_points m m'.
Proof. exact constraint_top. Qed.
Print Assumptions C142_kept.
(** The same for one edge; without an error the points are joined, unless one of them is
    seen in the direction of an edge out of the other. *)
Theorem C142_edge : forall ypd m vx s t, history m -> uniform m -> index_ok m vx ->
  insert_edge ypd m vx s t <> Err tt
  /\ forall m' vx' e, insert_edge ypd m vx s t = Ok (m', vx', e) -> history m' /\ uniform m' /\ index_ok m' vx' /\ keeps_points m m'
     /\ (e = None -> joined m' s t \/ seen_colinear ypd m vx s t \/ seen_colinear ypd m vx t s).
Proof. exact edge_top. Qed.
Print Assumptions C142_edge.
Example C142_nonvacuous : exists vx m' vx', (history (sd_mem (run_of diamond)) /\ uniform (sd_mem (run_of diamond)) /\ index_ok (sd_mem (run_of diamond)) vx)
  /\ insert_constraint false frame0 (sd_mem (run_of diamond)) vx (fpt (10, 0)) (fpt (30, 0)) = Ok (m', vx', None)
  /\ joined m' (fpt (10, 0)) (fpt (30, 0)) /\ ~ joined (sd_mem (run_of diamond)) (fpt (10, 0)) (fpt (30, 0)).
Proof. exact constrained_diamond. Qed.

(** Six points: the constraint (0,0)-(40,0) is accepted, and the edge between (20,-5)
    and (20,5) crosses it afterwards. *)
Theorem C143_cleared_refuted : reached false (run_of beads) (rev beads ++ frame_points)
  /\ (exists m vx e, constrain frame0 (run_of beads) (0, 0) (40, 0) (m, vx, None)
     /\ connected m (sd_start (run_of beads)) e /\ orig m e = Some (fpt (20, -5)) /\ dest m e = Some (fpt (20, 5)))
  /\ cut (0, 0) (40, 0) (20, -5) (20, 5).
Proof. exact not_cleared_cut. Qed.
Print Assumptions C143_cleared_refuted.

(** Classify says where the point lies. *)
Theorem C144_classify : forall p o q, moderate p -> moderate o -> moderate q ->
  forall t, classify (fpt p) (fpt o) (fpt q) = t <-> lies p o q t.
Proof. exact classify_lies. Qed.
Print Assumptions C144_classify.
Example C144_nonvacuous : lies (7, 3) (1, 1) (4, 2) BEYOND /\ lies (4, 2) (1, 1) (7, 3) BETWEEN /\ lies (0, 5) (1, 1) (7, 3) LEFT.
Proof. repeat split; vm_compute; reflexivity || discriminate. Qed.

(** NewForPoints with the points (0.0001,0), (10,0) and (0,10): the slice of the caller
    is another one afterwards. *)
Theorem C145_slice_refuted : exists pts sd, new_for_points false (fun _ => false) near_zero = (pts, Ok (Some sd)) /\ pts <> near_zero.
Proof. exact slice_changed. Qed.
Print Assumptions C145_slice_refuted.
