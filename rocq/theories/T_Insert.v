(** * Theorems about building a subdivision: New, locate, InsertSite *)
From Coq Require Import Bool List Arith ZArith.
From Verif Require Import Base_F64 Base_Res Base_Geom S_Winding M_Quadedge S_Quadedge S_Subdivision M_ResolveEdge S_ResolveEdge M_Insert S_Insert S_InsertRun P_Insert8 P_Insert9 P_Insert10 P_Insert11.
Import ListNotations.
Open Scope Z_scope.

(** Inserting a point which is not a vertex: false and nothing is changed, or true
    and the graph is a triangulation of the old points and the new one.  All loops
    end; what is left is the call of panic for an edge with the same corner on both
    sides.  The starting edge belongs to the new graph unless the point is on it. *)
Theorem C134_insert : forall ypd m se n x,
  triangulation m se -> integral m se -> moderate x -> ~ vertex_of m se (fpt x) ->
  (forall a, connected m se a -> on_edge m (fpt x) a = true -> around ypd m x a) ->
  match insert_site ypd (Subd m se n) (fpt x) with
  | Ok (sd, false) => sd_mem sd = m /\ sd_start sd = se
  | Ok (sd, true) => sd_start sd = se /\ exists b, triangulation (sd_mem sd) b
      /\ (forall p, vertex_of (sd_mem sd) b p <-> vertex_of m se p \/ p = fpt x)
      /\ (connected (sd_mem sd) b se \/ exists a, (a = se \/ a = sym se) /\ on_edge m (fpt x) a = true)
  | Err _ => False
  | Panic => True
  end.
Proof. exact insert_correct. Qed.
Print Assumptions C134_insert.

(** The condition on the edges under the point: counter-clockwise triangles on both
    sides and a point within the edge. *)
Theorem C134_within : forall ypd x p q r s, inside_segment x p q -> ccw_triangle ypd p q r -> ccw_triangle ypd q p s ->
  0 < cross (vec ypd x p) (vec ypd x s) /\ 0 < cross (vec ypd x s) (vec ypd x q)
  /\ 0 < cross (vec ypd x q) (vec ypd x r) /\ 0 < cross (vec ypd x r) (vec ypd x p).
Proof. exact segment_around. Qed.
Print Assumptions C134_within.

(** Any sequence of insertions after New, of points which are not on the starting
    edge. *)
Theorem C135_reached : forall ypd sd ps, reached ypd sd ps ->
  triangulation (sd_mem sd) (sd_start sd) /\ Forall moderate ps
  /\ forall p, vertex_of (sd_mem sd) (sd_start sd) p <-> exists z, In z ps /\ p = fpt z.
Proof. exact reached_ok. Qed.
Print Assumptions C135_reached.

(** A frame, a point within it, and a point on one of the three new edges. *)
Example C135_nonvacuous :
  reached false sd0 [(0, 0); (100, 0); (0, 100)]
  /\ reached false sd1 [(10, 10); (0, 0); (100, 0); (0, 100)]
  /\ reached false sd2 [(5, 5); (10, 10); (0, 0); (100, 0); (0, 100)]
  /\ on_edge (sd_mem sd1) (fpt (5, 5)) spoke = true.
Proof. split; [exact reached0|]. split; [exact reached1|]. split; [exact reached2|]. vm_compute. reflexivity. Qed.

(** New. *)
Theorem C136_new : forall a b c, a <> b -> b <> c -> a <> c -> forall ypd,
  match new_subdivision ypd a b c with
  | Ok (m, Some se) => triangulation m se /\ forall p, vertex_of m se p <-> p = a \/ p = b \/ p = c
  | Ok (_, None) | Panic => True
  | Err _ => False
  end.
Proof. exact new_correct. Qed.
Print Assumptions C136_new.
Example C136_nonvacuous : exists m, new_subdivision false (fpt (0, 0)) (fpt (100, 0)) (fpt (0, 100)) = Ok (m, Some (0, 0)%nat).
Proof. eexists. vm_compute. reflexivity. Qed.

(** locate ends; the point is an end of the edge which it finds, or it lies in the
    triangle on the left of the edge. *)
Theorem C137_locate : forall ypd m se x limit, triangulation m se -> integral m se -> moderate x ->
  match locate ypd m se (fpt x) limit with
  | Ok None => True
  | Ok (Some e) => connected m se e
      /\ (orig m e = Some (fpt x) \/ dest m e = Some (fpt x)
          \/ exists p q r, corners m e (fpt p, fpt q, fpt r)
             /\ 0 <= cross (vec ypd p q) (vec ypd p x) /\ 0 < cross (vec ypd q r) (vec ypd q x) /\ 0 < cross (vec ypd r p) (vec ypd r x))
  | Err _ | Panic => False
  end.
Proof. exact locate_correct. Qed.
Print Assumptions C137_locate.
Example C137_nonvacuous : triangulation (sd_mem sd2) (sd_start sd2) /\ integral (sd_mem sd2) (sd_start sd2)
  /\ exists e, locate false (sd_mem sd2) (sd_start sd2) (fpt (20, 30)) 8 = Ok (Some e).
Proof. exact locate_run. Qed.

(** The origin of the starting edge is a vertex, and InsertSite says that it could
    not be inserted. *)
Theorem C138_vertex_refuted : vertex_of (sd_mem sd0) (sd_start sd0) (fpt (0, 0))
  /\ exists sd', insert_site false sd0 (fpt (0, 0)) = Ok (sd', false).
Proof. exact start_origin. Qed.
Print Assumptions C138_vertex_refuted.
(** A point on the starting edge: InsertSite returns true, and all one reaches from
    the starting edge are its two ends. *)
Theorem C138_start_refuted : exists sd', insert_site false sd0 (fpt (50, 0)) = Ok (sd', true)
  /\ (forall p, vertex_of (sd_mem sd') (sd_start sd') p -> p = fpt (0, 0) \/ p = fpt (100, 0)).
Proof. exact detached. Qed.
Print Assumptions C138_start_refuted.
(** Points on the other sides of the frame are not inserted. *)
Theorem C138_frame_refuted : (exists sd', insert_site false sd0 (fpt (0, 50)) = Ok (sd', false))
  /\ exists sd', insert_site false sd0 (fpt (50, 50)) = Ok (sd', false).
Proof. exact on_frame. Qed.
Print Assumptions C138_frame_refuted.
