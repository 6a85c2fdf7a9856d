(** * Theorem: InsertSite does not keep a Delaunay triangulation *)
From Coq Require Import Bool List Arith ZArith.
From Verif Require Import Base_F64 Base_Geom S_Winding M_Quadedge S_Quadedge S_Subdivision S_ResolveEdge M_Insert S_Insert S_InsertRun S_Delaunay P_Insert10 P_Delaunay.
Import ListNotations.

(** Four points inserted into a frame, three on a circle and one outside of it by
    one part in 2 * 10^10: the fourth is taken to be inside, and the edge is swapped. *)
Theorem C139_delaunay_refuted : reached false d4 near_points /\ ~ delaunay false (sd_mem d4) (sd_start d4).
Proof. exact not_delaunay. Qed.
Print Assumptions C139_delaunay_refuted.
(** What is refuted is not false of everything. *)
Example C139_nonvacuous : delaunay false (sd_mem sd0) (sd_start sd0).
Proof. exact frame_delaunay. Qed.
