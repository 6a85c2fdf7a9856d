(** * Theorems about walking over a subdivision *)
From Coq Require Import Bool List Arith.
From Verif Require Import Base_Res M_Quadedge S_Quadedge M_Subdivision S_Subdivision P_QuadedgeTop P_Subdivision P_Subdivision4 P_Subdivision5.
Import ListNotations.

(** WalkAllEdges calls the callback once for every edge of the graph, in one of
    its two directions, until it returns an error. *)
Theorem C126_walk : forall (P : Type) (m : mem P) se, history m -> primal m se -> exists l,
  NoDup (map fst l) /\ (forall x, In x l -> connected m se x)
  /\ (forall x, connected m se x -> In x l \/ In (sym x) l)
  /\ forall E (fn : edge -> outcome E), walk_all_edges m fn (Some se) = Some (calls_on fn l).
Proof. exact @walk_edges. Qed.
Print Assumptions C126_walk.

(** The index has an edge out of every vertex of the graph, and nothing else. *)
Theorem C127_index : forall (P : Type) (same : P -> P -> bool) (round : P -> P) (m : mem P) se,
  history m -> primal m se -> labelled m se -> decides m se (fun p q => same (round p) (round q)) ->
  exists vx, new_vertex_index same round m (Some se) = Ok vx /\ indexes (vx_get same round vx) m se
    /\ forall p x, vx_get same round vx p = Some x -> connected m se x /\ exists q, orig m x = Some q /\ same (round p) (round q) = true.
Proof. exact @index_all. Qed.
Print Assumptions C127_index.

(** Remove before Delete leaves an index of the other edges. *)
Theorem C127_remove : forall (P : Type) (same : P -> P -> bool) (round : P -> P) (m : mem P) se vx e,
  (forall a b, same a b = same b a) -> (forall a b c, same a b = true -> same b c = true -> same a c = true) ->
  history m -> primal m se -> labelled m se -> loop_free m se -> decides m se (fun p q => same (round p) (round q)) ->
  indexes (vx_get same round vx) m se -> connected m se e ->
  exists vx', vx_remove same round m vx e = Ok vx'
  /\ (forall a p, connected m se a -> a <> e -> a <> sym e -> orig m a = Some p ->
        exists x, vx_get same round vx' p = Some x /\ same_origin (delete m e) x a)
  /\ (forall p, around_origin m [e] -> orig m e = Some p -> vx_get same round vx' p = None).
Proof. exact @index_remove. Qed.
Print Assumptions C127_remove.

(** When all faces are triangles, WalkAllTriangles calls the callback with the
    corners of every face once, until it returns false; Triangles returns them, or
    those without a corner at a point of the frame. *)
Theorem C128_triangles : forall (P : Type) (eq same : P -> P -> bool) (m : mem P) se,
  history m -> primal m se -> labelled m se -> loop_free m se -> all_triangles m se -> decides m se eq -> decides m se same ->
  exists es ts, one_of_each_face m se es /\ Forall2 (corners m) es ts
    /\ (forall fn, walk_all_triangles eq same m fn (Some se) = Ok (until fn ts))
    /\ forall frame, triangles eq same m frame (Some se) true = Ok ts
       /\ triangles eq same m frame (Some se) false
          = Ok (filter (fun t => negb (is_frame_point eq frame [fst (fst t); snd (fst t); snd t])) ts).
Proof. exact @triangles_each. Qed.
Print Assumptions C128_triangles.

(** The hypotheses hold of a triangle with a point inside. *)
Example C128_nonvacuous :
  history inside /\ primal inside (0, 0) /\ labelled inside (0, 0) /\ loop_free inside (0, 0) /\ all_triangles inside (0, 0)
  /\ decides inside (0, 0) Nat.eqb
  /\ walk_all_edges inside (fun e => if edge_eqb e (2, 2) then Fail 7 else Continue) (Some (0, 0)) <> None
  /\ walk_all_triangles Nat.eqb Nat.eqb inside (fun _ => true) (Some (0, 0)) = Ok [(0, 1, 3); (0, 3, 2); (0, 2, 1); (2, 3, 1)].
Proof. exact examples. Qed.

(** A subdivision of three points, one triangle: Triangles(true) returns two, the
    outside is one. *)
Theorem C129_outside_refuted : exists (m : mem nat) se frame,
  history m /\ primal m se /\ labelled m se /\ loop_free m se /\ all_triangles m se
  /\ (forall a, connected m se a -> orig m a = Some 0 \/ orig m a = Some 1 \/ orig m a = Some 2)
  /\ triangles Nat.eqb Nat.eqb m frame (Some se) true = Ok [(0, 1, 2); (0, 2, 1)].
Proof. exact outside_counted. Qed.
Print Assumptions C129_outside_refuted.

(** With a face of four sides a triangle is reported a second time, the other way
    round, although no face has those corners in that order. *)
Theorem C129_face_refuted : exists (m : mem nat) se ts p q r,
  history m /\ primal m se /\ labelled m se /\ loop_free m se
  /\ walk_all_triangles Nat.eqb Nat.eqb m (fun _ => true) (Some se) = Ok ts
  /\ In (p, q, r) ts /\ In (p, r, q) ts
  /\ forall e b c, connected m se e -> around_face m [e; b; c] -> ~ corners m e (p, q, r).
Proof. exact four_sides. Qed.
Print Assumptions C129_face_refuted.
