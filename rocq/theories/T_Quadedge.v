(** * Theorems about quad-edges *)
From Coq Require Import Bool List Arith ZArith.
From Verif Require Import Base_Res M_Quadedge M_QuadedgeId S_Quadedge P_Quadedge P_Quadedge2 P_Quadedge3 P_Quadedge4 P_Quadedge5 P_QuadedgeId
  P_QuadedgeTop.
Import ListNotations.

(** ** C49: the algebra, in every memory reached by New, EndPoints, Splice,
    Connect, Swap and Delete *)
Theorem C49_rot : forall (P : Type) (m : mem P) e, exists_in m e ->
  exists_in m (rot e) /\ rot (rot (rot (rot e))) = e /\ rot (rot e) = sym e /\ sym e <> e /\ sym (sym e) = e
  /\ rot (invrot e) = e /\ invrot (rot e) = e.
Proof. exact @rot_algebra. Qed.
Print Assumptions C49_rot.

Theorem C49_algebra : forall (P : Type) (m : mem P), history m -> forall e, exists_in m e ->
  (exists_in m (onext m e) /\ exists_in m (oprev m e) /\ exists_in m (lnext m e) /\ exists_in m (lprev m e)
   /\ exists_in m (rnext m e) /\ exists_in m (rprev m e) /\ exists_in m (dnext m e) /\ exists_in m (dprev m e))
  /\ onext m (oprev m e) = e /\ oprev m (onext m e) = e
  /\ lnext m (lprev m e) = e /\ lprev m (lnext m e) = e
  /\ rnext m (rprev m e) = e /\ rprev m (rnext m e) = e
  /\ dnext m (dprev m e) = e /\ dprev m (dnext m e) = e.
Proof. exact @algebra. Qed.
Print Assumptions C49_algebra.

(** Edges between vertices and edges between faces are never mixed up. *)
Theorem C49_kinds : forall (P : Type) (m : mem P), history m -> forall e, exists_in m e ->
  same_kind (onext m e) e /\ same_kind (lnext m e) e.
Proof. exact @kinds. Qed.
Print Assumptions C49_kinds.

(** Every edge lies on one ring around its origin and on one around its left
    face, and OPrev runs backwards through the ring. *)
Theorem C49_rings : forall (P : Type) (m : mem P), history m -> forall e, exists_in m e ->
  (exists l, around_origin m (e :: l) /\ cycle (oprev m) (e :: rev l)) /\ (exists l, around_face m (e :: l)).
Proof. exact @rings. Qed.
Print Assumptions C49_rings.

(** New: an edge by itself, nothing else changes. *)
Theorem C49_new : forall (P : Type) (m : mem P), history m -> let m' := fst (new m) in let e := snd (new m) in
  exists_in m' e /\ ~ exists_in m e /\ orig m' e = None /\ dest m' e = None
  /\ around_origin m' [e] /\ around_origin m' [sym e] /\ around_face m' [e; sym e]
  /\ forall x, exists_in m x -> exists_in m' x /\ onext m' x = onext m x /\ lnext m' x = lnext m x /\ orig m' x = orig m x.
Proof. exact @new_effect. Qed.
Print Assumptions C49_new.

(** Connect: the new edge runs from the destination of [a] to the origin of the
    resolved edge, after [a] and before the resolved edge on their left face.  A
    common face is cut in two, two faces become one. *)
Theorem C49_connect : forall (P : Type) resolve (m : mem P) a b m' e bb d,
  history m -> exists_in m a -> Nat.even (snd a) = true -> dest m a = Some d ->
  resolve m b d = Some bb -> exists_in m bb -> same_kind a bb ->
  connect resolve m a b = Ok (m', e) ->
  history m'
  /\ orig m' e = dest m a /\ dest m' e = orig m bb
  /\ lnext m' a = e /\ lnext m' e = bb
  /\ (forall X Y, around_face m (a :: X ++ bb :: Y) -> around_face m' (a :: e :: bb :: Y) /\ around_face m' (sym e :: X))
  /\ (forall X Y, around_face m (a :: X) -> around_face m (bb :: Y) -> apart (a :: X) (bb :: Y) ->
        around_face m' (a :: e :: bb :: Y ++ sym e :: X))
  /\ (forall L L', around_origin m (lnext m a :: L) -> around_origin m (bb :: L') -> apart (lnext m a :: L) (bb :: L') ->
        around_origin m' (lnext m a :: e :: L) /\ around_origin m' (bb :: sym e :: L'))
  /\ (forall x, exists_in m x -> orig m' x = orig m x).
Proof. exact @connect_effect. Qed.
Print Assumptions C49_connect.

(** Swap: the diagonal of two triangles becomes the other diagonal. *)
Theorem C49_swap : forall (P : Type) (m : mem P) e c d f g,
  history m -> exists_in m e ->
  around_face m [e; c; d] -> around_face m [sym e; f; g] -> apart [e; c; d] [sym e; f; g] ->
  around_face (swap m e) [e; d; f] /\ around_face (swap m e) [sym e; g; c]
  /\ (forall l x, around_face m l -> In x l -> exists_in m x -> same_kind x e -> apart l [e; c; d; sym e; f; g] ->
        around_face (swap m e) l)
  /\ orig (swap m e) e = dest m f /\ dest (swap m e) e = dest m c
  /\ (forall x, x <> e -> x <> sym e -> orig (swap m e) x = orig m x).
Proof. exact @swap_effect. Qed.
Print Assumptions C49_swap.

(** A quadrilateral with a diagonal: edges 0-1, 1-2, 2-0 and 2-3, 3-0 between
    the points 0 to 3. *)
Example C49_nonvacuous :
  history quad /\ count quad = 5
  /\ around_face quad [(2, 0); (0, 0); (1, 0)] /\ around_face quad [(2, 2); (3, 0); (4, 0)]
  /\ around_origin quad [(2, 0); (1, 2); (3, 0)]
  /\ connect_ok = Ok (quad, (4, 0))
  /\ around_face (swap quad (2, 0)) [(2, 0); (1, 0); (3, 0)]
  /\ around_face (swap quad (2, 0)) [(2, 2); (4, 0); (0, 0)]
  /\ orig (swap quad (2, 0)) (2, 0) = Some 3 /\ dest (swap quad (2, 0)) (2, 0) = Some 1.
Proof. exact quad_facts. Qed.

(** ** C50: Splice *)
(** Twice is the identity. *)
Theorem C50_twice : forall (P : Type) (m : mem P) a b, history m -> exists_in m a -> exists_in m b -> same_kind a b ->
  same_mem (splice (splice m a b) a b) m.
Proof. exact @splice_twice. Qed.
Print Assumptions C50_twice.

(** Two rings around origins become one, one becomes two, the others stay. *)
Theorem C50_origins : forall (P : Type) (m : mem P) a b, history m -> exists_in m a -> exists_in m b -> same_kind a b ->
  (forall A B, around_origin m (a :: A) -> around_origin m (b :: B) -> apart (a :: A) (b :: B) ->
     around_origin (splice m a b) (a :: B ++ b :: A))
  /\ (forall A B, around_origin m (a :: A ++ b :: B) ->
        around_origin (splice m a b) (a :: B) /\ around_origin (splice m a b) (b :: A))
  /\ (forall l x, around_origin m l -> In x l -> exists_in m x -> same_kind x a -> ~ In a l -> ~ In b l ->
        around_origin (splice m a b) l).
Proof. exact @splice_origins. Qed.
Print Assumptions C50_origins.

(** And the same for the rings around left faces. *)
Theorem C50_faces : forall (P : Type) (m : mem P) a b, history m -> exists_in m a -> exists_in m b -> same_kind a b ->
  (forall A B, around_face m (a :: A) -> around_face m (b :: B) -> apart (a :: A) (b :: B) ->
     around_face (splice m a b) (a :: A ++ b :: B))
  /\ (forall A B, around_face m (a :: A ++ b :: B) ->
        around_face (splice m a b) (a :: A) /\ around_face (splice m a b) (b :: B))
  /\ (forall l x, around_face m l -> In x l -> exists_in m x -> same_kind x a -> ~ In a l -> ~ In b l ->
        around_face (splice m a b) l).
Proof. exact @splice_faces. Qed.
Print Assumptions C50_faces.

(** Delete: the edge is by itself, the rings around origins lose it and keep
    their order, the faces at its two sides become one (or, when it is the same
    face, two), and no point changes. *)
Theorem C50_delete : forall (P : Type) (m : mem P) e, history m -> exists_in m e -> let m' := delete m e in
  around_origin m' [e] /\ around_origin m' [sym e] /\ around_face m' [e; sym e]
  /\ (forall l x, around_origin m l -> In x l -> exists_in m x -> same_kind x e ->
        without (sym e) (without e l) <> [] -> around_origin m' (without (sym e) (without e l)))
  /\ (forall A B, around_face m (e :: A) -> around_face m (sym e :: B) -> apart (e :: A) (sym e :: B) -> A ++ B <> [] ->
        around_face m' (A ++ B))
  /\ (forall A B, around_face m (e :: A ++ sym e :: B) ->
        (A <> [] -> around_face m' A) /\ (B <> [] -> around_face m' B))
  /\ (forall x, orig m' x = orig m x).
Proof. exact @delete_effect. Qed.
Print Assumptions C50_delete.

Example C50_nonvacuous :
  around_origin quad [(2, 0); (1, 2); (3, 0)] /\ around_origin quad [(4, 0); (3, 2)]
  /\ around_origin (splice quad (2, 0) (4, 0)) [(2, 0); (3, 2); (4, 0); (1, 2); (3, 0)]
  /\ around_origin (splice quad (2, 0) (3, 0)) [(2, 0)] /\ around_origin (splice quad (2, 0) (3, 0)) [(3, 0); (1, 2)]
  /\ around_face (delete quad (2, 0)) [(0, 0); (1, 0); (3, 0); (4, 0)]
  /\ around_origin (delete quad (2, 0)) [(1, 2); (3, 0)].
Proof. exact quad_splices. Qed.

(** ** C51: identifiers, for every interleaving of fewer than 2^64 creations *)
Theorem C51_unique : forall n schedule,
  Forall (fun i => i < n)%nat schedule -> (Z.of_nat n < 2 ^ 64)%Z ->
  forall i g, calls (run schedule) i = Some (Done g) ->
    (0 < g < 2 ^ 64)%Z /\ (forall k, (k < 4)%nat -> glb (run schedule) i k = g)
    /\ forall j h, calls (run schedule) j = Some (Done h) -> g = h -> i = j.
Proof. exact ids_distinct. Qed.
Print Assumptions C51_unique.

Example C51_nonvacuous :
  let s := [0; 1; 1; 0; 0; 1; 1; 0; 2; 0; 2; 1; 1; 0]%nat in
  calls (run s) 0%nat = Some (Done 2%Z) /\ calls (run s) 1%nat = Some (Done 1%Z) /\ calls (run s) 2%nat = Some (Write 3%Z 0).
Proof. vm_compute. auto. Qed.

(** ** C77: walking around a vertex *)
(** The callback gets the edges of the ring in order, up to the first for which
    it returns false, if no quad-edge has two edges in the ring. *)
Theorem C77_walk : forall (P : Type) (m : mem P) fn e l,
  history m -> exists_in m e -> around_origin m (e :: l) -> NoDup (map fst (e :: l)) ->
  walk_all_onext m fn e = Some (up_to fn (e :: l)) /\ walk_all_oprev m fn e = Some (up_to fn (e :: rev l)).
Proof. exact @walks. Qed.
Print Assumptions C77_walk.

(** It always ends. *)
Theorem C77_ends : forall (P : Type) (m : mem P) fn e, history m -> exists_in m e ->
  walk_all_onext m fn e <> None /\ walk_all_oprev m fn e <> None.
Proof. exact @walks_total. Qed.
Print Assumptions C77_ends.

(** With a loop, an edge with both ends at the vertex, edges are missed. *)
Theorem C77_loop_refuted : exists (m : mem nat) e l x,
  history m /\ exists_in m e /\ around_origin m (e :: l) /\ In x l
  /\ exists visited, walk_all_onext m (fun _ => true) e = Some visited /\ ~ In x visited.
Proof. exact walk_loop. Qed.
Print Assumptions C77_loop_refuted.

(** FindONextDest finds an edge of the ring with the destination if there is one. *)
Theorem C77_find : forall (P : Type) eq (m : mem P) p e l,
  history m -> exists_in m e -> around_origin m (e :: l) -> (forall y, In y (e :: l) -> dest m y <> None) ->
  match find_onext_dest eq m p e with
  | Ok (Some x) => In x (e :: l) /\ exists d, dest m x = Some d /\ eq p d = true
  | Ok None => forall x d, In x (e :: l) -> dest m x = Some d -> eq p d = false
  | _ => False
  end.
Proof. exact @find_correct. Qed.
Print Assumptions C77_find.

Example C77_nonvacuous :
  walk_all_onext quad (fun e => negb (edge_eqb e (1, 2))) (2, 0) = Some [(2, 0); (1, 2)]
  /\ walk_all_oprev quad (fun _ => true) (2, 0) = Some [(2, 0); (3, 0); (1, 2)]
  /\ find_onext_dest Nat.eqb quad 1 (2, 0) = Ok (Some (1, 2)) /\ find_onext_dest Nat.eqb quad 7 (2, 0) = Ok None.
Proof. vm_compute. auto. Qed.
