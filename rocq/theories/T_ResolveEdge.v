(** * Theorems about resolving an edge around a vertex *)
From Coq Require Import Bool List Arith ZArith.
From Verif Require Import Base_F64 Base_Res Base_Geom S_Winding M_Quadedge S_Quadedge M_ResolveEdge S_ResolveEdge P_ResolveEdge5.
Import ListNotations.
Open Scope Z_scope.

(** A point in no edge's direction: ResolveEdge returns the first edge, from the
    given one on, for which the point lies between the edge and the next one.
    There is no error, except for a lone edge pointing away from the point. *)
Theorem C130_sector : forall ypd m gse l o at_ x,
  history m -> star ypd m (gse :: l) o at_ -> moderate x -> x <> o ->
  (forall e, In e (gse :: l) -> ~ same_dir (vec ypd o (at_ e)) (vec ypd o x)) ->
  exists r err, resolve_edge ypd m gse (fpt x) = Ok (r, err)
  /\ (err = None \/ err = Some EColinear /\ l = [] /\ opposite (vec ypd o (at_ gse)) (vec ypd o x))
  /\ match r with
     | Some e => exists l1 l2, gse :: l = l1 ++ e :: l2 /\ in_sector ypd m o at_ x e /\ forall f, In f l1 -> ~ in_sector ypd m o at_ x f
     | None => forall f, In f (gse :: l) -> ~ in_sector ypd m o at_ x f
     end.
Proof. exact resolve_sector. Qed.
Print Assumptions C130_sector.

(** If the edges go round counter-clockwise there is exactly one such edge, and it
    is the result, wherever the search starts. *)
Theorem C130_unique : forall ypd m gse l o at_ x,
  history m -> star ypd m (gse :: l) o at_ -> in_order ypd m (gse :: l) o at_ -> moderate x -> x <> o ->
  (forall e, In e (gse :: l) -> ~ same_dir (vec ypd o (at_ e)) (vec ypd o x)) ->
  exists e err, resolve_edge ypd m gse (fpt x) = Ok (Some e, err) /\ In e (gse :: l) /\ in_sector ypd m o at_ x e
  /\ forall f, In f (gse :: l) -> in_sector ypd m o at_ x f -> f = e.
Proof. exact resolve_ordered. Qed.
Print Assumptions C130_unique.

(** A point in the direction of an edge: that edge and the error for colinear
    points, unless the search starts there, the next edge points the other way and
    the point is further away than the end of the edge. *)
Theorem C131_ray : forall ypd m gse l o at_ x e,
  history m -> star ypd m (gse :: l) o at_ -> in_order ypd m (gse :: l) o at_ -> moderate x -> x <> o ->
  In e (gse :: l) -> same_dir (vec ypd o (at_ e)) (vec ypd o x) ->
  (gse = e -> opposite (vec ypd o (at_ e)) (vec ypd o (at_ (onext m e))) ->
   dot (vec ypd o x) (vec ypd o x) <= dot (vec ypd o (at_ e)) (vec ypd o (at_ e))) ->
  resolve_edge ypd m gse (fpt x) = Ok (Some e, Some EColinear).
Proof. exact resolve_ray. Qed.
Print Assumptions C131_ray.

(** The origin itself. *)
Theorem C131_end : forall ypd m gse l o at_,
  star ypd m (gse :: l) o at_ -> resolve_edge ypd m gse (fpt o) = Ok (None, Some EInvalidEnd).
Proof. exact resolve_end. Qed.
Print Assumptions C131_end.

(** Three edges: a point between two of them, a point in the direction of one. *)
Example C130_nonvacuous :
  history (fan (0, 0) three 0)
  /\ star false (fan (0, 0) three 0) [(0, 0); (1, 0); (2, 0)]%nat (0, 0) (ends three)
  /\ in_order false (fan (0, 0) three 0) [(0, 0); (1, 0); (2, 0)]%nat (0, 0) (ends three)
  /\ map (ends three) [(0, 0); (1, 0); (2, 0)]%nat = [(2, 0); (-3, 1); (-1, -2)]
  /\ in_sector false (fan (0, 0) three 0) (0, 0) (ends three) (-2, -1) (1, 0)%nat
  /\ resolve_edge false (fan (0, 0) three 0) (0, 0)%nat (fpt (-2, -1)) = Ok (Some (1, 0)%nat, None)
  /\ resolve_edge false (fan (0, 0) three 0) (0, 0)%nat (fpt (-2, -4)) = Ok (Some (2, 0)%nat, Some EColinear).
Proof. exact three_run. Qed.

(** Two opposite edges and a point beyond the end of the first: the result is the
    other edge, which points away from it. *)
Theorem C132_beyond_refuted : exists m gse f o at_ x,
  history m /\ star false m [gse; f] o at_ /\ in_order false m [gse; f] o at_ /\ moderate x
  /\ same_dir (vec false o (at_ gse)) (vec false o x) /\ opposite (vec false o (at_ f)) (vec false o x)
  /\ resolve_edge false m gse (fpt x) = Ok (Some f, Some EColinear).
Proof. exact beyond. Qed.
Print Assumptions C132_beyond_refuted.

(** A lone edge and a point behind it: an error for colinear points. *)
Theorem C132_behind_refuted : exists m gse o at_ x,
  history m /\ star false m [gse] o at_ /\ moderate x /\ opposite (vec false o (at_ gse)) (vec false o x)
  /\ resolve_edge false m gse (fpt x) = Ok (Some gse, Some EColinear).
Proof. exact spurious. Qed.
Print Assumptions C132_behind_refuted.

(** Two edges in one direction: no error for coincident edges. *)
Theorem C132_coincident_refuted : exists m gse f o p q x,
  history m /\ around_origin m [gse; f] /\ orig m gse = Some (fpt o) /\ orig m f = Some (fpt o) /\ dest m gse = Some (fpt p) /\ dest m f = Some (fpt q)
  /\ p <> q /\ same_dir (vec false o p) (vec false o q) /\ resolve_edge false m gse (fpt x) = Ok (Some gse, None).
Proof. exact coincident. Qed.
Print Assumptions C132_coincident_refuted.

(** RightOf: the turn from the edge to the point is clockwise. *)
Theorem C133_right : forall ypd m e o p x, moderate o -> moderate p -> moderate x ->
  orig m e = Some (fpt o) -> dest m e = Some (fpt p) ->
  (right_of ypd m (fpt x) e = true <-> cross (vec ypd o p) (vec ypd o x) < 0).
Proof. exact right_exact. Qed.
Print Assumptions C133_right.

Example C133_nonvacuous :
  moderate (0, 0) /\ orig (fan (0, 0) three 0) (0, 0)%nat = Some (fpt (0, 0)) /\ dest (fan (0, 0) three 0) (0, 0)%nat = Some (fpt (2, 0))
  /\ right_of false (fan (0, 0) three 0) (fpt (1, -1)) (0, 0)%nat = true /\ right_of true (fan (0, 0) three 0) (fpt (1, -1)) (0, 0)%nat = false.
Proof. split; [split; cbv; discriminate|]. repeat split. Qed.
