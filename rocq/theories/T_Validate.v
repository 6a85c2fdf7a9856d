(** * Theorems: quadedge.Validate *)
From Coq Require Import Bool List Arith ZArith.
From Verif Require Import Base_F64 Base_Res Base_Geom M_Cmp S_Sweep S_Winding M_Quadedge S_Quadedge S_ResolveEdge P_ResolveEdge5 S_Face M_Validate S_Validate P_Validate P_Validate2 P_Validate3.
Import ListNotations.
Local Open Scope Z_scope.

(** Validate accepts a vertex whose edges go round once: every turn to the next edge is
    counter-clockwise and less than half a turn, except perhaps one. *)
Theorem C157_accepts : forall sort ypd m e l o at_, sorts sort -> history m -> star ypd m (e :: l) o at_ ->
  (length (e :: l) <= 2)%nat \/ (exists x0, convex_but ypd m (e :: l) o at_ x0) -> validate sort ypd m e = Ok true.
Proof. exact validate_accepts. Qed.
Print Assumptions C157_accepts.
(** It rejects a vertex whose edges go round clockwise. *)
Theorem C157_rejects : forall sort ypd m e l o at_, sorts sort -> history m -> star ypd m (e :: l) o at_ -> (2 < length (e :: l))%nat ->
  (forall x, In x (e :: l) -> cross (vec ypd o (at_ x)) (vec ypd o (at_ (onext m x))) < 0) -> validate sort ypd m e = Ok false.
Proof. exact validate_rejects. Qed.
Print Assumptions C157_rejects.
(** What it decides for edges in different directions: with more than two of them it
    accepts the vertex exactly if there are more counter-clockwise turns to the next edge
    than clockwise ones. *)
Theorem C157_decides : forall sort ypd m e l o at_, sorts sort -> history m -> star ypd m (e :: l) o at_ ->
  exists b, validate sort ypd m e = Ok b /\ (b = true <-> (length (e :: l) <= 2)%nat \/ (turns (-1) ypd m (e :: l) o at_ < turns 1 ypd m (e :: l) o at_)%nat).
Proof. exact validate_decides. Qed.
Print Assumptions C157_decides.
(** If it accepts a vertex, the edges have both ends, the same origin and different
    destinations. *)
Theorem C157_nil : forall sort ypd m e l, history m -> exists_in m e -> around_origin m (e :: l) -> NoDup (map fst (e :: l)) ->
  validate sort ypd m e = Ok true -> well_formed m e (e :: l).
Proof. exact validate_sound. Qed.
Print Assumptions C157_nil.
Example C157_case : history (fan (0, 0) three 0) /\ (forall ypd, star ypd (fan (0, 0) three 0) [(0, 0); (1, 0); (2, 0)]%nat (0, 0) (ends three))
  /\ convex_but false (fan (0, 0) three 0) [(0, 0); (1, 0); (2, 0)]%nat (0, 0) (ends three) (2, 0)%nat
  /\ (forall x, In x [(0, 0); (1, 0); (2, 0)]%nat -> cross (vec true (0, 0) (ends three x)) (vec true (0, 0) (ends three (onext (fan (0, 0) three 0) x))) < 0)
  /\ NoDup (map fst [(0, 0); (1, 0); (2, 0)]%nat).
Proof. exact three_accepted. Qed.

(** The edges to (10,0), (3,10), (-8,-6), (-8,6) and (3,-10) follow each other: the third
    and the fourth are in the wrong order.  Validate accepts the vertex. *)
Theorem C158_order_refuted : exists m, history m /\ leaves m (ring_of swapped) (0, 0) swapped
  /\ forall sort, sorts sort -> validate sort false m (0, 0)%nat = Ok true.
Proof. exact accepts_swapped. Qed.
Print Assumptions C158_order_refuted.
(** It accepts edges to (10,0), (-8,6), (3,-10), (3,10) and (-8,-6), which go round twice. *)
Theorem C158_twice_refuted : exists m, history m /\ leaves m (ring_of twice) (0, 0) twice
  /\ forall sort, sorts sort -> validate sort false m (0, 0)%nat = Ok true.
Proof. exact accepts_twice. Qed.
Print Assumptions C158_twice_refuted.
(** It accepts edges from (0,0) to (10,0) and to (20,0), of which the second covers the
    first. *)
Theorem C158_covered_refuted : exists m, history m /\ leaves m (ring_of covered) (0, 0) covered
  /\ forall sort, sorts sort -> validate sort false m (0, 0)%nat = Ok true.
Proof. exact accepts_covered. Qed.
Print Assumptions C158_covered_refuted.
Example C158_case : swapped = [(10, 0); (3, 10); (-8, -6); (-8, 6); (3, -10)] /\ twice = [(10, 0); (-8, 6); (3, -10); (3, 10); (-8, -6)] /\ covered = [(10, 0); (20, 0); (-5, 8); (-5, -8)].
Proof. repeat split. Qed.
