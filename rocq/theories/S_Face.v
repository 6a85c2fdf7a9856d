(** * Specification of the methods of subdivision.Triangle *)
From Coq Require Import Bool List Arith ZArith.
From Verif Require Import M_Quadedge S_Quadedge S_Subdivision S_Winding S_ResolveEdge.
Import ListNotations.

Section Face.
  Context {P : Type}.
  (** All edges out of a vertex have the same origin. *)
  Definition same_points (m : mem P) : Prop := forall e, primal m e -> orig m (onext m e) = orig m e.
  (** The right face of the edge [e] has three sides; its corners are [a] (the
      destination of [e]), [b] (its origin) and [c], counter-clockwise. *)
  Definition right_face (m : mem P) (e : edge) (a b c : P) : Prop :=
    exists x y, around_face m [sym e; x; y] /\ dest m e = Some a /\ orig m e = Some b /\ orig m y = Some c.
  (** The face on the right of [e] is also on the right of [x]. *)
  Definition same_right (m : mem P) (e x : edge) : Prop := exists l, around_face m l /\ In (sym e) l /\ In (sym x) l.
  (** The face on the left of [x] is on the right of [e]. *)
  Definition other_side (m : mem P) (e x : edge) : Prop := exists l, around_face m l /\ In (sym e) l /\ In x l.
  (** The comparison tells the point [p] from the points of [l]. *)
  Definition tells (eq : P -> P -> bool) (l : list P) (p : P) : Prop :=
    forall q, In q l -> (eq q p = true <-> q = p) /\ (eq p q = true <-> q = p).
End Face.

(** The triangle [a], [b], [c] is counter-clockwise, and the point [p] is in it or on
    its boundary. *)
Open Scope Z_scope.
Definition counter_clockwise (a b c : Z * Z) : Prop := 0 < cross (vec false a b) (vec false a c).
Definition in_triangle (a b c p : Z * Z) : Prop :=
  0 <= cross (vec false a b) (vec false a p) /\ 0 <= cross (vec false b c) (vec false b p) /\ 0 <= cross (vec false c a) (vec false c p).
