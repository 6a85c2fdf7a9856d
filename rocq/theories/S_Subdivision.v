(** * Specification of walking over a subdivision *)
From Coq Require Import Bool List Arith.
From Verif Require Import Base_Res M_Quadedge S_Quadedge M_Subdivision.
Import ListNotations.

Section Spec.
  Context {P : Type}.
  (** The edges which one reaches from an edge over the rings around origins and
      to the other side of edges, forwards and backwards. *)
  Inductive connected (m : mem P) : edge -> edge -> Prop :=
  | c_refl a : connected m a a
  | c_onext a : exists_in m a -> connected m a (onext m a)
  | c_sym a : exists_in m a -> connected m a (sym a)
  | c_back a b : connected m a b -> connected m b a
  | c_trans a b c : connected m a b -> connected m b c -> connected m a c.

  (** An edge between vertices. *)
  Definition primal (m : mem P) (e : edge) : Prop := exists_in m e /\ Nat.even (snd e) = true.

  (** The edges leave the same vertex. *)
  Definition same_origin (m : mem P) (a b : edge) : Prop := exists l, around_origin m l /\ In a l /\ In b l.

  (** The graph of [se]: every edge has its end points, the points of two edges are
      equal exactly when the edges leave the same vertex. *)
  Definition labelled (m : mem P) (se : edge) : Prop :=
    forall a, connected m se a ->
      orig m a <> None /\ forall b, connected m se b -> (orig m a = orig m b <-> same_origin m a b).
  (** No edge joins a vertex to itself. *)
  Definition loop_free (m : mem P) (se : edge) : Prop :=
    forall a, connected m se a -> ~ same_origin m a (sym a).
  (** All faces have three edges. *)
  Definition all_triangles (m : mem P) (se : edge) : Prop :=
    forall a, connected m se a -> exists b c, around_face m [a; b; c].

  (** The corners of the left face of an edge, from its origin. *)
  Definition corners (m : mem P) (e : edge) (t : P * P * P) : Prop :=
    let '(p, q, r) := t in
    orig m e = Some p /\ dest m e = Some q /\ orig m (lprev m e) = Some r.
  (** [es] has exactly one edge of every face of the graph of [se]. *)
  Definition one_of_each_face (m : mem P) (se : edge) (es : list edge) : Prop :=
    NoDup es /\ (forall e, In e es -> connected m se e)
    /\ forall f e, around_face m f -> In e f -> connected m se e ->
         exists x, In x f /\ In x es /\ forall y, In y f -> In y es -> y = x.

  (** The comparison tells the points of the graph apart. *)
  Definition decides (m : mem P) (se : edge) (eq : P -> P -> bool) : Prop :=
    forall a b p q, connected m se a -> connected m se b -> orig m a = Some p -> orig m b = Some q ->
      (eq p q = true <-> p = q).

  (** An index has for every vertex of the graph an edge out of it, and nothing
      else. *)
  Definition indexes (get : P -> option edge) (m : mem P) (se : edge) : Prop :=
    forall a p, connected m se a -> orig m a = Some p ->
      exists x, get p = Some x /\ same_origin m x a.
End Spec.

(** The calls of a callback on [l] one after the other, up to an error. *)
Fixpoint calls_on {E} (fn : edge -> outcome E) (l : list edge) : list edge * option E :=
  match l with
  | [] => ([], None)
  | e :: l =>
      match fn e with
      | Continue => let '(cs, err) := calls_on fn l in (e :: cs, err)
      | Cancelled => ([e], None)
      | Fail err => ([e], Some err)
      end
  end.
Fixpoint until {A} (fn : A -> bool) (l : list A) : list A :=
  match l with
  | [] => []
  | t :: l => if fn t then t :: until fn l else [t]
  end.
