(** * Specification of quad-edges *)
From Coq Require Import Bool List Arith.
From Verif Require Import Base_Res M_Quadedge.
Import ListNotations.

(** A cycle of [f]: no edge twice, each followed by its image, the last one by
    the first. *)
Fixpoint chain (f : edge -> edge) (first : edge) (l : list edge) : Prop :=
  match l with
  | [] => True
  | e :: l' => f e = match l' with [] => first | e' :: _ => e' end /\ chain f first l'
  end.
Definition cycle (f : edge -> edge) (l : list edge) : Prop :=
  match l with
  | [] => False
  | e :: _ => NoDup l /\ chain f e l
  end.
Definition apart (l l' : list edge) : Prop := forall e, In e l -> In e l' -> False.

Section Spec.
  Context {P : Type}.
  (** An edge of the memory. *)
  Definition exists_in (m : mem P) (e : edge) : Prop := fst e < count m /\ snd e < 4.
  (** Both primal (between vertices) or both dual (between faces). *)
  Definition same_kind (a b : edge) : Prop := Nat.even (snd a) = Nat.even (snd b).

  (** The histories: New, EndPoints, Splice of two edges of the same kind,
      Connect (with any choice of the edge which ResolveEdge returns), Swap and
      Delete. *)
  Inductive history : mem P -> Prop :=
  | h_empty : history empty
  | h_new m : history m -> history (fst (new m))
  | h_points m e o d : history m -> exists_in m e -> history (end_points m e o d)
  | h_splice m a b : history m -> exists_in m a -> exists_in m b -> same_kind a b -> history (splice m a b)
  | h_connect m a b resolve m' e : history m -> exists_in m a -> Nat.even (snd a) = true ->
      (forall d bb, resolve m b d = Some bb -> exists_in m bb /\ same_kind a bb) ->
      connect resolve m a b = Ok (m', e) -> history m'
  | h_swap m e : history m -> exists_in m e -> history (swap m e)
  | h_delete m e : history m -> exists_in m e -> history (delete m e).

  (** The edges out of a vertex, counter-clockwise, and the edges around a left
      face. *)
  Definition around_origin (m : mem P) (l : list edge) : Prop := cycle (onext m) l.
  Definition around_face (m : mem P) (l : list edge) : Prop := cycle (lnext m) l.
End Spec.

(** The elements up to and including the first one for which the callback
    returns false. *)
Fixpoint up_to (fn : edge -> bool) (l : list edge) : list edge :=
  match l with
  | [] => []
  | e :: l => if fn e then e :: up_to fn l else [e]
  end.
Definition without (e : edge) (l : list edge) : list edge := filter (fun x => negb (edge_eqb x e)) l.

(** Equal memories, as far as their edges go. *)
Definition same_mem {P} (m m' : mem P) : Prop :=
  count m = count m' /\ (forall e, exists_in m e -> onext m e = onext m' e) /\ (forall e, exists_in m e -> orig m e = orig m' e).
