(** * Specification vocabulary for the KD-tree *)
From Coq Require Import ZArith Bool List Reals.
From Flocq Require Import Core.Core.
From Verif Require Import Base_F64 Base_Geom M_Extent S_Extent P_F64Flocq M_Kd.
Import ListNotations.

Section S.
  Context {A : Type} (xy : A -> point f64).

  (** Equal coordinates (float64 ==). *)
  Definition same_point (p q : A) : bool :=
    f64_eq (fst (xy p)) (fst (xy q)) && f64_eq (snd (xy p)) (snd (xy q)).

  (** The points kept: each inserted one unless an equal one is already kept. *)
  Fixpoint kept (l : list A) : list A :=
    match l with
    | [] => []
    | p :: tl => p :: filter (fun q => negb (same_point q p)) (kept tl)
    end.

  Fixpoint items (t : kd A) : list A :=
    match t with KNil => [] | KNode q _ l r => q :: items l ++ items r end.

  (** Every node of the tree with its level's dimension. *)
  Fixpoint subtrees (d : bool) (t : kd A) : list (bool * A * extent * kd A * kd A) :=
    match t with
    | KNil => []
    | KNode q b l r => (d, q, b, l, r) :: subtrees (negb d) l ++ subtrees (negb d) r
    end.

  (** Left strictly smaller, right not smaller, in alternating dimensions. *)
  Definition split_ok (t : kd A) : Prop :=
    forall d q b l r, In (d, q, b, l, r) (subtrees false t) ->
    (forall x, In x (items l) -> f64_lt (coord xy d x) (coord xy d q) = true) /\
    (forall x, In x (items r) -> f64_lt (coord xy d x) (coord xy d q) = false).

  (** The box of a node is the smallest one around its whole subtree. *)
  Definition boxes_ok (t : kd A) : Prop :=
    forall d q b l r, In (d, q, b, l, r) (subtrees false t) ->
    (forall x, In x (items (KNode q b l r)) -> inside b (xy x)) /\
    (forall c, (forall x, In x (items (KNode q b l r)) -> inside c (xy x)) -> box_within b c).

  (** Distances [df p] of boxes never exceed those of the points inside. *)
  Definition lower_bound (df : point f64 -> extent -> f64) (p : point f64) (t : kd A) : Prop :=
    forall d q b l r, In (d, q, b, l, r) (subtrees false t) ->
    forall x, In x (items (KNode q b l r)) -> f64_le (df p b) (df p (pt_box (xy x))) = true.
End S.

(** Finite coordinates, and their real values. *)
Definition fin (w : f64) : Prop := f64_wf w = true /\ f64_finite w = true.
Definition fin_pt (p : point f64) : Prop := fin (fst p) /\ fin (snd p).
Definition X (p : point f64) : R := f64_R (fst p).
Definition Y (p : point f64) : R := f64_R (snd p).

(** Equal, or not so close that the square of the difference underflows. *)
Definition apart (a b : R) : Prop := a = b \/ (bpow radix2 (-511) <= Rabs (a - b))%R.
