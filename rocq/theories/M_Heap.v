(** * Model of Go's container/heap

    Not part of the repository, but the KD-tree iterator
    (planar/index/kdtree/nearest_neighbor_iterator.go) is built on it.  Slices
    are lists; [less] is the Less method on two elements.  The loops are
    bounded by a fuel that the proofs show to be enough. *)
From Coq Require Import Arith Bool List.
Import ListNotations.

Section Heap.
  Context {E : Type} (less : E -> E -> bool).

  Fixpoint upd (l : list E) (i : nat) (x : E) : list E :=
    match l, i with
    | [], _ => []
    | _ :: tl, O => x :: tl
    | y :: tl, S k => y :: upd tl k x
    end.

  (** nearest_neighbor_iterator.go 33 *)
  Definition swap (h : list E) (i j : nat) : list E :=
    match nth_error h i, nth_error h j with
    | Some a, Some b => upd (upd h i b) j a
    | _, _ => h
    end.

  (** container/heap up *)
  Fixpoint up (fuel : nat) (h : list E) (j : nat) : list E :=
    match fuel with
    | O => h
    | S f =>
        let i := (j - 1) / 2 in
        if i =? j then h
        else match nth_error h j, nth_error h i with
             | Some a, Some b => if less a b then up f (swap h i j) i else h
             | _, _ => h
             end
    end.

  (** container/heap down, on the first [n] elements *)
  Fixpoint down (fuel : nat) (h : list E) (i n : nat) : list E :=
    match fuel with
    | O => h
    | S f =>
        let j1 := 2 * i + 1 in
        if n <=? j1 then h
        else
          let j2 := j1 + 1 in
          let j := match nth_error h j2, nth_error h j1 with
                   | Some a, Some b => if (j2 <? n) && less a b then j2 else j1
                   | _, _ => j1
                   end in
          match nth_error h j, nth_error h i with
          | Some a, Some b => if less a b then down f (swap h i j) j n else h
          | _, _ => h
          end
    end.

  (** container/heap Push *)
  Definition hpush (h : list E) (x : E) : list E :=
    let h := h ++ [x] in up (length h) h (length h - 1).

  (** container/heap Pop; [None]: index out of range *)
  Definition hpop (h : list E) : option (E * list E) :=
    match length h with
    | O => None
    | S n =>
        let h := down (S n) (swap h 0 n) 0 n in
        match nth_error h n with
        | Some x => Some (x, firstn n h)
        | None => None
        end
    end.
End Heap.
