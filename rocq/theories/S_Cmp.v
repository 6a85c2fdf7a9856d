(** * Specification vocabulary for comparison theorems *)
From Coq Require Import ZArith Bool List Permutation.
From Verif Require Import Base_F64 Base_Geom M_Cmp.
Import ListNotations.
Open Scope Z_scope.

(** Neither tolerance is zero or negative. *)
Definition positive (c : compare) : Prop :=
  f64_lt f64_zero (tol c) = true /\ 0 < bit_tol c < 2 ^ 63.

(** An ordinary float64 other than 0. *)
Definition finite_nonzero (w : f64) : Prop :=
  f64_wf w = true /\ f64_isnan w = false /\ f64_isinf w = false /\ f64_eq w f64_zero = false.

(** Not NaN. *)
Definition number (p : pt) : Prop := f64_isnan (fst p) = false /\ f64_isnan (snd p) = false.

(** Both coordinates are 64-bit words: every Go value is. *)
Definition words (p : pt) : Prop := f64_wf (fst p) = true /\ f64_wf (snd p) = true.

(** Lexicographic order of points by the value of x, then of y. *)
Definition before (p q : pt) : Prop :=
  f64_lt (fst p) (fst q) = true \/
  f64_eq (fst p) (fst q) = true /\ f64_lt (snd p) (snd q) = true.
(** Same coordinates (-0 is 0). *)
Definition same_place (p q : pt) : Prop :=
  f64_eq (fst p) (fst q) = true /\ f64_eq (snd p) (snd q) = true.

(** No element comes before one that stands ahead of it. *)
Definition in_order {A} (lt : A -> A -> Prop) (l : list A) : Prop :=
  forall i j p q, (i < j)%nat -> nth_error l i = Some p -> nth_error l j = Some q -> ~ lt q p.

(** What is assumed of the sorting routines: they reorder, and they order
    slices without NaN.  (For rings and polygons nothing but the reordering is
    assumed: the order they are given is not even a strict weak order.) *)
Record sorting (S : sorters) : Prop := {
  floats_perm : forall l, Permutation l (sort_floats S l);
  floats_order : forall l, Forall (fun x => f64_isnan x = false) l ->
                   in_order (fun a b => f64_lt a b = true) (sort_floats S l);
  points_perm : forall l, Permutation l (sort_points S l);
  points_order : forall l, Forall number l -> in_order before (sort_points S l);
  rings_perm : forall l, Permutation l (sort_rings S l);
  polys_perm : forall l, Permutation l (sort_polys S l)
}.

(** The same cyclic sequence read from another starting point. *)
Definition rotated {A} (k : nat) (l : list A) : list A := skipn k l ++ firstn k l.

(** One vertex comes before all the others. *)
Definition single_leftmost (l : list pt) : Prop :=
  exists i p, nth_error l i = Some p /\
    forall j q, j <> i -> nth_error l j = Some q -> before p q.

(** No leaf is a MultiLineString. *)
Fixpoint no_multiline {C} (g : geom C) : bool :=
  match g with
  | GMultiLineString _ => false
  | GCollection gs => forallb no_multiline gs
  | _ => true
  end.

(** What calls of SetDefault made one after the other return: who, and what. *)
Fixpoint chain {V} (news : nat -> V) (v : V) (order : list nat) : list (nat * V) :=
  match order with [] => [] | i :: tl => (i, v) :: chain news (news i) tl end.
