(** * Concrete objects for the examples and counterexamples of the R-tree *)
From Coq Require Import ZArith Bool List Permutation Sorted Lia.
From Verif Require Import Base_F64 Base_F64Arith M_Rtree S_Rtree.
Import ListNotations.
Open Scope Z_scope.

(** A box [x0/4, x1/4] x [y0/4, y1/4]. *)
Definition obj := (Z * Z * Z * Z)%type.
Definition quarter (n : Z) : f64 := f64_div (f64_ofZ n) (f64_ofZ 4).
Definition obj_bounds (o : obj) : rect :=
  let '(x0, x1, y0, y1) := o in [(quarter x0, quarter x1); (quarter y0, quarter y1)].
Definition obj_eqb (a b : obj) : bool :=
  let '(a0, a1, a2, a3) := a in let '(b0, b1, b2, b3) := b in (a0 =? b0) && (a1 =? b1) && (a2 =? b2) && (a3 =? b3).
Definition unit_box (x y : Z) : obj := (4 * x, 4 * x + 4, 4 * y, 4 * y + 4).

(** Insertion sort. *)
Fixpoint ins {X} (le : X -> X -> bool) (x : X) (l : list X) : list X :=
  match l with
  | [] => [x]
  | y :: tl => if le x y then x :: l else y :: ins le x tl
  end.
Definition isort {X} (le : X -> X -> bool) (l : list X) : list X := fold_right (ins le) [] l.
Definition sort_dim {A} (i : nat) (l : list (entry A)) : list (entry A) :=
  isort (fun a b => f64_le (fst (nth i (fst a) (f64_zero, f64_zero))) (fst (nth i (fst b) (f64_zero, f64_zero)))) l.
Definition sort_snd {A} (l : list (entry A * f64)) : list (entry A * f64) :=
  isort (fun a b => f64_le (snd a) (snd b)) l.
