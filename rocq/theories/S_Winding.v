(** * Specification vocabulary for ring orientation

    Signed area by the surveyor's formula, over the integers, and the float64
    rings to which it applies exactly. *)
From Coq Require Import ZArith Bool List Reals.
From Flocq Require Import Core.Core.
From Verif Require Import Base_F64 Base_Geom P_F64Flocq P_F64Grid.
Import ListNotations.
Open Scope Z_scope.

Definition cross (p q : Z * Z) : Z := fst p * snd q - fst q * snd p.

Fixpoint path_sum (l : list (Z * Z)) : Z :=
  match l with
  | p :: (q :: _) as tl => cross p q + path_sum tl
  | _ => 0
  end.

(** Twice the signed area of the closed ring through the points of [r]
    (counter-clockwise positive when y points up). *)
Definition area2 (r : list (Z * Z)) : Z :=
  match r with
  | [] => 0
  | p :: _ => path_sum (r ++ [p])
  end.

(** The coordinates of the float64 ring are the integers of [r] times [2^e]
    ([repr], P_F64Grid.v: the word is finite and its real value is n * 2^e). *)
Definition on_grid (e : Z) (r : list (Z * Z)) (pts : list (point f64)) : Prop :=
  Forall2 (fun n p => repr e (fst n) (fst p) /\ repr e (snd n) (snd p)) r pts.

(** Rings small enough, relative to the grid, for float64 to be exact: every
    coordinate difference is at most [D] and [2 * n * D^2 <= 2^53]. *)
Definition small_ring (r : list (Z * Z)) : Prop :=
  exists D, (forall p q, In p r -> In q r ->
               Z.abs (fst p - fst q) <= D /\ Z.abs (snd p - snd q) <= D) /\
            2 * Z.of_nat (length r) * (D * D) <= 2 ^ 53.

(** Grid exponents for which neither the coordinates nor their products
    overflow or underflow. *)
Definition grid_exp (e : Z) : Prop := -537 <= e <= 485.

Definition translate (v : Z * Z) (p : Z * Z) : Z * Z := (fst p + fst v, snd p + snd v).
Definition flip_y (p : Z * Z) : Z * Z := (fst p, - snd p).

(** [rotate k l]: the cyclic sequence started [k] points later. *)
Definition rotate {A} (k : nat) (l : list A) : list A := skipn k l ++ firstn k l.

(** The integer points given as float64. *)
Definition fpt (p : Z * Z) : point f64 :=
  (Base_F64Arith.f64_ofZ (fst p), Base_F64Arith.f64_ofZ (snd p)).
