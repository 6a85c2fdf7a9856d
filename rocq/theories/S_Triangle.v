(** * Specification vocabulary for triangles and circles *)
From Coq Require Import ZArith Bool List Reals.
From Flocq Require Import Core.Core.
From Verif Require Import Base_F64 Base_Geom M_Geom M_Cmp M_Triangle S_Intersect S_Winding P_F64Flocq P_F64Grid.
Import ListNotations.
Open Scope Z_scope.

(** The closed polygonal line through [pts]: segment number [i] ends in point
    number [i] and starts in the point before it, the last for the first. *)
Definition closed_chain (pts : list pt) (ls : list line) : Prop :=
  length ls = length pts /\
  forall i p, nth_error pts i = Some p ->
    exists q, nth_error pts ((i + length pts - 1) mod length pts) = Some q /\ nth_error ls i = Some (q, p).

(** [p] is a mean of the three points in which each of them has some weight. *)
Definition inside3 (a b c p : R * R) : Prop :=
  exists u v w : R, (0 < u)%R /\ (0 < v)%R /\ (0 < w)%R /\ (u + v + w = 1)%R /\
    fst p = (u * fst a + v * fst b + w * fst c)%R /\ snd p = (u * snd a + v * snd b + w * snd c)%R.

(** The vertices are integers times [2^e], at most [2^25] apart in each coordinate. *)
Definition near3 (e : Z) (a b c : Z * Z) (t : triangle) : Prop :=
  grid_exp e /\ on_grid e [a; b; c] (vertices3 t) /\
  forall p q, In p [a; b; c] -> In q [a; b; c] ->
    Z.abs (fst p - fst q) <= 2 ^ 25 /\ Z.abs (snd p - snd q) <= 2 ^ 25.

(** Points of the plane: one line passes through the three of them; distance squared. *)
Definition colinearR (a b c : R * R) : Prop :=
  ((fst b - fst a) * (snd c - snd a) = (snd b - snd a) * (fst c - fst a))%R.
Definition dist2R (p q : R * R) : R :=
  ((fst p - fst q) * (fst p - fst q) + (snd p - snd q) * (snd p - snd q))%R.

(** A finite point with coordinates of at most [2^k]. *)
Definition point_upto (k : Z) (p : pt) : Prop :=
  f64_wf (fst p) = true /\ f64_wf (snd p) = true /\ f64_finite (fst p) = true /\ f64_finite (snd p) = true /\
  (Rabs (f64_R (fst p)) <= bpow radix2 k)%R /\ (Rabs (f64_R (snd p)) <= bpow radix2 k)%R.
Definition finite_pt (p : pt) : Prop :=
  f64_wf (fst p) = true /\ f64_wf (snd p) = true /\ f64_finite (fst p) = true /\ f64_finite (snd p) = true.

(** CircleFromPoints on exact real numbers: the model's functions with the
    arithmetic of [R].  None is the loop still running after [fuel] rounds,
    [Some None] the error for colinear points. *)
Definition isz_R (r : R) : bool := Req_bool r 0.
Definition centreR : R * R -> R * R -> R * R -> R * R := centre_of R Rplus Rminus Rmult Rdiv isz_R 2%R (-1)%R (/ 2)%R.
Definition colinear_testR : R * R -> R * R -> R * R -> bool := colinear_of R Rminus Rmult Req_bool.
Definition rotateR : nat -> R * R -> R * R -> R * R -> option ((R * R) * (R * R) * (R * R)) := rotate_points R Rminus isz_R.

Definition circle_centreR (fuel : nat) (a b c : R * R) : option (option (R * R)) :=
  if colinear_testR a b c then Some None
  else match rotateR fuel a b c with
       | None => None
       | Some (a, b, c) => Some (Some (centreR a b c))
       end.
