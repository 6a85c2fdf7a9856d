(** * Specification vocabulary for centroids, distances and sets of lines *)
From Coq Require Import ZArith Bool List Reals.
From Flocq Require Import Core.Core.
From Verif Require Import Base_F64 Base_Geom M_Geom M_Cmp M_Planar S_Cmp S_Winding S_Intersect P_F64Flocq P_F64Grid.
Import ListNotations.
Open Scope Z_scope.

(** First moments of the closed ring through the integer points of [r]: the sum
    over its sides of (sum of the coordinates of the ends) * (cross product). *)
Fixpoint path_moment (f : Z * Z -> Z) (l : list (Z * Z)) : Z :=
  match l with
  | p :: (q :: _) as tl => (f p + f q) * cross p q + path_moment f tl
  | _ => 0
  end.
Definition moment (f : Z * Z -> Z) (r : list (Z * Z)) : Z :=
  match r with
  | [] => 0
  | p :: _ => path_moment f (r ++ [p])
  end.
(** The centre of mass of the region bounded by the ring, times [2^e]. *)
Definition centre_of_mass (e : Z) (r : list (Z * Z)) : R * R :=
  ((IZR (moment fst r) / IZR (3 * area2 r) * bpow radix2 e)%R,
   (IZR (moment snd r) / IZR (3 * area2 r) * bpow radix2 e)%R).

(** The cross product of the last side of the open path from [p]; [c] if there is none. *)
Fixpoint last_cross (p : Z * Z) (c : Z) (l : list (Z * Z)) : Z :=
  match l with [] => c | q :: tl => last_cross q (cross p q) tl end.

(** Coordinates up to [D]. *)
Definition inD (D : Z) (p : Z * Z) : Prop := Z.abs (fst p) <= D /\ Z.abs (snd p) <= D.
(** The coordinates are integers up to [D], and there are few enough of them. *)
Definition small_points (r : list (Z * Z)) : Prop :=
  exists D, Forall (inD D) r /\ 8 * Z.of_nat (length r) * (D * D * D) <= 2 ^ 53 /\ 6 * (D * D) <= 2 ^ 53.

(** Horizontal or vertical. *)
Definition axis_parallel (l : line) : Prop :=
  f64_R (fst (fst l)) = f64_R (fst (snd l)) \/ f64_R (snd (fst l)) = f64_R (snd (snd l)).

(** Euclidean distance, and the distance from a segment: the smallest distance
    from one of its points. *)
Definition distR (p q : R * R) : R :=
  sqrt ((fst p - fst q) * (fst p - fst q) + (snd p - snd q) * (snd p - snd q))%R.
Definition least_distance (p v w : R * R) (d : R) : Prop :=
  (exists t, (0 <= t <= 1)%R /\ d = distR p (along v w t)) /\
  forall t, (0 <= t <= 1)%R -> (d <= distR p (along v w t))%R.
(** distance.go with the arithmetic of [R]. *)
Definition distance_to_segmentR : R * R -> R * R -> R * R -> R :=
  segment_dist_of R Rplus Rminus Rmult Rdiv (fun r => Req_bool r 0) Rmax Rmin sqrt 0%R 1%R.

(** The segment between two places, in either direction. *)
Definition same_segment (a b : line) : Prop :=
  (same_place (fst a) (fst b) /\ same_place (snd a) (snd b)) \/
  (same_place (fst a) (snd b) /\ same_place (snd a) (fst b)).
(** End points of [ls] which the comparator does not tell apart are the same place. *)
Definition told_apart (c : compare) (ls : list line) : Prop :=
  forall a b p q, In a ls -> In b ls -> In p (ends a) -> In q (ends b) ->
    point_equal c p q = true -> same_place p q.
Definition number_lines (ls : list line) : Prop :=
  forall l p, In l ls -> In p (ends l) -> words p /\ number p.
(** First end before second, or the same place. *)
Definition directed (l : line) : Prop := ~ before (snd l) (fst l).
(** Lexicographic order of lines. *)
Definition line_before (a b : line) : Prop :=
  before (fst a) (fst b) \/ same_place (fst a) (fst b) /\ before (snd a) (snd b).

(** What sort.Sort does: it reorders, and if Less is a strict weak order on
    these elements nothing stands ahead of something smaller. *)
Definition sort_ok (sort : (line -> line -> bool) -> list line -> list line) : Prop :=
  forall less l,
    Permutation.Permutation l (sort less l) /\
    ((forall a, In a l -> less a a = false) ->
     (forall a b d, In a l -> In b l -> In d l -> less a b = true -> less b d = true -> less a d = true) ->
     (forall a b d, In a l -> In b l -> In d l -> less a b = false -> less b d = false -> less a d = false) ->
     in_order (fun a b => less a b = true) (sort less l)).
