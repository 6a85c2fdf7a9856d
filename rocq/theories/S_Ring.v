(** * Specification vocabulary for rings and points: the even-odd rule *)
From Coq Require Import ZArith Bool List Reals.
From Verif Require Import Base_Res Base_F64 Base_Geom M_Geom M_Intersect S_Winding S_Intersect P_F64Flocq P_F64Grid.
Import ListNotations.

(** The sides of the closed ring through the points of [r], which are in the plane. *)
Fixpoint path_sides (p : R * R) (r : list (R * R)) : list ((R * R) * (R * R)) :=
  match r with [] => [] | q :: tl => (p, q) :: path_sides q tl end.
Definition sides (r : list (R * R)) : list ((R * R) * (R * R)) :=
  match r with [] => [] | p :: _ => path_sides (last r p) r end.

(** [q] is on the segment from [a] to [b]; on the ring. *)
Definition on_side (e : (R * R) * (R * R)) (q : R * R) : Prop :=
  exists t, (0 <= t <= 1)%R /\ q = along (fst e) (snd e) t.
Definition on_ring (r : list (R * R)) (q : R * R) : Prop := exists e, In e (sides r) /\ on_side e q.

(** One end of the side is below [q], the other is not, and the side is left
    of [q] at the height of [q]. *)
Definition rltb (x y : R) : bool := if Rlt_dec x y then true else false.
Definition below (a q : R * R) : bool := rltb (snd a) (snd q).
Definition x_at (e : (R * R) * (R * R)) (y : R) : R :=
  (fst (fst e) + (y - snd (fst e)) / (snd (snd e) - snd (fst e)) * (fst (snd e) - fst (fst e)))%R.
Definition passes (q : R * R) (e : (R * R) * (R * R)) : bool :=
  xorb (below (fst e) q) (below (snd e) q) && rltb (x_at e (snd q)) (fst q).

(** The even-odd rule: a ray to the left crosses the ring an odd number of times. *)
Definition inside (r : list (R * R)) (q : R * R) : bool := Nat.odd (length (filter (passes q) (sides r))).

(** A path of straight pieces from [p] to [q] which does not touch the ring. *)
Inductive joined (r : list (R * R)) : R * R -> R * R -> Prop :=
| joined_refl p : joined r p p
| joined_step p q s : (forall t, (0 <= t <= 1)%R -> ~ on_ring r (along p q t)) -> joined r q s -> joined r p s.

(** The segment from [p] to [q] crosses the side [e] inside both. *)
Definition crosses (p q : R * R) (e : (R * R) * (R * R)) : Prop :=
  exists t u, (0 < t < 1)%R /\ (0 < u < 1)%R /\ along p q t = along (fst e) (snd e) u /\
    ((fst q - fst p) * (snd (snd e) - snd (fst e)) <> (snd q - snd p) * (fst (snd e) - fst (fst e)))%R.

(** Left, right, above or below of all the points. *)
Definition beyond (r : list (R * R)) (q : R * R) : Prop :=
  (forall p, In p r -> (fst q < fst p)%R) \/ (forall p, In p r -> (fst p < fst q)%R) \/
  (forall p, In p r -> (snd q < snd p)%R) \/ (forall p, In p r -> (snd p < snd q)%R).

(** Words whose values are integers up to 512 in absolute value. *)
Definition small_int (w : f64) : Prop := exists n, repr 0 n w /\ (Z.abs n <= 512)%Z.
Definition small_pt (p : point f64) : Prop := small_int (fst p) /\ small_int (snd p).

(** Finite words up to 2^30 in absolute value. *)
Definition mid_word (w : f64) : Prop := f64_wf w = true /\ f64_finite w = true /\ (Rabs (f64_R w) <= 1073741824)%R.
Definition mid_line (l : line) : Prop :=
  mid_word (fst (fst l)) /\ mid_word (snd (fst l)) /\ mid_word (fst (snd l)) /\ mid_word (snd (snd l)).

(** In both coordinates the ranges of the two segments are at most [eps] apart. *)
Definition ranges_near (eps : R) (a b c d : f64) : Prop :=
  (Rmin (f64_R a) (f64_R b) <= Rmax (f64_R c) (f64_R d) + eps)%R /\ (Rmin (f64_R c) (f64_R d) <= Rmax (f64_R a) (f64_R b) + eps)%R.
Definition boxes_near (eps : R) (s t : line) : Prop :=
  ranges_near eps (fst (fst s)) (fst (snd s)) (fst (fst t)) (fst (snd t)) /\
  ranges_near eps (snd (fst s)) (snd (snd s)) (snd (fst t)) (snd (snd t)).

Definition share_point (s t : line) : Prop := exists q, on_segment s q /\ on_segment t q.

(** What NewTree(1, 2, 5, ...) has computed in floating point: the height, the
    number of subtrees and of slices; [fuel] bounds the recursion of the model. *)
Definition numbers_ok {A} (nums : list A -> nat * Z * Z * Z) : Prop :=
  forall l, let '(fuel, h, s, _) := nums l in
    (0 <= h)%Z /\ ((5 < length l)%nat -> (1 <= s < Z.of_nat (length l))%Z) /\ (Z.to_nat h + length l + 1 < fuel)%nat.
