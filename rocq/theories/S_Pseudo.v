(** * Specification vocabulary for triangulated polygons

    A polygon with [n] vertices, numbered 0 to n-1 around it, and chords between
    them as pairs of numbers. *)
From Coq Require Import ZArith List Arith Reals.
From Verif Require Import Base_F64 Base_Geom M_Cmp S_Intersect S_Walker.
Import ListNotations.
Local Open Scope nat_scope.

Definition between (a b c : nat) : Prop := Nat.min a b < c < Nat.max a b.
Definition beyond (a b c : nat) : Prop := c < Nat.min a b \/ Nat.max a b < c.
(** The ends of one chord are on different sides of the other. *)
Definition crossing (e f : nat * nat) : Prop :=
  (between (fst e) (snd e) (fst f) /\ beyond (fst e) (snd e) (snd f)) \/
  (between (fst e) (snd e) (snd f) /\ beyond (fst e) (snd e) (fst f)).
Definition joined (E : list (nat * nat)) (i j : nat) : Prop := In (i, j) E \/ In (j, i) E.

(** A triangulation: chords and sides, among them all sides, no two crossing, and
    no other chord can be added without crossing one. *)
Record triangulation (n : nat) (E : list (nat * nat)) : Prop := {
  tri_chords : forall i j, In (i, j) E -> i < n /\ j < n /\ i <> j;
  tri_sides : forall i, i < n -> joined E i ((i + 1) mod n);
  tri_planar : forall e f, In e E -> In f E -> ~ crossing e f;
  tri_maximal : forall i j, i < n -> j < n -> i <> j -> joined E i j \/ exists e, In e E /\ crossing e (i, j)
}.

(** Twice the signed area of the triangle of three integer points. *)
Definition turn (a b c : Z * Z) : Z :=
  ((fst b - fst a) * (snd c - snd a) - (snd b - snd a) * (fst c - fst a))%Z.
(** Any three vertices, in order, turn the same way. *)
Definition convex (l : list (Z * Z)) : Prop :=
  exists s, (s = 1 \/ s = -1)%Z /\
    forall i j k d, i < j -> j < k -> k < length l -> (0 < s * turn (nth i l d) (nth j l d) (nth k l d))%Z.
(** [p] is strictly inside the circle through the corners of the triangle [a],
    [b], [c], which turns left. *)
Definition in_circle (a b c p : Z * Z) : Prop :=
  let d q := (fst q - fst p, snd q - snd p)%Z in
  let s q := (fst q * fst q + snd q * snd q)%Z in
  let a := d a in let b := d b in let c := d c in
  (0 < fst a * (snd b * s c - snd c * s b) - snd a * (fst b * s c - fst c * s b) + s a * (fst b * snd c - fst c * snd b))%Z.
(** The segments cross in a point inside both. *)
Definition proper_crossing (a b c d : Z * Z) : Prop :=
  (turn a b c * turn a b d < 0)%Z /\ (turn c d a * turn c d b < 0)%Z.
(** Integer points for which float64 is exact. *)
Definition small_point (p : Z * Z) : Prop := (Z.abs (fst p) <= 2 ^ 16 /\ Z.abs (snd p) <= 2 ^ 16)%Z.
Definition small_polygon (r : list (Z * Z)) : Prop := Forall small_point r /\ (Z.of_nat (length r) <= 2 ^ 18)%Z.

(** Finite points, no two of them equal. *)
Definition distinct (pts : list pt) : Prop := Forall finite_pt pts /\ NoDup (map rpt pts).
(** A line from one of the points to another. *)
Definition joins (o : list pt) (l : pt * pt) : Prop := In (fst l) o /\ In (snd l) o.
(** One of the segments is on one side of the line through the other. *)
Definition apart (a b c d : Z * Z) : Prop :=
  (0 < turn a b c * turn a b d)%Z \/ (0 < turn c d a * turn c d b)%Z.
(** Sides which are not neighbours do not meet, neighbouring sides are not
    colinear: a simple polygon. *)
Definition vertex (r : list (Z * Z)) (i : nat) : Z * Z := nth (i mod length r) r (0, 0)%Z.
Definition simple_polygon (r : list (Z * Z)) : Prop :=
  (forall i, i < length r -> turn (vertex r i) (vertex r (i + 1)) (vertex r (i + 2)) <> 0%Z) /\
  (forall i j, i < length r -> j < length r -> i <> j -> (i + 1) mod length r <> j -> (j + 1) mod length r <> i ->
     apart (vertex r i) (vertex r (i + 1)) (vertex r j) (vertex r (j + 1))).
