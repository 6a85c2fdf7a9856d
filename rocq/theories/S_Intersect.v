(** * Specification vocabulary for lines and segments in the plane *)
From Coq Require Import ZArith Bool List Reals.
From Flocq Require Import Core.Core.
From Verif Require Import Base_F64 Base_Geom M_Geom P_F64Flocq P_F64Grid S_Winding.
Import ListNotations.

(** The point with the real values of the coordinates. *)
Definition rpt (p : point f64) : R * R := (f64_R (fst p), f64_R (snd p)).

(** The point [a + t (b - a)]. *)
Definition along (a b : R * R) (t : R) : R * R :=
  ((fst a + t * (fst b - fst a))%R, (snd a + t * (snd b - snd a))%R).

Definition on_line (l : line) (p : R * R) : Prop := exists t : R, p = along (rpt (fst l)) (rpt (snd l)) t.
Definition on_segment (l : line) (p : R * R) : Prop :=
  exists t : R, (0 <= t <= 1)%R /\ p = along (rpt (fst l)) (rpt (snd l)) t.

(** The directions of the lines are multiples of each other. *)
Definition parallel (l1 l2 : line) : Prop :=
  let a := rpt (fst l1) in let b := rpt (snd l1) in
  let c := rpt (fst l2) in let d := rpt (snd l2) in
  ((fst b - fst a) * (snd d - snd c) = (snd b - snd a) * (fst d - fst c))%R.

Definition ends (l : line) : list (point f64) := [fst l; snd l].
Definition wf_line (l : line) : Prop :=
  forall p, In p (ends l) -> f64_wf (fst p) = true /\ f64_wf (snd p) = true.
Definition finite_line (l : line) : Prop :=
  wf_line l /\ forall p, In p (ends l) -> f64_finite (fst p) = true /\ f64_finite (snd p) = true.

(** One word, or both NaN. *)
Definition same_float (a b : f64) : Prop := a = b \/ (f64_isnan a = true /\ f64_isnan b = true).
Definition same_point (p q : point f64) : Prop := same_float (fst p) (fst q) /\ same_float (snd p) (snd q).

(** The four end points are integers times [2^e] and differ by at most
    [2^25 * 2^e] in each coordinate. *)
Definition near_grid (l1 l2 : line) : Prop :=
  exists e ns, grid_exp e /\ on_grid e ns (ends l1 ++ ends l2) /\
    forall p q, In p ns -> In q ns ->
      (Z.abs (fst p - fst q) <= 2 ^ 25 /\ Z.abs (snd p - snd q) <= 2 ^ 25)%Z.

(** The four end points are integers up to [2^16] times [2^e]. *)
Definition small_grid (l1 l2 : line) : Prop :=
  exists e ns, (-350 <= e <= 320)%Z /\ on_grid e ns (ends l1 ++ ends l2) /\
    forall p, In p ns -> (Z.abs (fst p) <= 2 ^ 16 /\ Z.abs (snd p) <= 2 ^ 16)%Z.

(** [v] lies between [a] and [b], in either order. *)
Definition between (a b v : f64) : Prop :=
  (f64_le a v = true /\ f64_le v b = true) \/ (f64_le b v = true /\ f64_le v a = true).
Definition in_box (l : line) (p : point f64) : Prop :=
  between (fst (fst l)) (fst (snd l)) (fst p) /\ between (snd (fst l)) (snd (snd l)) (snd p).

(** Finite coordinates of at most 2^500 in absolute value: no difference,
    product or determinant overflows. *)
Definition moderate (l : line) : Prop :=
  wf_line l /\ forall p, In p (ends l) ->
    (f64_finite (fst p) = true /\ (Rabs (f64_R (fst p)) <= bpow radix2 500)%R) /\
    (f64_finite (snd p) = true /\ (Rabs (f64_R (snd p)) <= bpow radix2 500)%R).
