(** * Specification vocabulary for geometries in tile pixels

    Written over the real numbers, independently of the code: the tile has its
    origin at the top left, x to the right and y down, and is [pixels] wide and
    high. *)
From Coq Require Import ZArith Bool List Reals.
From Flocq Require Import Core.Core.
From Verif Require Import Base_F64 Base_Geom P_F64Flocq M_Extent M_Cmp.
Import ListNotations.

(** The pixel of a coordinate: [a] is the side of the tile at pixel 0, [b] the
    opposite side. *)
Definition pixel (a b pixels v : R) : R := ((v - a) / (b - a) * pixels)%R.

(** Floating-point numbers away from the limits of the format. *)
Definition plain (w : f64) : Prop :=
  f64_wf w = true /\ f64_finite w = true /\ (Rabs (f64_R w) <= bpow radix2 400)%R.
Definition far_apart (a b : f64) : Prop := (bpow radix2 (-400) <= Rabs (f64_R a - f64_R b))%R.
Definition plain_pixels (w : f64) : Prop :=
  f64_wf w = true /\ f64_finite w = true /\ (1 <= f64_R w <= bpow radix2 64)%R.

Definition plain_tile (e : extent) : Prop := plain (e0 e) /\ plain (e1 e) /\ plain (e2 e) /\ plain (e3 e).
Definition finite_tile (e : extent) : Prop :=
  (f64_wf (e0 e) = true /\ f64_finite (e0 e) = true) /\ (f64_wf (e1 e) = true /\ f64_finite (e1 e) = true) /\
  (f64_wf (e2 e) = true /\ f64_finite (e2 e) = true) /\ (f64_wf (e3 e) = true /\ f64_finite (e3 e) = true).
(** The spans do not overflow and are positive. *)
Definition real_spans (e : extent) : Prop :=
  f64_finite (Base_F64Arith.f64_sub (e2 e) (e0 e)) = true /\ f64_finite (Base_F64Arith.f64_sub (e3 e) (e1 e)) = true /\ (f64_R (e0 e) < f64_R (e2 e))%R /\ (f64_R (e1 e) < f64_R (e3 e))%R.
Definition finite_pt (p : pt) : Prop :=
  (f64_wf (fst p) = true /\ f64_finite (fst p) = true) /\ (f64_wf (snd p) = true /\ f64_finite (snd p) = true).
Definition in_tile (e : extent) (p : pt) : Prop :=
  (f64_R (e0 e) <= f64_R (fst p) <= f64_R (e2 e))%R /\ (f64_R (e1 e) <= f64_R (snd p) <= f64_R (e3 e))%R.

Section Thin.
  Variable same : pt -> pt -> bool.
  (** [out] is [l] without the points which are the same as the last point kept. *)
  Inductive thinned_after : pt -> list pt -> list pt -> Prop :=
  | thin_end : forall k, thinned_after k [] []
  | thin_drop : forall k p l out, same k p = true -> thinned_after k l out -> thinned_after k (p :: l) out
  | thin_keep : forall k p l out, same k p = false -> thinned_after p l out -> thinned_after k (p :: l) (p :: out).
  Definition thinned (l out : list pt) : Prop :=
    match l, out with
    | [], [] => True
    | p :: tl, q :: out => q = p /\ thinned_after p tl out
    | _, _ => False
    end.
  (** No point is the same as its successor. *)
  Fixpoint steps (l : list pt) : Prop :=
    match l with
    | a :: (b :: _) as tl => same a b = false /\ steps tl
    | _ => True
    end.
  (** All points of the line are the same as its first. *)
  Definition one_place (l : list pt) : Prop :=
    match l with [] => True | p :: tl => Forall (fun q => same p q = true) tl end.
  (** The ring without its last point if that is the same as the first. *)
  Definition opened (l out : list pt) : Prop :=
    match l with
    | [] => out = []
    | p :: _ => out = if same p (last l p) then removelast l else l
    end.
  (** What becomes of a ring with two points or more when its points go through
      [f]: repeated points dropped, and the last if it closes the ring. *)
  Definition prepared_ring (f : pt -> pt) (r o : list pt) : Prop :=
    exists t, thinned (map f r) t /\ opened t o /\ (2 <= length o)%nat.
End Thin.

(** In the same order, each as it was or reversed. *)
Definition same_or_reversed (rs out : list (list pt)) : Prop := Forall2 (fun r o => o = r \/ o = rev r) rs out.

(** ** Integer tiles

    A tile with integer corners whose side is a power of two, 2^a, its top left
    corner at (x0, y0), and 2^(a+k) pixels along a side: 2^k pixels for a unit. *)
Definition int_tile (a x0 y0 : Z) : extent :=
  Ext (Base_F64Arith.f64_ofZ x0) (Base_F64Arith.f64_ofZ (y0 - 2 ^ a))
      (Base_F64Arith.f64_ofZ (x0 + 2 ^ a)) (Base_F64Arith.f64_ofZ y0).
Definition tile_pixel (k x0 y0 : Z) (p : Z * Z) : Z * Z :=
  (2 ^ k * (fst p - x0), 2 ^ k * (y0 - snd p))%Z.
Definition same_zpt (p q : Z * Z) : bool := (fst p =? fst q)%Z && (snd p =? snd q)%Z.
(** Without points that repeat the one before. *)
Fixpoint squeezed (l : list (Z * Z)) : list (Z * Z) :=
  match l with
  | [] => []
  | p :: tl =>
      match squeezed tl with
      | [] => [p]
      | q :: r => if same_zpt p q then q :: r else p :: q :: r
      end
  end.
(** Without the last point if it repeats the first. *)
Definition open_ring (r : list (Z * Z)) : list (Z * Z) :=
  match r with
  | [] => []
  | p :: _ => if same_zpt p (last r p) then removelast r else r
  end.
(** Coordinates whose distance the tolerance of the comparison cannot hide. *)
Definition pixel_range (p : Z * Z) : Prop := (Z.abs (fst p) <= 2 ^ 20 /\ Z.abs (snd p) <= 2 ^ 20)%Z.

Definition exact_tile (a k x0 y0 : Z) : Prop :=
  (0 <= a /\ 0 <= k /\ a + k <= 53 /\ Z.abs x0 <= 2 ^ 52 /\ Z.abs y0 <= 2 ^ 52 /\ a <= 52)%Z.
Definition in_range (k x0 y0 : Z) (p : Z * Z) : Prop :=
  (Z.abs (fst p) <= 2 ^ 53 /\ Z.abs (snd p) <= 2 ^ 53)%Z /\ pixel_range (tile_pixel k x0 y0 p).
(** The ring in pixels, and rings which do not shrink to one pixel point. *)
Definition tile_ring (k x0 y0 : Z) (r : list (Z * Z)) : list (Z * Z) := open_ring (squeezed (map (tile_pixel k x0 y0) r)).
Definition real_ring (k x0 y0 : Z) (r : list (Z * Z)) : Prop :=
  Forall (in_range k x0 y0) r /\ (2 <= length (squeezed (map (tile_pixel k x0 y0) r)))%nat.
