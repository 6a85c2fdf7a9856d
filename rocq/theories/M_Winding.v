(** * Model of winding/winding.go

    A [Winding] (int8, lines 16-29) is an integer: Clockwise = -1,
    Colinear = 0, CounterClockwise = 1. *)
From Coq Require Import ZArith Bool List.
From Verif Require Import Base_F64 Base_F64Arith Base_Geom.
Import ListNotations.
Open Scope Z_scope.

(** winding/winding.go 21-25 *)
Definition wClockwise : Z := -1.
Definition wColinear : Z := 0.
Definition wCounterClockwise : Z := 1.

(** The body of the loop of xprod, winding/winding.go 118-125: [prev] is
    pts[li], [rest] the points still to visit. *)
Fixpoint xprod_from (prev : point f64) (sum : f64) (rest : list (point f64)) : f64 :=
  match rest with
  | [] => sum
  | p :: tl =>
      let dop := f64_sub (f64_mul (fst prev) (snd p)) (f64_mul (fst p) (snd prev)) in
      xprod_from p (f64_add sum dop) tl
  end.

(** winding/winding.go 108-128: li starts at the last index. *)
Definition xprod (pts : list (point f64)) : f64 :=
  xprod_from (last pts (f64_zero, f64_zero)) f64_zero pts.

(** winding/winding.go 135-147 *)
Definition orient (pts : list (point f64)) : Z :=
  if (length pts <? 3)%nat then 0
  else let sum := xprod pts in
       if f64_eq sum f64_zero then 0
       else if f64_sign sum then -1 else 1.

(** winding/winding.go 151-168 (Orientation) and 176-178, 270 (OfPoints).
    [ypd] is YPositiveDown.  The int8 product of -1, 1 and -1, 0, 1 does not
    overflow. *)
Definition orientation (ypd : bool) (pts : list (point f64)) : Z :=
  match pts with
  | [] => wColinear
  | p0 :: _ =>
      if (length pts <? 3)%nat then wColinear
      else
        let mul := if ypd then -1 else 1 in
        let adjusted := map (fun p => (f64_sub (fst p) (fst p0), f64_sub (snd p) (snd p0))) pts in
        mul * orient adjusted
  end.

(** winding/winding.go 181-190 *)
Definition of_int64_points (ypd : bool) (ipts : list (Z * Z)) : Z :=
  orientation ypd (map (fun p => (f64_ofZ (fst p), f64_ofZ (snd p))) ipts).

(** winding/winding.go 69-71 *)
Definition winding_not (w : Z) : Z := -1 * w.

(** [l[i] = v] for an index in range. *)
Fixpoint upd {A} (l : list A) (i : nat) (v : A) : list A :=
  match l, i with
  | [], _ => []
  | _ :: tl, O => v :: tl
  | x :: tl, S j => x :: upd tl j v
  end.

(** [l[i], l[j] = l[j], l[i]]; the indexes are in range at both uses. *)
Definition swap {A} (l : list A) (i j : nat) : list A :=
  match nth_error l i, nth_error l j with
  | Some a, Some b => upd (upd l i b) j a
  | _, _ => l
  end.

(** [for i := n - 1; i >= 0; i--] swapping [i] and [len-1-i], with [n] = len/2:
    winding/winding.go 205-210 and encoding/mvt/feature.go 214-217. *)
Fixpoint reverse_loop {A} (n : nat) (l : list A) : list A :=
  match n with
  | O => l
  | S i => reverse_loop i (swap l i (length l - 1 - i))
  end.
Definition reverse_in_place {A} (l : list A) : list A :=
  reverse_loop (Nat.div2 (length l)) l.

(** The loop of RectifyPolygon, winding/winding.go 214-234, from ring index
    [i] on.  Result: [None] when nil is returned, otherwise the rings appended
    to plyg; and the rings of the caller's polygon after the loop, since plyg
    shares the rings' storage with the argument and reverses in place.  (Rings
    of the argument are assumed not to overlap each other in memory.) *)
Fixpoint rectify_rings (ypd : bool) (i : nat) (rs : list (list (point f64)))
  : option (list (list (point f64))) * list (list (point f64)) :=
  match rs with
  | [] => (Some [], [])
  | r :: tl =>
      let wo := orientation ypd r in
      if wo =? wColinear then
        if (i =? 0)%nat then (None, rs)
        else let '(out, rest) := rectify_rings ypd (S i) tl in (out, r :: rest)
      else
        let r' :=
          if ((i =? 0)%nat && (wo =? wCounterClockwise)) || (negb (i =? 0)%nat && (wo =? wClockwise))
          then reverse_in_place r else r in
        let '(out, rest) := rectify_rings ypd (S i) tl in
        (option_map (cons r') out, r' :: rest)
  end.

(** winding/winding.go 203-236 *)
Definition rectify_polygon (ypd : bool) (rs : list (list (point f64))) :=
  rectify_rings ypd 0 rs.
