(** * Model of planar/centriod.go, planar.go, distance.go, line_helpers.go and line.go

    Floats are words; operations are not fused.  [c] is the comparator.
    planar.go 19-32, PerpendicularDistance, is in M_Simplify.v. *)
From Coq Require Import ZArith Bool List.
From Verif Require Import Base_Res Base_F64 Base_F64Arith Base_Geom M_Geom M_Extent M_Cmp.
Import ListNotations.
Open Scope Z_scope.

(** centriod.go 4-22: the loop over the segments; [aa] is the cross product of
    the last segment, [a] the sum of all, which is computed and never used *)
Fixpoint centroid_loop (p : pt) (rest : list pt) (a aa cx cy : f64) : f64 * f64 * f64 :=
  match rest with
  | [] => (aa, cx, cy)
  | n :: tl =>
      let aa := f64_sub (f64_mul (fst p) (snd n)) (f64_mul (fst n) (snd p)) in
      let a := f64_add a aa in
      let cx := f64_add cx (f64_mul (f64_add (fst p) (fst n)) aa) in
      let cy := f64_add cy (f64_mul (f64_add (snd p) (snd n)) aa) in
      centroid_loop n tl a aa cx cy
  end.
Definition points_centroid (pts : list pt) : pt :=
  match pts with
  | [] => (f64_zero, f64_zero)
  | [p] => p
  | p :: tl =>
      let '(aa, cx, cy) := centroid_loop p tl f64_zero f64_zero f64_zero f64_zero in
      (f64_div cx (f64_mul f64_three aa), f64_div cy (f64_mul f64_three aa))
  end.

(** planar.go 35-46 *)
Definition slope (l : line) : f64 * f64 * bool :=
  let dx := f64_sub (fst (snd l)) (fst (fst l)) in
  let dy := f64_sub (snd (snd l)) (snd (fst l)) in
  if f64_eq dx f64_zero || f64_eq dy f64_zero then (f64_zero, snd (fst l), f64_ne dx f64_zero)
  else
    let m := f64_div dy dx in
    (m, f64_sub (snd (fst l)) (f64_mul m (fst (fst l))), true).

(** planar.go 49-62 *)
Definition is_point_on_line (c : compare) (p l1 l2 : pt) : bool :=
  let '(m, b, defined) := slope (l1, l2) in
  if negb defined then cmp_float c (fst p) (fst l1)
  else if f64_eq m f64_zero then cmp_float c (snd p) (snd l1)
  else cmp_float c (snd p) (f64_add (f64_mul m (fst p)) b).

(** planar.go 65-79 *)
Definition is_point_on_segment (c : compare) (p : pt) (seg : line) : bool :=
  let '((x1, y1), (x2, y2)) := seg in
  let (minx, maxx) := if f64_gt x1 x2 then (x2, x1) else (x1, x2) in
  let (miny, maxy) := if f64_gt y1 y2 then (y2, y1) else (y1, y2) in
  if f64_gt minx (fst p) || f64_lt maxx (fst p) || f64_gt miny (snd p) || f64_lt maxy (snd p) then false
  else is_point_on_line c p (fst seg) (snd seg).

(** line.go 21, 24 *)
Definition is_vertical (l : line) : bool := f64_eq (fst (fst l)) (fst (snd l)).
Definition is_horizontal (l : line) : bool := f64_eq (snd (fst l)) (snd (snd l)).

(** line.go 35-50 *)
Definition line_contains_point (l : line) (p : pt) : bool :=
  let '((x1, y1), (x2, y2)) := l in
  let (minx, maxx) := if f64_gt x1 x2 then (x2, x1) else (x1, x2) in
  let (miny, maxy) := if f64_gt y1 y2 then (y2, y1) else (y1, y2) in
  f64_le minx (fst p) && f64_le (fst p) maxx && f64_le miny (snd p) && f64_le (snd p) maxy.

(** line.go 82-85 *)
Definition length_squared (l : line) : f64 :=
  let dx := f64_sub (fst (snd l)) (fst (fst l)) in
  let dy := f64_sub (snd (snd l)) (snd (fst l)) in
  f64_add (f64_mul dx dx) (f64_mul dy dy).

(** planar.go 83-92 *)
Definition point_on_line_at (l : line) (d : f64) : pt :=
  let ratio := f64_div d (f64_sqrt (length_squared l)) in
  (f64_add (fst (fst l)) (f64_mul ratio (f64_sub (fst (snd l)) (fst (fst l)))),
   f64_add (snd (fst l)) (f64_mul ratio (f64_sub (snd (snd l)) (snd (fst l))))).

(** distance.go, for float64 and for the reals of the theorem that it is the
    distance: [T] are the numbers, [tmax] and [tmin] math.Max and math.Min *)
Section Distance.
  Variable T : Type.
  Variables add sub mul div : T -> T -> T.
  Variable isz : T -> bool.
  Variables tmax tmin : T -> T -> T.
  Variable sqrt : T -> T.
  Variables zero one : T.
  (** distance.go 20-24 *)
  Definition dist2_of (p q : T * T) : T :=
    let v1 := sub (fst p) (fst q) in
    let v2 := sub (snd p) (snd q) in
    add (mul v1 v1) (mul v2 v2).
  (** distance.go 10-12 *)
  Definition dist_of (p q : T * T) : T := sqrt (dist2_of p q).
  (** distance.go 32-50 *)
  Definition segment_dist_of (p v w : T * T) : T :=
    let l2 := dist2_of v w in
    if isz l2 then dist_of p v
    else
      let t := div (add (mul (sub (fst p) (fst v)) (sub (fst w) (fst v)))
                        (mul (sub (snd p) (snd v)) (sub (snd w) (snd v)))) l2 in
      let t := tmax zero (tmin one t) in
      dist_of p (add (fst v) (mul t (sub (fst w) (fst v))), add (snd v) (mul t (sub (snd w) (snd v)))).
End Distance.

Definition point_distance2 : pt -> pt -> f64 := dist2_of f64 f64_add f64_sub f64_mul.
Definition point_distance : pt -> pt -> f64 := dist_of f64 f64_add f64_sub f64_mul f64_sqrt.
Definition distance_to_segment : pt -> pt -> pt -> f64 :=
  segment_dist_of f64 f64_add f64_sub f64_mul f64_div (fun w => f64_eq w f64_zero) f64_maxf f64_min f64_sqrt f64_zero f64_one.

(** line_helpers.go 10-16 *)
Definition normalize_line (l : line) : line := if negb (xy_less (fst l) (snd l)) then (snd l, fst l) else l.
Definition normalize_lines (ls : list line) : list line := map normalize_line ls.

Section Unique.
  Variable c : compare.                      (* DefaultCompare(), behind the functions of package cmp *)
  Variable sort : (line -> line -> bool) -> list line -> list line.   (* sort.Sort with this Less *)

  (** line_helpers.go 22-27 *)
  Definition lines_less (a b : line) : bool :=
    if negb (point_equal c (fst a) (fst b)) then xy_less (fst a) (fst b) else xy_less (snd a) (snd b).

  Definition ends_list (l : line) : list pt := [fst l; snd l].

  (** line_helpers.go 32-38: [ls] is the array, of which lns is the first [k]
      elements: append writes into it, and the next comparison reads it *)
  Fixpoint unique_loop (n i k : nat) (ls : list line) : nat * list line :=
    match n with
    | O => (k, ls)
    | S n' =>
        match nth_error ls i with
        | None => (k, ls)
        | Some x =>
            let keep := (i =? 0)%nat ||
              match nth_error ls (i - 1) with
              | None => false
              | Some y => negb (linestring_equal c (ends_list x) (ends_list y))
              end in
            if keep then unique_loop n' (S i) (S k) (upd ls k x)
            else unique_loop n' (S i) k ls
        end
    end.

  (** line_helpers.go 29-39: the result, and the caller's array afterwards *)
  Definition normalize_unique (ls : list line) : list line * list line :=
    let ls := sort lines_less (normalize_lines ls) in
    let (k, ls) := unique_loop (length ls) 0 0 ls in
    (firstn k ls, ls).
End Unique.
