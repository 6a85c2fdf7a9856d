(** * Model of planar/line_intersect.go, on float64 words

    LineIntersectBigFloat is not modelled. *)
From Coq Require Import ZArith Bool List.
From Verif Require Import Base_F64 Base_F64Arith Base_Geom M_Geom M_Cmp.
Import ListNotations.
Open Scope Z_scope.

(** The determinant (x1-x2)(y3-y4) - (y1-y2)(x3-x4), line_intersect.go 24, 53, 158 *)
Definition denominator (l1 l2 : line) : f64 :=
  let '((x1, y1), (x2, y2)) := l1 in
  let '((x3, y3), (x4, y4)) := l2 in
  f64_sub (f64_mul (f64_sub x1 x2) (f64_sub y3 y4)) (f64_mul (f64_sub y1 y2) (f64_sub x3 x4)).

(** line_intersect.go 18-41, AreLinesColinear *)
Definition are_lines_colinear (l1 l2 : line) : bool :=
  let '((x1, y1), (x2, y2)) := l1 in
  let '((x3, y3), (x4, y4)) := l2 in
  if f64_ne (denominator l1 l2) f64_zero then false
  else
    let '(xmin, xmax) := if f64_gt x1 x2 then (x2, x1) else (x1, x2) in
    let '(ymin, ymax) := if f64_gt y1 y2 then (y2, y1) else (y1, y2) in
    (f64_le xmin x3 && f64_le x3 xmax && f64_le ymin y3 && f64_le y3 ymax) ||
    (f64_le xmin x4 && f64_le x4 xmax && f64_le ymin y4 && f64_le y4 ymax).

(** [if x == -0 { x = 0 }]: the constant -0 is 0. *)
Definition no_negative_zero (x : f64) : f64 := if f64_eq x f64_zero then f64_zero else x.

(** line_intersect.go 59-68, 163-172: the two quotients *)
Definition crossing (l1 l2 : line) : pt :=
  let '((x1, y1), (x2, y2)) := l1 in
  let '((x3, y3), (x4, y4)) := l2 in
  let d := denominator l1 l2 in
  let a := f64_sub (f64_mul x1 y2) (f64_mul y1 x2) in
  let b := f64_sub (f64_mul x3 y4) (f64_mul y3 x4) in
  let xnom := f64_sub (f64_mul a (f64_sub x3 x4)) (f64_mul (f64_sub x1 x2) b) in
  let ynom := f64_sub (f64_mul a (f64_sub y3 y4)) (f64_mul (f64_sub y1 y2) b) in
  (no_negative_zero (f64_div xnom d), no_negative_zero (f64_div ynom d)).

(** line_intersect.go 46-71, LineIntersect *)
Definition line_intersect (l1 l2 : line) : pt * bool :=
  if f64_eq (denominator l1 l2) f64_zero then ((f64_zero, f64_zero), false)
  else (crossing l1 l2, true).

(** line_intersect.go 142-183, SegmentIntersect *)
Definition segment_intersect (l1 l2 : line) : pt * bool :=
  let '((x1, y1), (x2, y2)) := l1 in
  let '((x3, y3), (x4, y4)) := l2 in
  let dx12 := f64_sub x1 x2 in
  let dx13 := f64_sub x1 x3 in
  let dx34 := f64_sub x3 x4 in
  let dy12 := f64_sub y1 y2 in
  let dy13 := f64_sub y1 y3 in
  let dy34 := f64_sub y3 y4 in
  let d := denominator l1 l2 in
  if f64_eq d f64_zero then ((f64_zero, f64_zero), false)
  else
    let t := f64_div (f64_sub (f64_mul dx13 dy34) (f64_mul dy13 dx34)) d in
    let u := f64_div (f64_neg (f64_sub (f64_mul dx12 dy13) (f64_mul dy12 dx13))) d in
    (crossing l1 l2,
     f64_ge u f64_zero && f64_le u f64_one && f64_ge t f64_zero && f64_le t f64_one).
