(** * float64 values as 64-bit words

    A Go [float64] is represented by the integer [math.Float64bits(f)], i.e. a
    word [w] with [0 <= w < 2^64].  Everything here is exact: no float value is
    identified with another one, NaN payloads and the sign of zero included.

    The comparison operators are those of IEEE-754 (Go spec, "Comparison
    operators"): with a NaN operand [<], [<=] and [==] are false, and [-0 == +0].
    [P_F64.v] proves that they agree with Flocq's [Bcompare] on binary64. *)
From Coq Require Import ZArith Bool List.
Import ListNotations.
Open Scope Z_scope.

Definition f64 := Z.

Definition two63 : Z := 2 ^ 63.
Definition two64 : Z := 2 ^ 64.

Definition f64_wf (w : f64) : bool := (0 <=? w) && (w <? two64).

(** math.Signbit *)
Definition f64_sign (w : f64) : bool := two63 <=? w.

(** The 63 low bits: exponent and fraction. *)
Definition f64_mag (w : f64) : Z := w mod two63.

(** The word of +Inf: exponent all ones, fraction zero. *)
Definition f64_pinf : f64 := 0x7FF0000000000000.
Definition f64_ninf : f64 := 0xFFF0000000000000.
(** math.NaN() (src/math/bits.go of the Go library: uvnan). *)
Definition f64_nan : f64 := 0x7FF8000000000001.
(** math.MaxFloat64 and its negation. *)
Definition f64_max : f64 := 0x7FEFFFFFFFFFFFFF.
Definition f64_nmax : f64 := 0xFFEFFFFFFFFFFFFF.
Definition f64_zero : f64 := 0.
Definition f64_nzero : f64 := two63.
(** 1.0 and a few small literals used in examples. *)
Definition f64_one : f64 := 0x3FF0000000000000.
Definition f64_two : f64 := 0x4000000000000000.
Definition f64_three : f64 := 0x4008000000000000.
Definition f64_mone : f64 := 0xBFF0000000000000.
Definition f64_mtwo : f64 := 0xC000000000000000.

(** math.IsNaN *)
Definition f64_isnan (w : f64) : bool := f64_pinf <? f64_mag w.

(** Signed magnitude: comparing two non-NaN floats is comparing these integers. *)
Definition f64_key (w : f64) : Z :=
  if f64_sign w then - f64_mag w else f64_mag w.

(** Go's [a < b], [a <= b], [a == b] on float64. *)
Definition f64_lt (a b : f64) : bool :=
  negb (f64_isnan a) && negb (f64_isnan b) && (f64_key a <? f64_key b).
Definition f64_le (a b : f64) : bool :=
  negb (f64_isnan a) && negb (f64_isnan b) && (f64_key a <=? f64_key b).
Definition f64_eq (a b : f64) : bool :=
  negb (f64_isnan a) && negb (f64_isnan b) && (f64_key a =? f64_key b).
Definition f64_gt (a b : f64) : bool := f64_lt b a.
Definition f64_ge (a b : f64) : bool := f64_le b a.
(** Go's [a != b]. *)
Definition f64_ne (a b : f64) : bool := negb (f64_eq a b).

(** math.IsInf(w, 1) and math.IsInf(w, -1) *)
Definition f64_ispinf (w : f64) : bool := w =? f64_pinf.
Definition f64_isninf (w : f64) : bool := w =? f64_ninf.
Definition f64_isinf (w : f64) : bool := f64_ispinf w || f64_isninf w.

(** math.Min (Go library src/math/dim.go: min):
    Min(x,-Inf) = Min(-Inf,x) = -Inf, then Min(x,NaN) = NaN,
    then Min(-0,+-0) = Min(+-0,-0) = -0. *)
Definition f64_min (x y : f64) : f64 :=
  if f64_isninf x || f64_isninf y then f64_ninf
  else if f64_isnan x || f64_isnan y then f64_nan
  else if f64_eq x f64_zero && f64_eq x y then
    (if f64_sign x then x else y)
  else if f64_lt x y then x else y.

(** math.Max (Go library src/math/dim.go: max). *)
Definition f64_maxf (x y : f64) : f64 :=
  if f64_ispinf x || f64_ispinf y then f64_pinf
  else if f64_isnan x || f64_isnan y then f64_nan
  else if f64_eq x f64_zero && f64_eq x y then
    (if f64_sign x then y else x)
  else if f64_lt y x then x else y.

(** Unary minus flips the sign bit. *)
Definition f64_neg (w : f64) : f64 :=
  if f64_sign w then w - two63 else w + two63.

(** math.Abs clears the sign bit. *)
Definition f64_abs (w : f64) : f64 := f64_mag w.
