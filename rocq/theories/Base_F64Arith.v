(** * float64 arithmetic on words

    [+ - * /], [math.Sqrt] of Go on float64 are the IEEE-754 binary64
    operations rounded to nearest even (Go spec; gc on amd64, which does not
    fuse multiply and add).  They are taken from Flocq, through the standard
    bit encoding.  The sign and payload of a NaN result are those chosen by
    Flocq (the platform may choose others); no theorem depends on them. *)
From Coq Require Import ZArith Bool List.
From Flocq Require Import IEEE754.BinarySingleNaN IEEE754.Binary IEEE754.Bits.
From Verif Require Import Base_F64.
Open Scope Z_scope.

Definition f64_add (a b : f64) : f64 :=
  bits_of_b64 (b64_plus mode_NE (b64_of_bits a) (b64_of_bits b)).
Definition f64_sub (a b : f64) : f64 :=
  bits_of_b64 (b64_minus mode_NE (b64_of_bits a) (b64_of_bits b)).
Definition f64_mul (a b : f64) : f64 :=
  bits_of_b64 (b64_mult mode_NE (b64_of_bits a) (b64_of_bits b)).
Definition f64_div (a b : f64) : f64 :=
  bits_of_b64 (b64_div mode_NE (b64_of_bits a) (b64_of_bits b)).
Definition f64_sqrt (a : f64) : f64 :=
  bits_of_b64 (b64_sqrt mode_NE (b64_of_bits a)).

(** The float64 nearest to an integer (conversion float64(n)). *)
Definition f64_ofZ (n : Z) : f64 :=
  bits_of_b64 (binary_normalize 53 1024 eq_refl eq_refl mode_NE n 0 false).

(** The integer part of a finite float64 (truncation toward zero); [None] for
    NaN and infinities. *)
Definition f64_trunc (w : f64) : option Z :=
  match b64_of_bits w with
  | Binary.B754_zero _ _ _ => Some 0
  | Binary.B754_finite _ _ s m e _ =>
      let a := match e with
               | Z0 => Zpos m
               | Zpos p => Zpos m * 2 ^ Zpos p
               | Zneg p => Zpos m / 2 ^ Zpos p
               end in
      Some (if s then - a else a)
  | _ => None
  end.

(** Go's conversion int64(f).  The Go spec leaves the result undefined when the
    truncated value does not fit; the value here is the one of gc on amd64
    (CVTTSD2SQ). *)
Definition f64_to_i64 (w : f64) : Z :=
  match f64_trunc w with
  | Some z => if (- two63 <=? z) && (z <? two63) then z else - two63
  | None => - two63
  end.
