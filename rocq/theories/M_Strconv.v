(** * strconv.FormatFloat(f, 'g', prec, 64) and strconv.ParseFloat(s, 64)

    What the Go library documents and implements for these arguments: the
    decimal with [prec] digits nearest to the float (ties to even), written
    with an exponent below 10^-4 and from 10^prec on; and the float nearest to
    the decimal read (ties to even).  Go computes both results with faster
    algorithms (Ryu, Eisel-Lemire) and uses exact decimals as a fallback; only
    the exact computation is modelled.  [prec > 0].  Used by wkt_encode.go 26-28,
    68-72 and wkt_decode.go 122. *)
From Coq Require Import ZArith Bool List String.
From Flocq Require Import IEEE754.BinarySingleNaN IEEE754.Binary IEEE754.Bits.
From Verif Require Import Base_F64 Base_F64Arith M_Wkt.
Import ListNotations.
Open Scope Z_scope.

(** ** Decimal numerals *)

(** The decimal digits of [n], most significant first; none for 0. *)
Fixpoint digits_fuel (fuel : nat) (n : Z) (acc : list Z) : list Z :=
  match fuel with
  | O => acc
  | S f => if n <=? 0 then acc else digits_fuel f (n / 10) (n mod 10 :: acc)
  end.
Definition digits (n : Z) : list Z := digits_fuel (Z.to_nat (Z.log2 n) + 1) n [].
(** Their value. *)
Definition value (ds : list Z) : Z := fold_left (fun v d => 10 * v + d) ds 0.

Definition char (d : Z) : Z := 48 + d.
(** Drop the zeros at the end. *)
Fixpoint trim (ds : list Z) : list Z :=
  match ds with
  | [] => []
  | d :: ds' => match trim ds' with
                | [] => if d =? 0 then [] else [d]
                | t => d :: t
                end
  end.

(** [a / b] rounded to the nearest integer, ties to even. *)
Definition div_even (a b : Z) : Z :=
  let q := a / b in
  let r := a mod b in
  if 2 * r <? b then q
  else if b <? 2 * r then q + 1
  else if Z.even q then q else q + 1.

(** The digits of [num/den > 0] rounded to [prec] digits, without zeros at the
    end, and the position of the decimal point: 0.d1d2d3... * 10^dp.  [num/den] is
    at least 10^-400. *)
Definition decimal (prec num den : Z) : list Z * Z :=
  let n := Z.of_nat (List.length (digits (num * 10 ^ 400 / den))) in
  let D := if prec <=? n then div_even (num * 10 ^ 400) (den * 10 ^ (n - prec))
           else div_even (num * 10 ^ (400 + (prec - n))) den in
  let ds := digits D in
  (trim ds, n - 400 + (Z.of_nat (List.length ds) - prec)).

(** %e: d.ddde+dd *)
Definition fmt_e (ds : list Z) (dp : Z) : list Z :=
  let e := dp - 1 in
  let es := digits (Z.abs e) in
  let ed := if (List.length es <? 2)%nat then repeat 0 (2 - List.length es) ++ es else es in
  (match ds with
   | [] => [48]
   | [d] => [char d]
   | d :: ds' => char d :: 46 :: map char ds'
   end) ++ 101 :: (if e <? 0 then 45 else 43) :: map char ed.

(** %f with as many decimals as there are digits *)
Definition fmt_f (ds : list Z) (dp : Z) : list Z :=
  let nd := Z.of_nat (List.length ds) in
  (if 0 <? dp then map char (firstn (Z.to_nat dp) ds) ++ repeat 48 (Z.to_nat (dp - nd)) else [48]) ++
  (if 0 <? nd - dp then
     46 :: repeat 48 (Z.to_nat (- dp)) ++ map char (skipn (Z.to_nat dp) ds)
   else []).

Definition format_g (prec : Z) (w : f64) : list Z :=
  match b64_of_bits w with
  | Binary.B754_nan _ _ _ _ _ => str "NaN"
  | Binary.B754_infinity _ _ s => str (if s then "-Inf" else "+Inf")
  | Binary.B754_zero _ _ s => (if s then [45] else []) ++ [48]
  | Binary.B754_finite _ _ s m e _ =>
      let '(ds, dp) := if 0 <=? e then decimal prec (Zpos m * 2 ^ e) 1
                       else decimal prec (Zpos m) (2 ^ (- e)) in
      (if s then [45] else []) ++
      (if (dp - 1 <? -4) || (prec <=? dp - 1) then fmt_e ds dp else fmt_f ds dp)
  end.

(** ** ParseFloat *)

(** The float nearest to [num * 2^e] *)
Definition f64_ofZ2 (num e : Z) : f64 :=
  bits_of_b64 (binary_normalize 53 1024 eq_refl eq_refl mode_NE num e false).

(** The float nearest to [num/den > 0]: [2^e1 <= num/den < 2^(e1+1)], and the
    quotient is rounded to 53 bits, or to a multiple of 2^-1074. *)
Definition nearest_ratio (num den : Z) : f64 :=
  let e0 := Z.log2 num - Z.log2 den in
  let e1 := if num * 2 ^ Z.max 0 (- e0) <? den * 2 ^ Z.max 0 e0 then e0 - 1 else e0 in
  let e := Z.max (e1 - 52) (-1074) in
  f64_ofZ2 (div_even (num * 2 ^ Z.max 0 (- e)) (den * 2 ^ Z.max 0 e)) e.
(** The float nearest to [m * 10^x], [m >= 0]. *)
Definition nearest (m x : Z) : f64 :=
  if m =? 0 then f64_zero
  else nearest_ratio (m * 10 ^ Z.max 0 x) (10 ^ Z.max 0 (- x)).

Definition is_digit (b : Z) : bool := (48 <=? b) && (b <=? 57).
Fixpoint span_digits (s : list Z) : list Z * list Z :=
  match s with
  | b :: s' => if is_digit b then let '(ds, r) := span_digits s' in (b - 48 :: ds, r) else ([], s)
  | [] => ([], [])
  end.
(** The optional exponent: its value, if the text is well formed to its end. *)
Definition parse_exp (s : list Z) : option Z :=
  match s with
  | [] => Some 0
  | c :: s' =>
      if (c =? 101) || (c =? 69) then
        let '(neg, s2) := match s' with
                          | c2 :: s3 => if c2 =? 43 then (false, s3) else if c2 =? 45 then (true, s3) else (false, s')
                          | [] => (false, [])
                          end in
        match span_digits s2 with
        | ([], _) => None
        | (ds, []) => Some (if neg then - value ds else value ds)
        | (_, _ :: _) => None
        end
      else None
  end.
(** Infinities, NaN, hexadecimal and underscores, which ParseFloat also accepts,
    cannot occur in a token of the decoder. *)
Definition parse_float (s : list Z) : option f64 :=
  let '(neg, s) := match s with
                   | c :: s' => if c =? 43 then (false, s') else if c =? 45 then (true, s') else (false, s)
                   | [] => (false, [])
                   end in
  let '(ip, s) := span_digits s in
  let '(fp, s) := match s with
                  | c :: s' => if c =? 46 then span_digits s' else ([], s)
                  | [] => ([], [])
                  end in
  if (List.length (ip ++ fp) =? 0)%nat then None
  else
    match parse_exp s with
    | None => None
    | Some e =>
        let w := nearest (value (ip ++ fp)) (e - Z.of_nat (List.length fp)) in
        if f64_isinf w then None          (* ErrRange *)
        else Some (if neg then f64_neg w else w)
    end.
