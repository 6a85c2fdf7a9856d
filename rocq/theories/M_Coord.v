(** * Model of planar/coord (coord.go, utm/utm.go)

    Floats are words; an int has 64 bits.  math.Cos is an argument of the
    digraph.  Not modelled: the projection itself (northing and easting are an
    argument), ToLngLat, ScalarFactor and the String methods. *)
From Coq Require Import ZArith Bool List Ascii.
From Verif Require Import Base_Bytes Base_F64 Base_F64Arith Base_Res.
Import ListNotations.
Open Scope Z_scope.

(** Literals: 180, 360, 60, math.Pi, 111, 100. *)
Definition c180 : f64 := 0x4066800000000000.
Definition c360 : f64 := 0x4076800000000000.
Definition c60 : f64 := 0x404E000000000000.
Definition c_pi : f64 := 0x400921FB54442D18.
Definition c111 : f64 := 0x405BC00000000000.
Definition c100 : f64 := 0x4059000000000000.
Definition c6 : f64 := 0x4018000000000000.

(** coord.go 18-23 *)
Record lnglat := LngLat { lng : f64; lat : f64 }.

(** coord.go 26-31: [int64(x)*360.0] is an int64 product. *)
Definition normalize_lng (l : lnglat) : lnglat :=
  LngLat (f64_sub (lng l) (f64_ofZ (i64 (f64_to_i64 (f64_div (f64_add (lng l) c180) c360) * 360)))) (lat l).

(** coord.go 70-72, 75-77 *)
Definition to_radian (d : f64) : f64 := f64_div (f64_mul d c_pi) c180.
Definition to_degree (r : f64) : f64 := f64_div (f64_mul r c180) c_pi.

(** math.Modf for values of at least 1 and for infinities and NaN: the bits below
    the binary point are cleared, the fraction is a subtraction. *)
Definition modf_big (w : f64) : f64 * f64 :=
  let e := w / 2 ^ 52 - 1023 in
  let i := if e <? 52 then w - w mod 2 ^ (52 - e) else w in
  (i, f64_sub w i).
(** math.Modf (integer part, fraction). *)
Definition modf (w : f64) : f64 * f64 :=
  if f64_lt w f64_one then
    if f64_lt w f64_zero then
      let v := f64_neg w in
      let '(i, f) := if f64_lt v f64_one then (f64_zero, v) else modf_big v in
      (f64_neg i, f64_neg f)
    else if f64_eq w f64_zero then (w, w)
    else (f64_zero, w)
  else modf_big w.

(** coord.go 98-103 *)
Record dms := Dms { degree : Z; minute : Z; second : f64; hemisphere : ascii }.

(** coord.go 89-95 *)
Definition to_dms (v : f64) : Z * Z * f64 :=
  let '(df, frac) := modf v in
  let '(mf, frac) := modf (f64_mul c60 frac) in
  let s := f64_mul c60 frac in
  (f64_to_i64 (f64_abs df), f64_to_i64 (f64_abs mf), f64_abs s).

(** coord.go 40-52, 55-67 *)
Definition lat_as_dms (l : lnglat) : dms :=
  let '(d, m, s) := to_dms (lat l) in
  Dms d m s (if f64_lt (lat l) f64_zero then "S" else "N")%char.
Definition lng_as_dms (l : lnglat) : dms :=
  let '(d, m, s) := to_dms (lng l) in
  Dms d m s (if f64_lt (lng l) f64_zero then "W" else "E")%char.

(** ** utm.go *)

(** utm.go 169-175: a letter is a byte. *)
Record zone := Zone { number : Z; letter : Z }.
Definition code (c : ascii) : Z := Z.of_nat (nat_of_ascii c).

(** utm.go 55, 58 *)
Definition letter_is_northern (l : Z) : bool := code "N" <=? l.
Definition letter_is_valid (l : Z) : bool := (code "C" <=? l) && (l <=? code "X") && negb (l =? code "O").
(** utm.go 181, 184 *)
Definition is_northern (z : zone) : bool := letter_is_northern (letter z).
Definition is_valid (z : zone) : bool := letter_is_valid (letter z) && (1 <=? number z) && (number z <=? 60).

(** utm.go 68-70 *)
Definition central_meridian_degrees : list Z :=
  [3; 9; 15; 21; 27; 33; 39; 45; 51; 57; 63; 69; 75; 81; 87; 93; 99; 105; 111; 117; 123; 129; 135; 141; 147; 153; 159; 165; 171; 177].

(** An element of a slice or array by an int; out of range panics. *)
Definition at_idx {E A} (l : list A) (i : Z) : res E A :=
  if i <? 0 then Panic else match nth_error l (Z.to_nat i) with Some a => Ok a | None => Panic end.

(** utm.go 76-89; the only error is ErrInvalidZone. *)
Definition central_meridian (z : zone) : res unit Z :=
  if negb (is_valid z) then Err tt
  else if number z <=? 30 then
    do d <- at_idx central_meridian_degrees (30 - number z);
    Ok (-1 * d)
  else at_idx central_meridian_degrees (number z - 31).

(** utm.go 194-222.  The comparisons are with the literals' float64 values. *)
Definition zone_number (l : lnglat) : Z :=
  let n k := f64_ofZ k in
  let g := lng l in let t := lat l in
  if (f64_gt t (n 84) && f64_lt t (n 90)) || (f64_gt t (n (-80)) && f64_lt t (n (-90))) then 0
  else if f64_ge t (n 56) && f64_lt t (n 64) && f64_ge g (n 3) && f64_lt g (n 12) then 32
  else
    let svalbard := f64_ge t (n 72) && f64_lt t (n 84) in
    if svalbard && f64_ge g (n 0) && f64_lt g (n 9) then 31
    else if svalbard && f64_ge g (n 9) && f64_lt g (n 21) then 33
    else if svalbard && f64_ge g (n 21) && f64_lt g (n 33) then 35
    else if svalbard && f64_ge g (n 33) && f64_lt g (n 42) then 37
    else i64 (f64_to_i64 (f64_div (f64_add g c180) c6) + 1).

(** utm.go 227-293; None is ErrLatitudeOutOfRange. *)
Definition zone_letter (t : f64) : option Z :=
  let n k := f64_ofZ k in
  let band hi lo := f64_gt (n hi) t && f64_ge t (n lo) in
  if f64_ge (n 84) t && f64_ge t (n 72) then Some (code "X")
  else if band 72 64 then Some (code "W")
  else if band 64 56 then Some (code "V")
  else if band 56 48 then Some (code "U")
  else if band 48 40 then Some (code "T")
  else if band 40 32 then Some (code "S")
  else if band 32 24 then Some (code "R")
  else if band 24 16 then Some (code "Q")
  else if band 16 8 then Some (code "P")
  else if band 8 0 then Some (code "N")
  else if band 0 (-8) then Some (code "M")
  else if band (-8) (-16) then Some (code "L")
  else if band (-16) (-24) then Some (code "K")
  else if band (-24) (-32) then Some (code "J")
  else if band (-32) (-40) then Some (code "H")
  else if band (-40) (-48) then Some (code "G")
  else if band (-48) (-56) then Some (code "F")
  else if band (-56) (-64) then Some (code "E")
  else if band (-64) (-72) then Some (code "D")
  else if band (-72) (-80) then Some (code "C")
  else None.

(** utm.go 298-305; the zone returned beside an error is dropped. *)
Definition new_zone (l : lnglat) : res unit zone :=
  let n := zone_number l in
  match zone_letter (lat l) with Some c => Ok (Zone n c) | None => Err tt end.

(** utm.go 93-106 *)
Definition lng_digraph_zones : list (list ascii * list ascii) :=
  [(["V"; "U"; "T"; "S"], ["W"; "X"; "Y"; "X"]);
   (["D"; "C"; "B"; "A"], ["E"; "F"; "G"; "H"]);
   (["M"; "L"; "K"; "J"], ["N"; "P"; "Q"; "R"])]%char.
(** utm.go 109 *)
Definition lat_digraph_zones : list ascii :=
  ["A"; "B"; "C"; "D"; "E"; "F"; "G"; "H"; "J"; "K"; "L"; "M"; "N"; "P"; "Q"; "R"; "S"; "T"; "U"; "V"; "A"; "B"; "C"; "D"; "E"]%char.

(** math.Floor and math.Ceil through math.Modf, as in Go's portable version (the
    amd64 instruction gives the same). *)
Definition f64_floor (w : f64) : f64 :=
  if f64_eq w f64_zero || f64_isnan w || f64_isinf w then w
  else if f64_lt w f64_zero then
    let '(d, fr) := modf (f64_neg w) in
    f64_neg (if f64_ne fr f64_zero then f64_add d f64_one else d)
  else fst (modf w).
Definition f64_ceil (w : f64) : f64 := f64_neg (f64_floor (f64_neg w)).

(** The parts of a longitude within its zone, utm.go 132-147. *)
Definition lng_letter (cos : f64 -> f64) (z : zone) (cm : Z) (l : lnglat) : res unit ascii :=
  do d_zone <- at_idx lng_digraph_zones (Z.rem (number z) 3);
  let degree_diff := f64_sub (f64_ofZ cm) (lng l) in
  let km_dist := f64_to_i64 (f64_mul (f64_mul c111 degree_diff) (cos (to_radian (lat l)))) in
  let letter_idx := f64_to_i64 (f64_abs (f64_ofZ (Z.quot km_dist 100))) in
  at_idx (if f64_lt degree_diff f64_zero then snd d_zone else fst d_zone) letter_idx.

(** utm.go 149-170 *)
Definition lat_letter (z : zone) (l : lnglat) : res unit ascii :=
  let km_dist_lat := f64_abs (f64_mul c111 (lat l)) in
  let offset := if Z.rem (number z) 2 =? 0 then 4 else -1 in
  let idx := f64_to_i64 (f64_abs (f64_ceil (f64_div (f64_ofZ (Z.rem (f64_to_i64 km_dist_lat) 2000)) c100))) in
  let idx := if is_northern z then idx else 21 - idx in
  at_idx lat_digraph_zones (offset + idx).

(** utm.go 121-173 *)
Definition new_digraph (cos : f64 -> f64) (z : zone) (l : lnglat) : res unit (ascii * ascii) :=
  if negb (is_valid z) then Err tt
  else
    do cm <- central_meridian z;
    do a <- lng_letter cos z cm l;
    do b <- lat_letter z l;
    Ok (a, b).

(** utm.go 308-313, with None for the digraph {0, 0} *)
Record coord := Coord { northing : f64; easting : f64; c_zone : zone; digraph : option (ascii * ascii) }.

(** utm.go 354-429 and 432-438.  [project] computes northing and easting of the
    normalised position in its zone. *)
Definition from_lnglat (project : lnglat -> zone -> f64 * f64) (cos : f64 -> f64) (nato : bool) (l : lnglat) : res unit coord :=
  do z <- new_zone l;
  let l := normalize_lng l in
  let '(no, ea) := project l z in
  if nato then
    match new_digraph cos z l with
    | Ok d => Ok (Coord no ea z (Some d))
    | Err _ => Ok (Coord no ea z None)
    | Panic => Panic
    end
  else Ok (Coord no ea z None).

(** utm.go 516-522: Go's [%] truncates. *)
Definition nato_easting (c : coord) : Z := Z.rem (f64_to_i64 (easting c)) 100000.
Definition nato_northing (c : coord) : Z := Z.rem (f64_to_i64 (northing c)) 100000.
