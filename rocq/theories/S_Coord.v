(** * Specifications for planar/coord *)
From Coq Require Import ZArith List Reals Ascii.
From Verif Require Import Base_F64 Base_F64Arith P_F64Flocq M_Coord.
Import ListNotations.
Open Scope R_scope.

(** A position: two float64 values, neither NaN nor infinite. *)
Definition position (l : lnglat) : Prop :=
  f64_wf (lng l) = true /\ f64_finite (lng l) = true /\ f64_wf (lat l) = true /\ f64_finite (lat l) = true.
Definition lngR (l : lnglat) : R := f64_R (lng l).
Definition latR (l : lnglat) : R := f64_R (lat l).

(** The letters of the UTM latitude bands, from the south (I and O are not used). *)
Definition band_letters : list ascii :=
  ["C"; "D"; "E"; "F"; "G"; "H"; "J"; "K"; "L"; "M"; "N"; "P"; "Q"; "R"; "S"; "T"; "U"; "V"; "W"; "X"]%char.
(** Band [i] is the 8 degrees from -80+8i on; the last one, X, has 12 and its
    northern end. *)
Definition in_band (c : Z) (t : R) : Prop :=
  exists i, nth_error (map code band_letters) i = Some c /\
    -80 + 8 * INR i <= t /\
    (if Nat.eqb i 19 then t <= 84 else t < -72 + 8 * INR i).

(** Zone [n] of the 60 strips of 6 degrees, counted from 180 W.  [eps] moves the
    western side. *)
Definition strip (eps : R) (n : Z) (g : R) : Prop := IZR (6 * n - 186) - eps <= g < IZR (6 * n - 180).
(** The zones of the UTM grid: 32V is widened over the Norwegian coast, and 32X,
    34X, 36X do not exist. *)
Definition utm_number (eps : R) (c : Z) (g : R) (n : Z) : Prop :=
  if Z.eqb c (code "V") then
    (3 <= g < 12 /\ n = 32%Z) \/ (~ 3 <= g < 12 /\ strip eps n g)
  else if Z.eqb c (code "X") then
    (0 <= g < 9 /\ n = 31%Z) \/ (9 <= g < 21 /\ n = 33%Z) \/ (21 <= g < 33 /\ n = 35%Z) \/
    (33 <= g < 42 /\ n = 37%Z) \/ (~ 0 <= g < 42 /\ strip eps n g)
  else strip eps n g.

(** A number of degrees, minutes and seconds and the value it stands for. *)
Definition dms_value (d m : Z) (s : R) : R := IZR d + IZR m / 60 + s / 3600.

(** What is used of math.Cos: at a latitude of the grid it gives a value of [0, 1],
    and one of at most 3/5 from 56 N on (the cosine of 56 degrees is 0.5592). *)
Definition cos_like (cos : f64 -> f64) (t : f64) : Prop :=
  let c := cos (to_radian t) in
  f64_wf c = true /\ f64_finite c = true /\ 0 <= f64_R c <= 1 /\ (56 <= f64_R t -> f64_R c <= 3 / 5).

(** The number of whole kilometres from the equator, at 111 km (in float64) a degree. *)
Definition whole_km (t : f64) (k : Z) : Prop :=
  IZR k <= Rabs (f64_R (f64_mul (f64_ofZ 111) t)) < IZR k + 1.
