(** * Specification vocabulary for numbers written as text *)
From Coq Require Import ZArith Bool List Reals.
From Verif Require Import Base_F64 M_Strconv P_F64Flocq.
Open Scope Z_scope.

(** What is read from the text of a number written with [p] digits. *)
Definition reread (p : Z) (w : f64) : f64 :=
  match parse_float (format_g p w) with Some r => r | None => w end.

(** 0, -0 and the numbers that are not below 0.0001 and that have at most [p]
    digits before the decimal point: those written without an exponent. *)
Definition ordinary (p : Z) (w : f64) : Prop :=
  f64_wf w = true /\ f64_finite w = true /\
  (f64_R w = 0%R \/ (/ 10000 <= Rabs (f64_R w) < IZR (10 ^ p) - / 2)%R).

(** [w] is the float64 nearest to a decimal of at most [p] digits, not below
    0.0001 if it is not 0 and with at most [p] digits before the point. *)
Definition short (p : Z) (w : f64) : Prop :=
  exists m k, 0 <= k /\ 0 <= m < 10 ^ p /\ (m <> 0 -> 10 ^ k <= m * 10 ^ 4) /\
    (w = nearest m (- k) \/ w = f64_neg (nearest m (- k))).
