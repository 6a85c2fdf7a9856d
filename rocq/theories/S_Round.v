(** * Specification of rounding, of the hull on a sphere and of collinear points *)
From Coq Require Import Bool List ZArith Reals.
From Flocq Require Import Core.Core.
From Verif Require Import Base_F64 Base_F64Arith Base_Geom P_F64Grid.
Open Scope Z_scope.

(** The distance to the east, in units of [2 ^ -40] degrees. *)
Definition turn : Z := 360 * 2 ^ 40.
Definition eastward (w e : Z) : Z := (e - w) mod turn.
(** A longitude between -180 and 180 degrees. *)
Definition longitude (n : Z) : Prop := Z.abs n <= 180 * 2 ^ 40.
(** The extent, from the west to the east and from the south to the north, has the
    longitudes [n], [m] and the latitudes [s], [t] at its sides, and spans at most half
    a turn. *)
Definition hull_of (n m : Z) (s t : f64) (west south east north : f64) : Prop :=
  (exists w e, (w = n /\ e = m \/ w = m /\ e = n) /\ repr (-40) w west /\ repr (-40) e east /\ eastward w e <= 180 * 2 ^ 40)
  /\ (south = s /\ north = t \/ south = t /\ north = s) /\ f64_le south north = true.
(** Twice the area of a triangle. *)
Definition twice_area (p q r : Z * Z) : Z := (fst p - fst q) * (snd q - snd r) - (fst q - fst r) * (snd p - snd q).
