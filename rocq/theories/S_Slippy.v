(** * Specifications for slippy tiles *)
From Coq Require Import ZArith List Reals.
From Verif Require Import Base_F64 P_F64Flocq M_Slippy.
Import ListNotations.
Open Scope Z_scope.

(** A tile of the grid of its zoom level. *)
Definition in_grid (t : tile) : Prop :=
  0 <= t_z t /\ 0 <= t_x t < 2 ^ t_z t /\ 0 <= t_y t < 2 ^ t_z t.

(** Tile [t] covers the columns from x/2^z to (x+1)/2^z of the map, and the rows
    from y/2^z to (y+1)/2^z.  Two tiles overlap when the interiors meet. *)
Definition overlap (t u : tile) : Prop :=
  t_x t * 2 ^ t_z u < (t_x u + 1) * 2 ^ t_z t /\ t_x u * 2 ^ t_z t < (t_x t + 1) * 2 ^ t_z u /\
  t_y t * 2 ^ t_z u < (t_y u + 1) * 2 ^ t_z t /\ t_y u * 2 ^ t_z t < (t_y t + 1) * 2 ^ t_z u.

(** Tile and zoom are Go uints, and the columns and rows of the descendants fit in
    an int. *)
Definition room (t : tile) (zoom : Z) : Prop :=
  0 <= zoom < 2 ^ 63 /\ 0 <= t_z t < 2 ^ 63 /\
  0 <= t_x t < 2 ^ 64 /\ 0 <= t_y t < 2 ^ 64 /\
  (t_z t < zoom -> (t_x t + 1) * 2 ^ (zoom - t_z t) < 2 ^ 63 /\ (t_y t + 1) * 2 ^ (zoom - t_z t) < 2 ^ 63).

(** The callback is called on the tiles in order, from state [s] to state [s'],
    until it returns false. *)
Inductive feeds {S} (yield : S -> tile -> S * bool) : S -> list tile -> S -> Prop :=
| feeds_end s : feeds yield s [] s
| feeds_go s t s1 ts s2 : yield s t = (s1, true) -> feeds yield s1 ts s2 -> feeds yield s (t :: ts) s2
| feeds_stop s t s1 ts : yield s t = (s1, false) -> feeds yield s (t :: ts) s1.

(** A number of degrees: a float64 that is neither NaN nor infinite. *)
Definition degrees (w : f64) : Prop := f64_wf w = true /\ f64_finite w = true.

(** The longitude of the left side of column [x] of zoom [z]. *)
Definition left_side (z x : Z) : R := (360 * (IZR x / IZR (2 ^ z)) - 180)%R.
