(** * Specification of resolving an edge: directions around a vertex

    Integer vectors, not the zero vector, ordered by their angle. *)
From Coq Require Import Bool List ZArith.
From Verif Require Import S_Winding M_Quadedge S_Quadedge.
Import ListNotations.
Open Scope Z_scope.

Definition dot (u v : Z * Z) : Z := fst u * fst v + snd u * snd v.
(** From [o] to [p]; seen in the mirror when y points down. *)
Definition vec (ypd : bool) (o p : Z * Z) : Z * Z :=
  (fst p - fst o, if ypd then snd o - snd p else snd p - snd o).

Definition same_dir (u v : Z * Z) : Prop := cross u v = 0 /\ 0 < dot u v.
Definition opposite (u v : Z * Z) : Prop := cross u v = 0 /\ dot u v < 0.

(** The angle of [u], from 0 to a full turn, is less than that of [v]: [upper] is
    the first half of the turn. *)
Definition upper (v : Z * Z) : Prop := 0 < snd v \/ snd v = 0 /\ 0 < fst v.
Definition before (u v : Z * Z) : Prop :=
  upper u /\ ~ upper v \/ (upper u <-> upper v) /\ 0 < cross u v.
(** Turning counter-clockwise from [a], one meets [d] and then [b]; from [a] to
    [a] is a full turn. *)
Definition between (a d b : Z * Z) : Prop :=
  before a d /\ before d b \/ before d b /\ ~ before a b \/ ~ before a b /\ before a d.

(** Coordinates for which the float64 arithmetic is exact. *)
Definition moderate (p : Z * Z) : Prop := Z.abs (fst p) <= 2 ^ 20 /\ Z.abs (snd p) <= 2 ^ 20.

(** The edges of the ring leave [o] and end in the points [at_], in different
    directions. *)
Definition star (ypd : bool) (m : mem (Base_Geom.point Base_F64.f64)) (ring : list edge) (o : Z * Z) (at_ : edge -> Z * Z) : Prop :=
  around_origin m ring /\ moderate o
  /\ (forall e, In e ring -> exists_in m e /\ orig m e = Some (fpt o) /\ dest m e = Some (fpt (at_ e)) /\ moderate (at_ e) /\ at_ e <> o)
  /\ forall e f, In e ring -> In f ring -> same_dir (vec ypd o (at_ e)) (vec ypd o (at_ f)) -> e = f.
(** The ring goes round counter-clockwise: no edge lies between an edge and the
    next one. *)
Definition in_order (ypd : bool) (m : mem (Base_Geom.point Base_F64.f64)) (ring : list edge) (o : Z * Z) (at_ : edge -> Z * Z) : Prop :=
  forall e f, In e ring -> In f ring -> ~ between (vec ypd o (at_ e)) (vec ypd o (at_ f)) (vec ypd o (at_ (onext m e))).
(** [x] lies between the edge and the next one. *)
Definition in_sector (ypd : bool) (m : mem (Base_Geom.point Base_F64.f64)) (o : Z * Z) (at_ : edge -> Z * Z) (x : Z * Z) (e : edge) : Prop :=
  between (vec ypd o (at_ e)) (vec ypd o x) (vec ypd o (at_ (onext m e))).
