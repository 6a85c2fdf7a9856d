(** * Specification vocabulary for extents *)
From Coq Require Import ZArith Bool List Reals.
From Verif Require Import Base_F64 Base_Geom M_Extent S_Geom P_F64 P_F64Flocq.
Import ListNotations.

(** [num w] (P_F64.v): [w] is a 64-bit word and not a NaN. *)
Definition num_pt (p : point f64) : Prop := num (fst p) /\ num (snd p).
Definition num_box (e : extent) : Prop := num (e0 e) /\ num (e1 e) /\ num (e2 e) /\ num (e3 e).

(** The point [p] is inside the closed box [e]. *)
Definition inside (e : extent) (p : point f64) : Prop :=
  f64_le (e0 e) (fst p) = true /\ f64_le (fst p) (e2 e) = true /\
  f64_le (e1 e) (snd p) = true /\ f64_le (snd p) (e3 e) = true.
(** A nil extent is the whole plane. *)
Definition inside_opt (e : option extent) (p : point f64) : Prop :=
  match e with None => True | Some e => inside e p end.

(** The sides of [n] are within those of [e]. *)
Definition box_within (n e : extent) : Prop :=
  f64_le (e0 e) (e0 n) = true /\ f64_le (e2 n) (e2 e) = true /\
  f64_le (e1 e) (e1 n) = true /\ f64_le (e3 n) (e3 e) = true.

Definition nonempty (e : extent) : Prop :=
  f64_le (e0 e) (e2 e) = true /\ f64_le (e1 e) (e3 e) = true.

(** Equal sides (float64 equality: -0 equals +0). *)
Definition box_eq (a b : extent) : Prop :=
  f64_eq (e0 a) (e0 b) = true /\ f64_eq (e1 a) (e1 b) = true /\
  f64_eq (e2 a) (e2 b) = true /\ f64_eq (e3 a) (e3 b) = true.
Definition opt_eq (a b : option extent) : Prop :=
  match a, b with
  | None, None => True
  | Some a, Some b => box_eq a b
  | _, _ => False
  end.

(** A point as a box. *)
Definition pt_box (p : point f64) : extent := Ext (fst p) (snd p) (fst p) (snd p).

(** A real number strictly above / below a float (which may be infinite). *)
Definition above (x : R) (w : f64) : Prop :=
  w = f64_ninf \/ f64_finite w = true /\ (f64_R w < x)%R.
Definition below (x : R) (w : f64) : Prop :=
  w = f64_pinf \/ f64_finite w = true /\ (x < f64_R w)%R.
(** The real point (x, y) is in the interior of [e]. *)
Definition interior (e : extent) (x y : R) : Prop :=
  above x (e0 e) /\ below x (e2 e) /\ above y (e1 e) /\ below y (e3 e).

(** One growing operation on an extent and what it adds. *)
Inductive grow_op :=
| OpAdd (n : extent)
| OpPoints (ps : list (point f64))
| OpPointers (ps : list (point f64))
| OpGeometry (g : geom f64).
Definition op_run (e : option extent) (o : grow_op) : option extent :=
  match o with
  | OpAdd n => add_ext e n
  | OpPoints ps => add_points e ps
  | OpPointers ps => add_pointers e ps
  | OpGeometry g => fst (add_geometry e g)
  end.
Definition op_contents (o : grow_op) : list extent :=
  match o with
  | OpAdd n => [n]
  | OpPoints ps | OpPointers ps => map pt_box ps
  | OpGeometry g => map pt_box (coords g)
  end.
Definition op_valid (o : grow_op) : Prop :=
  match o with OpGeometry g => unknown_inside g = false | _ => True end /\
  Forall num_box (op_contents o).

Definition is_point {C} (g : geom C) : bool := match g with GPoint _ => true | _ => false end.

Definition origin : point f64 := (f64_zero, f64_zero).

(** Sides are numbers, or the extent is nil. *)
Definition box_opt (e : option extent) : Prop := match e with None => True | Some e => num_box e end.

Definition finite_num (w : f64) : Prop := f64_wf w = true /\ f64_finite w = true.
Definition finite_box (e : extent) : Prop :=
  finite_num (e0 e) /\ finite_num (e1 e) /\ finite_num (e2 e) /\ finite_num (e3 e).
