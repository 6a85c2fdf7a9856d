(** * Specification: where a point lies in relation to a segment *)
From Coq Require Import ZArith.
From Verif Require Import S_Winding S_ResolveEdge M_Constraint.
Open Scope Z_scope.

(** The point [p] and the segment from [o] to [q]; the y axis points up. *)
Definition lies (p o q : Z * Z) (t : q_type) : Prop :=
  let d := vec false o q in
  let x := vec false o p in
  match t with
  | LEFT => 0 < cross d x
  | RIGHT => cross d x < 0
  | BEHIND => cross d x = 0 /\ dot d x < 0
  | BEYOND => cross d x = 0 /\ 0 <= dot d x /\ dot d d < dot x x
  | ORIGIN => p = o
  | DESTINATION => p = q /\ p <> o
  | BETWEEN => cross d x = 0 /\ 0 < dot d x /\ dot x x < dot d d
  end.
