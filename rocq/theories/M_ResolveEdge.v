(** * Model of planar/triangulate/delaunay/quadedge/resolve_edge.go and of
    quadedge.RightOf and OnEdge, topo.go 148-189

    On the memory of M_Quadedge with points of float64 numbers.  A nil point
    which is dereferenced is [Panic]; a nil edge is [None]. *)
From Coq Require Import Bool List Arith ZArith.
From Verif Require Import Base_F64 Base_F64Arith Base_Res Base_Geom M_Planar M_Cmp M_Walker M_Winding M_Quadedge.
Import ListNotations.

(** The errors, resolve_edge.go 14-20 and geom.ErrPointsAreCoLinear *)
Inductive r_err := EInvalidEnd | ECoincident | EColinear.
(** What the tables do with the edge: resolve_edge.go 45-63.  [Nothing] is no case
    of the switch. *)
Inductive action := Next | TakeA | ErrA | ErrB | ErrEdge | Nothing.

Definition ccw (w : Z) : bool := (w =? wCounterClockwise)%Z.
Definition cw (w : Z) : bool := (w =? wClockwise)%Z.
Definition zero (w : Z) : bool := (w =? wColinear)%Z.

(** resolve_edge.go 120-168; [contains] is ContainsDest *)
Definition table_up (ab da db : Z) (contains : bool) : action :=
  if ccw ab then
    if ccw da then Next
    else if cw da && ccw db then TakeA
    else if cw da && cw db then Next
    else if cw da && zero db then ErrB
    else if zero da && ccw db then ErrA
    else if zero da && cw db then Next
    else Nothing
  else if cw ab then
    if cw da then TakeA
    else if ccw da && ccw db then TakeA
    else if ccw da && cw db then Next
    else if ccw da && zero db then ErrB
    else if zero da && ccw db then TakeA
    else if zero da && cw db then ErrA
    else Nothing
  else if zero ab then
    if ccw da && cw db then Next
    else if cw da && ccw db then TakeA
    else if (cw da && cw db) || (ccw da && ccw db) then TakeA
    else if zero da && zero db then if contains then ErrA else ErrB
    else Nothing
  else ErrEdge.
(** resolve_edge.go 169-217 *)
Definition table_down (ab da db : Z) (contains : bool) : action :=
  if ccw ab && ccw da then Next
  else if ccw ab && cw da && cw db then Next
  else if ccw ab && cw da && ccw db then TakeA
  else if ccw ab && cw da && zero db then ErrB
  else if ccw ab && zero da && ccw db then ErrA
  else if ccw ab && zero da && cw db then Next
  else if cw ab && ccw da && ccw db then TakeA
  else if cw ab && ccw da && cw db then Next
  else if cw ab && ccw da && zero db then ErrB
  else if cw ab && cw da then TakeA
  else if cw ab && zero da && ccw db then TakeA
  else if cw ab && zero da && cw db then ErrA
  else if zero ab && ccw da && cw db then Next
  else if zero ab && cw da && ccw db then TakeA
  else if zero ab && zero da && zero db then if contains then ErrA else ErrB
  else if zero ab && ccw da && ccw db then TakeA
  else if zero ab && cw da && cw db then TakeA
  else ErrEdge.

Definition sub_pt (a b : pt) : pt := (f64_sub (fst a) (fst b), f64_sub (snd a) (snd b)).

(** The callback of resolveEdge, resolve_edge.go 83-115: the new candidate and
    error. *)
Definition resolve_step (ypd : bool) (m : mem pt) (orig odest : pt) (e : edge) : res unit (option edge * option r_err) :=
  match dest m e, dest m (onext m e) with
  | Some apt, Some bpt =>
      let d := sub_pt odest orig in
      let ao := sub_pt apt orig in
      let bo := sub_pt bpt orig in
      let oo := (f64_zero, f64_zero) in
      let ab := orientation ypd [ao; bo; oo] in
      let da := orientation ypd [d; ao; oo] in
      let db := orientation ypd [d; bo; oo] in
      let contains := line_contains_point (match M_Quadedge.orig m e with Some o => o | None => (f64_nan, f64_nan) end, apt) odest in
      Ok (match (if ypd then table_down else table_up) ab da db contains with
          | Next | Nothing => (None, None)
          | TakeA => (Some e, None)
          | ErrA => (Some e, Some EColinear)
          | ErrB => (Some (onext m e), Some EColinear)
          | ErrEdge => (Some e, Some ECoincident)
          end)
  | _, _ => Panic
  end.
(** WalkAllONext, edge.go 209-219, with that callback: the candidate and the error
    when it stops. *)
Fixpoint resolve_walk (fuel : nat) (ypd : bool) (m : mem pt) (orig odest : pt) (seen : list nat) (e : edge)
  : res unit (option edge * option r_err) :=
  match fuel with
  | O => Err tt
  | S fuel =>
      if existsb (Nat.eqb (fst e)) seen then Ok (None, None)
      else do r <- resolve_step ypd m orig odest e ;
           match r with
           | (None, None) => resolve_walk fuel ypd m orig odest (fst e :: seen) (onext m e)
           | _ => Ok r
           end
  end.
(** ResolveEdge, resolve_edge.go 71-118 and 267-272 *)
Definition resolve_edge (ypd : bool) (m : mem pt) (gse : edge) (odest : pt) : res unit (option edge * option r_err) :=
  match orig m gse with
  | None => Panic
  | Some o =>
      if point_equal hi_cmp o odest then Ok (None, Some EInvalidEnd)
      else resolve_walk (S (count m)) ypd m o odest [] gse
  end.

(** RightOf, topo.go 165-189 *)
Definition right_of (ypd : bool) (m : mem pt) (x : pt) (e : edge) : bool :=
  match orig m e, dest m e with
  | Some o, Some d => cw (orientation ypd [o; d; x])
  | _, _ => false
  end.
(** OnEdge, topo.go 149-160 *)
Definition on_edge (m : mem pt) (x : pt) (e : edge) : bool :=
  match orig m e, dest m e with
  | Some o, Some d => is_point_on_segment hi_cmp x (o, d)
  | _, _ => false
  end.
