(** * Model of the methods of subdivision.Triangle

    A Triangle (subdivision/triangle.go 10-15) holds an edge; the methods walk around
    the right face of it. *)
From Coq Require Import Bool List Arith.
From Verif Require Import Base_F64 Base_Res Base_Geom M_Cmp M_Quadedge M_Constraint.
Import ListNotations.

Section Methods.
  Context {P : Type}.
  (** What [p] points to; dereferencing a nil pointer panics. *)
  Definition deref (p : option P) : res unit P := match p with Some x => Ok x | None => Panic end.
  (** AsGeom, subdivision/geom.go 15-21 *)
  Definition as_geom (m : mem P) (t : edge) : res unit (P * P * P) :=
    do a <- deref (orig m t) ;
    do b <- deref (orig m (rnext m t)) ;
    do c <- deref (orig m (rnext m (rnext m t))) ;
    Ok (a, b, c).

  Variable eq : P -> P -> bool.
  (** The inner loop of SharedEdge, subdivision/triangle.go 100-105, [n] times: whether
      [ae] is found, and the edge of the other triangle afterwards. *)
  Fixpoint shared_inner (n : nat) (m : mem P) (ae be : edge) : res unit (bool * edge) :=
    match n with
    | O => Ok (false, be)
    | S n =>
        do ao <- deref (orig m ae) ;
        do bd <- deref (dest m be) ;
        do both <- (if eq ao bd then do bo <- deref (orig m be) ; do ad <- deref (dest m ae) ; Ok (eq bo ad) else Ok false) ;
        if both then Ok (true, be) else shared_inner n m ae (rnext m be)
    end.
  (** The outer loop, subdivision/triangle.go 99-106 *)
  Fixpoint shared_outer (n : nat) (m : mem P) (ae be : edge) : res unit (option edge) :=
    match n with
    | O => Ok None
    | S n =>
        do r <- shared_inner 3 m ae be ;
        if fst r then Ok (Some ae) else shared_outer n m (rnext m ae) (snd r)
    end.
  (** SharedEdge, subdivision/triangle.go 95-108 *)
  Definition shared_edge (m : mem P) (t other : edge) : res unit (option edge) := shared_outer 3 m t other.
  (** OppositeVertex, subdivision/triangle.go 50-56; nil is [None] *)
  Definition opposite_vertex (m : mem P) (t other : edge) : res unit (option P) :=
    do ae <- shared_edge m t other ;
    Ok match ae with None => None | Some ae => dest m (onext m (sym ae)) end.
  (** The loop of OppositeTriangle, subdivision/triangle.go 73-78; [None] is the error *)
  Fixpoint opposite_loop (fuel : nat) (m : mem P) (start e : edge) (p : P) : res unit (option edge) :=
    match fuel with
    | O => Err tt
    | S fuel =>
        do o <- deref (orig m e) ;
        if eq o p then Ok (Some e)
        else let e := rnext m e in if edge_eqb e start then Ok None else opposite_loop fuel m start e p
    end.
  (** OppositeTriangle, subdivision/triangle.go 70-80 *)
  Definition opposite_triangle (m : mem P) (t : edge) (p : P) : res unit (option edge) :=
    do e <- opposite_loop (4 * count m + 1) m t t p ;
    Ok match e with None => None | Some e => Some (sym (rnext m (rnext m e))) end.
End Methods.

(** The loop of IntersectsPoint, subdivision/triangle.go 22-35 *)
Fixpoint intersects_loop (n : nat) (m : mem pt) (e : edge) (p : pt) : res unit bool :=
  match n with
  | O => Ok true
  | S n =>
      do o <- deref (orig m e) ;
      do d <- deref (dest m e) ;
      match classify p o d with
      | ORIGIN | DESTINATION | BETWEEN => Ok true
      | LEFT | BEHIND | BEYOND => Ok false
      | RIGHT => intersects_loop n m (rnext m e) p
      end
  end.
(** IntersectsPoint, subdivision/triangle.go 16-36; [None] is a nil edge *)
Definition intersects_point (m : mem pt) (t : option edge) (p : pt) : res unit bool :=
  match t with None => Ok false | Some e => intersects_loop 3 m e p end.
