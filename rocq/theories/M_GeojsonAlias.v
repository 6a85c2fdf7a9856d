(** * What writing GeoJSON does to the caller's memory

    LinearRings (polygon.go) returns the caller's slice of rings, and
    closePolygon (geojson.go 322-337) assigns to its elements and appends to
    its rings.  A ring is a slice header on one of the arrays of points in
    memory; the headers themselves lie in the array of the caller's polygon. *)
From Coq Require Import ZArith Bool List.
From Verif Require Import Base_F64 Base_Geom M_Cmp M_Wkt.
Import ListNotations.

Record header := Hdr { h_arr : nat; h_off : nat; h_len : nat; h_cap : nat }.
Notation memory := (list (list pt)).

Definition array (m : memory) (a : nat) : list pt := nth a m [].
(** The points of a slice. *)
Definition read (m : memory) (h : header) : list pt :=
  firstn (h_len h) (skipn (h_off h) (array m (h_arr h))).

Fixpoint set {A} (i : nat) (x : A) (l : list A) : list A :=
  match l, i with
  | [], _ => []
  | _ :: l', O => x :: l'
  | y :: l', S i' => y :: set i' x l'
  end.

(** append(s, x): within the capacity the array is written, otherwise the slice
    moves to a new array (without spare capacity, a simplification). *)
Definition append (m : memory) (h : header) (x : pt) : memory * header :=
  if (h_len h <? h_cap h)%nat then
    (set (h_arr h) (set (h_off h + h_len h) x (array m (h_arr h))) m,
     Hdr (h_arr h) (h_off h) (S (h_len h)) (h_cap h))
  else
    (m ++ [read m h ++ [x]], Hdr (length m) 0 (S (h_len h)) (S (h_len h))).

(** The body of the loop, geojson.go 327-336 *)
Definition close_header (m : memory) (h : header) : memory * header :=
  match read m h with
  | [] => (m, h)
  | p :: r => if pt_eq p (last r p) then (m, h) else append m h p
  end.
(** closePolygon, geojson.go 325-338: the memory and the caller's headers *)
Fixpoint close_headers (m : memory) (hs : list header) : memory * list header :=
  match hs with
  | [] => (m, [])
  | h :: hs' =>
      let '(m1, h1) := close_header m h in
      let '(m2, hs2) := close_headers m1 hs' in
      (m2, h1 :: hs2)
  end.
