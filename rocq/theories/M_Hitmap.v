(** * Model of planar/makevalid/hitmap (hitmap.go, polygon_hitmap.go, ring.go)

    Floats are words.  A planar.HitMapper is a value of [hitmap]; a nil one is
    None.  sort.Sort is a parameter.  A *PolygonHM or *Ring is never nil here, and
    the debug flag is off.  createSegments (ring.go 11-27) is never called. *)
From Coq Require Import ZArith Bool List.
From Verif Require Import Base_Res Base_F64 Base_F64Arith Base_Geom M_Geom M_Extent M_Cmp M_Intersect M_Rtree M_Ring.
Import ListNotations.
Open Scope Z_scope.

(** planar/interfaces.go 24-29 *)
Inductive label := Unknown | Outside | Inside.
Definition label_eqb (a b : label) : bool :=
  match a, b with Unknown, Unknown | Outside, Outside | Inside, Inside => true | _, _ => false end.

(** ** big.NewFloat(x).SetPrec(20) and Float64 (Go library math/big)

    The mantissa, of [digits] bits, is rounded to its first 20, to nearest, ties
    to even; in the 63 low bits of the word a carry goes on into the exponent. *)
Definition digits (m : Z) : Z := if m <? 2 ^ 52 then Z.log2 m + 1 else 53.
(** [u] divided by [2^k] to the nearest integer, ties to even. *)
Definition near_even (u k : Z) : Z := (u + 2 ^ (k - 1) - 1 + (u / 2 ^ k) mod 2) / 2 ^ k.
Definition round_mag (m : Z) : Z :=
  if digits m <=? 20 then m
  else let k := digits m - 20 in near_even m k * 2 ^ k.
(** NewFloat panics for NaN; an infinity is kept. *)
Definition round20 (w : f64) : res unit f64 :=
  if f64_isnan w then Panic
  else if f64_isinf w then Ok w
  else Ok ((if f64_sign w then two63 else 0) + round_mag (f64_mag w)).

(** ** ring.go *)
(** cmp/default_compare.go 15-25: six digits of precision, nobody calls SetDefault *)
Definition ring_cmp : compare := new_compare 0x3EB0C6F7A0B5ED8D.
(** ring.go 29-32 *)
Record hring := HRing { h_ring : ring; h_label : label }.
(** ring.go 64, 34-61 *)
Definition hring_contains (r : hring) (p : pt) : res unit bool := ring_contains (Some (h_ring r)) p.
Definition hring_extent (r : hring) : extent := r_bbox (h_ring r).
Definition hring_area (r : hring) : f64 := area (Some (hring_extent r)).
(** ring.go 77-83 *)
Definition smaller (a b : hring) : bool :=
  if negb (label_eqb (h_label a) (h_label b)) then label_eqb (h_label a) Outside
  else f64_lt (hring_area a) (hring_area b).

Inductive hitmap :=
| HAlways (l : label)
| HPolygon (clip : extent) (rings : list hring)
| HOrdered (hms : list hitmap).

(** ** hitmap.go *)
(** polygon_hitmap.go 115-122: the first ring which contains the point *)
Fixpoint first_hit (rings : list hring) (p : pt) : res unit label :=
  match rings with
  | [] => Ok Outside
  | r :: tl => do b <- hring_contains r p; if b then Ok (h_label r) else first_hit tl p
  end.
(** polygon_hitmap.go 92-127 *)
Definition polygon_label (clip : extent) (rings : list hring) (p : pt) : res unit label :=
  do x <- round20 (fst p);
  do y <- round20 (snd p);
  if negb (contains_point (Some clip) (x, y)) then Ok Outside else first_hit rings (x, y).

(** hitmap.go 26; polygon_hitmap.go 92-127; hitmap.go 46-53 *)
Fixpoint label_for (h : hitmap) (p : pt) : res unit label :=
  match h with
  | HAlways l => Ok l
  | HPolygon clip rings => polygon_label clip rings p
  | HOrdered hms =>
      (fix members (l : list hitmap) : res unit label :=
         match l with
         | [] => Ok Outside
         | h :: tl => do b <- label_for h p; if label_eqb b Inside then Ok Inside else members tl
         end) hms
  end.

Definition zero_extent : extent := Ext f64_zero f64_zero f64_zero f64_zero.
(** Add for an extent which is not nil *)
Definition add_to (e n : extent) : extent := match add_ext (Some e) n with Some e => e | None => e end.
(** hitmap.go 27-29; polygon_hitmap.go 130; hitmap.go 56-62 *)
Fixpoint hm_extent (h : hitmap) : extent :=
  match h with
  | HAlways _ => Ext f64_ninf f64_ninf f64_pinf f64_pinf
  | HPolygon clip _ => clip
  | HOrdered hms => fold_left (fun e h => add_to e (hm_extent h)) hms zero_extent
  end.
(** hitmap.go 30; polygon_hitmap.go 133; hitmap.go 65-67 *)
Definition hm_area (h : hitmap) : f64 :=
  match h with
  | HAlways _ => f64_pinf
  | _ => area (Some (hm_extent h))
  end.
(** hitmap.go 37-40 *)
Definition less_area (a b : hitmap) : bool := f64_lt (hm_area a) (hm_area b).
(** hitmap.go 70-77 *)
Definition new_ordered (hms : list hitmap) : hitmap := HOrdered (rev hms).

Section New.
  (** What NewTree computes in floating point, and its sort (M_Rtree.v); sort.Sort. *)
  Variable sorted : nat -> list (entry seg_rect) -> list (entry seg_rect).
  Variable nums : list seg_rect -> nat * Z * Z * Z.
  Variable sort_rings : (hring -> hring -> bool) -> list hring -> list hring.
  Variable sort_maps : (hitmap -> hitmap -> bool) -> list hitmap -> list hitmap.

  (** ring.go 66-70 *)
  Definition new_hring (pts : list pt) (l : label) : res unit hring :=
    do r <- new_ring_from_points sorted nums ring_cmp (label_eqb l Inside) pts; Ok (HRing r l).
  (** polygon_hitmap.go 57-62, 74-78: a ring is appended, and its box added to the
      clip box if no clip box was given *)
  Definition append_ring (clipbox : option extent) (st : extent * list hring) (r : hring) : extent * list hring :=
    (match clipbox with None => add_to (fst st) (hring_extent r) | Some _ => fst st end, snd st ++ [r]).
  (** polygon_hitmap.go 64-79 *)
  Fixpoint append_holes (clipbox : option extent) (holes : list (list pt)) (st : extent * list hring) : res unit (extent * list hring) :=
    match holes with
    | [] => Ok st
    | [] :: tl => append_holes clipbox tl st
    | h :: tl => do r <- new_hring h Outside; append_holes clipbox tl (append_ring clipbox st r)
    end.
  (** polygon_hitmap.go 49-80 *)
  Fixpoint append_polygons (clipbox : option extent) (plys : list (list (list pt))) (st : extent * list hring) : res unit (extent * list hring) :=
    match plys with
    | [] => Ok st
    | [] :: tl => append_polygons clipbox tl st
    | ([] :: _) :: tl => append_polygons clipbox tl st
    | (outer :: holes) :: tl =>
        do r <- new_hring outer Inside;
        do st <- append_holes clipbox holes (append_ring clipbox st r);
        append_polygons clipbox tl st
    end.
  (** polygon_hitmap.go 33-89; the error is always nil *)
  Definition new_from_polygons (clipbox : option extent) (plys : list (list (list pt))) : res unit hitmap :=
    do st <- append_polygons clipbox plys (zero_extent, []);
    Ok (HPolygon (fst st) (sort_rings smaller (snd st))).

  (** hitmap.go 88-136; the error is ErrUnknownGeometry *)
  Fixpoint new_hitmap (g : geom f64) : res unit (option hitmap) :=
    match g with
    | GPolygon rs => do h <- new_from_polygons None [rs]; Ok (Some h)
    | GMultiPolygon pls => do h <- new_from_polygons None pls; Ok (Some h)
    | GCollection gs =>
        do hms <- (fix members (l : list (geom f64)) : res unit (list hitmap) :=
                     match l with
                     | [] => Ok []
                     | g :: tl =>
                         do h <- new_hitmap g;
                         do hs <- members tl;
                         Ok (match h with None => hs | Some h => h :: hs end)
                     end) gs;
        Ok (Some (new_ordered (sort_maps less_area hms)))
    | GPoint _ | GMultiPoint _ | GLineString _ | GMultiLineString _ => Ok None
    | GUnknown => Err tt
    end.
End New.
