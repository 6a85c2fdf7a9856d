(** * Model of RoundToPrec, of the package spherical and of ThreePointsAreColinear *)
From Coq Require Import Bool List ZArith.
From Verif Require Import Base_F64 Base_F64Arith Base_Geom M_Extent M_Cmp M_Walker M_Constraint.
Import ListNotations.
Open Scope Z_scope.

(** RoundToPrec, geom.go 549-558.  math.Pow10 is modelled for exponents from 0 to 22,
    where the powers are exact; [None] is for the others. *)
Definition round_to_prec (v : f64) (prec : Z) : option f64 :=
  if (prec <? 0) || (22 <? prec) then None
  else if f64_eq v f64_zero then Some f64_zero
  else if prec =? 0 then Some (f64_round v)
  else
    let factor := f64_ofZ (10 ^ prec) in
    Some (f64_div (f64_round (f64_mul v factor)) factor).

(** Extent, spherical/extent.go 32-39 *)
Definition sph_extent (westy easty : pt) : extent :=
  let north := snd westy in
  let south := snd easty in
  let '(north, south) := if f64_lt north south then (south, north) else (north, south) in
  Ext (fst westy) south (fst easty) north.
(** Hull, spherical/extent.go 11-28; 180 is exact *)
Definition sph_hull (a b : pt) : extent :=
  let crosses := f64_gt (f64_abs (f64_sub (fst a) (fst b))) (f64_ofZ 180) in
  let swap := if crosses then f64_lt (fst a) (fst b) else f64_gt (fst a) (fst b) in
  if swap then sph_extent (fst b, snd a) (fst a, snd b) else sph_extent a b.

(** ThreePointsAreColinear, winding/winding.go 250-267; [c] is the default
    comparator when it is called *)
Definition three_colinear (c : compare) (pt1 pt2 pt3 : pt) : bool :=
  let a := f64_sub (fst pt1) (fst pt2) in
  let b := f64_sub (fst pt2) (fst pt3) in
  let h := f64_sub (snd pt1) (snd pt2) in
  let d := f64_sub (snd pt2) (snd pt3) in
  cmp_float c (f64_mul 0x3FE0000000000000 (f64_sub (f64_mul a d) (f64_mul b h))) f64_zero.
