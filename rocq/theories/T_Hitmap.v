(** * Hit maps: which points are inside (C54, C114)

    [covers] and [within] (in or on a ring, strictly in it, by the even-odd rule over
    the reals), [hit], [in_polygons], [hit_geom], [small_geom] and [thin] are in
    S_Hitmap.v; [small_pt] in S_Ring.v, [sorts] in S_Sweep.v and [unknown_inside]
    in S_Geom.v; [rpt] gives the real point of two words.  [sorted] and [nums] are
    what NewTree does (M_Rtree.v), [sort_rings] and [sort_maps] are sort.Sort. *)
From Coq Require Import ZArith Bool List Permutation Reals.
From Flocq Require Import Core.Core.
From Verif Require Import Base_Res Base_F64 Base_F64Arith Base_Geom M_Geom M_Extent M_Cmp M_Rtree M_Ring M_Hitmap
  S_Geom S_Intersect S_RtreeEx S_Sweep S_Ring P_F64Flocq P_Intersect4 P_Ring3 P_Hitmap2 P_Hitmap3 S_Hitmap.
Import ListNotations.

(** ** C54: labels *)

Theorem C54_polygons : forall sorted nums sort_rings, (forall i es, Permutation (sorted i es) es) -> numbers_ok nums -> sorts sort_rings ->
  forall plys, Forall (Forall (Forall small_pt)) plys ->
  exists h, new_from_polygons sorted nums sort_rings None plys = Ok h /\
    forall p, small_pt p -> exists l, label_for h p = Ok l /\ (l = Inside \/ l = Outside) /\ (l = Inside <-> hit plys p).
Proof. intros sorted nums sort_rings Hs Hn Hr. exact (polygons_spec sorted nums sort_rings Hs Hn Hr). Qed.
Print Assumptions C54_polygons.

(** New: a hit map which answers for every polygon inside the geometry, no hit map for
    points and lines, an error exactly if something inside is no geometry. *)
Theorem C54_new : forall sorted nums sort_rings sort_maps, (forall i es, Permutation (sorted i es) es) -> numbers_ok nums ->
  sorts sort_rings -> sorts sort_maps ->
  forall g, small_geom g ->
  (unknown_inside g = false -> exists h, new_hitmap sorted nums sort_rings sort_maps g = Ok h /\
     match h with
     | None => thin g = true
     | Some h => thin g = false /\
         forall p, small_pt p -> exists l, label_for h p = Ok l /\ (l = Inside \/ l = Outside) /\ (l = Inside <-> hit_geom p g)
     end) /\
  (unknown_inside g = true -> new_hitmap sorted nums sort_rings sort_maps g = Err tt).
Proof.
  intros sorted nums sort_rings sort_maps Hs Hn Hr Hm g S.
  exact (conj (new_spec sorted nums sort_rings sort_maps Hs Hn Hr Hm g S) (new_unknown sorted nums sort_rings sort_maps Hs Hn Hr Hm g S)).
Qed.
Print Assumptions C54_new.

(** NewOrderedHM over any hit maps, in any order. *)
Theorem C54_ordered : forall hms p, (forall h, In h hms -> exists l, label_for h p = Ok l) ->
  exists l, label_for (new_ordered hms) p = Ok l /\ (l = Inside \/ l = Outside) /\
    (l = Inside <-> exists h, In h hms /\ label_for h p = Ok Inside).
Proof. exact ordered_first. Qed.
Print Assumptions C54_ordered.

(** Asking for a point first moves it to the nearest one whose coordinates have 20
    significant bits: each by at most 2^-20 of itself. *)
Theorem C54_rounding : forall w, f64_wf w = true -> f64_finite w = true -> (Rabs (f64_R w) <= bpow radix2 1023)%R ->
  exists w', round20 w = Ok w' /\ f64_finite w' = true /\ bits20 (f64_R w') /\
    (forall y, bits20 y -> Rabs (f64_R w' - f64_R w) <= Rabs (y - f64_R w))%R /\
    (Rabs (f64_R w' - f64_R w) <= bpow radix2 (-20) * Rabs (f64_R w))%R.
Proof. exact round20_nearest. Qed.
Print Assumptions C54_rounding.

Example C54_nonvacuous : small_geom town /\ unknown_inside town = false /\
  exists h, new_hitmap sort_dim numbers_any hsort_rings hsort_maps town = Ok (Some h) /\
  map (fun q => label_for h (zpt q)) [(3, 3); (15, 15); (45, 45); (5, 5); (30, 30); (35, 35)]%Z =
  [Ok Inside; Ok Outside; Ok Inside; Ok Inside; Ok Inside; Ok Outside].
Proof. exact (conj town_small (conj eq_refl town_labels)). Qed.

(** ** C114: a point of the polygons is labelled inside *)

(** False for an island in the hole of another polygon, *)
Theorem C114_island_refuted : Forall (Forall (Forall small_pt)) lake /\ in_polygons lake (zpt (15, 15)%Z) /\
  exists h, new_from_polygons sort_dim numbers_any hsort_rings None lake = Ok h /\ label_for h (zpt (15, 15)%Z) = Ok Outside.
Proof. exact (conj lake_small island_lost). Qed.
Print Assumptions C114_island_refuted.

(** for a small polygon far from the origin, *)
Theorem C114_rounding_refuted : in_polygons remote (zpt (10000004, 10000004)%Z) /\
  exists h, new_from_polygons sort_dim numbers_any hsort_rings None remote = Ok h /\ label_for h (zpt (10000004, 10000004)%Z) = Ok Outside.
Proof. exact rounding_lost. Qed.
Print Assumptions C114_rounding_refuted.

(** and whenever NewFromPolygons is given a clip box: then nothing but the origin is
    inside. *)
Theorem C114_clipbox_refuted : (forall sorted nums sort_rings c plys h, new_from_polygons sorted nums sort_rings (Some c) plys = Ok h ->
    forall p, small_pt p -> rpt p <> (0, 0)%R -> label_for h p = Ok Outside) /\
  in_polygons [[square 1 9]] (zpt (5, 5)%Z) /\
  exists h, new_from_polygons sort_dim numbers_any hsort_rings (Some (Ext (f64_ofZ 0) (f64_ofZ 0) (f64_ofZ 10) (f64_ofZ 10))) [[square 1 9]] = Ok h /\
    label_for h (zpt (5, 5)%Z) = Ok Outside.
Proof. exact (conj clip_box_lost clip_box_missed). Qed.
Print Assumptions C114_clipbox_refuted.

(** A coordinate which is not a number panics. *)
Theorem C114_nan_refuted : forall clip rings y, label_for (HPolygon clip rings) (f64_nan, y) = Panic.
Proof. exact nan_panics. Qed.
Print Assumptions C114_nan_refuted.

(** The extent of a hit map reaches to the origin, wherever its polygons are. *)
Theorem C114_extent_refuted : exists h, new_from_polygons sort_dim numbers_any hsort_rings None [[square 1 9]] = Ok h /\
  hm_extent h = Ext (f64_ofZ 0) (f64_ofZ 0) (f64_ofZ 9) (f64_ofZ 9).
Proof. exact extent_wide. Qed.
Print Assumptions C114_extent_refuted.
