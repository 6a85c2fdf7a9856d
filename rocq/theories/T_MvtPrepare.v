(** * C118 to C121: geometries in the pixels of a tile (mvt.PrepareGeo)

    This file contains only statements; the proofs are in P_MvtPrepare.v to
    P_MvtPrepare5.v, the vocabulary in S_MvtPrepare.v. *)
From Coq Require Import ZArith Bool List Lia Reals.
From Flocq Require Import Core.Core.
From Verif Require Import Base_Res Base_F64 Base_F64Arith Base_Geom P_F64Flocq M_Extent M_Cmp M_Winding M_Walker M_Mvt M_MvtPrepare
  S_Winding S_Mvt S_MvtPrepare P_MvtPrepare P_MvtPrepare2 P_MvtPrepare3 P_MvtPrepare4 P_MvtPrepare5.
From Verif Require P_F64Grid.
Import ListNotations.
Local Open Scope Z_scope.

(** ** C118: the pixel of a point *)

(** Accurate to 2^-50 of its value, as long as nothing comes close to the limits
    of float64. *)
Theorem C118_near : forall e p q, plain_tile e -> far_apart (e2 e) (e0 e) -> far_apart (e3 e) (e1 e) -> plain_pixels p ->
  plain (fst q) -> plain (snd q) ->
  f64_R (fst q) = f64_R (e0 e) \/ far_apart (fst q) (e0 e) ->
  f64_R (snd q) = f64_R (e3 e) \/ far_apart (snd q) (e3 e) ->
  exists r, prepare_geo (GPoint q) (Some e) p = Ok (Some (GPoint r)) /\
    let x := pixel (f64_R (e0 e)) (f64_R (e2 e)) (f64_R p) (f64_R (fst q)) in
    let y := pixel (f64_R (e3 e)) (f64_R (e1 e)) (f64_R p) (f64_R (snd q)) in
    f64_finite (fst r) = true /\ f64_finite (snd r) = true /\
    (Rabs (f64_R (fst r) - x) <= bpow radix2 (-50) * Rabs x)%R /\ (Rabs (f64_R (snd r) - y) <= bpow radix2 (-50) * Rabs y)%R.
Proof. exact point_near. Qed.
Print Assumptions C118_near.

(** The top left corner is pixel (0, 0), the bottom right corner the last one,
    exactly, for every tile of positive size. *)
Theorem C118_corners : forall e p, finite_tile e -> real_spans e -> f64_wf p = true -> f64_finite p = true -> (0 <= f64_R p)%R ->
  let tl := prepare_pt (Some e) p (e0 e, e3 e) in let br := prepare_pt (Some e) p (e2 e, e1 e) in
  f64_R (fst tl) = 0%R /\ f64_R (snd tl) = 0%R /\ f64_R (fst br) = f64_R p /\ f64_R (snd br) = f64_R p.
Proof. exact corner_pixels. Qed.
Print Assumptions C118_corners.

(** What is in the tile stays in the square of pixels: no rounding takes a point
    out of it. *)
Theorem C118_inside : forall e p, finite_tile e -> real_spans e -> f64_wf p = true -> f64_finite p = true -> (0 <= f64_R p)%R ->
  forall q, finite_pt q -> in_tile e q ->
  let r := prepare_pt (Some e) p q in
  f64_finite (fst r) = true /\ f64_finite (snd r) = true /\ (0 <= f64_R (fst r) <= f64_R p)%R /\ (0 <= f64_R (snd r) <= f64_R p)%R.
Proof. exact inside_pixels. Qed.
Print Assumptions C118_inside.

(** The order of points is kept, left to right, and top to bottom. *)
Theorem C118_order : forall e p, finite_tile e -> real_spans e -> f64_wf p = true -> f64_finite p = true -> (0 <= f64_R p)%R ->
  forall q q', finite_pt q -> finite_pt q' -> in_tile e q -> in_tile e q' ->
  let r := prepare_pt (Some e) p q in let r' := prepare_pt (Some e) p q' in
  (f64_R (fst q) <= f64_R (fst q') -> f64_R (fst r) <= f64_R (fst r'))%R /\
  (f64_R (snd q) <= f64_R (snd q') -> f64_R (snd r') <= f64_R (snd r))%R.
Proof. exact order_pixels. Qed.
Print Assumptions C118_order.

(** Exact on integer tiles whose side is a power of two. *)
Theorem C118_exact : forall a k x0 y0, exact_tile a k x0 y0 -> forall l, Forall (in_range k x0 y0) l ->
  map (prepare_pt (Some (int_tile a x0 y0)) (f64_ofZ (2 ^ (a + k)))) (map fpt l) = map fpt (map (tile_pixel k x0 y0) l).
Proof. exact prepare_ints. Qed.
Print Assumptions C118_exact.

(** A point gives its pixel, a multi-point the pixels in order; an empty
    multi-point, a collection or anything else gives nil. *)
Theorem C118_points : forall tile pixels,
  (forall p, prepare_geo (GPoint p) tile pixels = Ok (Some (GPoint (prepare_pt tile pixels p)))) /\
  (forall p ps, prepare_geo (GMultiPoint (p :: ps)) tile pixels = Ok (Some (GMultiPoint (map (prepare_pt tile pixels) (p :: ps))))) /\
  prepare_geo (GMultiPoint []) tile pixels = Ok None /\
  (forall gs, prepare_geo (GCollection gs) tile pixels = Ok None) /\ prepare_geo GUnknown tile pixels = Ok None.
Proof. exact points_spec. Qed.
Print Assumptions C118_points.

Example C118_nonvacuous_tile : let e := int_tile 4 0 16 in
  finite_tile e /\ real_spans e /\ plain_tile e /\ far_apart (e2 e) (e0 e) /\ far_apart (e3 e) (e1 e) /\ plain_pixels (f64_ofZ 4096) /\
  finite_pt (fpt (3, 5)) /\ in_tile e (fpt (3, 5)) /\ plain (f64_ofZ 3) /\ far_apart (f64_ofZ 3) (e0 e).
Proof. exact example_tile. Qed.
Example C118_nonvacuous :
  exact_tile 4 8 0 16 /\ Forall (in_range 8 0 16) [(0, 16); (16, 0); (3, 5); (-1, 17)] /\
  map (tile_pixel 8 0 16) [(0, 16); (16, 0); (3, 5); (-1, 17)] = [(0, 0); (4096, 4096); (768, 2816); (-256, -256)].
Proof.
  split; [unfold exact_tile; lia|]. split; [|reflexivity].
  repeat (constructor; [unfold in_range, pixel_range, tile_pixel; cbn [fst snd]; lia|]). constructor.
Qed.

(** ** C119: lines *)

(** A line of fewer than two points, or all of whose pixels are at one place,
    vanishes; every other line gives the pixels of its points in order, without
    those that repeat the last one kept, so that neighbours differ. *)
Theorem C119_vanishes : forall tile pixels l,
  prepare_geo (GLineString l) tile pixels = Ok (Some (GLineString [])) <->
  (length l < 2)%nat \/ one_place (point_equal hi_cmp) (map (prepare_pt tile pixels) l).
Proof. exact line_vanishes. Qed.
Print Assumptions C119_vanishes.
Theorem C119_thinned : forall tile pixels l, exists out, prepare_geo (GLineString l) tile pixels = Ok (Some (GLineString out)) /\
  (out <> [] -> (2 <= length out)%nat /\ thinned (point_equal hi_cmp) (map (prepare_pt tile pixels) l) out /\ steps (point_equal hi_cmp) out).
Proof. exact line_thinned. Qed.
Print Assumptions C119_thinned.

(** A multi-line gives the lines that do not vanish. *)
Theorem C119_multiline : forall tile pixels ls, exists out, prepare_geo (GMultiLineString ls) tile pixels = Ok (Some (GMultiLineString out)) /\
  Forall (fun l => (2 <= length l)%nat) out /\
  forall o, In o out <-> o <> [] /\ exists l, In l ls /\ prepare_geo (GLineString l) tile pixels = Ok (Some (GLineString o)).
Proof. exact multiline_spec. Qed.
Print Assumptions C119_multiline.

(** Prepared, encoded and decoded again, a line of an integer tile is the line in
    pixels, without its repeated points. *)
Theorem C119_roundtrip : forall a k x0 y0, exact_tile a k x0 y0 -> forall l, Forall (in_range k x0 y0) l ->
  let out := squeezed (map (tile_pixel k x0 y0) l) in good_line out ->
  exists b, prepare_geo (GLineString (map fpt l)) (Some (int_tile a x0 y0)) (f64_ofZ (2 ^ (a + k))) = Ok (Some (GLineString (map fpt out))) /\
    encode_geometry (GLineString (map fpt out)) = Ok (b, Tile_LINESTRING) /\
    decode_geometry Tile_LINESTRING b = Ok (Some (GLineString (map fpt out))).
Proof. exact line_pipeline. Qed.
Print Assumptions C119_roundtrip.

Example C119_nonvacuous :
  let l := [(0, 16); (3, 5); (3, 5); (16, 0)] in
  Forall (in_range 8 0 16) l /\ good_line (squeezed (map (tile_pixel 8 0 16) l)) /\
  squeezed (map (tile_pixel 8 0 16) l) = [(0, 0); (768, 2816); (4096, 4096)].
Proof.
  cbn zeta. split; [|split; [|reflexivity]].
  - repeat (constructor; [unfold in_range, pixel_range, tile_pixel; cbn [fst snd]; lia|]). constructor.
  - split; vm_compute; repeat constructor.
Qed.

(** ** C120: polygons *)

(** When it returns, the rings of two points or more have become rings of pixels
    without repeated points and without a closing point; nothing remains if the
    first of them has no area, and otherwise it and the others with area, in
    order, each as it was or reversed. *)
Theorem C120_rings : forall tile pixels rs out, prepare_geo (GPolygon rs) tile pixels = Ok (Some (GPolygon out)) ->
  exists rings, Forall2 (prepared_ring (point_equal hi_cmp) (prepare_pt tile pixels)) (filter (fun r => (2 <=? length r)%nat) rs) rings /\
    match rings with
    | [] => out = []
    | outer :: inner =>
        (orientation false outer = wColinear /\ out = []) \/
        (orientation false outer <> wColinear /\
         same_or_reversed (outer :: filter (fun r => negb (orientation false r =? wColinear)) inner) out)
    end.
Proof. exact polygon_rings. Qed.
Print Assumptions C120_rings.

(** It panics exactly when a ring of two points or more shrinks to one place. *)
Theorem C120_panics : forall tile pixels rs, prepare_polygon tile pixels rs = Panic <->
  exists r, In r rs /\ (2 <= length r)%nat /\ one_place (point_equal hi_cmp) (map (prepare_pt tile pixels) r).
Proof. exact prepare_polygon_panics. Qed.
Print Assumptions C120_panics.

(** A multi-polygon gives the polygons one by one without the empty ones, and
    panics if one of them does. *)
Theorem C120_multi : forall tile pixels pls,
  (prepare_polygons tile pixels pls = Panic <-> exists p, In p pls /\ prepare_polygon tile pixels p = Panic) /\
  (forall out, prepare_polygons tile pixels pls = Ok out ->
     exists nps, Forall2 (fun p np => prepare_polygon tile pixels p = Ok np) pls nps /\ out = filter (fun p => (0 <? length p)%nat) nps).
Proof. exact polygons_spec. Qed.
Print Assumptions C120_multi.

(** Prepared, encoded and decoded again, a polygon of an integer tile is the
    polygon in pixels, with the windings a tile asks for. *)
Theorem C120_roundtrip : forall a k x0 y0, exact_tile a k x0 y0 -> forall rs, Forall (real_ring k x0 y0) rs ->
  ok_polygon (map (tile_ring k x0 y0) rs) ->
  exists p b, prepare_geo (GPolygon (map (map fpt) rs)) (Some (int_tile a x0 y0)) (f64_ofZ (2 ^ (a + k))) = Ok (Some p) /\
    encode_geometry p = Ok (b, Tile_POLYGON) /\
    decode_geometry Tile_POLYGON b = Ok (Some (fgeom (GPolygon (tile_polygon (map (tile_ring k x0 y0) rs))))).
Proof. exact polygon_pipeline. Qed.
Print Assumptions C120_roundtrip.

Example C120_nonvacuous :
  let rs := [square ++ [(2, 2)]; [(4, 4); (6, 4); (6, 4); (6, 6); (4, 6); (4, 4)]; [(8, 8); (9, 9); (10, 10)]] in
  Forall (real_ring 0 0 16) rs /\ ok_polygon (map (tile_ring 0 0 16) rs) /\
  tile_polygon (map (tile_ring 0 0 16) rs) =
    [[(2, 2); (14, 2); (14, 14); (2, 14)]; [(4, 12); (6, 12); (6, 10); (4, 10)]].
Proof. exact example_rings. Qed.

(** ** C121 (refuted): PrepareGeo handles whatever lies in the tile *)

(** A hole, or a polygon, which shrinks to one pixel point makes the call panic;
    an outer ring of one point is skipped and the hole takes its place; a line
    which shrinks to a point comes back empty, and encoding it panics; a tile of
    no width gives NaN. *)
Theorem C121_collapsing_hole_refuted :
  prepare_geo (GPolygon [map fpt square; dot]) tile16 (f64_ofZ 4096) = Panic /\
  prepare_geo (GPolygon [dot]) tile16 (f64_ofZ 4096) = Panic /\
  prepare_geo (GMultiPolygon [[map fpt square]; [dot]]) tile16 (f64_ofZ 4096) = Panic.
Proof. exact (conj collapsing_hole collapsing_outer). Qed.
Print Assumptions C121_collapsing_hole_refuted.
Theorem C121_hole_becomes_outer_refuted : exists out,
  prepare_geo (GPolygon [[fpt (8, 8)]; map fpt square]) tile16 (f64_ofZ 16) = Ok (Some (GPolygon out)) /\
  prepare_geo (GPolygon [map fpt square]) tile16 (f64_ofZ 16) = Ok (Some (GPolygon out)).
Proof. exact short_outer. Qed.
Print Assumptions C121_hole_becomes_outer_refuted.
Theorem C121_collapsing_line_refuted :
  prepare_geo (GLineString dot) tile16 (f64_ofZ 4096) = Ok (Some (GLineString [])) /\ encode_geometry (GLineString []) = Panic.
Proof. exact collapsing_line. Qed.
Print Assumptions C121_collapsing_line_refuted.
Theorem C121_flat_tile_refuted : exists p,
  prepare_geo (GPoint (fpt (3, 4))) (Some flat) (f64_ofZ 4096) = Ok (Some (GPoint p)) /\ f64_isnan (fst p) = true.
Proof. exact flat_tile. Qed.
Print Assumptions C121_flat_tile_refuted.
