(** * Theorems about Mapbox vector tile geometry *)
From Coq Require Import ZArith Bool List Lia.
From Verif Require Import Base_F64 Base_F64Arith Base_Geom Base_Res Base_Bytes
  M_Winding S_Winding M_Mvt S_Mvt P_Mvt P_Mvt2.
Import ListNotations.
Open Scope Z_scope.

(** ** C08: zig-zag integers *)

Theorem C08_zigzag_roundtrip_iff : forall d, decode_zigzag (encode_zigzag d) = d <-> int32 d.
Proof. exact zigzag_iff. Qed.
Print Assumptions C08_zigzag_roundtrip_iff.

Theorem C08_zigzag_onto : forall u, uint32 u -> encode_zigzag (decode_zigzag u) = u.
Proof. exact zigzag_onto. Qed.
Print Assumptions C08_zigzag_onto.

Theorem C08_zigzag_value : forall d, int32 d -> encode_zigzag d = wire_param d.
Proof. exact encode_zigzag_val. Qed.
Print Assumptions C08_zigzag_value.

Example C08_nonvacuous :
  map encode_zigzag [0; -1; 1; -2; 2147483647; -2147483648] = [0; 1; 2; 3; 4294967294; 4294967295] /\
  decode_zigzag (encode_zigzag 2147483648) <> 2147483648.
Proof. split; [reflexivity | vm_compute; discriminate]. Qed.

(** ** C09: command integers *)

Theorem C09_command_roundtrip : forall id n,
  id = 1 \/ id = 2 \/ id = 7 -> 0 <= n < 2 ^ 29 ->
  uint32 (new_command id n) /\ cmd_id (new_command id n) = id /\ cmd_count (new_command id n) = n.
Proof. exact command_roundtrip. Qed.
Print Assumptions C09_command_roundtrip.

Theorem C09_command_split : forall c, 0 <= c -> c = cmd_id c + 8 * cmd_count c /\ 0 <= cmd_id c < 8.
Proof. exact command_split. Qed.
Print Assumptions C09_command_split.

Example C09_nonvacuous : new_command 1 1 = 9 /\ new_command 2 3 = 26 /\ new_command 7 1 = 15.
Proof. repeat split. Qed.

(** ** C10: points and lines survive the tile *)

Theorem C10_point_roundtrip : forall p, fits [p] ->
  exists b, encode_geometry (GPoint (fpt p)) = Ok (b, Tile_POINT) /\
    decode_geometry Tile_POINT b = Ok (Some (GPoint (fpt p))).
Proof. exact decode_one_point_enc. Qed.
Print Assumptions C10_point_roundtrip.

Theorem C10_multipoint_roundtrip : forall ps, countable ps -> fits ps -> ps <> [] ->
  exists b, encode_geometry (GMultiPoint (map fpt ps)) = Ok (b, Tile_POINT) /\
    decode_geometry Tile_POINT b = Ok (Some (fgeom (single_mp ps))).
Proof. exact decode_multipoint_enc. Qed.
Print Assumptions C10_multipoint_roundtrip.

Theorem C10_linestring_roundtrip : forall l, good_line l -> fits l ->
  exists b, encode_geometry (GLineString (map fpt l)) = Ok (b, Tile_LINESTRING) /\
    decode_geometry Tile_LINESTRING b = Ok (Some (GLineString (map fpt l))).
Proof. exact decode_line_enc. Qed.
Print Assumptions C10_linestring_roundtrip.

Theorem C10_multilinestring_roundtrip : forall ls, Forall good_line ls -> fits (concat ls) -> ls <> [] ->
  exists b, encode_geometry (GMultiLineString (map (map fpt) ls)) = Ok (b, Tile_LINESTRING) /\
    decode_geometry Tile_LINESTRING b = Ok (Some (fgeom (single_ml ls))).
Proof. exact decode_lines_enc. Qed.
Print Assumptions C10_multilinestring_roundtrip.

Example C10_nonvacuous :
  let l1 := [(0, 0); (-5, 7); (4096, 12)] in let l2 := [(3, 3); (3, 4)] in
  Forall good_line [l1; l2] /\ fits (concat [l1; l2]) /\
  encode_geometry (GMultiLineString (map (map fpt) [l1; l2])) =
    Ok ([9; 0; 0; 18; 9; 14; 8202; 10; 9; 8185; 17; 10; 0; 2], Tile_LINESTRING) /\
  decode_geometry Tile_LINESTRING [9; 0; 0; 18; 9; 14; 8202; 10; 9; 8185; 17; 10; 0; 2] =
    Ok (Some (fgeom (GMultiLineString [l1; l2]))).
Proof.
  cbv zeta. split; [|split; [|split; vm_compute; reflexivity]].
  - repeat constructor; cbn; lia.
  - split; [cbn; unfold int32; lia|]. repeat constructor; cbn; lia.
Qed.

(** ** C11: polygons survive the tile

    [tile_polygon] (S_Mvt) is the polygon as the format can carry it: the outer
    ring wound one way, the inner rings with area the other, every ring as it
    was or reversed. *)

Theorem C11_polygon_roundtrip : forall rs, ok_polygon rs -> steps_fit (0, 0) (concat (tile_polygon rs)) ->
  exists b, encode_geometry (GPolygon (map (map fpt) rs)) = Ok (b, Tile_POLYGON) /\
    decode_geometry Tile_POLYGON b = Ok (Some (fgeom (GPolygon (tile_polygon rs)))).
Proof. exact decode_polygon_enc. Qed.
Print Assumptions C11_polygon_roundtrip.

Theorem C11_multipolygon_roundtrip : forall pls, pls <> [] -> Forall ok_polygon pls ->
  steps_fit (0, 0) (concat (concat (map tile_polygon pls))) ->
  exists b, encode_geometry (GMultiPolygon (map (map (map fpt)) pls)) = Ok (b, Tile_POLYGON) /\
    decode_geometry Tile_POLYGON b = Ok (Some (fgeom (single_mpoly (map tile_polygon pls)))).
Proof. exact decode_polygons_enc. Qed.
Print Assumptions C11_multipolygon_roundtrip.

Example C11_nonvacuous :
  let sq a b := [(a, a); (b, a); (b, b); (a, b)] in
  let pls := [[sq 0 10; sq 2 4; [(0, 0); (1, 1); (2, 2)]]; [rev (sq 20 30)]] in
  Forall ok_polygon pls /\ steps_fit (0, 0) (concat (concat (map tile_polygon pls))) /\
  map tile_polygon pls = [[sq 0 10; rev (sq 2 4)]; [sq 20 30]] /\
  encode_geometry (GMultiPolygon (map (map (map fpt)) pls)) =
    Ok ([9; 0; 0; 26; 20; 0; 0; 20; 19; 0; 15;
         9; 4; 11; 26; 4; 0; 0; 3; 3; 0; 15;
         9; 36; 36; 26; 20; 0; 0; 20; 19; 0; 15], Tile_POLYGON).
Proof.
  cbv zeta. split; [|split; [|split; vm_compute; reflexivity]].
  - assert (R : forall a b, Z.abs a <= 40 -> Z.abs b <= 40 -> a < b ->
      ok_ring [(a, a); (b, a); (b, b); (a, b)] /\ ok_ring (rev [(a, a); (b, a); (b, b); (a, b)])).
    { intros a b Ha Hb L.
      assert (ok_ring [(a, a); (b, a); (b, b); (a, b)]).
      { split; [|split; [|reflexivity]].
        - repeat constructor; cbn [fst snd]; lia.
        - exists 80. split; [|cbn; lia].
          intros p q [<-|[<-|[<-|[<-|[]]]]] [<-|[<-|[<-|[<-|[]]]]]; cbn [fst snd]; lia. }
      split; [assumption | now apply ok_rev]. }
    constructor; [split; [reflexivity|] | constructor; [split; [reflexivity|] | constructor]].
    + constructor; [apply R; lia|]. constructor; [apply R; lia|]. constructor; [|constructor].
      split; [|split; [|reflexivity]].
      * repeat constructor; cbn [fst snd]; lia.
      * exists 80. split; [|cbn; lia].
        intros p q [<-|[<-|[<-|[]]]] [<-|[<-|[<-|[]]]]; cbn [fst snd]; lia.
    + constructor; [apply R; lia | constructor].
  - cbn. unfold int32. lia.
Qed.

(** When the outer ring has no area it is dropped but its holes are still
    written: alone they cannot be decoded, and after another polygon they
    become holes of that polygon. *)
Theorem C11_flat_outer_ring_refuted :
  (exists rs b, rs <> [] /\ encode_geometry (GPolygon rs) = Ok (b, Tile_POLYGON) /\
     decode_geometry Tile_POLYGON b = Err ENotExterior) /\
  (exists sq hole flat b,
     encode_geometry (GMultiPolygon [[sq]; [flat; hole]]) = Ok (b, Tile_POLYGON) /\
     decode_geometry Tile_POLYGON b = Ok (Some (GPolygon [sq; hole]))).
Proof. exact flat_outer_ring. Qed.
Print Assumptions C11_flat_outer_ring_refuted.

(** ** C60: wire layout of the encoded geometry *)

Theorem C60_points_layout : forall ps, ps <> [] -> countable ps -> fits ps ->
  encode_geometry (GMultiPoint (map fpt ps)) = Ok (wire_points ps, Tile_POINT).
Proof. exact encode_points_wire. Qed.
Print Assumptions C60_points_layout.

Theorem C60_linestring_layout : forall l, good_line l -> fits l ->
  encode_geometry (GLineString (map fpt l)) = Ok (wire_line (0, 0) l, Tile_LINESTRING).
Proof. exact encode_ls_wire. Qed.
Print Assumptions C60_linestring_layout.

Theorem C60_multilinestring_layout : forall ls, Forall good_line ls -> fits (concat ls) ->
  encode_geometry (GMultiLineString (map (map fpt) ls)) = Ok (wire_lines (0, 0) ls, Tile_LINESTRING).
Proof. exact encode_mls_wire. Qed.
Print Assumptions C60_multilinestring_layout.

Theorem C60_polygon_layout : forall rs, ok_polygon rs -> steps_fit (0, 0) (concat (tile_polygon rs)) ->
  encode_geometry (GPolygon (map (map fpt) rs)) = Ok (wire_rings (0, 0) (tile_polygon rs), Tile_POLYGON).
Proof. exact encode_poly_wire. Qed.
Print Assumptions C60_polygon_layout.

Theorem C60_multipolygon_layout : forall pls, Forall ok_polygon pls ->
  steps_fit (0, 0) (concat (concat (map tile_polygon pls))) ->
  encode_geometry (GMultiPolygon (map (map (map fpt)) pls)) =
    Ok (wire_rings (0, 0) (concat (map tile_polygon pls)), Tile_POLYGON).
Proof. exact encode_mpoly_wire. Qed.
Print Assumptions C60_multipolygon_layout.

Example C60_nonvacuous :
  wire_line (0, 0) [(2, 2); (2, 10); (10, 10)] = [9; 4; 4; 18; 0; 16; 16; 0] /\
  wire_points [(5, 7); (3, 2)] = [17; 10; 14; 3; 9].
Proof. split; reflexivity. Qed.

(** ** C61: when encoding a geometry fails *)

Theorem C61_encode_error_iff : forall g, (exists e, encode_geometry g = Err e) <->
  match g with GCollection _ | GUnknown => True | _ => False end.
Proof. exact encode_error_iff. Qed.
Print Assumptions C61_encode_error_iff.

Theorem C61_encode_panic_iff : forall g, encode_geometry g = Panic <-> empty_line g.
Proof. exact encode_panic_iff. Qed.
Print Assumptions C61_encode_panic_iff.

Theorem C61_never_panics_refuted : exists g, encode_geometry g = Panic.
Proof. exact encode_panics. Qed.
Print Assumptions C61_never_panics_refuted.

Example C61_nonvacuous :
  encode_geometry (GMultiLineString [[(0, 0)]; []]) = Panic /\
  encode_geometry (GLineString [(0, 0)]) = Ok ([9; 0; 0], Tile_LINESTRING) /\
  exists e, encode_geometry (GCollection []) = Err e.
Proof. repeat split; eauto. eexists. reflexivity. Qed.

(** ** C62: features of a geometry *)

(** A collection gives the features of its members, in order, down to any
    depth; every feature holds a geometry the encoder accepts. *)
Theorem C62_collection_features : forall C (gs : list (geom C)),
  new_features (GCollection gs) = flat_map new_features gs.
Proof. exact @new_features_collection. Qed.
Print Assumptions C62_collection_features.

Theorem C62_features_are_members : forall C (h g : geom C),
  In h (new_features g) <-> simple_member h g.
Proof. exact @new_features_members. Qed.
Print Assumptions C62_features_are_members.

Theorem C62_features_encodable : forall g e,
  Forall (fun h => encode_geometry h <> Err e) (new_features g).
Proof. exact new_features_encodable. Qed.
Print Assumptions C62_features_encodable.

Example C62_nonvacuous :
  new_features (GCollection [GPoint (1, 2); GCollection [GLineString []; GCollection []]; GPoint (3, 4)]) =
  [GPoint (1, 2); GLineString []; GPoint (3, 4)].
Proof. reflexivity. Qed.

(** ** C15: decoding hostile integers *)

Theorem C15_points_never_panic : forall buf, Forall uint32 buf -> decode_geometry Tile_POINT buf <> Panic.
Proof. exact decode_point_total. Qed.
Print Assumptions C15_points_never_panic.

(** Every crash of the decoder has one of these causes. *)
Theorem C15_panic_cases : forall t buf, Forall uint32 buf -> decode_geometry t buf = Panic ->
  match t with
  | Tile_UNKNOWN => True
  | Tile_POINT => False
  | Tile_LINESTRING => dangling_move buf \/ buf = [] \/ exists m x y, buf = [m; x; y] /\ m mod 8 = 1
  | Tile_POLYGON => dangling_move buf \/ idle buf
  end.
Proof. exact decode_panic_cases. Qed.
Print Assumptions C15_panic_cases.

(** Each of them does crash it. *)
Theorem C15_never_panics_refuted :
  decode_geometry Tile_UNKNOWN [] = Panic /\
  decode_geometry Tile_LINESTRING [] = Panic /\
  decode_geometry Tile_LINESTRING [9; 2; 2] = Panic /\
  decode_geometry Tile_LINESTRING [1] = Panic /\
  decode_geometry Tile_POLYGON [] = Panic /\
  decode_geometry Tile_POLYGON [9; 2; 2] = Panic /\
  decode_geometry Tile_POLYGON [1; 7] = Panic.
Proof. exact decode_panics. Qed.
Print Assumptions C15_never_panics_refuted.

(** The loop bound of the model is never reached. *)
Theorem C15_terminates : forall t buf, Forall uint32 buf -> decode_geometry t buf <> Err EFuel.
Proof. exact decode_no_fuel. Qed.
Print Assumptions C15_terminates.

Example C15_nonvacuous :
  decode_geometry Tile_POINT [9; 50; 34] = Ok (Some (GPoint (fpt (25, 17)))) /\
  decode_geometry Tile_POINT [17; 50] = Err ENotEnough /\
  decode_geometry Tile_POLYGON [9; 6; 12; 18; 10; 12; 24; 44; 15] =
    Ok (Some (GPolygon [map fpt [(3, 6); (8, 12); (20, 34)]])) /\
  decode_geometry Tile_LINESTRING [9; 4; 4; 18; 0; 16; 16; 0; 9; 17; 17; 10; 4; 8] =
    Ok (Some (GMultiLineString [map fpt [(2, 2); (2, 10); (10, 10)]; map fpt [(1, 1); (3, 5)]])).
Proof. repeat split; vm_compute; reflexivity. Qed.
