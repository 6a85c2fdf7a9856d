(** * Theorems about slippy tiles *)
From Coq Require Import ZArith Bool List Lia Reals.
From Verif Require Import Base_Bytes Base_F64 Base_F64Arith Base_Res Base_Geom M_Extent M_Slippy S_Slippy
  P_F64 P_F64Flocq P_F64Round P_Slippy P_SlippyR P_SlippyTop.
Import ListNotations.
Open Scope Z_scope.

(** ** C39: FamilyAt calls the callback on exactly the tiles of the zoom that
    overlap the tile, each once: 1 ancestor or 4^k descendants; it stops when the
    callback says so. *)
Theorem C39_family : forall t zoom, room t zoom ->
  exists ts, NoDup ts /\ (forall u, In u ts <-> t_z u = zoom /\ overlap t u) /\
    length ts = (if zoom <=? t_z t then 1%nat else Z.to_nat (4 ^ (zoom - t_z t))) /\
    forall S (yield : S -> tile -> S * bool) s,
      exists s', family_at yield t zoom s = Ok s' /\ feeds yield s ts s'.
Proof. exact family_all. Qed.
Print Assumptions C39_family.

(** They are tiles of the grid when the tile is. *)
Theorem C39_in_grid : forall t zoom, room t zoom -> in_grid t ->
  forall u, t_z u = zoom -> overlap t u -> in_grid u.
Proof.
  exact (fun t zoom R G u E O =>
    family_in_grid t zoom u G (proj1 (proj1 R))
      (proj2 (family_in t zoom u (proj1 G) (proj1 (proj1 R)) (proj1 (proj1 (proj2 G))) (proj1 (proj2 (proj2 G)))) (conj E O))).
Qed.
Print Assumptions C39_in_grid.

Example C39_nonvacuous :
  room (Tile 3 5 2) 4 /\ in_grid (Tile 3 5 2) /\ room (Tile 3 5 2) 1 /\
  family_at (fun s t => (s ++ [t], true)) (Tile 3 5 2) 4 [] = Ok [Tile 4 10 4; Tile 4 10 5; Tile 4 11 4; Tile 4 11 5] /\
  family_at (fun s t => (s ++ [t], (length s <? 1)%nat)) (Tile 3 5 2) 4 [] = Ok [Tile 4 10 4; Tile 4 10 5] /\
  family_at (fun s t => (s ++ [t], true)) (Tile 3 5 2) 1 [] = Ok [Tile 1 1 0].
Proof.
  split; [unfold room; cbn; lia|]. split; [unfold in_grid; cbn; lia|]. split; [unfold room; cbn; lia|].
  split; [vm_compute; reflexivity|]. split; vm_compute; reflexivity.
Qed.

(** ** C40: FromBounds *)

(** The tiles are the full rectangle between the tiles of the two corners, each
    once, if there is an address space for so many. *)
Theorem C40_rectangle : forall g mn mx z p1 p2,
  from_native g z mn = Ok p1 -> from_native g z mx = Ok p2 ->
  0 <= t_x p1 < 2 ^ 64 - 1 -> 0 <= t_x p2 < 2 ^ 64 - 1 -> 0 <= t_y p1 < 2 ^ 64 - 1 -> 0 <= t_y p2 < 2 ^ 64 - 1 ->
  24 * ((Z.abs (t_x p1 - t_x p2) + 1) * (Z.abs (t_y p1 - t_y p2) + 1)) <= 2 ^ 48 ->
  exists ts, from_bounds g (Some (mn, mx)) z = Ok ts /\ NoDup ts /\
    forall t, In t ts <-> t_z t = z /\
      (t_x p1 <= t_x t <= t_x p2 \/ t_x p2 <= t_x t <= t_x p1) /\
      (t_y p1 <= t_y t <= t_y p2 \/ t_y p2 <= t_y t <= t_y p1).
Proof. exact from_bounds_spec. Qed.
Print Assumptions C40_rectangle.

(** In longitude and latitude: every meridian between the two sides, east of
    which is not 180 itself, passes through one of the tiles. *)
Theorem C40_covers_columns : forall lat2px y2deg ts z mn mx lon tiles,
  0 <= ts <= 2 ^ 29 -> 0 <= z <= 22 ->
  degrees (fst mn) -> degrees (fst mx) -> degrees lon ->
  f64_le (fst mn) lon = true -> f64_le lon (fst mx) = true -> f64_lt (fst mx) f180 = true ->
  from_bounds (grid4326 lat2px y2deg ts) (Some (mn, mx)) z = Ok tiles ->
  exists y, In (Tile z (u64 (lon2num ts z lon)) y) tiles.
Proof. exact columns_covered. Qed.
Print Assumptions C40_covers_columns.

(** The bounds of the world at MaxZoom: makeslice panics. *)
Theorem C40_world_refuted : forall lat2px y2deg ts,
  from_bounds (grid4326 lat2px y2deg ts) (Some ((fm180, f64_ofZ (-90)), (f180, f64_ofZ 90))) max_zoom = Panic.
Proof. exact world_panics. Qed.
Print Assumptions C40_world_refuted.

Example C40_nonvacuous :
  let g := grid4326 (fun _ _ _ => f64_zero) (fun _ _ => f64_zero) 0 in
  from_bounds g (Some ((f64_ofZ (-100), f64_ofZ (-90)), (f64_ofZ (-10), f64_ofZ 90))) 2 =
    Ok [Tile 2 0 0; Tile 2 0 1; Tile 2 0 2; Tile 2 0 3; Tile 2 1 0; Tile 2 1 1; Tile 2 1 2; Tile 2 1 3].
Proof. vm_compute. reflexivity. Qed.

(** ** C41: Tile.Less is the lexicographic strict total order. *)
Theorem C41_lexicographic : forall a b, t_less a b = true <->
  t_z a < t_z b \/ t_z a = t_z b /\ (t_x a < t_x b \/ t_x a = t_x b /\ t_y a < t_y b).
Proof. exact less_lex. Qed.
Print Assumptions C41_lexicographic.
Theorem C41_strict_total : forall a b c,
  t_less a a = false /\ (t_less a b = true -> t_less b c = true -> t_less a c = true) /\
  (a <> b -> t_less a b = true \/ t_less b a = true) /\ (t_equal a b = true <-> a = b).
Proof. exact (fun a b c => conj (less_irrefl a) (conj (less_trans a b c) (conj (less_total a b) (equal_iff a b)))). Qed.
Print Assumptions C41_strict_total.
Example C41_nonvacuous : t_less (Tile 1 5 9) (Tile 2 0 0) = true /\ t_less (Tile 2 1 0) (Tile 2 0 9) = false.
Proof. now split. Qed.

(** ** C70: the column of a longitude *)

(** The number of columns of a zoom. *)
Theorem C70_size : forall z, 0 <= z <= 22 -> grid_size z = Some (Tile z (2 ^ z) (2 ^ z)).
Proof. exact size_exact. Qed.
Print Assumptions C70_size.

(** ToNative gives the exact left side of a column (no rounding), and
    FromNative maps it back to the column. *)
Theorem C70_left_side : forall z x, 0 <= z <= 22 -> 0 <= x <= 2 ^ z ->
  degrees (x2deg z x) /\ f64_R (x2deg z x) = left_side z x.
Proof. exact x2deg_left. Qed.
Print Assumptions C70_left_side.
Theorem C70_roundtrip : forall ts z, 0 <= ts <= 2 ^ 29 -> 0 <= z <= 22 ->
  forall x, 0 <= x < 2 ^ z -> lon2num ts z (x2deg z x) = x.
Proof. exact col_roundtrip. Qed.
Print Assumptions C70_roundtrip.

(** Longitudes of one column get it, except within 2^-18 of a column width left
    of its right side; the missing strip gets the column or the next one. *)
Theorem C70_column_partial : forall ts z, 0 <= ts <= 2 ^ 29 -> 0 <= z <= 22 ->
  forall lon x, ts <= 4096 -> degrees lon -> 0 <= x < 2 ^ z ->
  (left_side z x <= f64_R lon)%R ->
  (f64_R lon <= left_side z (x + 1) - 360 / IZR (2 ^ 18) / IZR (2 ^ z))%R ->
  lon2num ts z lon = x.
Proof.
  exact (fun ts z H1 H2 lon x H4 D Hx L U =>
    Z.le_antisymm _ _ (col_right ts z H1 H2 lon x H4 D Hx U) (col_left ts z H1 H2 lon x D Hx L)).
Qed.
Print Assumptions C70_column_partial.
Theorem C70_left : forall ts z, 0 <= ts <= 2 ^ 29 -> 0 <= z <= 22 ->
  forall lon x, degrees lon -> 0 <= x < 2 ^ z -> (left_side z x <= f64_R lon)%R -> x <= lon2num ts z lon.
Proof. exact col_left. Qed.
Print Assumptions C70_left.
Theorem C70_monotone : forall ts z, 0 <= ts <= 2 ^ 29 -> 0 <= z <= 22 ->
  forall a b, degrees a -> degrees b -> f64_le a b = true -> f64_lt b f180 = true ->
  lon2num ts z a <= lon2num ts z b.
Proof. exact col_mono. Qed.
Print Assumptions C70_monotone.
Theorem C70_outside : forall ts z, 0 <= ts <= 2 ^ 29 -> 0 <= z <= 22 -> forall lon, degrees lon ->
  ((f64_R lon <= -180)%R -> lon2num ts z lon = 0) /\ ((180 <= f64_R lon)%R -> lon2num ts z lon = 2 ^ z - 1).
Proof. exact col_ends. Qed.
Print Assumptions C70_outside.

(** Latitudes beyond the limit of the projection, for any projection. *)
Theorem C70_rows : forall lat2px ts z lat, 0 <= z <= 22 -> degrees lat ->
  ((86 <= f64_R lat)%R -> lat2num lat2px ts z lat = 0) /\ ((f64_R lat <= -86)%R -> lat2num lat2px ts z lat = 2 ^ z - 1).
Proof. exact row_ends. Qed.
Print Assumptions C70_rows.

(** The column is at most 2^z; it should be less, and is 2^z just below 180. *)
Theorem C70_bound_partial : forall ts z, 0 <= ts <= 2 ^ 29 -> 0 <= z <= 22 ->
  forall lon, degrees lon -> 0 <= lon2num ts z lon <= 2 ^ z.
Proof. exact col_bound. Qed.
Print Assumptions C70_bound_partial.
Theorem C70_in_grid_refuted : exists lon, degrees lon /\ f64_lt lon f180 = true /\
  forall z, 0 <= z <= 22 -> lon2num 0 z lon = 2 ^ z.
Proof. exact outside_grid. Qed.
Print Assumptions C70_in_grid_refuted.

Example C70_nonvacuous : degrees (f64_ofZ 100) /\ lon2num 0 5 (f64_ofZ 100) = 24 /\ lon2num 512 22 (f64_ofZ 100) = 3262236.
Proof. split; [split; reflexivity|]. split; vm_compute; reflexivity. Qed.

(** ** C71: NewTileMinMaxer should return a tile that contains the extent.  It
    returns the MaxZoom tile of the lower left corner, whatever the extent. *)
Theorem C71_exact : forall g ext t,
  from_native g max_zoom (e0 ext, e1 ext) = Ok t -> t_z t = max_zoom -> 0 <= t_x t < 2 ^ 64 -> 0 <= t_y t < 2 ^ 64 ->
  (forall u, t_z u = max_zoom -> t_x u = t_x t \/ t_x u = u64 (t_x t + 1) ->
    exists p, to_native g u = Ok p /\ num (fst p) /\ num (snd p)) ->
  new_tile_min_maxer g ext = Ok t.
Proof. exact min_maxer_exact. Qed.
Print Assumptions C71_exact.
Theorem C71_contains_refuted : forall lat2px y2deg ts, 0 <= ts <= 2 ^ 29 ->
  (forall z y, num (y2deg z y)) ->
  exists t e, new_tile_min_maxer (grid4326 lat2px y2deg ts) wide = Ok t /\
    tile_extent (grid4326 lat2px y2deg ts) t = Ok e /\ contains e wide = false.
Proof. exact min_maxer_wrong. Qed.
Print Assumptions C71_contains_refuted.
Example C71_nonvacuous : forall z y : Z, num ((fun _ _ : Z => f64_zero) z y).
Proof. intros. split; reflexivity. Qed.

(** ** C72: PixelRatioForZoom on Grid4326 is 360 degrees over the pixels of a row
    of the map, correctly rounded. *)
Theorem C72_pixel_ratio : forall lat2px y2deg ts z dim, 0 <= z -> 0 <= dim <= 2 ^ 53 ->
  exists w, pixel_ratio (grid4326 lat2px y2deg ts) z dim = Ok w /\
    is_round (360 / IZR (2 ^ Z.min z 22) / IZR (if dim =? 0 then 4096 else dim))%R w.
Proof. exact pixel_ratio_exact. Qed.
Print Assumptions C72_pixel_ratio.
Example C72_nonvacuous :
  pixel_ratio (grid4326 (fun _ _ _ => f64_zero) (fun _ _ => f64_zero) 0) 3 0 = Ok (f64_div (f64_ofZ 45) (f64_ofZ 4096)).
Proof. vm_compute. reflexivity. Qed.
