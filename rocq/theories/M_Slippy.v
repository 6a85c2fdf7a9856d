(** * Model of slippy (tile.go, tile_grid.go, maths.go)

    A Go uint or int has 64 bits.  Zooms, columns and rows are the integers
    [0 <= n < 2^64]; conversions between int and uint wrap ([i64], [u64]).
    The Mercator functions of the latitude (math.Tan, math.Log, math.Atan,
    math.Exp) and the projections of the proj module are arguments. *)
From Coq Require Import ZArith Bool List.
From Verif Require Import Base_Bytes Base_F64 Base_F64Arith Base_Res Base_Geom M_Extent.
Import ListNotations.
Open Scope Z_scope.

(** tile.go 32-39 *)
Record tile := Tile { t_z : Z; t_x : Z; t_y : Z }.

(** tile.go 44-46 *)
Definition t_equal (t o : tile) : bool :=
  (t_z t =? t_z o) && (t_x t =? t_x o) && (t_y t =? t_y o).

(** tile.go 49-60 *)
Definition t_less (t o : tile) : bool :=
  if negb (t_z t =? t_z o) then t_z t <? t_z o
  else if negb (t_x t =? t_x o) then t_x t <? t_x o
  else t_y t <? t_y o.

(** tile.go 16 *)
Definition max_zoom : Z := 22.

(** tile.go 21: math.Exp2 of a natural number is the power of two, or +Inf. *)
Definition zoom_n (z : Z) : f64 := if z <=? 1023 then (z + 1023) * 2 ^ 52 else f64_pinf.

(** The numbers of [for x := lo; x < hi; x++]. *)
Definition range (lo hi : Z) : list Z := map (fun i => lo + Z.of_nat i) (seq 0 (Z.to_nat (hi - lo))).

Section Iter.
  Context {S : Type} (yield : S -> tile -> S * bool).

  (** The loop with the early return (tile.go 90-98): the last state and whether
      the loop went on to its end. *)
  Fixpoint visit (s : S) (ts : list tile) : S * bool :=
    match ts with
    | [] => (s, true)
    | t :: tl => let '(s, go) := yield s t in if go then visit s tl else (s, false)
    end.

  (** tile.go 76-101: FamilyAt(zoom)(yield).  [S] is what the callback can
      change.  A negative shift count panics. *)
  Definition family_at (t : tile) (zoom : Z) (s : S) : res unit S :=
    if zoom <=? t_z t then
      let mag := t_z t - zoom in
      Ok (fst (yield s (Tile zoom (Z.shiftr (t_x t) mag) (Z.shiftr (t_y t) mag))))
    else
      let mag := i64 (i64 zoom - i64 (t_z t)) in
      let delta := f64_to_i64 (zoom_n mag) in
      if mag <? 0 then Panic
      else
        let least_x := i64 (Z.shiftl (i64 (t_x t)) mag) in
        let least_y := i64 (Z.shiftl (i64 (t_y t)) mag) in
        Ok (fst (visit s
          (flat_map (fun x => map (fun y => Tile zoom (u64 x) (u64 y)) (range least_y (i64 (least_y + delta))))
             (range least_x (i64 (least_x + delta)))))).
End Iter.

(** tile_grid.go 11-31: the methods of a TileGridder used below. *)
Record grid := Grid {
  from_native : Z -> point f64 -> res unit tile;
  to_native : tile -> res unit (point f64) }.

(** The numbers of [for x := lo; x <= hi; x++] on uints when hi < 2^64-1 (at
    2^64-1 the loop does not end). *)
Definition urange (lo hi : Z) : list Z := range lo (hi + 1).

(** make([]Tile, 0, n), tile.go 136: panics when the array (24 bytes a tile) is
    larger than the address space (2^48 bytes, maxAlloc of the Go runtime on
    amd64).  A machine with less memory stops earlier, which is not modelled. *)
Definition make_tiles (n : Z) : res unit (list tile) :=
  if 2 ^ 48 <? u64 n * 24 then Panic else Ok [].

(** tile.go 111-145.  The bounds are the two points of a PtMinMaxer, None for
    nil.  Running forever is [Err (Some tt)]; an error of the grid or
    ErrNilBounds is [Err None]. *)
Definition from_bounds (g : grid) (bounds : option (point f64 * point f64)) (z : Z) : res (option unit) (list tile) :=
  let lift {A} (r : res unit A) : res (option unit) A :=
    match r with Ok a => Ok a | Err _ => Err None | Panic => Panic end in
  match bounds with
  | None => Err None
  | Some (mn, mx) =>
      do p1 <- lift (from_native g z mn);
      do p2 <- lift (from_native g z mx);
      let '(minx, maxx) := if t_x p2 <? t_x p1 then (t_x p2, t_x p1) else (t_x p1, t_x p2) in
      let '(miny, maxy) := if t_y p2 <? t_y p1 then (t_y p2, t_y p1) else (t_y p1, t_y p2) in
      do ret <- lift (make_tiles (u64 (maxx - minx + 1) * u64 (maxy - miny + 1)));
      if (maxx =? 2 ^ 64 - 1) || (maxy =? 2 ^ 64 - 1) then Err (Some tt)
      else Ok (ret ++ flat_map (fun x => map (fun y => Tile z x y) (urange miny maxy)) (urange minx maxx))
  end.

(** tile_grid.go 48-58 *)
Definition tile_extent (g : grid) (t : tile) : res unit (option extent) :=
  do top_left <- to_native g t;
  do bottom_right <- to_native g (Tile (t_z t) (u64 (t_x t + 1)) (u64 (t_y t + 1)));
  Ok (new_extent [top_left; bottom_right]).

(** tile_grid.go 60-95.  The state of the callback is ret (with found) and err;
    a point is its own MinMaxer. *)
Definition min_maxer_yield (g : grid) (s : option tile * bool) (t : tile) : (option tile * bool) * bool :=
  match tile_extent g t with
  | Ok ext1 =>
      let p := (maxX ext1, maxY ext1) in
      if contains ext1 (Ext (fst p) (snd p) (fst p) (snd p)) then ((Some t, false), false)
      else ((fst s, false), true)
  | _ => ((fst s, true), false)
  end.
Fixpoint min_maxer_loop (g : grid) (t : tile) (zooms : list Z) : res unit tile :=
  match zooms with
  | [] => Err tt
  | z :: tl =>
      do s <- family_at (min_maxer_yield g) t z (None, false);
      let '(ret, err) := s in
      if err then Err tt
      else match ret with
           | Some r => Ok r
           | None => min_maxer_loop g t tl
           end
  end.
Definition new_tile_min_maxer (g : grid) (ext : extent) : res unit tile :=
  do t <- from_native g max_zoom (e0 ext, e1 ext);
  min_maxer_loop g t (rev (range 0 (max_zoom + 1))).

(** tile.go 148-166.  Errors of Extent are ignored; the nil extent then has
    XSpan +Inf (bbox.go 105-110). *)
Definition pixel_ratio (g : grid) (zoom tile_dim : Z) : res unit f64 :=
  let zoom := if max_zoom <? zoom then max_zoom else zoom in
  let tile_dim := if tile_dim =? 0 then 4096 else tile_dim in
  match tile_extent g (Tile zoom 0 0) with
  | Panic => Panic
  | Ok e => Ok (f64_div (xspan e) (f64_ofZ tile_dim))
  | Err _ => Ok (f64_div (xspan None) (f64_ofZ tile_dim))
  end.

(** ** Grid4326 *)

(** maths.go 19-39: 256, 180, 85.05112 and 0.000001, and the literals 360, -180 *)
Definition default_tile_size : Z := 256.
Definition f180 : f64 := 0x4066800000000000.
Definition fm180 : f64 := 0xc066800000000000.
Definition f360 : f64 := 0x4076800000000000.
Definition lat_max : f64 := 0x405543458cd20afa.
Definition lat_min : f64 := 0xc05543458cd20afa.
Definition variance : f64 := 0x3eb0c6f7a0b5ed8d.

Definition tile_size_of (ts : Z) : Z := if ts =? 0 then default_tile_size else ts.

(** maths.go 124-135 *)
Definition lon2px (ts z : Z) (lon : f64) : f64 :=
  let ts := tile_size_of ts in
  let world := f64_mul (f64_ofZ ts) (zoom_n z) in
  let norm := f64_add f180 lon in
  let raw := f64_div norm f360 in
  let px := f64_mul raw world in
  f64_add px variance.

(** maths.go 100-118 *)
Definition lon2num (ts z : Z) (lon : f64) : Z :=
  let ts := tile_size_of ts in
  if f64_le lon fm180 then 0
  else if f64_ge lon f180 then f64_to_i64 (f64_sub (zoom_n z) f64_one)
  else f64_to_i64 (f64_div (lon2px ts z lon) (f64_ofZ ts)).

(** maths.go 141-147 *)
Definition x2deg (z x : Z) : f64 :=
  let long := f64_div (f64_ofZ x) (zoom_n z) in
  let long := f64_mul long f360 in
  f64_sub long f180.

Section Grid4326.
  (** maths.go 77-98 (lat2Px) and 149-153 (y2deg) *)
  Variable lat2px : Z -> Z -> f64 -> f64.
  Variable y2deg : Z -> Z -> f64.

  (** maths.go 55-71 *)
  Definition lat2num (ts z : Z) (lat : f64) : Z :=
    let ts := tile_size_of ts in
    if f64_lt lat lat_min then f64_to_i64 (f64_sub (zoom_n z) f64_one)
    else if f64_gt lat lat_max then 0
    else f64_to_i64 (f64_div (lat2px ts z lat) (f64_ofZ ts)).

  (** tile_grid.go 153-166 *)
  Definition grid4326 (ts : Z) : grid := Grid
    (fun z pt => Ok (Tile z (u64 (lon2num ts z (fst pt))) (u64 (lat2num ts z (snd pt)))))
    (fun t => Ok (x2deg (t_z t) (i64 (t_x t)), y2deg (t_z t) (i64 (t_y t)))).

  (** tile_grid.go 97-130: any other system, with the proj module's Inverse and
      Convert (None for an error). *)
  Variables (inverse convert : point f64 -> option (point f64)).
  Definition grid_proj (ts : Z) : grid := Grid
    (fun z pt => match inverse pt with
                 | None => Err tt
                 | Some pt => Ok (Tile z (u64 (lon2num ts z (fst pt))) (u64 (lat2num ts z (snd pt))))
                 end)
    (fun t => match convert (x2deg (t_z t) (i64 (t_x t)), y2deg (t_z t) (i64 (t_y t))) with
              | None => Err tt
              | Some pt => Ok pt
              end).
End Grid4326.

(** tile.go 22-29 and tile_grid.go 103-108, 138-143: Size *)
Definition grid_size (z : Z) : option tile :=
  if max_zoom <? z then None
  else let n := u64 (f64_to_i64 (zoom_n z)) in Some (Tile z n n).
