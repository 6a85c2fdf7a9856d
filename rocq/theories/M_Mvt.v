(** * Model of encoding/mvt/feature.go and encoding/mvt/decode.go: geometry

    A uint32 is an integer [0 <= u < 2^32]; the arithmetic of the code on
    uint32, int32 and int64 is written with the explicit truncations [u32],
    [i32], [i64] of Base_Bytes.v. *)
From Coq Require Import ZArith Bool List.
From Verif Require Import Base_F64 Base_F64Arith Base_Geom Base_Res Base_Bytes M_Winding.
Import ListNotations.
Open Scope Z_scope.

(** feature.go 94-100 *)
Definition cmdMoveTo : Z := 1.
Definition cmdLineTo : Z := 2.
Definition cmdClosePath : Z := 7.

(** feature.go 105-107 *)
Definition new_command (cmd count : Z) : Z :=
  Z.lor (Z.land cmd 7) (u32 (Z.shiftl (u32 count) 3)).
(** feature.go 110-112 *)
Definition cmd_id (c : Z) : Z := Z.land c 7.
(** feature.go 115-117 *)
Definition cmd_count (c : Z) : Z := Z.shiftr c 3.

(** feature.go 133-135: [uint32((i << 1) ^ (i >> 31))] on int64. *)
Definition encode_zigzag (i : Z) : Z :=
  u32 (Z.lxor (i64 (Z.shiftl i 1)) (Z.shiftr i 31)).
(** decode.go 302-304: [int32((i >> 1) ^ (-(i & 1)))] on uint32. *)
Definition decode_zigzag (u : Z) : Z :=
  i32 (Z.lxor (Z.shiftr u 1) (u32 (- Z.land u 1))).

(** The encoding cursor, feature.go 139-144. *)
Definition cursor : Type := (Z * Z)%type.

(** feature.go 158-166 (moveCursorPoints) *)
Fixpoint move_cursor (c : cursor) (pts : list (Z * Z)) : cursor * list (Z * Z) :=
  match pts with
  | [] => (c, [])
  | p :: tl =>
      let d := (i64 (fst p - fst c), i64 (snd p - snd c)) in
      let '(c', ds) := move_cursor p tl in (c', d :: ds)
  end.

(** feature.go 168-174 *)
Definition encode_zigzag_pt (pts : list (Z * Z)) : list Z :=
  flat_map (fun d => [encode_zigzag (fst d); encode_zigzag (snd d)]) pts.

(** Conversion of a float64 point to int64, feature.go 154 and 200. *)
Definition ipt (p : point f64) : Z * Z := (f64_to_i64 (fst p), f64_to_i64 (snd p)).

(** feature.go 176-193; GetDeltaPointAndUpdate 153-156 is one step of
    [move_cursor]. *)
Definition encode_cmd (c : cursor) (cmd : Z) (pts : list (point f64)) : cursor * list Z :=
  match pts with
  | [] => (c, [])
  | _ => let '(c', ds) := move_cursor c (map ipt pts) in (c', cmd :: encode_zigzag_pt ds)
  end.
(** feature.go 282-289 *)
Definition move_to (c : cursor) (pts : list (point f64)) : cursor * list Z :=
  encode_cmd c (new_command cmdMoveTo (Z.of_nat (length pts))) pts.
Definition line_to (c : cursor) (pts : list (point f64)) : cursor * list Z :=
  encode_cmd c (new_command cmdLineTo (Z.of_nat (length pts))) pts.

(** feature.go 195-244.  A ring reaching [deltas[0]] is not colinear, so it has
    at least three points. *)
Definition encode_linear_ring (c : cursor) (ypd : bool) (wo : Z) (ring : list (point f64))
  : cursor * list Z :=
  let iring := map ipt ring in
  let w := of_int64_points ypd iring in
  if w =? wColinear then (c, [])
  else
    let iring := if w =? wo then iring else reverse_in_place iring in
    let '(c', ds) := move_cursor c iring in
    (c', [new_command cmdMoveTo 1] ++ encode_zigzag_pt (firstn 1 ds) ++
         [new_command cmdLineTo (Z.of_nat (length ds) - 1)] ++ encode_zigzag_pt (skipn 1 ds) ++
         [new_command cmdClosePath 1]).

(** The loop of encodePolygon, feature.go 250-277, from ring [i] on. *)
Fixpoint encode_rings (c : cursor) (i : nat) (rs : list (list (point f64))) : cursor * list Z :=
  match rs with
  | [] => (c, [])
  | r :: tl =>
      if (length r <? 2)%nat then
        if (i =? 0)%nat then (c, []) else encode_rings c (S i) tl
      else
        let wo := if (i =? 0)%nat then wClockwise else wCounterClockwise in
        let '(c1, g1) := encode_linear_ring c true wo r in
        let '(c2, g2) := encode_rings c1 (S i) tl in
        (c2, g1 ++ g2)
  end.
(** feature.go 246-279 *)
Definition encode_polygon (c : cursor) (rs : list (list (point f64))) : cursor * list Z :=
  encode_rings c 0 rs.

(** feature.go 335-337 *)
Fixpoint encode_polygons (c : cursor) (pls : list (list (list (point f64)))) : cursor * list Z :=
  match pls with
  | [] => (c, [])
  | p :: tl =>
      let '(c1, g1) := encode_polygon c p in
      let '(c2, g2) := encode_polygons c1 tl in
      (c2, g1 ++ g2)
  end.

(** vector_tile: Tile_GeomType *)
Inductive gtype := Tile_UNKNOWN | Tile_POINT | Tile_LINESTRING | Tile_POLYGON.

Inductive mvt_err :=
| EUnknownGeometry            (* ErrNilGeometryType, ErrUnknownGeometryType *)
| ENotEnough                  (* not enough integers *)
| EInvalidCommand
| ECannotFollow
| EBadCount
| EExtraData
| ENotExterior
| EFuel.                      (* not in the code: excluded by mvt_decode_no_fuel *)

(** One line, feature.go 315-317 and 323-325: [points[0]] panics on an empty
    line. *)
Definition encode_line (c : cursor) (pts : list (point f64)) : res mvt_err (cursor * list Z) :=
  match pts with
  | [] => Panic
  | p :: tl =>
      let '(c1, g1) := move_to c [p] in
      let '(c2, g2) := line_to c1 tl in
      Ok (c2, g1 ++ g2)
  end.
Fixpoint encode_lines (c : cursor) (ls : list (list (point f64))) : res mvt_err (cursor * list Z) :=
  match ls with
  | [] => Ok (c, [])
  | l :: tl =>
      do (c1, g1) <- encode_line c l;
      do (c2, g2) <- encode_lines c1 tl;
      Ok (c2, g1 ++ g2)
  end.

(** feature.go 298-354.  [GUnknown] covers nil (ErrNilGeometryType) and every
    other type (ErrUnknownGeometryType); [*geom.MultiPolygon] behaves as
    [geom.MultiPolygon]. *)
Definition encode_geometry (g : geom f64) : res mvt_err (list Z * gtype) :=
  let c := (0, 0) in
  match g with
  | GPoint p => Ok (snd (move_to c [p]), Tile_POINT)
  | GMultiPoint ps => Ok (snd (move_to c ps), Tile_POINT)
  | GLineString ps => do (_, b) <- encode_line c ps; Ok (b, Tile_LINESTRING)
  | GMultiLineString ls => do (_, b) <- encode_lines c ls; Ok (b, Tile_LINESTRING)
  | GPolygon rs => Ok (snd (encode_polygon c rs), Tile_POLYGON)
  | GMultiPolygon pls => Ok (snd (encode_polygons c pls), Tile_POLYGON)
  | GCollection _ | GUnknown => Err EUnknownGeometry
  end.

(** ** Decoding *)

(** decode.go 268-270 *)
Definition dcursor : Type := point f64.

(** decode.go 295-299 *)
Definition dec_point (c : dcursor) (x y : Z) : dcursor :=
  (f64_add (fst c) (f64_ofZ (decode_zigzag x)), f64_add (snd c) (f64_ofZ (decode_zigzag y))).

(** The loop of decodeNPoints, decode.go 287-289; reading outside the slice
    panics.  The buffer returned is [buf[n*2:]]. *)
Fixpoint dec_loop (n : nat) (c : dcursor) (buf : list Z)
  : res mvt_err (dcursor * list (point f64) * list Z) :=
  match n with
  | O => Ok (c, [], buf)
  | S n' =>
      match buf with
      | x :: y :: tl =>
          let c1 := dec_point c x y in
          do (c2, ps, rest) <- dec_loop n' c1 tl;
          Ok (c2, c1 :: ps, rest)
      | _ => Panic
      end
  end.
(** decode.go 274-292 *)
Definition dec_n_points (n : nat) (c : dcursor) (buf : list Z) (enc_here : bool)
  : res mvt_err (dcursor * list (point f64) * list Z) :=
  do (c', ps, rest) <- dec_loop n c buf;
  Ok (c', if enc_here then c :: ps else ps, rest).

Definition zlen {A} (l : list A) : Z := Z.of_nat (length l).

(** decode.go 101-136.  [Ok None] is a nil geometry with a nil error. *)
Definition decode_point (buf : list Z) : res mvt_err (option (geom f64)) :=
  do (ret, buf) <-
    match buf with
    | [] => Ok ([], [])
    | cmd :: buf =>
        if zlen buf <? cmd_count cmd * 2 then Err ENotEnough
        else if cmd_id cmd =? cmdMoveTo then
          do (_, ps, rest) <- dec_n_points (Z.to_nat (cmd_count cmd)) (f64_zero, f64_zero) buf false;
          Ok (ps, rest)
        else Err EInvalidCommand
    end;
  match buf with
  | _ :: _ => Err EExtraData
  | [] => match ret with
          | [] => Ok None
          | [p] => Ok (Some (GPoint p))
          | _ => Ok (Some (GMultiPoint ret))
          end
  end.

(** The loop of decodeLineString, decode.go 146-183; [last] is lastCmd. *)
Fixpoint ls_loop (fuel : nat) (last : Z) (c : dcursor) (ret : list (list (point f64))) (buf : list Z)
  : res mvt_err (list (list (point f64))) :=
  match fuel with
  | O => Err EFuel
  | S fuel =>
      match buf with
      | [] => Ok ret
      | cmd :: buf =>
          if zlen buf <? cmd_count cmd * 2 then Err ENotEnough
          else if cmd_id cmd =? cmdMoveTo then
            if negb (last =? 0) && negb (cmd_id last =? cmdLineTo) then Err ECannotFollow
            else match buf with
                 | x :: y :: tl => ls_loop fuel cmd (dec_point c x y) ret tl
                 | _ => Panic
                 end
          else if cmd_id cmd =? cmdLineTo then
            if negb (cmd_id last =? cmdMoveTo) then Err ECannotFollow
            else if cmd_count cmd <=? 0 then Err EBadCount
            else do (c', ln, rest) <- dec_n_points (Z.to_nat (cmd_count cmd)) c buf true;
                 ls_loop fuel cmd c' (ret ++ [ln]) rest
          else Err EInvalidCommand
      end
  end.

(** decode.go 140-197 *)
Definition decode_linestring (buf : list Z) : res mvt_err (option (geom f64)) :=
  do ret <- ls_loop (S (length buf)) 0 (f64_zero, f64_zero) [] buf;
  match ret with
  | [] => Panic
  | [l] => Ok (Some (GLineString l))
  | _ => Ok (Some (GMultiLineString ret))
  end.

(** [ret[len(ret)-1] = append(ret[len(ret)-1], ln)], decode.go 244-245. *)
Definition append_to_last (ret : list (list (list (point f64)))) (ln : list (point f64))
  : list (list (list (point f64))) :=
  removelast ret ++ [last ret [] ++ [ln]].

(** The loop of decodePoly, decode.go 205-252. *)
Fixpoint poly_loop (fuel : nat) (last : Z) (c : dcursor) (ret : list (list (list (point f64)))) (buf : list Z)
  : res mvt_err (list (list (list (point f64)))) :=
  match fuel with
  | O => Err EFuel
  | S fuel =>
      match buf with
      | [] => Ok ret
      | cmd :: buf =>
          if negb (cmd_id cmd =? cmdClosePath) && (zlen buf <? cmd_count cmd * 2) then Err ENotEnough
          else if cmd_id cmd =? cmdMoveTo then
            if negb (last =? 0) && negb (cmd_id last =? cmdClosePath) then Err ECannotFollow
            else match buf with
                 | x :: y :: tl => poly_loop fuel cmd (dec_point c x y) ret tl
                 | _ => Panic
                 end
          else if cmd_id cmd =? cmdLineTo then
            if negb (cmd_id last =? cmdMoveTo) then Err ECannotFollow
            else if cmd_count cmd <=? 1 then Err EBadCount
            else
              do (c', ln, rest) <- dec_n_points (Z.to_nat (cmd_count cmd)) c buf true;
              if orientation true ln =? wClockwise then
                poly_loop fuel cmd c' (append_to_last (ret ++ [[]]) ln) rest
              else
                match ret with
                | [] => Err ENotExterior
                | _ => poly_loop fuel cmd c' (append_to_last ret ln) rest
                end
          else if cmd_id cmd =? cmdClosePath then
            if negb (cmd_id last =? cmdLineTo) then Err ECannotFollow
            else poly_loop fuel cmd c ret buf
          else poly_loop fuel cmd c ret buf
      end
  end.

(** decode.go 199-266 *)
Definition decode_poly (buf : list Z) : res mvt_err (option (geom f64)) :=
  do ret <- poly_loop (S (length buf)) 0 (f64_zero, f64_zero) [] buf;
  match ret with
  | [] => Panic
  | [p] => Ok (Some (GPolygon p))
  | _ => Ok (Some (GMultiPolygon ret))
  end.

(** decode.go 87-99 *)
Definition decode_geometry (t : gtype) (buf : list Z) : res mvt_err (option (geom f64)) :=
  match t with
  | Tile_LINESTRING => decode_linestring buf
  | Tile_POINT => decode_point buf
  | Tile_POLYGON => decode_poly buf
  | Tile_UNKNOWN => Panic
  end.

(** NewFeatures, feature.go 48-67: the geometries of the features made from
    [g]; [GUnknown] stands for nil and gives none (a non-nil value of an unknown
    type would give one feature, which can then not be encoded). *)
Fixpoint new_features {C} (g : geom C) : list (geom C) :=
  match g with
  | GUnknown => []
  | GCollection gs =>
      (fix go (l : list (geom C)) : list (geom C) :=
         match l with [] => [] | x :: xs => new_features x ++ go xs end) gs
  | _ => [g]
  end.
