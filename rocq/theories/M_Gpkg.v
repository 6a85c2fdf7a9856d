(** * Model of encoding/gpkg/binary_header.go

    Bytes are integers 0..255, floats are words.  A *BinaryHeader is an
    [option header] (None = nil) where a method accepts nil.  Not modelled: the
    nil *bytes.Buffer argument of EncodeTo, String methods, and everything in
    gpkg.go that talks to SQLite. *)
From Coq Require Import ZArith Bool List.
From Verif Require Import Base_Res Base_F64 Base_Geom Base_Bytes M_Wkb M_Geom M_Extent.
Import ListNotations.
Open Scope Z_scope.

(** binary_header.go 23 *)
Definition magic0 : Z := 0x47.
Definition magic1 : Z := 0x50.

(** binary_header.go 25-32; an EnvelopeType is a uint8. *)
Definition etNone : Z := 0.
Definition etXY : Z := 1.
Definition etXYZ : Z := 2.
Definition etXYM : Z := 3.
Definition etXYZM : Z := 4.
Definition etInvalid : Z := 5.

(** binary_header.go 35-50 *)
Definition number_of_elements (et : Z) : Z :=
  if et =? etNone then 0
  else if et =? etXY then 4
  else if et =? etXYZ then 6
  else if et =? etXYM then 6
  else if et =? etXYZM then 8
  else -1.

(** binary_header.go 79-84 *)
Definition maskByteOrder : Z := Z.shiftl 1 0.
Definition maskEnvelopeType : Z := Z.lor (Z.lor (Z.shiftl 1 3) (Z.shiftl 1 2)) (Z.shiftl 1 1).
Definition maskEmptyGeometry : Z := Z.shiftl 1 4.
Definition maskGeoPackageBinary : Z := Z.shiftl 1 5.

(** binary_header.go 91-96 *)
Definition flags_endian (hf : Z) : byte_order :=
  if Z.land hf maskByteOrder =? 0 then BigEndian else LittleEndian.

(** binary_header.go 99-105 *)
Definition flags_envelope (hf : Z) : Z :=
  let et := Z.shiftr (Z.land hf maskEnvelopeType) 1 in
  if etInvalid <=? et then etInvalid else et.

(** binary_header.go 108 and 111 *)
Definition flags_is_empty (hf : Z) : bool := Z.shiftr (Z.land hf maskEmptyGeometry) 4 =? 1.
Definition flags_is_standard (hf : Z) : bool := Z.shiftr (Z.land hf maskGeoPackageBinary) 5 =? 0.

(** byte(v) << n: a shift of a byte drops the bits that leave it. *)
Definition shl8 (v n : Z) : Z := Z.shiftl v n mod 256.

(** binary_header.go 113-126 *)
Definition encode_header_flags (bo : byte_order) (et : Z) (extend empty : bool) : Z :=
  let hf := match bo with LittleEndian => 1 | BigEndian => 0 end in
  let hf := Z.lor hf (shl8 et 1) in
  let hf := if empty then Z.lor hf maskEmptyGeometry else hf in
  if extend then Z.lor hf maskGeoPackageBinary else hf.

(** binary_header.go 129-136 *)
Record header := Header {
  h_magic0 : Z; h_magic1 : Z; h_version : Z; h_flags : Z; h_srsid : Z; h_envelope : list f64 }.

Inductive gpkg_err :=
| EInsufficientBytes | EInvalidEnvelopeType | EInvalidMagicNumber | EMismatch
| EWkb (e : wkb_err) | EWkbEncode | EExtent.

(** binary_header.go 139-149 *)
Definition new_binary_header (bo : byte_order) (srsid : Z) (envelope : list f64) (et : Z)
  (extend empty : bool) : res gpkg_err header :=
  if negb (number_of_elements et =? Z.of_nat (length envelope)) then Err EMismatch
  else Ok (Header magic0 magic1 0 (encode_header_flags bo et extend empty) srsid envelope).

(** data[i], panicking out of range *)
Definition at_ (data : list Z) (i : nat) : res gpkg_err Z :=
  match nth_error data i with Some b => Ok b | None => Panic end.
(** data[lo:hi], panicking when out of range (cap = len) *)
Definition slice (data : list Z) (lo hi : nat) : res gpkg_err (list Z) :=
  if (lo <=? hi)%nat && (hi <=? length data)%nat
  then Ok (firstn (hi - lo) (skipn lo data)) else Panic.

(** binary_header.go 180-183: iterations i, i+1, ..., i+n-1 *)
Fixpoint read_envelope (en : byte_order) (bytes : list Z) (i n : nat) : res gpkg_err (list f64) :=
  match n with
  | O => Ok []
  | S n' =>
      do b <- slice bytes (i * 8) (i * 8 + 8);
      do l <- read_envelope en bytes (S i) n';
      Ok (get_uint en b :: l)
  end.

(** binary_header.go 152-189.  The header that is returned beside
    ErrInvalidMagicNumber is dropped. *)
Definition decode_binary_header (data : list Z) : res gpkg_err header :=
  if (length data <? 8)%nat then Err EInsufficientBytes
  else
    do m0 <- at_ data 0;
    do m1 <- at_ data 1;
    do ver <- at_ data 2;
    do fl <- at_ data 3;
    let en := flags_endian fl in
    do sb <- slice data 4 8;
    let srsid := i32 (get_uint en sb) in
    do bytes <- slice data 8 (length data);
    let et := flags_envelope fl in
    if et =? etInvalid then Err EInvalidEnvelopeType
    else if et =? etNone then Ok (Header m0 m1 ver fl srsid [])
    else
      let num := number_of_elements et in
      if Z.of_nat (length bytes) <? num * 8 then Err EInsufficientBytes
      else
        do env <- read_envelope en bytes 0 (Z.to_nat num);
        if negb (m0 =? magic0) || negb (m1 =? magic1) then Err EInvalidMagicNumber
        else Ok (Header m0 m1 ver fl srsid env).

(** Accessors, binary_header.go 192-254 and 284-289 *)
Definition h_magic (h : option header) : Z * Z :=
  match h with None => (magic0, magic1) | Some h => (h_magic0 h, h_magic1 h) end.
Definition h_get_version (h : option header) : Z :=
  match h with None => 0 | Some h => h_version h end.
Definition h_envelope_type (h : option header) : Z :=
  match h with None => etInvalid | Some h => flags_envelope (h_flags h) end.
Definition h_get_srsid (h : option header) : Z :=
  match h with None => 0 | Some h => h_srsid h end.
Definition h_get_envelope (h : option header) : list f64 :=
  match h with None => [] | Some h => h_envelope h end.
Definition h_is_geometry_empty (h : option header) : bool :=
  match h with None => true | Some h => flags_is_empty (h_flags h) end.
Definition h_is_standard_geometry (h : option header) : bool :=
  match h with None => true | Some h => flags_is_standard (h_flags h) end.
Definition h_size (h : option header) : nat :=
  match h with None => 0%nat | Some h => (length (h_envelope h) * 8 + 8)%nat end.
Definition h_endian (h : option header) : byte_order :=
  match h with None => BigEndian | Some h => flags_endian (h_flags h) end.

(** binary_header.go 256-275, EncodeTo: the bytes written.  With a nil header
    the code builds a replacement [hh] but then reads the fields of [h]: a nil
    dereference if it got there. *)
Definition h_encode (h : option header) : res gpkg_err (list Z) :=
  do _ <- match h with
          | Some h => Ok h
          | None => new_binary_header (h_endian h) 0 [] (h_envelope_type h) false true
          end;
  match h with
  | None => Panic
  | Some h =>
      let en := flags_endian (h_flags h) in
      Ok ([h_magic0 h; h_magic1 h; h_version h; h_flags h]
          ++ put_uint en 4 (u32 (h_srsid h))
          ++ flat_map (put_uint en 8) (h_envelope h))
  end.

(** ** cmp/empty.go *)

(** cmp/empty.go 7-9: [pt != pt] on an array compares both floats. *)
Definition is_empty_point (p : point f64) : bool := f64_ne (fst p) (fst p) || f64_ne (snd p) (snd p).
(** cmp/empty.go 11-29 *)
Definition is_empty_points (ps : list (point f64)) : bool := forallb is_empty_point ps.
Definition is_empty_lines (ls : list (list (point f64))) : bool := forallb is_empty_points ls.
(** cmp/empty.go 31-141.  [GUnknown] stands here for a non-nil value of another
    type (nil is empty); pointers to geometries are not modelled. *)
Fixpoint is_empty_geo (g : geom f64) {struct g} : bool :=
  match g with
  | GPoint p => is_empty_point p
  | GMultiPoint ps => is_empty_points ps
  | GLineString ps => is_empty_points ps
  | GMultiLineString ls => is_empty_lines ls
  | GPolygon rs => is_empty_lines rs
  | GMultiPolygon pls => forallb is_empty_lines pls
  | GCollection gs => forallb is_empty_geo gs
  | GUnknown => false
  end.

(** ** StandardBinary *)

(** binary_header.go 293-297 *)
Record standard_binary := SB { sb_header : option header; sb_srsid : Z; sb_geometry : geom f64 }.

(** binary_header.go 299-314 *)
Definition decode_geometry (bytes : list Z) : res gpkg_err standard_binary :=
  do h <- decode_binary_header bytes;
  do body <- slice bytes (h_size (Some h)) (length bytes);
  match decode_bytes body with
  | Ok g => Ok (SB (Some h) (h_get_srsid (Some h)) g)
  | Err e => Err (EWkb e)
  | Panic => Panic
  end.

(** binary_header.go 316-328 *)
Definition sb_encode (sb : standard_binary) : res gpkg_err (list Z) :=
  do hb <- h_encode (sb_header sb);
  match encode_bytes (h_endian (sb_header sb)) (sb_geometry sb) with
  | None => Err EWkbEncode
  | Some b => Ok (hb ++ b)
  end.

(** binary_header.go 330-357; [ext[:]] dereferences a nil extent when the
    geometry has no coordinates. *)
Definition new_binary (srs : Z) (g : geom f64) : res gpkg_err standard_binary :=
  let emptyGeo := is_empty_geo g in
  do extent <-
    (if emptyGeo then Ok [f64_nan; f64_nan; f64_nan; f64_nan]
     else match new_extent_from_geometry g with
          | None => Err EExtent
          | Some None => Panic
          | Some (Some e) => Ok [e0 e; e1 e; e2 e; e3 e]
          end);
  do h <- new_binary_header LittleEndian srs extent etXY false emptyGeo;
  Ok (SB (Some h) srs g).

(** binary_header.go 359-371, Extent *)
Definition sb_extent (sb : standard_binary) : option extent :=
  if is_empty_geo (sb_geometry sb) then None
  else match new_extent_from_geometry (sb_geometry sb) with
       | None => None
       | Some e => e
       end.
