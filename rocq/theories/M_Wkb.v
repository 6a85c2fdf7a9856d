(** * Model of encoding/wkb

    Bytes are integers 0..255, coordinates are float64 words ([Base_F64.f64]).
    The reader is a [bytes.Reader] (DecodeBytes, wkb.go 42-45) modelled by the
    list of unread bytes; the writer is a [bytes.Buffer] (EncodeBytes, wkb.go
    81-87), which never fails.  Not modelled: other readers/writers (their I/O
    errors, a reader returning (0, nil)), memory exhaustion of
    [make([]T, num)] on hostile counts, and the partially filled geometry that
    Decode returns together with an error. *)
From Coq Require Import ZArith Bool List.
From Verif Require Import Base_Res Base_F64 Base_Geom Base_Bytes.
Import ListNotations.
Open Scope Z_scope.

(** encoding/wkb/internal/consts/consts.go 5-13 *)
Definition tPoint : Z := 1.
Definition tLineString : Z := 2.
Definition tPolygon : Z := 3.
Definition tMultiPoint : Z := 4.
Definition tMultiLineString : Z := 5.
Definition tMultiPolygon : Z := 6.
Definition tCollection : Z := 7.

(** ** Encoder (encoding/wkb/internal/encode/encode.go) *)

(** encode.go 47-57, BOM: 0 for big endian, 1 otherwise. *)
Definition enc_bom (bo : byte_order) : list Z :=
  match bo with BigEndian => [0] | LittleEndian => [1] end.

(** encode.go 24-38, Write of a uint32 and of float64 values. *)
Definition enc_u32 (bo : byte_order) (v : Z) : list Z := put_uint bo 4 v.
Definition enc_f64 (bo : byte_order) (w : f64) : list Z := put_uint bo 8 w.
Definition enc_xy (bo : byte_order) (p : point f64) : list Z :=
  enc_f64 bo (fst p) ++ enc_f64 bo (snd p).

(** uint32(len(l)): the length, truncated to 32 bits. *)
Definition len_u32 {A} (l : list A) : Z := u32 (Z.of_nat (length l)).

(** encode.go 59-61 *)
Definition enc_point (bo : byte_order) (p : point f64) : list Z :=
  enc_bom bo ++ enc_u32 bo tPoint ++ enc_xy bo p.

(** encode.go 62-68 *)
Definition enc_multipoint (bo : byte_order) (ps : list (point f64)) : list Z :=
  enc_bom bo ++ enc_u32 bo tMultiPoint ++ enc_u32 bo (len_u32 ps)
  ++ flat_map (enc_point bo) ps.

(** encode.go 69-74 *)
Definition enc_linestring (bo : byte_order) (ps : list (point f64)) : list Z :=
  enc_bom bo ++ enc_u32 bo tLineString ++ enc_u32 bo (len_u32 ps)
  ++ flat_map (enc_xy bo) ps.

(** encode.go 76-81 *)
Definition enc_multilinestring (bo : byte_order) (ls : list (list (point f64)))
  : list Z :=
  enc_bom bo ++ enc_u32 bo tMultiLineString ++ enc_u32 bo (len_u32 ls)
  ++ flat_map (enc_linestring bo) ls.

(** encode.go 89-96: does the ring need its first point repeated?
    [length] is the 32-bit length; [r[length-1]] is indexed with it. *)
Definition ring_needs_close (r : list (point f64)) : bool :=
  let length := len_u32 r in
  (0 <? length) &&
  match nth_error r 0, nth_error r (Z.to_nat (length - 1)) with
  | Some p, Some q => f64_ne (fst p) (fst q) || f64_ne (snd p) (snd q)
  | _, _ => false (* unreachable: length - 1 < len(r) *)
  end.

(** encode.go 89-103: one ring of a polygon. *)
Definition enc_ring (bo : byte_order) (r : list (point f64)) : list Z :=
  let needToClose := ring_needs_close r in
  let length := if needToClose then u32 (len_u32 r + 1) else len_u32 r in
  enc_u32 bo length ++ flat_map (enc_xy bo) r
  ++ (if needToClose
      then match nth_error r 0 with Some p => enc_xy bo p | None => [] end
      else []).

(** encode.go 83-105 *)
Definition enc_polygon (bo : byte_order) (rs : list (list (point f64))) : list Z :=
  enc_bom bo ++ enc_u32 bo tPolygon ++ enc_u32 bo (len_u32 rs)
  ++ flat_map (enc_ring bo) rs.

(** encode.go 107-112 *)
Definition enc_multipolygon (bo : byte_order)
  (pls : list (list (list (point f64)))) : list Z :=
  enc_bom bo ++ enc_u32 bo tMultiPolygon ++ enc_u32 bo (len_u32 pls)
  ++ flat_map (enc_polygon bo) pls.

(** encode.go 114-149, Collection and Geometry.  The result is the bytes
    written so far and whether [en.err] is set; after an error nothing more is
    written (encode.go 22, 119-124). *)
Fixpoint enc_geometry (bo : byte_order) (g : geom f64) {struct g} : list Z * bool :=
  match g with
  | GPoint p => (enc_point bo p, false)
  | GMultiPoint ps => (enc_multipoint bo ps, false)
  | GLineString ps => (enc_linestring bo ps, false)
  | GMultiLineString ls => (enc_multilinestring bo ls, false)
  | GPolygon rs => (enc_polygon bo rs, false)
  | GMultiPolygon pls => (enc_multipolygon bo pls, false)
  | GCollection gs =>
      let (body, bad) :=
        (fix members (l : list (geom f64)) : list Z * bool :=
           match l with
           | [] => ([], false)
           | x :: xs =>
               let (b, bad) := enc_geometry bo x in
               if bad then (b, true)
               else let (b', bad') := members xs in (b ++ b', bad')
           end) gs in
      (enc_bom bo ++ enc_u32 bo tCollection ++ enc_u32 bo (len_u32 gs) ++ body, bad)
  | GUnknown => ([], true)
  end.

(** wkb.go 89-97, Encode/EncodeWithByteOrder into a buffer: what has been
    written to the buffer and whether an error is returned. *)
Definition encode_to (bo : byte_order) (g : geom f64) : list Z * bool :=
  enc_geometry bo g.

(** wkb.go 81-87, EncodeBytes (with the byte order of EncodeWithByteOrder). *)
Definition encode_bytes (bo : byte_order) (g : geom f64) : option (list Z) :=
  let (bs, bad) := encode_to bo g in if bad then None else Some bs.

(** ** Decoder (encoding/wkb/internal/decode/decode.go) *)

Inductive wkb_err :=
| EEof                     (* io.EOF *)
| EUnexpectedEof           (* io.ErrUnexpectedEOF *)
| EBadBOM (b : Z)          (* decode.go 12 *)
| EInvalidType (typ : Z)   (* decode.go 16-24 *)
| EUnknownType (typ : Z)   (* wkb.go 21-27 *)
| EOutOfFuel.              (* artefact of the model, proved impossible *)

Definition dec (A : Type) := list Z -> res wkb_err (A * list Z).

(** io.ReadFull on a bytes.Reader, used by binary.Read: EOF when nothing is
    left, ErrUnexpectedEOF when fewer than [n] bytes are left. *)
Definition read_full (n : nat) : dec (list Z) := fun bs =>
  match bs with
  | [] => Err EEof
  | _ =>
      if (length bs <? n)%nat then Err EUnexpectedEof
      else Ok (firstn n bs, skipn n bs)
  end.

(** binary.Read of a uint32, and of a [2]float64. *)
Definition read_u32 (bo : byte_order) : dec Z := fun bs =>
  do (b, rest) <- read_full 4 bs; Ok (get_uint bo b, rest).
Definition read_xy (bo : byte_order) : dec (point f64) := fun bs =>
  do (b, rest) <- read_full 16 bs;
  Ok ((get_uint bo (firstn 8 b), get_uint bo (skipn 8 b)), rest).

(** decode.go 26-46, ByteOrderType *)
Definition byte_order_type : dec (byte_order * Z) := fun bs =>
  match bs with
  | [] => Err EEof
  | b :: bs' =>
      if b =? 0 then do (t, rest) <- read_u32 BigEndian bs'; Ok ((BigEndian, t), rest)
      else if b =? 1 then
        do (t, rest) <- read_u32 LittleEndian bs'; Ok ((LittleEndian, t), rest)
      else Err (EBadBOM b)
  end.

(** [for i := range make([]T, num) { x[i] = d(r) }].  [fuel] bounds the number
    of iterations; the top-level decoder supplies more fuel than there are
    bytes and every iteration consumes a byte. *)
Fixpoint dec_many {A} (d : dec A) (fuel : nat) (n : Z) (bs : list Z)
  : res wkb_err (list A * list Z) :=
  if n <=? 0 then Ok ([], bs)
  else match fuel with
       | O => Err EOutOfFuel
       | S f =>
           do (a, bs1) <- d bs;
           do (l, bs2) <- dec_many d f (n - 1) bs1;
           Ok (a :: l, bs2)
       end.

(** Read a count, then that many elements. *)
Definition dec_counted {A} (bo : byte_order) (d : dec A) (fuel : nat) : dec (list A) :=
  fun bs => do (num, bs1) <- read_u32 bo bs; dec_many d fuel num bs1.

(** decode.go 48-51 *)
Definition dec_point (bo : byte_order) : dec (point f64) := read_xy bo.

(** An element preceded by its own byte order and a required type
    (decode.go 62-72, 98-107, 154-163). *)
Definition dec_tagged {A} (typ : Z) (d : byte_order -> dec A) : dec A := fun bs =>
  do (bt, bs1) <- byte_order_type bs;
  if snd bt =? typ then d (fst bt) bs1 else Err (EInvalidType (snd bt)).

(** decode.go 52-75 *)
Definition dec_multipoint (bo : byte_order) (fuel : nat) : dec (list (point f64)) :=
  dec_counted bo (dec_tagged tPoint read_xy) fuel.

(** decode.go 77-89 *)
Definition dec_linestring (bo : byte_order) (fuel : nat) : dec (list (point f64)) :=
  dec_counted bo (read_xy bo) fuel.

(** decode.go 91-110 *)
Definition dec_multilinestring (bo : byte_order) (fuel : nat)
  : dec (list (list (point f64))) :=
  dec_counted bo (dec_tagged tLineString (fun bo' => dec_linestring bo' fuel)) fuel.

(** decode.go 123-128: drop the closing point. *)
Definition open_ring (r : list (point f64)) : list (point f64) :=
  if (1 <? length r)%nat then
    match nth_error r 0, nth_error r (length r - 1) with
    | Some p, Some q =>
        if f64_eq (fst p) (fst q) && f64_eq (snd p) (snd q)
        then firstn (length r - 1) r else r
    | _, _ => r (* unreachable *)
    end
  else r.

(** decode.go 112-131 *)
Definition dec_ring (bo : byte_order) (fuel : nat) : dec (list (point f64)) := fun bs =>
  do (r, rest) <- dec_counted bo (read_xy bo) fuel bs; Ok (open_ring r, rest).

(** decode.go 133-145 *)
Definition dec_polygon (bo : byte_order) (fuel : nat)
  : dec (list (list (point f64))) :=
  dec_counted bo (dec_ring bo fuel) fuel.

(** decode.go 147-166 *)
Definition dec_multipolygon (bo : byte_order) (fuel : nat)
  : dec (list (list (list (point f64)))) :=
  dec_counted bo (dec_tagged tPolygon (fun bo' => dec_polygon bo' fuel)) fuel.

Definition as_geom {A} (c : A -> geom f64) (d : dec A) : dec (geom f64) := fun bs =>
  do (a, rest) <- d bs; Ok (c a, rest).

(** The body of a geometry of type [typ]; [bad] is the error for an unknown
    type.  wkb.go 54-78 (top level) and decode.go 168-202 (inside a
    collection) have the same switch and differ only in that error. *)
Fixpoint dec_body (fuel : nat) (bad : Z -> wkb_err) (typ : Z) (bo : byte_order)
  (bs : list Z) {struct fuel} : res wkb_err (geom f64 * list Z) :=
  if typ =? tPoint then as_geom GPoint (dec_point bo) bs
  else if typ =? tMultiPoint then as_geom GMultiPoint (dec_multipoint bo fuel) bs
  else if typ =? tLineString then as_geom GLineString (dec_linestring bo fuel) bs
  else if typ =? tMultiLineString then
    as_geom GMultiLineString (dec_multilinestring bo fuel) bs
  else if typ =? tPolygon then as_geom GPolygon (dec_polygon bo fuel) bs
  else if typ =? tMultiPolygon then
    as_geom GMultiPolygon (dec_multipolygon bo fuel) bs
  else if typ =? tCollection then
    match fuel with
    | O => Err EOutOfFuel
    | S f =>
        as_geom GCollection
          (dec_counted bo
             (fun bs' =>
                do (bt, bs1) <- byte_order_type bs';
                dec_body f EInvalidType (snd bt) (fst bt) bs1) f) bs
    end
  else Err (bad typ).

(** wkb.go 48-79, Decode: the geometry and the bytes left unread. *)
Definition decode_with (fuel : nat) : dec (geom f64) := fun bs =>
  do (bt, bs1) <- byte_order_type bs;
  dec_body fuel EUnknownType (snd bt) (fst bt) bs1.

Definition decode (bs : list Z) : res wkb_err (geom f64 * list Z) :=
  decode_with (S (length bs)) bs.

(** wkb.go 42-45, DecodeBytes *)
Definition decode_bytes (bs : list Z) : res wkb_err (geom f64) :=
  do (g, _) <- decode bs; Ok g.
