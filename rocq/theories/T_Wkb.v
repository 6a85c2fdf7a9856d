(** * Theorems about WKB (C01, C02, C03, C04, C57)

    Reading guide: [encode_bytes bo g] is EncodeBytes (None = error),
    [decode bs] is Decode on a reader over [bs] (geometry and unread bytes),
    [decode_bytes] is DecodeBytes (models in [M_Wkb.v]).  [encodable],
    [rings_open], [has_unknown], [wire], ... are in [S_Wkb.v]. *)
From Coq Require Import ZArith Bool List.
From Verif Require Import Base_Res Base_F64 Base_Geom Base_Bytes M_Wkb S_Wkb P_Wkb P_WkbWire P_WkbSound.
Import ListNotations.
Open Scope Z_scope.

(** A test geometry: a collection of a polygon with a hole, a multi point with
    a NaN and a negative zero, and an empty line string. *)
Definition ex_poly : geom f64 :=
  GPolygon [[(f64_zero, f64_zero); (f64_two, f64_zero); (f64_two, f64_three)];
            [(f64_one, f64_one); (f64_one, f64_two); (f64_two, f64_two)]].
Definition ex_geom : geom f64 :=
  GCollection [ex_poly; GCollection [GMultiPoint [(f64_nan, f64_nzero); (f64_pinf, f64_one)]];
               GLineString []].

(** C01 *)
Theorem C01_wkb_roundtrip : forall bo g,
  encodable g = true -> rings_open g = true ->
  exists bs, encode_bytes bo g = Some bs /\ decode_bytes bs = Ok g.
Proof. exact wkb_roundtrip. Qed.
Print Assumptions C01_wkb_roundtrip.
Example C01_nonvacuous : encodable ex_geom = true /\ rings_open ex_geom = true.
Proof. split; reflexivity. Qed.

(** C02, first half: what follows an encoding is left unread, whatever it is. *)
Theorem C02_wkb_exact_end : forall bo g bs rest,
  encodable g = true -> encode_bytes bo g = Some bs ->
  decode (bs ++ rest) = Ok (norm g, rest).
Proof. exact wkb_decode_encode. Qed.
Print Assumptions C02_wkb_exact_end.
Theorem C02_norm_is_identity_on_open : forall g, rings_open g = true -> norm g = g.
Proof. exact norm_open. Qed.
Print Assumptions C02_norm_is_identity_on_open.

(** C02, second half: every proper prefix is an end-of-input error. *)
Theorem C02_wkb_truncation : forall bo g bs n,
  encodable g = true -> encode_bytes bo g = Some bs -> (n < length bs)%nat ->
  decode (firstn n bs) = Err EEof \/ decode (firstn n bs) = Err EUnexpectedEof.
Proof. exact wkb_truncation. Qed.
Print Assumptions C02_wkb_truncation.
Example C02_nonvacuous :
  option_map (fun bs => 100 <? length bs)%nat (encode_bytes BigEndian ex_geom) = Some true.
Proof. reflexivity. Qed.

(** On arbitrary bytes the decoder returns a geometry or one of Go's errors: it
    never panics, and the model's fuel never runs out. *)
Theorem C02_wkb_decode_total : forall bs, decode bs <> Panic /\ decode bs <> Err EOutOfFuel.
Proof. exact (fun bs => conj (decode_no_panic bs) (decode_no_fuel_error bs)). Qed.
Print Assumptions C02_wkb_decode_total.

(** C03: the encoder emits the OGC layout with every ring closed; a written
    ring has equal ends unless its first point is NaN. *)
Theorem C03_wkb_encoder_layout : forall bo g,
  encodable g = true -> encode_bytes bo g = Some (wire_with bo (map_rings file_ring g)).
Proof. exact wkb_encode_wire. Qed.
Print Assumptions C03_wkb_encoder_layout.
Theorem C03_wkb_written_ring_closed : forall p tl,
  exists q, last (file_ring (p :: tl)) p = q /\ hd_error (file_ring (p :: tl)) = Some p /\
            (pt_isnan p = false -> pt_eqb p q = true).
Proof. exact file_ring_closed. Qed.
Print Assumptions C03_wkb_written_ring_closed.
(** A closed ring and its open form give the same bytes. *)
Theorem C03_wkb_closed_or_open : forall bo rs,
  count_ok rs = true -> forallb pts_ok rs = true ->
  forallb (fun r => count_ok (close_ring r)) rs = true ->
  forallb ring_open rs = true -> forallb (fun r => negb (length r =? 1)%nat) rs = true ->
  encode_bytes bo (GPolygon (map close_ring rs)) = encode_bytes bo (GPolygon rs).
Proof. exact wkb_encode_close. Qed.
Print Assumptions C03_wkb_closed_or_open.
Example C03_nonvacuous : match ex_poly with
  | GPolygon rs => count_ok rs && forallb pts_ok rs
      && forallb (fun r => count_ok (close_ring r)) rs && forallb ring_open rs
      && forallb (fun r => negb (length r =? 1)%nat) rs
  | _ => false end = true.
Proof. reflexivity. Qed.

(** C04 *)
Theorem C04_wkb_encode_fails_iff_unknown : forall bo g,
  encode_bytes bo g = None <-> has_unknown g = true.
Proof. exact wkb_encode_total. Qed.
Print Assumptions C04_wkb_encode_fails_iff_unknown.
Example C04_nonvacuous :
  has_unknown (GCollection [ex_geom; GCollection [GUnknown]]) = true /\
  has_unknown ex_geom = false.
Proof. split; reflexivity. Qed.

(** C57: every well-formed file, with any mixture of byte orders, decodes to the
    geometry it describes, each ring losing exactly its closing point. *)
Theorem C57_wkb_decode_any_layout : forall g bs rest,
  wire g bs -> file_ok g = true -> decode (bs ++ rest) = Ok (map_rings lib_ring g, rest).
Proof. exact wkb_decode_wire. Qed.
Print Assumptions C57_wkb_decode_any_layout.
Theorem C57_layout_inhabited : forall bo g, has_unknown g = false -> wire g (wire_with bo g).
Proof. exact wire_with_wire. Qed.
Print Assumptions C57_layout_inhabited.
(** Conversely, only such files are accepted. *)
Theorem C57_wkb_decode_only_layout : forall bs g rest,
  Forall (fun b => byte_ok b = true) bs -> decode bs = Ok (g, rest) ->
  exists g0 pre, bs = pre ++ rest /\ wire g0 pre /\ file_ok g0 = true /\ g = map_rings lib_ring g0.
Proof. exact wkb_decode_sound. Qed.
Print Assumptions C57_wkb_decode_only_layout.
Example C57_only_nonvacuous :
  is_ok (decode (wire_with BigEndian ex_geom)) = true /\
  (* a MultiPoint whose element claims to be a LineString *)
  decode (wire_header BigEndian 4 ++ wire_count BigEndian [tt] ++
          wire_header BigEndian 2 ++ wire_xy BigEndian (f64_one, f64_two)) = Err (EInvalidType 2).
Proof. split; reflexivity. Qed.
Example C57_nonvacuous :
  wire (GMultiPoint [(f64_one, f64_two); (f64_two, f64_one)])
    (wire_header BigEndian 4 ++ wire_count BigEndian [(f64_one, f64_two); (f64_two, f64_one)] ++
     concat [wire_header BigEndian 1 ++ wire_xy BigEndian (f64_one, f64_two);
             wire_header LittleEndian 1 ++ wire_xy LittleEndian (f64_two, f64_one)]).
Proof. repeat constructor. Qed.
