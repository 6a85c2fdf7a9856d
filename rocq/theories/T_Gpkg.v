(** * Theorems about GeoPackage binaries (C05, C06, C07, C58)

    Models in [M_Gpkg.v]; the layout [gp_header], [all_nan], ... in [S_Gpkg.v]. *)
From Coq Require Import ZArith Bool List Lia.
From Verif Require Import Base_Res Base_F64 Base_Geom Base_Bytes M_Wkb M_Extent M_Gpkg
  S_Wkb S_Geom S_Gpkg P_Gpkg T_Wkb.
Import ListNotations.
Open Scope Z_scope.

(** C05: header round trip, whatever follows it. *)
Theorem C05_header_roundtrip : forall bo srs env et extended empty h,
  int32_range srs -> Forall (fun w => f64_wf w = true) env ->
  new_binary_header bo srs env et extended empty = Ok h ->
  exists bs, h_encode (Some h) = Ok bs /\ length bs = h_size (Some h) /\
    forall tail, exists h', decode_binary_header (bs ++ tail) = Ok h' /\
      h_magic (Some h') = (71, 80) /\ h_get_version (Some h') = 0 /\
      h_endian (Some h') = bo /\ h_envelope_type (Some h') = et /\
      h_get_srsid (Some h') = srs /\ h_get_envelope (Some h') = env /\
      h_is_geometry_empty (Some h') = empty /\
      h_is_standard_geometry (Some h') = negb extended.
Proof. exact header_roundtrip. Qed.
Print Assumptions C05_header_roundtrip.
(** NewBinaryHeader succeeds exactly when the envelope has the length its kind
    demands. *)
Theorem C05_new_header_iff : forall bo srs env et extended empty,
  is_ok (new_binary_header bo srs env et extended empty) = true <->
  gp_envelope_len et = Some (Z.of_nat (length env)).
Proof. exact new_header_ok. Qed.
Print Assumptions C05_new_header_iff.
(** The bytes are those of the specification. *)
Theorem C05_header_layout : forall bo srs env et extended empty h,
  new_binary_header bo srs env et extended empty = Ok h ->
  h_encode (Some h) = Ok (gp_header 71 80 0 bo et extended empty 0 srs env).
Proof. exact h_encode_layout. Qed.
Print Assumptions C05_header_layout.
Theorem C05_nil_header_is_an_error : h_encode None = Err EMismatch.
Proof. exact h_encode_nil. Qed.
Print Assumptions C05_nil_header_is_an_error.
Example C05_nonvacuous :
  int32_range (-1) /\
  is_ok (new_binary_header BigEndian (-1)
    [f64_one; f64_two; f64_nan; f64_ninf; f64_nzero; f64_three] 3 true true) = true.
Proof. split; [unfold int32_range; lia | reflexivity]. Qed.

(** C06.  Every byte string: the decoder does not panic; when it succeeds the
    bytes start with a header laid out as specified and are read accordingly,
    any version and any reserved bits; when it fails the reason is the one
    stated. *)
Theorem C06_decode_header_exact : forall data, Forall (fun b => byte_ok b = true) data ->
  match decode_binary_header data with
  | Panic => False
  | Ok h => exists m0 m1 ver bo et extended empty reserved srs env rest,
      data = gp_header m0 m1 ver bo et extended empty reserved srs env ++ rest /\
      gp_envelope_len et = Some (Z.of_nat (length env)) /\ 0 <= reserved < 4 /\
      int32_range srs /\ (et = 0 \/ m0 = 71 /\ m1 = 80) /\
      h_magic (Some h) = (m0, m1) /\ h_get_version (Some h) = ver /\
      h_endian (Some h) = bo /\ h_envelope_type (Some h) = et /\
      h_get_srsid (Some h) = srs /\ h_get_envelope (Some h) = env /\
      h_is_geometry_empty (Some h) = empty /\ h_is_standard_geometry (Some h) = negb extended
  | Err e => (length data < 8)%nat /\ e = EInsufficientBytes \/
      exists m0 m1 ver bo et extended empty reserved srs rest,
        data = gp_header m0 m1 ver bo et extended empty reserved srs [] ++ rest /\
        0 <= et < 8 /\ 0 <= reserved < 4 /\ int32_range srs /\
        match gp_envelope_len et with
        | None => e = EInvalidEnvelopeType
        | Some n => if Z.of_nat (length rest) <? n * 8 then e = EInsufficientBytes
                    else e = EInvalidMagicNumber /\ et <> 0 /\ ~ (m0 = 71 /\ m1 = 80)
        end
  end.
Proof. exact decode_header_cases. Qed.
Print Assumptions C06_decode_header_exact.
(** The claim itself is false: without an envelope the magic is not checked. *)
Theorem C06_magic_checked_refuted : exists data h,
  Forall (fun b => byte_ok b = true) data /\ firstn 2 data <> [71; 80] /\
  decode_binary_header data = Ok h.
Proof.
  exists [0; 0; 0; 0; 0; 0; 0; 0]. eexists. split; [repeat constructor|].
  split; [discriminate | reflexivity].
Qed.
Print Assumptions C06_magic_checked_refuted.
Example C06_nonvacuous :
  decode_binary_header ([71; 81; 0; 2; 0; 0; 16; 230] ++ repeat 0 32) = Err EInvalidMagicNumber /\
  is_ok (decode_binary_header ([71; 80; 0; 2; 0; 0; 16; 230] ++ repeat 0 32)) = true.
Proof. split; reflexivity. Qed.

(** C07: blob round trip. *)
Theorem C07_blob_roundtrip : forall srs g,
  int32_range srs -> encodable g = true -> rings_open g = true ->
  exists sb bs sb', new_binary srs g = Ok sb /\ sb_encode sb = Ok bs /\
    decode_geometry bs = Ok sb' /\
    sb_geometry sb' = g /\ sb_srsid sb' = srs /\ h_get_srsid (sb_header sb') = srs /\
    h_is_geometry_empty (sb_header sb') = all_nan g /\
    h_is_standard_geometry (sb_header sb') = true /\
    h_envelope_type (sb_header sb') = 1 /\
    if all_nan g
    then h_get_envelope (sb_header sb') = [f64_nan; f64_nan; f64_nan; f64_nan] /\
         sb_extent sb' = None
    else exists e, new_extent_from_geometry g = Some (Some e) /\
           h_get_envelope (sb_header sb') = [e0 e; e1 e; e2 e; e3 e] /\
           sb_extent sb' = Some e.
Proof. exact blob_roundtrip. Qed.
Print Assumptions C07_blob_roundtrip.
Theorem C07_decode_never_panics : forall bytes, Forall (fun b => byte_ok b = true) bytes ->
  decode_geometry bytes <> Panic.
Proof. exact decode_geometry_no_panic. Qed.
Print Assumptions C07_decode_never_panics.
Theorem C07_new_binary_never_panics : forall srs g, new_binary srs g <> Panic.
Proof. exact new_binary_no_panic. Qed.
Print Assumptions C07_new_binary_never_panics.
Example C07_nonvacuous :
  int32_range 4326 /\ encodable ex_geom = true /\ rings_open ex_geom = true /\
  all_nan ex_geom = false /\ all_nan (GMultiPoint [(f64_nan, f64_one)]) = true.
Proof. split; [unfold int32_range; lia | repeat split]. Qed.

(** C58 is false of the code: GeoPackage 1.x, clause 2.1.3.1.1, defines the XY
    envelope as [minx, maxx, miny, maxy]; NewBinary writes the sides of the
    extent in the order minx, miny, maxx, maxy. *)
Theorem C58_envelope_order_refuted : exists g e sb,
  encodable g = true /\ rings_open g = true /\
  new_extent_from_geometry g = Some (Some e) /\ new_binary 4326 g = Ok sb /\
  h_get_envelope (sb_header sb) <> [e0 e; e2 e; e1 e; e3 e].
Proof.
  exists (GLineString [(f64_zero, f64_one); (f64_two, f64_three)]). do 2 eexists.
  split; [reflexivity|]. split; [reflexivity|]. split; [reflexivity|]. split; [reflexivity|].
  vm_compute. discriminate.
Qed.
Print Assumptions C58_envelope_order_refuted.
Theorem C58_envelope_order_exact : forall srs g e sb,
  all_nan g = false -> unknown_inside g = false ->
  new_extent_from_geometry g = Some (Some e) -> new_binary srs g = Ok sb ->
  h_get_envelope (sb_header sb) = [e0 e; e1 e; e2 e; e3 e].
Proof. exact envelope_order. Qed.
Print Assumptions C58_envelope_order_exact.
