(** * Theorems: well-known text *)
From Coq Require Import String ZArith Bool List Lia Reals.
From Verif Require Import Base_F64 Base_F64Arith Base_Geom Base_Res M_Extent M_Cmp M_Wkt M_Strconv S_Wkt S_Strconv S_Cmp
  P_F64Flocq P_Cmp3 P_Wkt5 P_WktTop P_Strconv4 P_WktExt.
Import ListNotations.
Open Scope Z_scope.

(** ** C42: text written by the encoder is read back *)

(** For every printer and parser of numbers that agree on the coordinates of [v]:
    a value whose parts have enough points is written, and read back without its NaN
    points, repeated points and closing points, and with its coordinates as the parser
    reads them. *)
Theorem C42_roundtrip : forall fmt parse rt c strict v suffix,
  positive c -> number_io fmt parse rt (geom_of v) ->
  readable (geom_of v) -> (strict = true -> clean (geom_of v) = true) ->
  exists text, encode_string fmt strict v = Ok text /\
    decode parse c (text ++ suffix) = Ok (map_geom rt (kept (geom_of v))).
Proof. exact roundtrip. Qed.
Print Assumptions C42_roundtrip.

(** Nothing else is read back. *)
Theorem C42_only : forall fmt parse rt c strict v text g,
  positive c -> number_io fmt parse rt (geom_of v) ->
  encode_string fmt strict v = Ok text -> decode parse c text = Ok g ->
  readable (geom_of v) /\ g = map_geom rt (kept (geom_of v)).
Proof. exact only_readable. Qed.
Print Assumptions C42_only.

(** With strconv and [p] digits (10 by default), for coordinates that are written
    without an exponent. *)
Theorem C42_strconv : forall p c strict v suffix, 1 <= p <= 15 ->
  positive c -> every (ordinary p) (geom_of v) ->
  readable (geom_of v) -> (strict = true -> clean (geom_of v) = true) ->
  exists text, encode_string (format_g p) strict v = Ok text /\
    decode parse_float c (text ++ suffix) = Ok (map_geom (reread p) (kept (geom_of v))).
Proof.
  exact (fun p c strict v suffix Hp Hc He =>
    roundtrip (format_g p) parse_float (reread p) c strict v suffix Hc (ordinary_io p (geom_of v) Hp He)).
Qed.
Print Assumptions C42_strconv.

(** Each coordinate is read back with a relative error below 10^(1-p), and
    writing and reading it again changes nothing more. *)
Theorem C42_error : forall p w, 1 <= p <= 15 -> ordinary p w ->
  (Rabs (f64_R (reread p w) - f64_R w) <= Rabs (f64_R w) * powerRZ 10 (1 - p))%R /\
  ordinary p (reread p w) /\ reread p (reread p w) = reread p w.
Proof. exact reread_error. Qed.
Print Assumptions C42_error.

(** Coordinates that are the floats of decimals with at most [p] digits are
    read back as they were. *)
Theorem C42_exact : forall p c strict v suffix, 1 <= p <= 15 ->
  positive c -> every (short p) (geom_of v) ->
  readable (geom_of v) -> (strict = true -> clean (geom_of v) = true) ->
  exists text, encode_string (format_g p) strict v = Ok text /\
    decode parse_float c (text ++ suffix) = Ok (kept (geom_of v)).
Proof. exact short_roundtrip. Qed.
Print Assumptions C42_exact.

(** The round trip does not hold for all coordinates: 10^10 is written "1e+10",
    which the decoder does not read, and a third is written with ten digits. *)
Definition third : f64 := 0x3FD5555555555555.
Theorem C42_all_refuted :
  (exists text, encode_string (format_g 10) true (VPoint (f64_ofZ (10 ^ 10), f64_zero)) = Ok text /\
     text = str "POINT (1e+10 0)" /\
     is_err (decode parse_float default_compare text) = true) /\
  (exists text g, encode_string (format_g 10) true (VPoint (third, f64_zero)) = Ok text /\
     text = str "POINT (0.3333333333 0)" /\
     decode parse_float default_compare text = Ok g /\ g <> GPoint (third, f64_zero)).
Proof.
  split.
  - exists (str "POINT (1e+10 0)"). split; [vm_compute; reflexivity|]. split; [reflexivity|]. vm_compute. reflexivity.
  - exists (str "POINT (0.3333333333 0)"), (GPoint (4599676419420466101, 0)).
    split; [vm_compute; reflexivity|]. split; [reflexivity|]. split; [vm_compute; reflexivity|]. vm_compute. discriminate.
Qed.
Print Assumptions C42_all_refuted.

(** A polygon of the kind C42_exact is about: an open ring with a repeated
    point and an empty hole, in the default encoder. *)
Definition a_polygon : gval :=
  VPolygon [[(f64_zero, f64_zero); (f64_ofZ 10, f64_zero); (f64_ofZ 10, f64_zero); (nearest 105 (-1), f64_neg (f64_ofZ 10))]; []].
Example C42_nonvacuous :
  positive default_compare /\ readable (geom_of a_polygon) /\ every (short 10) (geom_of a_polygon) /\
  encode_string (format_g 10) false a_polygon = Ok (str "POLYGON ((0 0,10 0,10.5 -10,0 0))") /\
  decode parse_float default_compare (str "POLYGON ((0 0,10 0,10.5 -10,0 0))") =
    Ok (GPolygon [[(f64_zero, f64_zero); (f64_ofZ 10, f64_zero); (nearest 105 (-1), f64_neg (f64_ofZ 10))]]).
Proof.
  split; [apply default_positive|]. split; [split; [discriminate|repeat constructor]|]. split.
  - assert (S0 : short 10 f64_zero) by (exists 0, 0; split; [lia|split; [lia|split; [lia|left; reflexivity]]]).
    assert (S1 : short 10 (f64_ofZ 10)) by (exists 10, 0; split; [lia|split; [lia|split; [lia|left; vm_compute; reflexivity]]]).
    assert (S2 : short 10 (nearest 105 (-1))) by (exists 105, 1; split; [lia|split; [lia|split; [lia|left; reflexivity]]]).
    assert (S3 : short 10 (f64_neg (f64_ofZ 10))) by (exists 10, 0; split; [lia|split; [lia|split; [lia|right; vm_compute; reflexivity]]]).
    repeat constructor; assumption.
  - split; vm_compute; reflexivity.
Qed.

(** ** C43: empty geometries are written and cannot be read *)

Theorem C43_refuted : forall fmt parse c v,
  positive c -> parse (str "E") = None -> nothing (geom_of v) = true ->
  exists text, encode_string fmt false v = Ok text /\ is_err (decode parse c text) = true.
Proof. exact nothing_lost. Qed.
Print Assumptions C43_refuted.

Example C43_nonvacuous :
  nothing (geom_of (VMultiPoint [])) = true /\
  encode_string (format_g 10) false (VMultiPoint []) = Ok (str "MULTIPOINT EMPTY") /\
  encode_string (format_g 10) false (VPPoint None) = Ok (str "POINT EMPTY") /\
  nothing (geom_of (VCollection [VPolygon []; VPPoint None])) = true /\
  encode_string (format_g 10) false (VCollection [VPolygon []; VPPoint None]) =
    Ok (str "GEOMETRYCOLLECTION (POLYGON EMPTY,POINT EMPTY)").
Proof. repeat split; vm_compute; reflexivity. Qed.

(** ** C73: the decoder is total *)

(** Every byte string is decoded or refused; a decoded geometry has enough points
    in every part and finite coordinates. *)
Theorem C73_total : forall c s,
  match decode parse_float c s with
  | Ok g => well_shaped g = true /\ Forall (fun w => f64_wf w = true /\ f64_finite w = true) (coordinates g)
  | Err e => e <> EFuel
  | Panic => False
  end.
Proof. exact (fun c => decode_total parse_float c _ parse_finite). Qed.
Print Assumptions C73_total.

(** Whatever follows a geometry is ignored. *)
Theorem C73_trailing : forall parse c s g t, decode parse c s = Ok g -> decode parse c (s ++ t) = Ok g.
Proof. exact decode_prefix. Qed.
Print Assumptions C73_trailing.

Example C73_nonvacuous :
  decode parse_float default_compare (str "GeometryCollection( POINT(1 2) , LINESTRING (0 0, 1e-1 3 )) and more") =
    Ok (GCollection [GPoint (f64_one, f64_two); GLineString [(f64_zero, f64_zero); (nearest 1 (-1), f64_three)]]) /\
  decode parse_float default_compare (str "POINT (1 2") = Err EEof /\
  decode parse_float default_compare (str "LINESTRING (1 2)") = Err ETooFew.
Proof. repeat split; vm_compute; reflexivity. Qed.

(** ** C74: what was decoded cannot always be encoded *)

Theorem C74_refuted : exists g v,
  decode parse_float default_compare (str "LINESTRING (1 1,1 1)") = Ok g /\ geom_of v = g /\
  forall fmt strict, encode_string fmt strict v = Err TooFewPoints.
Proof.
  exists (GLineString [(f64_one, f64_one); (f64_one, f64_one)]), (VLineString [(f64_one, f64_one); (f64_one, f64_one)]).
  split; [vm_compute; reflexivity|]. split; [reflexivity|]. intros fmt [|]; reflexivity.
Qed.
Print Assumptions C74_refuted.

(** It can if it is readable in the sense of C42. *)
Theorem C74_reencode_partial : forall p c c2 strict s g v, 1 <= p <= 15 -> positive c2 ->
  decode parse_float c s = Ok g -> geom_of v = g -> every (ordinary p) g -> readable g ->
  exists text, encode_string (format_g p) strict v = Ok text /\
    decode parse_float c2 text = Ok (map_geom (reread p) (kept g)).
Proof. exact reencode. Qed.
Print Assumptions C74_reencode_partial.
