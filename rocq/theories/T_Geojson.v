(** * Theorems: GeoJSON *)
From Coq Require Import String ZArith Bool List.
From Verif Require Import Base_F64 Base_F64Arith Base_Geom Base_Res M_Cmp M_Wkt M_Strconv P_F64Flocq P_F64
  M_Geojson M_GeojsonAlias S_Geojson P_Geojson P_Geojson2 P_GeojsonAlias.
Import ListNotations.
Open Scope Z_scope.

(** ** C44: round trip *)

(** A feature comes back with its ID, its geometry with closed rings, and its
    properties (integers as the nearest float64). *)
Theorem C44_feature : forall fmt coerce f, good_feature fmt coerce f ->
  exists j, marshal fmt coerce (VFeature f) = Ok j /\ unmarshal j = Ok (VFeature (returned f)).
Proof. exact feature_roundtrip. Qed.
Print Assumptions C44_feature.

Theorem C44_collection : forall fmt coerce fs, Forall (good_feature fmt coerce) fs ->
  exists j, marshal fmt coerce (VFC (Some fs)) = Ok j /\ unmarshal j = Ok (VFC (Some (map returned fs))).
Proof. exact features_roundtrip. Qed.
Print Assumptions C44_collection.

(** A bare geometry comes back as the geometry of a feature without ID and
    properties. *)
Theorem C44_geometry : forall fmt coerce g, good_feature fmt coerce (None, g, None) ->
  exists j, marshal fmt coerce g = Ok j /\ unmarshal j = Ok (VFeature (None, closed g, None)).
Proof. exact geometry_roundtrip. Qed.
Print Assumptions C44_geometry.

(** Nothing else is written: unsupported types, NaN and infinities are refused. *)
Theorem C44_refused : forall fmt g j, Forall (fun w => f64_wf w = true) (coordinates g) ->
  enc_geometry fmt g = Ok j -> supported g /\ Forall (fun w => f64_finite w = true) (coordinates g).
Proof. exact written_supported. Qed.
Print Assumptions C44_refused.

(** A nil slice (say the zero LineString, or one decoded from nothing) is
    written, and reading the result panics; also inside a collection. *)
Theorem C44_nil_refuted : forall fmt coerce f, written_ok fmt coerce f -> ~ no_nil (snd (fst f)) ->
  exists j, marshal fmt coerce (VFeature f) = Ok j /\ unmarshal j = Panic.
Proof. exact nil_feature_panics. Qed.
Print Assumptions C44_nil_refuted.

Definition one : f64 := 0x3FF0000000000000.
Definition tenth : f64 := 0x3FB999999999999A.
Definition a_ring : slice pt := Some [(one, tenth); (tenth, one); (f64_zero, f64_zero)].
Definition a_feature : feature :=
  (Some 18446744073709551615, VColl (Some [VPoly (Some [a_ring; None]); VPoint (one, tenth); VColl None]),
   Some [(key "a", PInt (-3)); (key "b", PList (Some [PFloat tenth; PNull; PStr (key "x")])); (key "c", PMap None)]).
Example C44_nonvacuous : good_feature (format_g 17) (fun s => s) a_feature /\
  returned a_feature =
  (Some 18446744073709551615,
   VColl (Some [VPoly (Some [Some [(one, tenth); (tenth, one); (f64_zero, f64_zero); (one, tenth)]; None]);
                VPoint (one, tenth); VColl (Some [])]),
   Some [(key "a", PFloat 0xC008000000000000); (key "b", PList (Some [PFloat tenth; PNull; PStr (key "x")])); (key "c", PNull)]).
Proof.
  split; [|vm_compute; reflexivity].
  split; [easy|]. split; [repeat constructor|]. split; [repeat constructor|]. split.
  - repeat (apply Forall_cons; [split; vm_compute; reflexivity|]). apply Forall_nil.
  - apply p_map; [repeat split| |].
    + repeat constructor.
    + apply Forall_cons; [apply p_int; easy|]. apply Forall_cons; [|apply Forall_cons; [apply p_nil_map|apply Forall_nil]].
      apply p_list. apply Forall_cons; [apply p_float; vm_compute; reflexivity|]. repeat constructor.
Qed.
Example C44_nil_nonvacuous : written_ok (format_g 17) (fun s => s) (None, VColl (Some [VPoint (one, tenth); VLine None]), None) /\
  ~ no_nil (VColl (Some [VPoint (one, tenth); VLine None])).
Proof.
  split.
  - split; [exact I|]. split; [repeat constructor|]. split; [|apply p_nil_map].
    repeat (apply Forall_cons; [split; vm_compute; reflexivity|]). apply Forall_nil.
  - intros H. inversion H as [| | | | | | |? F]. inversion F as [|? ? _ F2]. inversion F2 as [|? ? X _]. inversion X.
Qed.

(** ** C45: the argument *)

(** Writing an open ring adds a point to the caller's ring. *)
Theorem C45_refuted : exists m hs m' hs', Forall (valid m) hs /\ ForallOrdPairs disjoint hs /\
  close_headers m hs = (m', hs') /\ map (read m') hs' <> map (read m) hs.
Proof. exact open_ring_grows. Qed.
Print Assumptions C45_refuted.

(** What happens, when the rings do not share memory: the caller's rings are the
    closed ones, every slice apart from them keeps its points. *)
Theorem C45_effect : forall m hs m' hs', Forall (valid m) hs -> ForallOrdPairs disjoint hs ->
  close_headers m hs = (m', hs') ->
  map (read m') hs' = map (fun h => closed_ring (read m h)) hs /\
  (forall h, valid m h -> Forall (fun r => disjoint r h) hs -> read m' h = read m h).
Proof. exact close_effect. Qed.
Print Assumptions C45_effect.

(** Rings cut from one array: the first point of one ring overwrites the first
    point of the next one, in the caller's memory and in the text. *)
Theorem C45_shared_refuted : exists m hs m' hs', Forall (valid m) hs /\
  (forall h h', In h hs -> In h' hs -> h <> h' -> forall i, ~ (h_off h <= i < h_off h + h_len h /\ h_off h' <= i < h_off h' + h_len h')%nat) /\
  close_headers m hs = (m', hs') /\ map (read m') hs' <> map (fun h => closed_ring (read m h)) hs.
Proof. exact shared_rings. Qed.
Print Assumptions C45_shared_refuted.

(** Closed rings are left alone, so writing twice changes nothing more. *)
Theorem C45_closed : forall m hs, Forall (fun h => closed_ring (read m h) = read m h) hs ->
  close_headers m hs = (m, hs).
Proof. exact closed_untouched. Qed.
Print Assumptions C45_closed.

Theorem C45_twice : forall m hs m' hs', Forall (valid m) hs -> ForallOrdPairs disjoint hs ->
  Forall (fun h => Forall (fun p : pt => nn (fst p) /\ nn (snd p)) (read m h)) hs ->
  close_headers m hs = (m', hs') -> close_headers m' hs' = (m', hs').
Proof. exact close_twice. Qed.
Print Assumptions C45_twice.

(** ** C75: arbitrary JSON *)

(** Unmarshal panics on null members. *)
Theorem C75_refuted :
  unmarshal (typed "Feature" [(key "geometry", typed "Point" [(key "coordinates", JNull)])]) = Panic /\
  unmarshal (typed "Feature" [(key "geometry", JObj [(key "type", JNull)])]) = Panic /\
  unmarshal (typed "Feature" [(key "geometry", typed "GeometryCollection" [(key "geometries", JNull)])]) = Panic /\
  unmarshal (typed "Feature" [(key "geometry", typed "GeometryCollection" [(key "geometries", JArr [JNull])])]) = Panic.
Proof. exact null_panics. Qed.
Print Assumptions C75_refuted.

(** They are the only cause, and the recursion ends on every value. *)
Theorem C75_cause : forall j, unmarshal j = Panic -> has_null_member j.
Proof. exact unmarshal_panics. Qed.
Print Assumptions C75_cause.

Theorem C75_total : forall j, unmarshal j <> Err Fuel.
Proof. exact unmarshal_fuel. Qed.
Print Assumptions C75_total.

Example C75_nonvacuous : has_null_member (typed "Feature" [(key "geometry", JObj [(key "type", JNull)])]).
Proof.
  exists [(key "type", JNull)]. split; [|left; now left].
  apply (o_obj _ _ (key "geometry") (JObj [(key "type", JNull)])); [right; now left|constructor].
Qed.

(** ** C76: features without a geometry *)

(** "Geometry can be null" (geojson.go 298): such a feature is read when the
    member is missing, but cannot be written, whatever else it holds, and null is
    refused by the reader. *)
Theorem C76_refuted : (forall fmt coerce id props, enc_feature fmt coerce (id, VNil, props) = Err UnknownGeometry) /\
  unmarshal (typed "Feature" []) = Ok (VFeature (None, VNil, None)) /\
  unmarshal (typed "Feature" [(key "geometry", JNull)]) = Err MissingField.
Proof. exact null_geometry. Qed.
Print Assumptions C76_refuted.
