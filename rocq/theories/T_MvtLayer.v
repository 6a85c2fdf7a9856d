(** * Theorems about MVT attributes, layers and tiles *)
From Coq Require Import ZArith Bool List String Permutation Lia.
From Verif Require Import Base_F64 Base_F64Arith Base_Geom Base_Res Base_Bytes
  M_Winding S_Winding M_Mvt S_Mvt M_MvtLayer S_MvtLayer P_MvtLayer P_MvtLayer2.
Import ListNotations.
Open Scope string_scope.
Open Scope list_scope.
Open Scope Z_scope.

(** ** C12: tag tables

    [maps] are the attribute maps of the features, [first] the orders in which
    the first pass happens to visit them, [order] the order of the second pass
    over one of them. *)

Theorem C12_tags_lossless : forall maps first keys vals,
  Forall2 (@Permutation _) maps first -> keyval_maps [] [] first = Ok (keys, vals) ->
  small_table keys -> small_table vals -> Forall (Forall (fun kv => word_value (snd kv))) maps ->
  forall m order, In m maps -> Permutation m order -> Forall (fun kv => ~ is_nan_value (snd kv)) m ->
  exists tags out, keyval_tags keys vals order = Ok tags /\ lookup keys vals tags = Some out /\
    Forall2 (fun a b => fst a = fst b /\ equal_value (snd a) (snd b)) (non_nil order) out.
Proof. exact tags_lossless. Qed.
Print Assumptions C12_tags_lossless.

(** Neither table holds anything twice. *)
Theorem C12_tables_distinct : forall first keys vals, keyval_maps [] [] first = Ok (keys, vals) ->
  Forall (Forall (fun kv => word_value (snd kv))) first ->
  NoDup keys /\
  forall i j a b, nth_error vals i = Some a -> nth_error vals j = Some b ->
    equal_value a b -> ~ is_nan_value a -> i = j.
Proof. exact values_distinct. Qed.
Print Assumptions C12_tables_distinct.

Theorem C12_tables_tight : forall first keys vals, keyval_maps [] [] first = Ok (keys, vals) ->
  (forall k, In k keys <-> exists es v, In es first /\ In (k, v) es) /\
  (forall v, In v vals -> exists es k, In es first /\ In (k, v) es).
Proof. exact tables_tight. Qed.
Print Assumptions C12_tables_tight.

Theorem C12_tables_built_iff : forall first,
  (exists tables, keyval_maps [] [] first = Ok tables) <->
  Forall (Forall (fun kv => supported (snd kv))) first.
Proof. exact (fun first => keyval_maps_total first [] []). Qed.
Print Assumptions C12_tables_built_iff.

(** A NaN attribute can never be found again: the feature cannot be encoded. *)
Theorem C12_nan_refuted : forall keys vals es k v, is_nan_value v -> In (k, v) es ->
  forall tags, keyval_tags keys vals es <> Ok tags.
Proof. exact tags_need_no_nan. Qed.
Print Assumptions C12_nan_refuted.

Example C12_nonvacuous :
  let m1 := [("name", VString "x"); ("n", VInt KInt8 3); ("none", VNil)] in
  let m2 := [("n", VInt KInt64 3); ("name", VString "x"); ("f", VF64 f64_one)] in
  exists keys vals tags,
  keyval_maps [] [] [m1; rev m2] = Ok (keys, vals) /\
  keys = ["name"; "n"; "none"; "f"] /\
  vals = [VString "x"; VInt KInt8 3; VF64 f64_one; VInt KInt64 3] /\
  keyval_tags keys vals m2 = Ok tags /\ tags = [1; 3; 0; 0; 3; 2] /\
  lookup keys vals tags = Some m2 /\
  is_nan_value (VF64 f64_nan).
Proof. do 3 eexists. repeat split. Qed.

(** ** C59: values *)

Theorem C59_value_kept : forall v, supported v -> v <> VNil ->
  (forall z, v <> VInt KInt z) -> (forall z, v <> VInt KUint z) ->
  exists fld, vector_tile_value v = [fld] /\ carries fld v.
Proof. exact value_kept. Qed.
Print Assumptions C59_value_kept.

(** The values of type int and uint are accepted but written as empty values. *)
Theorem C59_int_lost_refuted : forall z,
  supported (VInt KInt z) /\ supported (VInt KUint z) /\
  vector_tile_value (VInt KInt z) = [] /\ vector_tile_value (VInt KUint z) = [].
Proof. exact int_lost. Qed.
Print Assumptions C59_int_lost_refuted.

Example C59_nonvacuous :
  vector_tile_value (VInt KUint8 200) = [SintValue 200] /\ carries (SintValue 200) (VInt KUint8 200).
Proof. split; reflexivity. Qed.

(** ** C13: layer names *)

Theorem C13_names_distinct : forall calls, NoDup (names (after_calls [] calls)).
Proof. exact (fun calls => history_distinct calls [] (NoDup_nil _)). Qed.
Print Assumptions C13_names_distinct.

(** One call: on success every non-nil layer has been appended; otherwise those
    before the first one whose name was taken. *)
Theorem C13_add_layers : forall ls t,
  (snd (add_layers t ls) = true -> fst (add_layers t ls) = t ++ somes ls) /\
  (snd (add_layers t ls) = false -> exists pre nl post, ls = pre ++ Some nl :: post /\
     fst (add_layers t ls) = t ++ somes pre /\ In (l_name nl) (names (t ++ somes pre))) /\
  (NoDup (names t) -> NoDup (names (fst (add_layers t ls)))) /\
  (NoDup (names t) -> (snd (add_layers t ls) = true <-> NoDup (names (t ++ somes ls)))).
Proof. exact add_layers_shape. Qed.
Print Assumptions C13_add_layers.

Example C13_nonvacuous :
  let a := Layer "a" [] None in let b := Layer "b" [] None in let c := Layer "c" [] None in
  names (after_calls [] [[Some a; None; Some b]; [Some c; Some a; Some b]; []]) = ["a"; "b"; "c"] /\
  snd (add_layers [a] [Some b; Some a]) = false.
Proof. split; reflexivity. Qed.

(** Tiles that come from the decoder may hold duplicates. *)
Theorem C13_decoded_tile_refuted : exists vls t, decode_tile vls = Ok t /\ ~ NoDup (names t).
Proof. exact decoded_duplicates. Qed.
Print Assumptions C13_decoded_tile_refuted.

(** ** C14: feature list operations *)

Theorem C14_features_after : forall l fs, features (add_features l fs) = features l ++ fs /\
  get_extent (add_features l fs) = get_extent l /\ l_name (add_features l fs) = l_name l.
Proof. exact add_features_exact. Qed.
Print Assumptions C14_features_after.

(** RemoveFeature removes nothing. *)
Theorem C14_remove_refuted : exists l idxs,
  features (remove_feature l idxs) <> without 0 idxs (features l).
Proof. exact remove_feature_keeps. Qed.
Print Assumptions C14_remove_refuted.

Theorem C14_remove_exact : forall l idxs, remove_feature l idxs = l.
Proof. exact (fun _ _ => eq_refl). Qed.
Print Assumptions C14_remove_exact.

(** The list it computes and drops would have been right. *)
Theorem C14_kept_list_right : forall l idxs, kept_features l idxs = without 0 idxs (features l).
Proof. exact (fun l idxs => kept_without idxs (l_features l) 0). Qed.
Print Assumptions C14_kept_list_right.

Example C14_nonvacuous : without 0 [1; 7] ["a"; "b"; "c"] = ["a"; "c"].
Proof. reflexivity. Qed.

(** ** C63: whole tiles survive *)

Theorem C63_tile_roundtrip : forall t, Forall layer_ready t ->
  exists vls t', vtile t = Ok vls /\ decode_tile vls = Ok t' /\ Forall2 layer_survives (map snd t) t'.
Proof. exact tile_roundtrip. Qed.
Print Assumptions C63_tile_roundtrip.

(** Attributes never come back: the decoder ignores the tags. *)
Theorem C63_attributes_refuted : forall vls t, decode_tile vls = Ok t ->
  Forall (fun l => Forall (fun f => f_tags f = []) (l_features l)) t.
Proof. exact decode_tile_tags. Qed.
Print Assumptions C63_attributes_refuted.

(** TileGeomCollection: the geometry of every feature of every layer, in order. *)
Theorem C63_geom_collection : forall t, exists gs, tile_geom_collection t = GCollection gs /\
  List.length gs = list_sum (map (fun l => List.length (l_features l)) t) /\
  forall t1 l t2 fs1 f fs2, t = t1 ++ l :: t2 -> l_features l = fs1 ++ f :: fs2 ->
    nth_error gs (list_sum (map (fun l => List.length (l_features l)) t1) + List.length fs1)%nat = Some (f_geom f).
Proof. exact collection_all. Qed.
Print Assumptions C63_geom_collection.

Example C63_nonvacuous :
  let f1 := Feature (Some 7) [("k", VString "v"); ("n", VInt KInt32 5)] (GPoint (fpt (25, 17))) in
  let f2 := Feature None [("n", VInt KInt32 5)] (GLineString (map fpt [(2, 2); (2, 10); (10, 10)])) in
  let l := Layer "roads" [f1; f2] (Some 512) in
  let t := [([rev (f_tags f1); f_tags f2], l)] in
  Forall layer_ready t /\
  vtile t = Ok [VtLayer (Some 2) (Some "roads")
    [VtFeature (Some 7) [1; 1; 0; 0] (Some Tile_POINT) [9; 50; 34];
     VtFeature None [1; 1] (Some Tile_LINESTRING) [9; 4; 4; 18; 0; 16; 16; 0]]
    ["k"; "n"] [[StringValue "v"]; [SintValue 5]] (Some 512)].
Proof.
  cbv zeta. split; [|vm_compute; reflexivity].
  constructor; [|constructor]. cbn [layer_ready l_features f_tags map f_geom].
  split; [|split; [|split; [|split]]].
  - constructor; [apply Permutation_rev|]. constructor; [apply Permutation_refl | constructor].
  - unfold good_tags, supported. repeat constructor; cbn; try discriminate; tauto.
  - constructor; [|constructor; [|constructor]].
    + eexists. apply sv_point. split; [cbn; unfold int32; lia|]. repeat constructor; cbn; lia.
    + eexists. apply (sv_line [(2, 2); (2, 10); (10, 10)]); [split; [cbn; lia | reflexivity]|].
      split; [cbn; unfold int32; lia|]. repeat constructor; cbn; lia.
  - cbn. lia.
  - intros keys vals H. injection H as <- <-. split; cbn; unfold small_table; cbn; lia.
Qed.

(** ** C64: decoding tiles with optional fields missing *)

(** extent and type are optional in the tile schema; leaving one out crashes the
    decoder. *)
Theorem C64_optional_fields_refuted :
  (exists l, vl_name l <> None /\ vl_extent l = None /\ decode_tile [l] = Panic) /\
  (exists l, vl_name l <> None /\ vl_extent l <> None /\
     (exists f, vl_features l = [f] /\ vf_type f = None) /\ decode_tile [l] = Panic).
Proof. exact decode_tile_panics. Qed.
Print Assumptions C64_optional_fields_refuted.

(** Nothing else crashes it, apart from the geometries of C15. *)
Theorem C64_panic_cases : forall vls, decode_tile vls = Panic ->
  exists l, In l vls /\ (vl_name l = None \/ vl_extent l = None \/
    exists f, In f (vl_features l) /\
      match vf_type f with None => True | Some ty => decode_geometry ty (vf_geometry f) = Panic end).
Proof. exact decode_tile_panic_cases. Qed.
Print Assumptions C64_panic_cases.
