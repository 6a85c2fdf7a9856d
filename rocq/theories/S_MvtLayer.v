(** * Specification vocabulary for MVT tags, layers and tiles *)
From Coq Require Import ZArith Bool List String Permutation.
From Verif Require Import Base_Res Base_F64 Base_Geom S_Winding M_Mvt S_Mvt M_MvtLayer.
Import ListNotations.
Open Scope Z_scope.

(** Types of attribute values the tile format has no place for. *)
Definition supported (v : tagval) : Prop := v <> VOther.
Definition is_nan_value (v : tagval) : Prop :=
  match v with VF32 w => f32_is_nan w = true | VF64 w => f64_isnan w = true | _ => False end.

Definition is_zero64 (w : f64) : Prop := w = 0 \/ w = 2 ^ 63.
Definition is_zero32 (w : Z) : Prop := w = 0 \/ w = 2 ^ 31.
(** The same value, except that +0 and -0 are not told apart. *)
Definition equal_value (a b : tagval) : Prop :=
  a = b \/
  match a, b with
  | VF64 x, VF64 y => is_zero64 x /\ is_zero64 y
  | VF32 x, VF32 y => is_zero32 x /\ is_zero32 y
  | _, _ => False
  end.

(** float words are words *)
Definition word_value (v : tagval) : Prop :=
  match v with VF32 w => 0 <= w < 2 ^ 32 | VF64 w => 0 <= w < 2 ^ 64 | _ => True end.

(** Reading a feature's tags as the specification (section 4.4) says: pairs of
    an index into the keys and an index into the values. *)
Fixpoint lookup (keys : list string) (vals : list tagval) (tags : list Z) : option (list (string * tagval)) :=
  match tags with
  | [] => Some []
  | [_] => None
  | ki :: vi :: tl =>
      match nth_error keys (Z.to_nat ki), nth_error vals (Z.to_nat vi), lookup keys vals tl with
      | Some k, Some v, Some rest => Some ((k, v) :: rest)
      | _, _, _ => None
      end
  end.
(** The attributes that can be stored: those that are not nil. *)
Definition non_nil (es : entries) : entries :=
  filter (fun kv => match snd kv with VNil => false | _ => true end) es.

Definition small_table {A} (l : list A) : Prop := Z.of_nat (List.length l) <= 2 ^ 32.

(** [fld] holds the value [v]. *)
Definition carries (fld : tile_field) (v : tagval) : Prop :=
  match fld, v with
  | StringValue s, VString t => s = t
  | StringValue s, VStringer t => s = t
  | BoolValue a, VBool b => a = b
  | FloatValue a, VF32 b => a = b
  | DoubleValue a, VF64 b => a = b
  | (IntValue a | UintValue a | SintValue a), VInt _ b => a = b
  | _, _ => False
  end.

Definition names (t : tile) : list string := map l_name t.
Fixpoint somes {A} (l : list (option A)) : list A :=
  match l with [] => [] | Some a :: tl => a :: somes tl | None :: tl => somes tl end.
(** The tile after a history of AddLayers calls. *)
Fixpoint after_calls (t : tile) (calls : list (list (option layer))) : tile :=
  match calls with [] => t | c :: tl => after_calls (fst (add_layers t c)) tl end.

(** Elements at the indexes in [idxs] removed; [i] is the index of the first. *)
Fixpoint without {A} (i : Z) (idxs : list Z) (l : list A) : list A :=
  match l with
  | [] => []
  | x :: tl => if in_dec Z.eq_dec i idxs then without (i + 1) idxs tl else x :: without (i + 1) idxs tl
  end.

(** What becomes of a geometry with integer coordinates in a tile (S_Mvt). *)
Inductive survives : geom f64 -> geom f64 -> Prop :=
| sv_point p : fits [p] -> survives (GPoint (fpt p)) (GPoint (fpt p))
| sv_multipoint ps : ps <> [] -> countable ps -> fits ps ->
    survives (GMultiPoint (map fpt ps)) (fgeom (single_mp ps))
| sv_line l : good_line l -> fits l -> survives (GLineString (map fpt l)) (GLineString (map fpt l))
| sv_lines ls : ls <> [] -> Forall good_line ls -> fits (List.concat ls) ->
    survives (GMultiLineString (map (map fpt) ls)) (fgeom (single_ml ls))
| sv_polygon rs : ok_polygon rs -> steps_fit (0, 0) (List.concat (tile_polygon rs)) ->
    survives (GPolygon (map (map fpt) rs)) (fgeom (GPolygon (tile_polygon rs)))
| sv_polygons pls : pls <> [] -> Forall ok_polygon pls ->
    steps_fit (0, 0) (List.concat (List.concat (map tile_polygon pls))) ->
    survives (GMultiPolygon (map (map (map fpt)) pls)) (fgeom (single_mpoly (map tile_polygon pls))).

Definition feature_survives (f f' : feature) : Prop :=
  f_id f' = f_id f /\ survives (f_geom f) (f_geom f').
Definition layer_survives (l l' : layer) : Prop :=
  l_name l' = l_name l /\ get_extent l' = get_extent l /\
  Forall2 feature_survives (l_features l) (l_features l').

(** Attributes a feature may have. *)
Definition good_tags (es : entries) : Prop :=
  Forall (fun kv => supported (snd kv) /\ word_value (snd kv) /\ ~ is_nan_value (snd kv)) es.

(** A layer that can be put into a tile, with the order in which the second
    pass over each feature's attribute map visits it: attributes of supported
    types without NaN, geometries with integer coordinates, an extent that fits
    uint32, tables of at most 2^32 entries. *)
Definition layer_ready (p : list entries * layer) : Prop :=
  let '(orders, l) := p in
  Forall2 (@Permutation _) (map f_tags (l_features l)) orders /\
  Forall (fun f => good_tags (f_tags f)) (l_features l) /\
  Forall (fun f => exists g', survives (f_geom f) g') (l_features l) /\
  0 <= get_extent l < 2 ^ 32 /\
  forall keys vals, keyval_maps [] [] (map f_tags (l_features l)) = Ok (keys, vals) ->
    small_table keys /\ small_table vals.

