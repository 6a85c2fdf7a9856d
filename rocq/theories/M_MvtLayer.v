(** * Model of encoding/mvt: tags, layers and tiles

    A Go string is a Coq [string] (a sequence of bytes).  A Go map is the list
    of its entries in the order one [range] over it visits them; every function
    that ranges over a map takes that order as an argument, so theorems quantify
    over all orders.  Not modelled: protobuf marshalling (the vectorTile structs
    are the boundary), the text of errors, logging. *)
From Coq Require Import ZArith Bool List String.
From Verif Require Import Base_F64 Base_F64Arith Base_Geom Base_Res Base_Bytes M_Winding M_Mvt.
Import ListNotations.
Open Scope Z_scope.

(** Dynamic values of a tag, by the branch of the type switches in feature.go
    378-551 and 609-685 and layer.go 135-189 that they take.  [VStringer s] is a
    value implementing fmt.Stringer whose String() returns [s] (assumed to be a
    function of the value); [VOther] any other non-nil value.  float32 values
    are 32-bit words. *)
Inductive ikind := KInt | KInt8 | KInt16 | KInt32 | KInt64 | KUint | KUint8 | KUint16 | KUint32 | KUint64.
Inductive tagval :=
| VNil
| VString (s : string)
| VStringer (s : string)
| VInt (k : ikind) (z : Z)
| VF32 (w : Z)
| VF64 (w : f64)
| VBool (b : bool)
| VOther.

Definition ikind_eqb (a b : ikind) : bool :=
  match a, b with
  | KInt, KInt | KInt8, KInt8 | KInt16, KInt16 | KInt32, KInt32 | KInt64, KInt64
  | KUint, KUint | KUint8, KUint8 | KUint16, KUint16 | KUint32, KUint32 | KUint64, KUint64 => true
  | _, _ => false
  end.

(** float32 ==, on words: not NaN, and equal or both zero. *)
Definition f32_mag (w : Z) : Z := w mod 2 ^ 31.
Definition f32_is_nan (w : Z) : bool := 0x7F800000 <? f32_mag w.
Definition f32_eq (a b : Z) : bool :=
  negb (f32_is_nan a) && negb (f32_is_nan b) && ((a =? b) || ((f32_mag a =? 0) && (f32_mag b =? 0))).

(** The comparisons in the branches of both type switches: same dynamic branch
    and Go == on the values. *)
Definition same_value (a b : tagval) : bool :=
  match a, b with
  | VString s, VString t => String.eqb s t
  | VStringer s, VStringer t => String.eqb s t
  | VInt k z, VInt k' z' => ikind_eqb k k' && (z =? z')
  | VF32 w, VF32 w' => f32_eq w w'
  | VF64 w, VF64 w' => f64_eq w w'
  | VBool x, VBool y => Bool.eqb x y
  | _, _ => false
  end.

Definition entries : Type := list (string * tagval).

Inductive tag_err := EUnsupported | ENoKey | ENoValue.

(** One turn of the inner loop of keyvalMapsFromFeatures, feature.go 363-569. *)
Definition add_tag (keys : list string) (vals : list tagval) (kv : string * tagval)
  : res tag_err (list string * list tagval) :=
  let '(k, v) := kv in
  let keys := if existsb (String.eqb k) keys then keys else keys ++ [k] in
  match v with
  | VNil => Ok (keys, vals)
  | VOther => Err EUnsupported
  | _ => Ok (keys, if existsb (fun mv => same_value mv v) vals then vals else vals ++ [v])
  end.
Fixpoint add_tags (keys : list string) (vals : list tagval) (es : entries)
  : res tag_err (list string * list tagval) :=
  match es with
  | [] => Ok (keys, vals)
  | kv :: tl => do (keys, vals) <- add_tag keys vals kv; add_tags keys vals tl
  end.
(** keyvalMapsFromFeatures, feature.go 360-573. *)
Fixpoint keyval_maps (keys : list string) (vals : list tagval) (fs : list entries)
  : res tag_err (list string * list tagval) :=
  match fs with
  | [] => Ok (keys, vals)
  | es :: tl => do (keys, vals) <- add_tags keys vals es; keyval_maps keys vals tl
  end.

(** The search loops of keyvalTagsMap: index of the first match. *)
Fixpoint find_index {A} (f : A -> bool) (l : list A) : option nat :=
  match l with
  | [] => None
  | x :: tl => if f x then Some O else option_map S (find_index f tl)
  end.

(** keyvalTagsMap, feature.go 578-702, for a non-nil feature.  With an
    unsupported value the loop fails on the first element of the value table,
    and with an empty table no value is found. *)
Fixpoint keyval_tags (keys : list string) (vals : list tagval) (es : entries) : res tag_err (list Z) :=
  match es with
  | [] => Ok []
  | (k, v) :: tl =>
      match find_index (fun mk => String.eqb mk k) keys with
      | None => Err ENoKey
      | Some ki =>
          match v with
          | VNil => keyval_tags keys vals tl
          | VOther => Err (match vals with [] => ENoValue | _ => EUnsupported end)
          | _ =>
              match find_index (fun mv => same_value mv v) vals with
              | None => Err ENoValue
              | Some vi =>
                  do rest <- keyval_tags keys vals tl;
                  Ok (u32 (Z.of_nat ki) :: u32 (Z.of_nat vi) :: rest)
              end
          end
      end
  end.

(** vectorTile.Tile_Value (vector_tile.pb.go 100-111) as the list of the fields
    that are set. *)
Inductive tile_field :=
| StringValue (s : string) | FloatValue (w : Z) | DoubleValue (w : f64)
| IntValue (z : Z) | UintValue (z : Z) | SintValue (z : Z) | BoolValue (b : bool).
Definition tile_value : Type := list tile_field.

(** vectorTileValue, layer.go 133-192.  binary.Write fails for int and uint
    (their size is not fixed), so the default branch leaves the value empty; for
    [VOther] it may instead set XXX_unrecognized, but such values never get here
    (keyval_maps). *)
Definition vector_tile_value (v : tagval) : tile_value :=
  match v with
  | VString s => [StringValue s]
  | VStringer s => [StringValue s]
  | VBool b => [BoolValue b]
  | VInt KInt8 z | VInt KInt16 z | VInt KInt32 z => [SintValue z]
  | VInt KInt64 z => [IntValue z]
  | VInt KUint8 z | VInt KUint16 z | VInt KUint32 z => [SintValue z]
  | VInt KUint64 z => [UintValue z]
  | VF32 w => [FloatValue w]
  | VF64 w => [DoubleValue w]
  | VInt KInt _ | VInt KUint _ | VNil | VOther => []
  end.

(** ** Features, layers, tiles *)

(** feature.go 28-32; the map in one iteration order. *)
Record feature := Feature { f_id : option Z; f_tags : entries; f_geom : geom f64 }.
(** layer.go 15-22 *)
Record layer := Layer { l_name : string; l_features : list feature; l_extent : option Z }.
(** tile.go 12-14 *)
Definition tile : Type := list layer.

(** layer.go 98-104: a fresh slice. *)
Definition features (l : layer) : list feature := l_features l.
(** layer.go 108-116: [copy] into a new slice of the exact length. *)
Definition add_features (l : layer) (fs : list feature) : layer :=
  Layer (l_name l) (l_features l ++ fs) (l_extent l).
(** layer.go 120-131: the filtered list is computed ([kept]) but never stored
    in the layer. *)
Definition kept_features (l : layer) (idxs : list Z) : list feature :=
  map snd (filter (fun p => negb (existsb (Z.eqb (Z.of_nat (fst p))) idxs))
                  (combine (seq 0 (List.length (l_features l))) (l_features l))).
Definition remove_feature (l : layer) (idxs : list Z) : layer :=
  let features := kept_features l idxs in
  l.
(** layer.go 81-94 *)
Definition default_extent : Z := 4096.
Definition get_extent (l : layer) : Z := match l_extent l with None => default_extent | Some e => e end.
Definition set_extent (l : layer) (e : Z) : layer := Layer (l_name l) (l_features l) (Some e).

(** tile.go 17-35: the tile afterwards and whether an error was returned; a nil
    layer is [None]. *)
Fixpoint add_layers (t : tile) (ls : list (option layer)) : tile * bool :=
  match ls with
  | [] => (t, true)
  | None :: tl => add_layers t tl
  | Some nl :: tl =>
      if existsb (fun l => String.eqb (l_name l) (l_name nl)) t then (t, false)
      else add_layers (t ++ [nl]) tl
  end.

(** vectorTile.Tile_Feature / Tile_Layer: the fields used; pointers to
    scalars are options. *)
Record vt_feature := VtFeature {
  vf_id : option Z; vf_tags : list Z; vf_type : option gtype; vf_geometry : list Z }.
Record vt_layer := VtLayer {
  vl_version : option Z; vl_name : option string; vl_features : list vt_feature;
  vl_keys : list string; vl_values : list tile_value; vl_extent : option Z }.

Inductive tile_err := ETag (e : tag_err) | EGeom (e : mvt_err).
Definition lift_tag {A} (r : res tag_err A) : res tile_err A :=
  match r with Ok a => Ok a | Err e => Err (ETag e) | Panic => Panic end.
Definition lift_geom {A} (r : res mvt_err A) : res tile_err A :=
  match r with Ok a => Ok a | Err e => Err (EGeom e) | Panic => Panic end.

(** VTileFeature, feature.go 70-91; [es] is the order in which keyvalTagsMap
    visits the tags.  [Ok None] is (nil, nil). *)
Definition vtile_feature (keys : list string) (vals : list tagval) (es : entries) (f : feature)
  : res tile_err (option vt_feature) :=
  do tags <- lift_tag (keyval_tags keys vals es);
  do (geo, ty) <- lift_geom (encode_geometry (f_geom f));
  match geo with
  | [] => Ok None
  | _ => Ok (Some (VtFeature (f_id f) tags (Some ty) geo))
  end.
(** The loop of VTileLayer, layer.go 42-61.  The context is never cancelled. *)
Fixpoint vtile_features (keys : list string) (vals : list tagval) (fs : list (entries * feature))
  : res tile_err (list vt_feature) :=
  match fs with
  | [] => Ok []
  | (es, f) :: tl =>
      do vf <- vtile_feature keys vals es f;
      do rest <- vtile_features keys vals tl;
      Ok (match vf with Some x => x :: rest | None => rest end)
  end.
(** VTileLayer, layer.go 33-75.  The first pass over the maps visits [f_tags],
    the second [orders]. *)
Definition vtile_layer (orders : list entries) (l : layer) : res tile_err vt_layer :=
  do (keys, vals) <- lift_tag (keyval_maps [] [] (map f_tags (l_features l)));
  do fs <- vtile_features keys vals (combine orders (l_features l));
  Ok (VtLayer (Some 2) (Some (l_name l)) fs keys (map vector_tile_value vals) (Some (u32 (get_extent l)))).
(** VTile, tile.go 45-63; each layer with its [orders]. *)
Fixpoint vtile (t : list (list entries * layer)) : res tile_err (list vt_layer) :=
  match t with
  | [] => Ok []
  | (orders, l) :: tl =>
      do vl <- vtile_layer orders l;
      do rest <- vtile tl;
      Ok (vl :: rest)
  end.

(** decodeFeature, decode.go 79-85.  A nil geometry with a nil error is
    [GUnknown]. *)
Definition decode_feature (pb : vt_feature) : res mvt_err feature :=
  match vf_type pb with
  | None => Panic
  | Some ty =>
      do g <- decode_geometry ty (vf_geometry pb);
      Ok (Feature (vf_id pb) [] (match g with Some g => g | None => GUnknown end))
  end.
Fixpoint decode_features (pbs : list vt_feature) : res mvt_err (list feature) :=
  match pbs with
  | [] => Ok []
  | pb :: tl => do f <- decode_feature pb; do fs <- decode_features tl; Ok (f :: fs)
  end.
(** decodeLayer, decode.go 63-77: dereferences the optional fields. *)
Definition decode_layer (pb : vt_layer) : res mvt_err layer :=
  match vl_name pb, vl_extent pb with
  | Some name, Some ext =>
      do fs <- decode_features (vl_features pb);
      Ok (Layer name fs (Some ext))
  | _, _ => Panic
  end.
(** DecodeByte after proto.Unmarshal, decode.go 50-60. *)
Fixpoint decode_tile (pbs : list vt_layer) : res mvt_err tile :=
  match pbs with
  | [] => Ok []
  | pb :: tl => do l <- decode_layer pb; do ls <- decode_tile tl; Ok (l :: ls)
  end.
(** TileGeomCollection, decode.go 17-26. *)
Definition tile_geom_collection (t : tile) : geom f64 :=
  GCollection (flat_map (fun l => map f_geom (l_features l)) t).
