(** * Model of encoding/geojson

    JSON values instead of JSON text: the text layer of encoding/json (its
    parser, printer and string escapes) is not modelled, its rules for filling Go
    values are.  A number is the text of its literal.  [fmt] is the text
    encoding/json writes for a finite float64 and [coerce] what a string becomes
    when it is written and read back (invalid UTF-8 is replaced).  A slice is
    [None] when nil.  Go maps are lists of entries in key order.  Writing closes
    the rings of its argument; M_GeojsonAlias models what that does to the
    caller's memory, here the rings share no memory. *)
From Coq Require Import ZArith Bool List String.
From Verif Require Import Base_F64 Base_Geom Base_Res Base_Bytes M_Extent M_Cmp M_Gpkg M_Wkt M_Strconv.
Import ListNotations.
Open Scope Z_scope.

Inductive json :=
| JNull | JBool (b : bool) | JNum (lit : list Z) | JStr (s : list Z)
| JArr (l : list json) | JObj (l : list (list Z * json)).

Definition slice (A : Type) : Type := option (list A).

(** A value of a property: a nil interface, a bool, a float64, an integer of any
    type, a string, a slice or a map with string keys. *)
Inductive pval :=
| PNull | PBool (b : bool) | PFloat (w : f64) | PInt (z : Z) | PStr (s : list Z)
| PList (l : slice pval) | PMap (m : option (list (list Z * pval))).
Notation pmap := (option (list (list Z * pval))).

(** geom.Geometry values, by the case of geojson.go 223-282 which they meet.
    [VFeature] and [VFC] are the types of this package ([ID], [Geometry] and
    [Properties] of a feature, geojson.go 295-302, 314-317).  [VNil]: nil, or
    any other type.  [VNilPtr]: a nil pointer to a type with one of the
    interfaces. *)
Inductive gj :=
| VPoint (p : pt) | VMultiPoint (ps : slice pt) | VLine (ps : slice pt)
| VMultiLine (ls : slice (slice pt)) | VPoly (rs : slice (slice pt))
| VMultiPoly (pls : slice (slice (slice pt))) | VColl (gs : slice gj)
| VFeature (f : option Z * gj * pmap) | VFC (fs : slice (option Z * gj * pmap))
| VNil | VNilPtr.
Notation feature := (option Z * gj * pmap)%type.

Inductive gj_err := UnknownGeometry | UnsupportedValue | MissingField | Mismatch
                  | InvalidGeoJSON | UnknownFeatureType | Fuel.

Section MapM.
  Context {A B : Type} (f : A -> res gj_err B).
  Fixpoint map_m (l : list A) : res gj_err (list B) :=
    match l with
    | [] => Ok []
    | x :: l' => do y <- f x; do ys <- map_m l'; Ok (y :: ys)
    end.
End MapM.

Fixpoint bytes_eq (a b : list Z) : bool :=
  match a, b with
  | [], [] => true
  | x :: a', y :: b' => (x =? y) && bytes_eq a' b'
  | _, _ => false
  end.
Definition key (s : string) : list Z := str s.

(** geojson.go 326-337: a ring with its first point again at the end.  Go's [!=] *)
Definition close_ring (r : slice pt) : slice pt :=
  match r with
  | Some (p :: r') => if pt_eq p (last r' p) then r else Some (p :: r' ++ [p])
  | _ => r
  end.
Definition close_polygon (rs : slice (slice pt)) : slice (slice pt) := option_map (map close_ring) rs.

(** ** Writing *)
Section Encode.
  Variable fmt : f64 -> list Z.
  Variable coerce : list Z -> list Z.

  (** encoding/json: an error for NaN and the infinities *)
  Definition enc_num (w : f64) : res gj_err json :=
    if f64_isnan w || f64_isinf w then Err UnsupportedValue else Ok (JNum (fmt w)).
  Definition enc_pt (p : pt) : res gj_err json :=
    do x <- enc_num (fst p); do y <- enc_num (snd p); Ok (JArr [x; y]).
  Definition enc_slice {A} (enc : A -> res gj_err json) (s : slice A) : res gj_err json :=
    match s with
    | None => Ok JNull
    | Some l => do js <- map_m enc l; Ok (JArr js)
    end.

  (** strconv.AppendUint, AppendInt *)
  Definition fmt_uint (n : Z) : list Z := if n =? 0 then [48] else map char (digits n).
  Definition fmt_int (z : Z) : list Z := if z <? 0 then 45 :: fmt_uint (- z) else fmt_uint z.

  (** encoding/json for a property *)
  Fixpoint enc_pval (v : pval) : res gj_err json :=
    match v with
    | PNull => Ok JNull
    | PBool b => Ok (JBool b)
    | PFloat w => enc_num w
    | PInt z => Ok (JNum (fmt_int z))
    | PStr s => Ok (JStr (coerce s))
    | PList None => Ok JNull
    | PList (Some l) => do js <- map_m enc_pval l; Ok (JArr js)
    | PMap None => Ok JNull
    | PMap (Some m) =>
        do js <- map_m (fun kv => match kv with (k, v) => do j <- enc_pval v; Ok (coerce k, j) end) m; Ok (JObj js)
    end.
  Definition enc_props (m : pmap) : res gj_err json := enc_pval (PMap m).

  Definition typed (t : string) (rest : list (list Z * json)) : json := JObj ((key "type", JStr (key t)) :: rest).
  Definition with_coords (t : string) (c : res gj_err json) : res gj_err json :=
    do j <- c; Ok (typed t [(key "coordinates", j)]).

  (** geojson.go 213-283.  A slice in an interface field is never "empty", so
      omitempty on Coords omits nothing; on Geometries it does. *)
  Fixpoint enc_geometry (g : gj) : res gj_err json :=
    match g with
    | VPoint p => with_coords "Point" (enc_pt p)
    | VMultiPoint ps => with_coords "MultiPoint" (enc_slice enc_pt ps)
    | VLine ps => with_coords "LineString" (enc_slice enc_pt ps)
    | VMultiLine ls => with_coords "MultiLineString" (enc_slice (enc_slice enc_pt) ls)
    | VPoly rs => with_coords "Polygon" (enc_slice (enc_slice enc_pt) (close_polygon rs))
    | VMultiPoly pls =>
        with_coords "MultiPolygon" (enc_slice (enc_slice (enc_slice enc_pt)) (option_map (map close_polygon) pls))
    | VColl (Some (g1 :: gs)) =>
        do js <- map_m enc_geometry (g1 :: gs);
        Ok (typed "GeometryCollection" [(key "geometries", JArr js)])
    | VColl _ => Ok (typed "GeometryCollection" [])
    | VNilPtr => Panic
    | VFeature _ | VFC _ | VNil => Err UnknownGeometry
    end.

  (** geojson.go 287-302: the fields of Feature in order, a nil ID is left out *)
  Definition enc_feature (f : feature) : res gj_err json :=
    let '(id, g, props) := f in
    do jg <- enc_geometry g;
    do jp <- enc_props props;
    Ok (typed "Feature"
          ((match id with Some n => [(key "id", JNum (fmt_uint n))] | None => [] end) ++
           [(key "geometry", jg); (key "properties", jp)])).
  (** geojson.go 304-317 *)
  Definition enc_fc (fs : slice feature) : res gj_err json :=
    do j <- enc_slice enc_feature fs; Ok (typed "FeatureCollection" [(key "features", j)]).

  (** geojson.go 125-144 *)
  Definition is_geom (g : gj) : bool :=
    match g with VFeature _ | VFC _ | VNil => false | _ => true end.

  (** Marshal of a Feature, a FeatureCollection or a geometry, geojson.go 53-80 *)
  Definition marshal (v : gj) : res gj_err json :=
    match v with
    | VFeature f => enc_feature f
    | VFC fs => enc_fc fs
    | _ => if is_geom v then enc_feature (None, v, None) else Err UnknownGeometry
    end.
  (** Marshal of a Geometry, geojson.go 57-58 *)
  Definition marshal_geometry (g : gj) : res gj_err json := enc_feature (None, g, None).
  (** Marshal of a slice of geometries, geojson.go 66-77 *)
  Definition marshal_slice (gs : list gj) : res gj_err json :=
    if forallb is_geom gs then enc_fc (Some (map (fun g => (None, g, None)) gs)) else Err UnknownGeometry.
End Encode.

(** ** Reading *)

(** A number read into a float64; null leaves the zero it finds. *)
Definition dec_num (j : json) : res gj_err f64 :=
  match j with
  | JNull => Ok f64_zero
  | JNum lit => match parse_float lit with Some w => Ok w | None => Err Mismatch end
  | _ => Err Mismatch
  end.
(** An array read into a [2]float64: missing elements are zero, further
    elements are skipped. *)
Definition dec_pt (j : json) : res gj_err pt :=
  match j with
  | JNull | JArr [] => Ok (f64_zero, f64_zero)
  | JArr [x] => do a <- dec_num x; Ok (a, f64_zero)
  | JArr (x :: y :: _) => do a <- dec_num x; do b <- dec_num y; Ok (a, b)
  | _ => Err Mismatch
  end.
Definition dec_slice {A} (dec : json -> res gj_err A) (j : json) : res gj_err (slice A) :=
  match j with
  | JNull => Ok None
  | JArr l => do xs <- map_m dec l; Ok (Some xs)
  | _ => Err Mismatch
  end.

(** The entry of a map[string]*json.RawMessage: of equal keys the last. *)
Fixpoint get (k : list Z) (ms : list (list Z * json)) : option json :=
  match ms with
  | [] => None
  | (k', v) :: ms' => match get k ms' with
                      | Some v' => Some v'
                      | None => if bytes_eq k k' then Some v else None
                      end
  end.
(** decodeField, geojson.go 339-347: the pointer of a null member is nil, and
    [*g] panics. *)
Definition field {A} (k : string) (ms : list (list Z * json)) (dec : json -> res gj_err A) : res gj_err A :=
  match get (key k) ms with
  | None => Err MissingField
  | Some JNull => Panic
  | Some j => dec j
  end.
Definition dec_type (j : json) : res gj_err (list Z) :=
  match j with JStr s => Ok s | _ => Err Mismatch end.

(** A name of a struct field is matched without regard to case (only ASCII
    letters are folded here). *)
Definition lower (b : Z) : Z := if (65 <=? b) && (b <=? 90) then b + 32 else b.
Definition named (s : string) (k : list Z) : bool := bytes_eq (key s) (map lower k).

(** strconv.ParseUint(lit, 10, 64), for ID *uint64 *)
Definition parse_uint (lit : list Z) : option Z :=
  match span_digits lit with
  | (d :: ds, []) => let n := value (d :: ds) in if n <? 2 ^ 64 then Some n else None
  | _ => None
  end.
Definition dec_id (j : json) : option (option Z) :=
  match j with
  | JNull => Some None
  | JNum lit => match parse_uint lit with Some n => Some (Some n) | None => None end
  | _ => None
  end.

Fixpoint key_cmp (a b : list Z) : comparison :=
  match a, b with
  | [], [] => Eq
  | [], _ :: _ => Lt
  | _ :: _, [] => Gt
  | x :: a', y :: b' => match x ?= y with Eq => key_cmp a' b' | c => c end
  end.
(** m[k] = v *)
Fixpoint put (k : list Z) (v : pval) (m : list (list Z * pval)) : list (list Z * pval) :=
  match m with
  | [] => [(k, v)]
  | (k', v') :: m' => match key_cmp k k' with
                      | Lt => (k, v) :: m
                      | Eq => (k, v) :: m'
                      | Gt => (k', v') :: put k v m'
                      end
  end.
(** encoding/json into an empty interface; [None] for a number out of range *)
Fixpoint dec_pval (j : json) : option pval :=
  match j with
  | JNull => Some PNull
  | JBool b => Some (PBool b)
  | JNum lit => match parse_float lit with Some w => Some (PFloat w) | None => None end
  | JStr s => Some (PStr s)
  | JArr l =>
      match (fix go (l : list json) : option (list pval) :=
               match l with
               | [] => Some []
               | x :: l' => match dec_pval x, go l' with Some v, Some vs => Some (v :: vs) | _, _ => None end
               end) l with
      | Some vs => Some (PList (Some vs))
      | None => None
      end
  | JObj ms =>
      match (fix go (ms : list (list Z * json)) (m : list (list Z * pval)) : option (list (list Z * pval)) :=
               match ms with
               | [] => Some m
               | (k, x) :: ms' => match dec_pval x with Some v => go ms' (put k v m) | None => None end
               end) ms [] with
      | Some m => Some (PMap (Some m))
      | None => None
      end
  end.
(** Into map[string]interface{}: null makes it nil, an object adds to the map
    which is there. *)
Definition dec_props (old : pmap) (j : json) : option pmap :=
  match j with
  | JNull => Some None
  | JObj ms =>
      match dec_pval j with
      | Some (PMap (Some m)) =>
          Some (Some (fold_left (fun o kv => put (fst kv) (snd kv) o) m (match old with Some o => o | None => [] end)))
      | _ => None
      end
  | _ => None
  end.

Section Feature.
  (** UnmarshalJSON of the geometry *)
  Variable geo : json -> res gj_err gj.

  (** encoding/json into a Feature.  A mismatch in the ID or the properties is
      noted ([bad]) and reading goes on; an error from UnmarshalJSON ends it.
      Type accepts any value (292, 309). *)
  Fixpoint dec_members (ms : list (list Z * json)) (f : feature) (bad : bool) : res gj_err feature :=
    match ms with
    | [] => if bad then Err Mismatch else Ok f
    | (k, v) :: ms' =>
        let '(id, g, props) := f in
        if named "id" k then
          match dec_id v with
          | Some id' => dec_members ms' (id', g, props) bad
          | None => dec_members ms' f true
          end
        else if named "geometry" k then
          do g' <- geo v; dec_members ms' (id, g', props) bad
        else if named "properties" k then
          match dec_props props v with
          | Some props' => dec_members ms' (id, g, props') bad
          | None => dec_members ms' f true
          end
        else dec_members ms' f bad
    end.
  Definition no_feature : feature := (None, VNil, None).
  Definition dec_feature (j : json) : res gj_err feature :=
    match j with
    | JNull => Ok no_feature
    | JObj ms => dec_members ms no_feature false
    | _ => Err Mismatch
    end.

  (** Into a FeatureCollection.  Simplified: a second member "features" replaces
      the first (encoding/json reads it over the features which are there), and
      the first mismatch ends the reading. *)
  Fixpoint dec_collection (ms : list (list Z * json)) (fs : slice feature) : res gj_err (slice feature) :=
    match ms with
    | [] => Ok fs
    | (k, v) :: ms' =>
        if named "features" k then do fs' <- dec_slice dec_feature v; dec_collection ms' fs'
        else dec_collection ms' fs
    end.
  Definition dec_fc (j : json) : res gj_err (slice feature) :=
    match j with
    | JNull => Ok None
    | JObj ms => dec_collection ms None
    | _ => Err Mismatch
    end.
End Feature.

(** Geometry.UnmarshalJSON, geojson.go 352-446.  [n] bounds the nesting. *)
Fixpoint dec_geometry (n : nat) (j : json) : res gj_err gj :=
  match n with
  | O => Err Fuel
  | S n =>
      match j with
      | JNull => Err MissingField
      | JObj ms =>
          do t <- field "type" ms dec_type;
          if bytes_eq t (key "Point") then do p <- field "coordinates" ms dec_pt; Ok (VPoint p)
          else if bytes_eq t (key "Polygon") then
            do c <- field "coordinates" ms (dec_slice (dec_slice dec_pt)); Ok (VPoly c)
          else if bytes_eq t (key "LineString") then
            do c <- field "coordinates" ms (dec_slice dec_pt); Ok (VLine c)
          else if bytes_eq t (key "MultiPoint") then
            do c <- field "coordinates" ms (dec_slice dec_pt); Ok (VMultiPoint c)
          else if bytes_eq t (key "MultiLineString") then
            do c <- field "coordinates" ms (dec_slice (dec_slice dec_pt)); Ok (VMultiLine c)
          else if bytes_eq t (key "MultiPolygon") then
            do c <- field "coordinates" ms (dec_slice (dec_slice (dec_slice dec_pt))); Ok (VMultiPoly c)
          else if bytes_eq t (key "GeometryCollection") then
            match get (key "geometries") ms with
            | None => Ok (VColl (Some []))
            | Some JNull => Panic
            | Some (JArr l) =>
                do gs <- map_m (fun v => match v with JNull => Panic | _ => dec_geometry n v end) l;
                Ok (VColl (Some gs))
            | Some _ => Err Mismatch
            end
          else if bytes_eq t (key "Feature") then do f <- dec_feature (dec_geometry n) j; Ok (VFeature f)
          else if bytes_eq t (key "FeatureCollection") then do fs <- dec_fc (dec_geometry n) j; Ok (VFC fs)
          else Err InvalidGeoJSON
      | _ => Err Mismatch
      end
  end.

Fixpoint json_size (j : json) : nat :=
  match j with
  | JArr l => S (list_sum (map json_size l))
  | JObj ms => S (list_sum (map (fun kv => json_size (snd kv)) ms))
  | _ => 1%nat
  end.

(** The string member "type" of the value, geojson.go 102-107: null and absent
    members leave it empty; of several the last. *)
Fixpoint top_type (ms : list (list Z * json)) (t : list Z) : res gj_err (list Z) :=
  match ms with
  | [] => Ok t
  | (k, v) :: ms' =>
      if named "type" k then
        match v with
        | JStr s => top_type ms' s
        | JNull => top_type ms' t
        | _ => Err Mismatch
        end
      else top_type ms' t
  end.

(** Unmarshal, geojson.go 101-123 *)
Definition unmarshal (j : json) : res gj_err gj :=
  match j with
  | JNull => Err UnknownFeatureType
  | JObj ms =>
      do t <- top_type ms [];
      let geo := dec_geometry (S (json_size j)) in
      if named "feature" t then do f <- dec_feature geo j; Ok (VFeature f)
      else if named "featurecollection" t then do fs <- dec_fc geo j; Ok (VFC fs)
      else Err UnknownFeatureType
  | _ => Err Mismatch
  end.
