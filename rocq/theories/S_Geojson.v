(** * Specification of GeoJSON encoding *)
From Coq Require Import ZArith Bool List String.
From Verif Require Import Base_F64 Base_Geom Base_Res M_Cmp M_Wkt M_Strconv P_F64Flocq P_F64 M_Geojson M_GeojsonAlias.
Import ListNotations.
Open Scope Z_scope.

(** ** Values *)

(** The coordinates of a geometry. *)
Definition pts_coords (ps : list pt) : list f64 := flat_map (fun p => [fst p; snd p]) ps.
Definition all {A} (s : slice A) : list A := match s with Some l => l | None => [] end.
Fixpoint coordinates (g : gj) : list f64 :=
  match g with
  | VPoint p => pts_coords [p]
  | VMultiPoint s | VLine s => pts_coords (all s)
  | VMultiLine s | VPoly s => flat_map (fun r => pts_coords (all r)) (all s)
  | VMultiPoly s => flat_map (fun pl => flat_map (fun r => pts_coords (all r)) (all pl)) (all s)
  | VColl s => match s with Some l => flat_map coordinates l | None => [] end
  | _ => []
  end.

(** A geometry of one of the seven types, down through the collections. *)
Inductive supported : gj -> Prop :=
| s_point p : supported (VPoint p)
| s_mpoint s : supported (VMultiPoint s)
| s_line s : supported (VLine s)
| s_mline s : supported (VMultiLine s)
| s_poly s : supported (VPoly s)
| s_mpoly s : supported (VMultiPoly s)
| s_none : supported (VColl None)
| s_coll gs : Forall supported gs -> supported (VColl (Some gs)).

(** Nothing but a collection is a nil slice. *)
Inductive no_nil : gj -> Prop :=
| n_point p : no_nil (VPoint p)
| n_mpoint l : no_nil (VMultiPoint (Some l))
| n_line l : no_nil (VLine (Some l))
| n_mline l : no_nil (VMultiLine (Some l))
| n_poly l : no_nil (VPoly (Some l))
| n_mpoly l : no_nil (VMultiPoly (Some l))
| n_none : no_nil (VColl None)
| n_coll gs : Forall no_nil gs -> no_nil (VColl (Some gs)).

(** A ring ends where it starts. *)
Definition closed_ring (r : list pt) : list pt :=
  match r with
  | [] => []
  | p :: r' => if pt_eq p (last r' p) then r else r ++ [p]
  end.
(** The geometry which comes back: the same with closed rings; a nil collection
    comes back empty. *)
Fixpoint closed (g : gj) : gj :=
  let poly := map (option_map closed_ring) in
  match g with
  | VPoly (Some rs) => VPoly (Some (poly rs))
  | VMultiPoly (Some pls) => VMultiPoly (Some (map (option_map poly) pls))
  | VColl None => VColl (Some [])
  | VColl (Some gs) => VColl (Some (map closed gs))
  | _ => g
  end.

(** ** Properties *)

(** The keys of a map are in order, hence distinct. *)
Fixpoint ascending (ks : list (list Z)) : Prop :=
  match ks with
  | k :: ((k' :: _) as ks') => key_cmp k k' = Lt /\ ascending ks'
  | _ => True
  end.

(** What encoding/json can write: finite floats (whose text [fmt] is read as
    the same float) and strings which are valid ([coerce] keeps them), at any
    depth.  Integers of at most 64 bits. *)
Inductive plain (fmt : f64 -> list Z) (coerce : list Z -> list Z) : pval -> Prop :=
| p_null : plain fmt coerce PNull
| p_bool b : plain fmt coerce (PBool b)
| p_float w : f64_finite w = true -> parse_float (fmt w) = Some w -> plain fmt coerce (PFloat w)
| p_int z : - 2 ^ 63 <= z < 2 ^ 64 -> plain fmt coerce (PInt z)
| p_str s : coerce s = s -> plain fmt coerce (PStr s)
| p_nil_list : plain fmt coerce (PList None)
| p_list l : Forall (plain fmt coerce) l -> plain fmt coerce (PList (Some l))
| p_nil_map : plain fmt coerce (PMap None)
| p_map m : ascending (map fst m) -> Forall (fun kv => coerce (fst kv) = fst kv) m ->
            Forall (fun kv => plain fmt coerce (snd kv)) m -> plain fmt coerce (PMap (Some m)).

(** A property as it comes back: an integer is the nearest float64, a nil slice
    or map inside is nil. *)
Fixpoint reread (v : pval) : pval :=
  match v with
  | PInt z => PFloat (Base_F64Arith.f64_ofZ z)
  | PList None | PMap None => PNull
  | PList (Some l) => PList (Some (map reread l))
  | PMap (Some m) => PMap (Some (map (fun kv => (fst kv, reread (snd kv))) m))
  | _ => v
  end.
Definition reread_props (m : pmap) : pmap := option_map (map (fun kv => (fst kv, reread (snd kv)))) m.

Definition good_feature (fmt : f64 -> list Z) (coerce : list Z -> list Z) (f : feature) : Prop :=
  let '(id, g, props) := f in
  (match id with Some n => 0 <= n < 2 ^ 64 | None => True end) /\
  supported g /\ no_nil g /\
  Forall (fun w => f64_finite w = true /\ parse_float (fmt w) = Some w) (coordinates g) /\
  plain fmt coerce (PMap props).
Definition returned (f : feature) : feature :=
  let '(id, g, props) := f in (id, closed g, reread_props props).

(** ** Null members *)

(** [j] occurs in the JSON value. *)
Inductive occurs (j : json) : json -> Prop :=
| o_here : occurs j j
| o_arr l x : In x l -> occurs j x -> occurs j (JArr l)
| o_obj ms k x : In (k, x) ms -> occurs j x -> occurs j (JObj ms).
(** Some object in it has null for its type, coordinates or geometries, or a
    null among its geometries. *)
Definition has_null_member (j : json) : Prop :=
  exists ms, occurs (JObj ms) j /\
    (In (key "type", JNull) ms \/ In (key "coordinates", JNull) ms \/ In (key "geometries", JNull) ms \/
     exists l, In (key "geometries", JArr l) ms /\ In JNull l).

(** ** Memory *)

(** The places a slice may write. *)
Definition owns (h : header) (a i : nat) : Prop := a = h_arr h /\ (h_off h <= i < h_off h + h_cap h)%nat.
Definition disjoint (h h' : header) : Prop := forall a i, owns h a i -> owns h' a i -> False.
(** A slice of the memory. *)
Definition valid (m : memory) (h : header) : Prop :=
  (h_arr h < List.length m)%nat /\ (h_len h <= h_cap h)%nat /\
  (h_off h + h_cap h <= List.length (array m (h_arr h)))%nat.
