(** * Theorems about extents (C16 - C22)

    The models ([new_extent], [contains], [intersect], ...) are in
    [M_Extent.v]; [inside], [box_within], [interior], ... are in [S_Extent.v].
    [num] means "a 64-bit word that is not a NaN"; infinities are allowed
    unless a statement says [finite]. *)
From Coq Require Import ZArith Bool List Reals.
From Verif Require Import Base_F64 Base_F64Arith Base_Geom M_Geom S_Geom P_F64 P_F64Flocq
  M_Extent S_Extent P_Extent P_Extent2.
Import ListNotations.
Open Scope Z_scope.

Definition ex_pts : list (point f64) :=
  [(f64_one, f64_two); (f64_mone, f64_three); (f64_ninf, f64_nzero); (f64_two, f64_mtwo)].
Definition ex_box : extent := Ext f64_one f64_one f64_three f64_three.
Definition ex_box2 : extent := Ext f64_zero f64_mone f64_two f64_two.

(** C16 *)
Theorem C16_new_extent_least : forall ps, Forall num_pt ps -> ps <> [] ->
  exists e, new_extent ps = Some e /\
    (forall p, In p ps -> inside e p) /\
    (exists p1 p2 p3 p4, In p1 ps /\ In p2 ps /\ In p3 ps /\ In p4 ps /\
       e = Ext (fst p1) (snd p2) (fst p3) (snd p4)) /\
    (forall e', (forall p, In p ps -> inside e' p) -> box_within e e').
Proof. exact new_extent_least. Qed.
Print Assumptions C16_new_extent_least.
Theorem C16_new_extent_nil_iff : forall ps, new_extent ps = None <-> ps = [].
Proof. exact new_extent_nil. Qed.
Print Assumptions C16_new_extent_nil_iff.
Example C16_nonvacuous : Forall num_pt ex_pts /\ ex_pts <> [] /\
  new_extent ex_pts = Some (Ext f64_ninf f64_mtwo f64_two f64_three).
Proof. split; [repeat constructor | split; [discriminate | reflexivity]]. Qed.

(** C17: least box above everything added, whatever the history ... *)
Theorem C17_grow_least : forall h e, num_box e -> Forall op_valid h ->
  exists e', fold_left op_run h (Some e) = Some e' /\
    box_within e e' /\
    (forall b, In b (flat_map op_contents h) -> box_within b e') /\
    (forall c, box_within e c -> (forall b, In b (flat_map op_contents h) -> box_within b c) ->
       box_within e' c).
Proof. exact grow_least. Qed.
Print Assumptions C17_grow_least.
(** ... and two histories adding the same things, in any order and any number of
    times, by whatever operations, give the same extent bit for bit. *)
Theorem C17_grow_order_independent : forall h1 h2 e,
  num_box e -> Forall op_valid h1 -> Forall op_valid h2 ->
  (forall b, In b (flat_map op_contents h1) <-> In b (flat_map op_contents h2)) ->
  fold_left op_run h1 (Some e) = fold_left op_run h2 (Some e).
Proof. exact grow_order. Qed.
Print Assumptions C17_grow_order_independent.
Theorem C17_grow_nil : forall h, fold_left op_run h None = None.
Proof. exact grow_nil. Qed.
Print Assumptions C17_grow_nil.
Example C17_nonvacuous :
  let h := [OpPoints ex_pts; OpAdd ex_box; OpGeometry (GCollection [GPolygon [ex_pts]; GPoint (f64_pinf, f64_one)])] in
  num_box ex_box /\ Forall op_valid h /\
  fold_left op_run h (Some ex_box) = Some (Ext f64_ninf f64_mtwo f64_pinf f64_three).
Proof.
  split; [repeat split; reflexivity|]. split; [|reflexivity].
  repeat constructor.
Qed.

(** C18 *)
Theorem C18_contains_is_inclusion : forall e n, nonempty n ->
  contains e n = true <-> (forall p, inside n p -> inside_opt e p).
Proof. exact contains_inclusion. Qed.
Print Assumptions C18_contains_is_inclusion.
Theorem C18_contains_point : forall e p, contains_point e p = true <-> inside_opt e p.
Proof. exact contains_point_inside. Qed.
Print Assumptions C18_contains_point.
Theorem C18_contains_line : forall e l,
  contains_line e l = true <-> inside_opt e (fst l) /\ inside_opt e (snd l).
Proof. exact contains_line_ends. Qed.
Print Assumptions C18_contains_line.
Theorem C18_contains_refl : forall e, num_box e -> contains (Some e) e = true.
Proof. exact contains_refl. Qed.
Print Assumptions C18_contains_refl.
Theorem C18_contains_trans : forall a b c,
  contains a b = true -> contains (Some b) c = true -> contains a c = true.
Proof. exact contains_trans. Qed.
Print Assumptions C18_contains_trans.
Theorem C18_contains_antisym : forall a b,
  contains (Some a) b = true -> contains (Some b) a = true -> box_eq a b.
Proof. exact contains_antisym. Qed.
Print Assumptions C18_contains_antisym.
Theorem C18_nil_contains_all : forall n, contains None n = true.
Proof. exact (fun _ => eq_refl). Qed.
Print Assumptions C18_nil_contains_all.
Example C18_nonvacuous : nonempty ex_box /\ num_box ex_box /\
  contains (Some (Ext f64_ninf f64_one f64_pinf f64_three)) ex_box = true /\
  contains (Some ex_box2) ex_box = false.
Proof. repeat split; reflexivity. Qed.

(** C19.  [interior e x y]: the real point (x, y) is strictly inside [e]. *)
Theorem C19_intersect_members : forall a b r, box_opt a -> box_opt b ->
  intersect a b = (r, true) ->
  forall p, inside_opt r p <-> inside_opt a p /\ inside_opt b p.
Proof. exact intersect_members. Qed.
Print Assumptions C19_intersect_members.
Theorem C19_intersect_false_iff : forall a b, num_box a -> num_box b ->
  snd (intersect (Some a) (Some b)) = false <->
  ~ exists x y : R, interior a x y /\ interior b x y.
Proof. exact intersect_false_iff. Qed.
Print Assumptions C19_intersect_false_iff.
Theorem C19_intersect_comm : forall a b, box_opt a -> box_opt b ->
  snd (intersect a b) = snd (intersect b a) /\ opt_eq (fst (intersect a b)) (fst (intersect b a)).
Proof. exact intersect_comm. Qed.
Print Assumptions C19_intersect_comm.
Example C19_nonvacuous : num_box ex_box /\ num_box ex_box2 /\
  intersect (Some ex_box) (Some ex_box2) = (Some (Ext f64_one f64_one f64_two f64_two), true) /\
  snd (intersect (Some ex_box) (Some (Ext f64_three f64_one f64_pinf f64_two))) = false.
Proof. repeat split; reflexivity. Qed.

(** C20 is false of the code: a geometry other than a Point is contained only if
    the origin is contained as well (the box that is grown starts at 0,0,0,0). *)
Theorem C20_contains_geom_refuted : exists e g,
  num_box e /\ is_universe (Some e) = false /\ unknown_inside g = false /\
  Forall num_pt (coords g) /\
  (forall p, In p (coords g) -> inside e p) /\ contains_geom (Some e) g = Some false.
Proof.
  exists ex_box, (GLineString [(f64_one, f64_two); (f64_three, f64_three)]).
  split; [repeat split; reflexivity|]. split; [reflexivity|]. split; [reflexivity|].
  split; [repeat constructor|]. split; [|reflexivity].
  intros p [<-|[<-|[]]]; repeat split; reflexivity.
Qed.
Print Assumptions C20_contains_geom_refuted.
(** What it computes instead, for every extent and geometry. *)
Theorem C20_contains_geom_exact : forall e g,
  is_universe e = false -> Forall num_pt (coords g) ->
  contains_geom e g =
  if unknown_inside g then None
  else Some (forallb (contains_point e) (coords g) && (is_point g || contains_point e origin)).
Proof. exact contains_geom_exact. Qed.
Print Assumptions C20_contains_geom_exact.

(** C21 (sides compared as float64: NewExtent keeps the first of two zeros of
    different sign, AddPoints the smaller one). *)
Theorem C21_extent_from_geometry : forall g, Forall num_pt (coords g) ->
  match new_extent_from_geometry g with
  | None => unknown_inside g = true
  | Some e => unknown_inside g = false /\ opt_eq e (new_extent (coords g))
  end.
Proof. exact extent_from_geometry. Qed.
Print Assumptions C21_extent_from_geometry.
Theorem C21_extent_from_geometry_nil_iff : forall g,
  new_extent_from_geometry g = Some None <-> unknown_inside g = false /\ coords g = [].
Proof. exact extent_from_geometry_nil. Qed.
Print Assumptions C21_extent_from_geometry_nil_iff.
Example C21_nonvacuous :
  new_extent_from_geometry (GCollection [GLineString []; GPolygon [ex_pts]])
  = Some (Some (Ext f64_ninf f64_mtwo f64_two f64_three)).
Proof. reflexivity. Qed.

(** C22: with rounding and overflow, for finite sides and factors. *)
Theorem C22_scale_by : forall e s, finite_box e -> finite_num s ->
  exists e', scale_by (Some e) s = Some e' /\ nonempty e' /\
    inside e' (f64_mul (e0 e) s, f64_mul (e1 e) s) /\ inside e' (f64_mul (e2 e) s, f64_mul (e3 e) s).
Proof. exact scale_ok. Qed.
Print Assumptions C22_scale_by.
Theorem C22_expand_by : forall e s, finite_box e -> finite_num s ->
  exists e', expand_by (Some e) s = Some e' /\ nonempty e'.
Proof. exact expand_ok. Qed.
Print Assumptions C22_expand_by.
Theorem C22_expand_by_contains : forall e s,
  finite_box e -> nonempty e -> finite_num s -> f64_le f64_zero s = true ->
  exists e', expand_by (Some e) s = Some e' /\ box_within e e'.
Proof. exact expand_contains. Qed.
Print Assumptions C22_expand_by_contains.
Example C22_nonvacuous : finite_box ex_box /\ nonempty ex_box /\ finite_num f64_mtwo /\
  scale_by (Some ex_box) f64_mtwo = Some (Ext (f64_neg 4618441417868443648) (f64_neg 4618441417868443648) f64_mtwo f64_mtwo)
  /\ expand_by (Some ex_box2) f64_one = Some (Ext f64_mone f64_mtwo f64_three f64_three).
Proof. repeat split; vm_compute; reflexivity. Qed.
(** With infinite sides the result can have NaN sides, for which min <= max is
    false. *)
Theorem C22_scale_by_infinite_refuted : exists e s e',
  num_box e /\ nonempty e /\ finite_num s /\ scale_by (Some e) s = Some e' /\ ~ nonempty e'.
Proof.
  exists (Ext f64_ninf f64_zero f64_pinf f64_one), f64_zero. eexists.
  split; [repeat split; reflexivity|]. split; [split; reflexivity|]. split; [split; reflexivity|].
  split; [vm_compute; reflexivity|]. intros [H _]. vm_compute in H. discriminate H.
Qed.
Print Assumptions C22_scale_by_infinite_refuted.
