(** * Theorems about comparison *)
From Coq Require Import ZArith Bool List Permutation Reals.
From Verif Require Import Base_F64 Base_F64Arith Base_Geom Base_Res M_Extent S_Geom M_Cmp S_Cmp
  P_F64Flocq P_Cmp P_CmpR P_Cmp2 P_Cmp3.
Import ListNotations.
Open Scope Z_scope.

(** ** C26: comparing floats *)

Theorem C26_reflexive : forall c f,
  f64_lt f64_zero (tol c) = true -> 0 < bit_tol c -> cmp_float c f f = true.
Proof. exact float_reflexive. Qed.
Print Assumptions C26_reflexive.

Theorem C26_symmetric : forall c a b,
  - 2 ^ 63 < bit_tol c < 2 ^ 63 -> cmp_float c a b = cmp_float c b a.
Proof. exact float_symmetric. Qed.
Print Assumptions C26_symmetric.

(** An infinity equals itself and nothing else. *)
Theorem C26_infinite : forall c a b,
  f64_isinf a = true \/ f64_isinf b = true -> (cmp_float c a b = true <-> a = b).
Proof. exact float_infinite. Qed.
Print Assumptions C26_infinite.

(** Equal values (0 and -0 included) compare equal. *)
Theorem C26_same_value : forall c a b,
  f64_lt f64_zero (tol c) = true -> 0 < bit_tol c ->
  f64_wf a = true -> f64_wf b = true -> f64_eq a b = true -> cmp_float c a b = true.
Proof. exact float_same. Qed.
Print Assumptions C26_same_value.

(** Exactly: fewer than [bit_tol] floats apart; never across zero. *)
Theorem C26_same_sign : forall c a b, - 2 ^ 63 < bit_tol c < 2 ^ 63 ->
  finite_nonzero a -> finite_nonzero b -> f64_sign a = f64_sign b ->
  cmp_float c a b = (Z.abs (f64_key b - f64_key a) <? bit_tol c).
Proof. exact float_same_sign. Qed.
Print Assumptions C26_same_sign.

Theorem C26_opposite_sign : forall c a b, 0 < bit_tol c <= 2 ^ 52 ->
  finite_nonzero a -> finite_nonzero b -> f64_sign a <> f64_sign b ->
  cmp_float c a b = false.
Proof. exact float_opposite_sign. Qed.
Print Assumptions C26_opposite_sign.

(** In terms of the real values: equal implies relatively close, relatively
    close implies equal. *)
Theorem C26_equal_is_close : forall c a b, 0 < bit_tol c <= 2 ^ 52 ->
  finite_nonzero a -> finite_nonzero b -> cmp_float c a b = true ->
  (Rabs (f64_R a - f64_R b) <= IZR (bit_tol c) * / 2 ^ 52 * Rmax (Rabs (f64_R a)) (Rabs (f64_R b)) \/
   Rabs (f64_R a - f64_R b) < IZR (bit_tol c) * / 2 ^ 1074)%R.
Proof. exact float_equal_close. Qed.
Print Assumptions C26_equal_is_close.

Theorem C26_close_is_equal : forall c a b, 1 < bit_tol c < 2 ^ 63 ->
  finite_nonzero a -> finite_nonzero b -> f64_sign a = f64_sign b ->
  (Rabs (f64_R a - f64_R b) * 2 ^ 53 <= IZR (bit_tol c - 1) * Rmin (Rabs (f64_R a)) (Rabs (f64_R b)))%R ->
  cmp_float c a b = true.
Proof. exact float_close_equal. Qed.
Print Assumptions C26_close_is_equal.

(** Not a difference below the tolerance: 1e-300 and 2e-300 differ under the
    default tolerance 1e-6. *)
Theorem C26_within_tolerance_refuted : exists c a b,
  c = new_compare micro /\ finite_nonzero a /\ finite_nonzero b /\
  f64_lt (f64_abs (f64_sub b a)) (tol c) = true /\ cmp_float c a b = false.
Proof.
  exact (ex_intro _ default_compare (ex_intro _ tiny1 (ex_intro _ tiny2
    (conj eq_refl (conj (conj eq_refl (conj eq_refl (conj eq_refl eq_refl)))
      (conj (conj eq_refl (conj eq_refl (conj eq_refl eq_refl))) within_tolerance_differs)))))).
Qed.
Print Assumptions C26_within_tolerance_refuted.

(** FloatSlice ignores order. *)
Theorem C26_slice_order : forall S c, positive c -> forall a b, sorting S -> Permutation a b ->
  Forall (fun x => f64_wf x = true) a -> Forall (fun x => f64_isnan x = false) a ->
  float_slice S c a b = true.
Proof. exact floatslice_order. Qed.
Print Assumptions C26_slice_order.

Example C26_nonvacuous :
  positive (new_compare micro) /\ bit_tol (new_compare micro) = 4503599627 /\
  finite_nonzero f64_three /\ finite_nonzero (f64_three + 5) /\
  cmp_float (new_compare micro) f64_three (f64_three + 5) = true /\
  cmp_float (new_compare micro) f64_three (f64_three + 4503599627) = false /\
  cmp_float (new_compare micro) f64_zero 0x3E7AD7F29ABCAF48 = true /\
  sorting small_sorters.
Proof.
  split; [exact default_positive|]. split; [vm_compute; reflexivity|].
  split; [repeat split; reflexivity|]. split; [repeat split; reflexivity|].
  split; [vm_compute; reflexivity|]. split; [vm_compute; reflexivity|]. split; [vm_compute; reflexivity|].
  exact small_sorting.
Qed.

(** ** C27: the order of points *)

Theorem C27_strict_order :
  (forall p, ~ before p p) /\
  (forall p q r, before p q -> before q r -> before p r) /\
  (forall p q, number p -> number q ->
     (xy_less p q = true <-> before p q) /\
     (before p q \/ same_place p q \/ before q p)) /\
  (forall p q, same_place p q -> ~ before p q).
Proof.
  exact (conj before_irrefl (conj before_trans (conj
    (fun p q Hp Hq => conj (xy_less_before p q Hp Hq) (before_total p q Hp Hq)) before_same))).
Qed.
Print Assumptions C27_strict_order.

(** Two ways of ordering the same points differ at most in the sign of zeros. *)
Theorem C27_sorting_unique : forall l m, Permutation l m -> Forall number l ->
  in_order before l -> in_order before m -> Forall2 same_place l m.
Proof. exact points_sorted_unique. Qed.
Print Assumptions C27_sorting_unique.

Example C27_nonvacuous : before A0 B0 /\ before B0 C0 /\ before C0 D0 /\
  in_order before (sort_points small_sorters [D0; A0; C0; B0]) /\
  sort_points small_sorters [D0; A0; C0; B0] = [A0; B0; C0; D0].
Proof.
  repeat split; try (left; vm_compute; reflexivity); try (right; split; vm_compute; reflexivity).
  - apply (points_order _ small_sorting). repeat constructor.
Qed.

(** ** C28: rotating *)

Theorem C28_rotate_to_index : forall k ln, 0 <= k <= Z.of_nat (length ln) \/ ln = [] ->
  rotate_to_idx k ln = Ok (rotated (Z.to_nat k) ln).
Proof. exact rotate_to_idx_ok. Qed.
Print Assumptions C28_rotate_to_index.

Theorem C28_rotate_out_of_range : forall k ln, ln <> [] -> k < 0 \/ Z.of_nat (length ln) < k ->
  rotate_to_idx k ln = Panic.
Proof. exact rotate_to_idx_panic. Qed.
Print Assumptions C28_rotate_out_of_range.

Theorem C28_leftmost_first : forall ln,
  rotate_leftmost ln = Ok (rotated (find_min_idx ln) ln).
Proof. exact rotate_leftmost_ok. Qed.
Print Assumptions C28_leftmost_first.

(** The vertex moved to the front: no vertex comes before it, and it is the
    first such vertex. *)
Theorem C28_leftmost_is_minimum : forall ln, ln <> [] -> Forall number ln ->
  exists m, nth_error ln (find_min_idx ln) = Some m /\ (forall q, In q ln -> ~ before q m) /\
    (forall j q, (j < find_min_idx ln)%nat -> nth_error ln j = Some q -> before m q).
Proof. exact find_min_spec. Qed.
Print Assumptions C28_leftmost_is_minimum.

Example C28_nonvacuous : Forall number [D0; A0; C0; B0] /\
  rotate_leftmost [D0; A0; C0; B0] = Ok [A0; C0; B0; D0] /\
  rotate_to_idx 3 [D0; A0; C0; B0] = Ok [B0; D0; A0; C0] /\
  rotate_to_idx 5 [D0; A0; C0; B0] = Panic.
Proof. repeat split; repeat constructor. Qed.

(** ** C29: comparing geometries *)

Theorem C29_reflexive : forall S dflt c, positive c -> positive dflt ->
  forall g, unknown_inside g = false -> geometry_equal S dflt c g g = true.
Proof. exact geometry_equal_refl. Qed.
Print Assumptions C29_reflexive.

Theorem C29_symmetric_partial : forall S dflt c, positive c -> positive dflt ->
  forall g h, no_multiline g = true -> geometry_equal S dflt c g h = geometry_equal S dflt c h g.
Proof. exact geometry_equal_sym. Qed.
Print Assumptions C29_symmetric_partial.

Theorem C29_symmetry_refuted : exists a b,
  multiline_equal (new_compare micro) a b = true /\ multiline_equal (new_compare micro) b a = false.
Proof. exact (ex_intro _ _ (ex_intro _ _ multiline_asymmetric)). Qed.
Print Assumptions C29_symmetry_refuted.

(** What the comparison of MultiLineStrings decides. *)
Theorem C29_multiline_exact : forall c a b, multiline_equal c a b = true <->
  length a = length b /\ forall x, In x a -> exists y, In y b /\ linestring_equal c x y = true.
Proof. exact multiline_exact. Qed.
Print Assumptions C29_multiline_exact.

Theorem C29_multipoint_any_order : forall S c, positive c -> forall a b, sorting S ->
  Permutation a b -> Forall words a -> Forall number a -> multipoint_equal S c a b = true.
Proof. exact multipoint_order. Qed.
Print Assumptions C29_multipoint_any_order.

Theorem C29_any_start_partial : forall c, positive c ->
  forall k a, (k <= length a)%nat -> Forall number a -> single_leftmost a ->
  linestring_equal c a (rotated k a) = true.
Proof. exact linestring_start. Qed.
Print Assumptions C29_any_start_partial.

(** With two leftmost vertices the starting point matters. *)
Theorem C29_any_start_refuted : exists k a, Forall number a /\ (k <= length a)%nat /\
  linestring_equal (new_compare micro) a (rotated k a) = false.
Proof. exact any_start_refuted. Qed.
Print Assumptions C29_any_start_refuted.

(** What equality implies: the same kind, and a one-to-one matching of points,
    vertices, rings, polygons or members that compare equal. *)
Theorem C29_same_kind : forall S dflt c g h, geometry_equal S dflt c g h = true ->
  match g, h with
  | GPoint _, GPoint _ | GMultiPoint _, GMultiPoint _ | GLineString _, GLineString _
  | GMultiLineString _, GMultiLineString _ | GPolygon _, GPolygon _
  | GMultiPolygon _, GMultiPolygon _ | GCollection _, GCollection _ => True
  | _, _ => False
  end.
Proof. exact kinds_differ. Qed.
Print Assumptions C29_same_kind.

Theorem C29_multipoint_matching : forall S c, sorting S -> forall a b,
  multipoint_equal S c a b = true ->
  exists b', Permutation b b' /\ Forall2 (fun x y => point_equal c x y = true) a b'.
Proof. exact multipoint_sound. Qed.
Print Assumptions C29_multipoint_matching.

Theorem C29_linestring_matching : forall c a b, linestring_equal c a b = true ->
  exists i j, Forall2 (fun x y => point_equal c x y = true) (rotated i a) (rotated j b).
Proof. exact linestring_sound. Qed.
Print Assumptions C29_linestring_matching.

Theorem C29_polygon_matching : forall S dflt c, sorting S -> forall a b,
  fst (polygon_equal S dflt c a b) = true ->
  exists b', Permutation b b' /\ Forall2 (fun x y => linestring_equal c x y = true) a b'.
Proof. exact polygon_sound. Qed.
Print Assumptions C29_polygon_matching.

Theorem C29_polygon_extents : forall S dflt c a b, fst (polygon_equal S dflt c a b) = true ->
  geom_extent dflt (new_extent (concat a)) (new_extent (concat b)) = true.
Proof. exact polygon_extents. Qed.
Print Assumptions C29_polygon_extents.

Theorem C29_multipolygon_matching : forall S dflt c, sorting S -> forall a b,
  multipolygon_equal S dflt c a b = true ->
  exists b', Permutation b b' /\ Forall2 (fun x y => fst (polygon_equal S dflt c x y) = true) a b'.
Proof. exact multipolygon_sound. Qed.
Print Assumptions C29_multipolygon_matching.

Theorem C29_collection_exact : forall S dflt c gs hs,
  geometry_equal S dflt c (GCollection gs) (GCollection hs) = true <->
  Forall2 (fun g h => geometry_equal S dflt c g h = true) gs hs.
Proof. exact collection_exact. Qed.
Print Assumptions C29_collection_exact.

(** Comparing polygons only reorders their rings ... *)
Theorem C29_arguments_reordered : forall S dflt c, sorting S -> forall a b,
  let r := snd (polygon_equal S dflt c a b) in Permutation a (fst r) /\ Permutation b (snd r).
Proof. exact polygon_args. Qed.
Print Assumptions C29_arguments_reordered.

(** ... but it does reorder them: the caller's polygon changes. *)
Theorem C29_arguments_unchanged_refuted : exists S a, sorting S /\
  sort_rings S = insertion_sort sub_ring_less /\
  fst (snd (polygon_equal S (new_compare micro) (new_compare micro) a a)) <> a.
Proof. exact arguments_change. Qed.
Print Assumptions C29_arguments_unchanged_refuted.

Example C29_nonvacuous :
  positive (new_compare micro) /\ sorting small_sorters /\
  geometry_equal small_sorters (new_compare micro) (new_compare micro)
    (GCollection [GMultiPoint [A0; B0; C0]; GPolygon two_holes])
    (GCollection [GMultiPoint [C0; A0; B0]; GPolygon two_holes]) = true /\
  single_leftmost [C0; A0; B0; D0] /\ Forall number [C0; A0; B0; D0].
Proof.
  split; [exact default_positive|]. split; [exact small_sorting|]. split; [vm_compute; reflexivity|].
  split; [|repeat constructor].
  exists 1%nat, A0. split; [reflexivity|].
  intros [|[|[|[|j]]]] q N E; cbn in E; try (injection E as <-; left; vm_compute; reflexivity); try congruence.
  destruct j; discriminate.
Qed.

(** ** C30: the default comparator *)

(** Every comparator returned was the initial one or one installed by a call. *)
Theorem C30_returned_was_installed_partial : forall V (news : nat -> V) v0 schedule i old,
  let w := default_run news (default_start v0) schedule in
  callers w i = Returned old ->
  old = v0 \/ exists j old', callers w j = Returned old' /\ news j = old.
Proof. exact (@returned_values). Qed.
Print Assumptions C30_returned_was_installed_partial.

(** The comparator installed is the initial one until a call stores, then that
    of a call that stored; each store installs its own. *)
Theorem C30_installed : forall V (news : nat -> V) v0 schedule,
  let w := default_run news (default_start v0) schedule in
  cell w = v0 /\ (forall i old, callers w i <> Returned old) \/
  exists i old, callers w i = Returned old /\ cell w = news i.
Proof. exact (@installed_value). Qed.
Print Assumptions C30_installed.

Theorem C30_last_store : forall V (news : nat -> V) w i,
  (forall old, callers w i = Loaded old -> cell (default_step news w i) = news i) /\
  ((forall old, callers w i <> Loaded old) -> cell (default_step news w i) = cell w).
Proof. exact (fun V news w i => conj (last_store news w i) (other_steps_keep news w i)). Qed.
Print Assumptions C30_last_store.

(** Calls that do not overlap hand the comparators over one after the other. *)
Theorem C30_without_overlap_partial : forall V (news : nat -> V) w order,
  NoDup order -> (forall i, In i order -> callers w i = Calling) ->
  let w' := default_run news w (flat_map (fun i => [i; i]) order) in
  cell w' = last (map news order) (cell w) /\
  (forall i v, In (i, v) (chain news (cell w) order) -> callers w' i = Returned v) /\
  (forall i, ~ In i order -> callers w' i = callers w i).
Proof. exact (@sequential). Qed.
Print Assumptions C30_without_overlap_partial.

(** Overlapping calls: two goroutines get the initial comparator back, and the
    one stored first is returned to nobody. *)
Theorem C30_handed_to_one_caller_refuted : exists (news : nat -> nat) v0 schedule,
  (forall i j, news i = news j -> i = j) /\
  let w := default_run news (default_start v0) schedule in
  callers w 0%nat = Returned v0 /\ callers w 1%nat = Returned v0.
Proof.
  exact (ex_intro _ S (ex_intro _ 0%nat (ex_intro _ [0; 1; 0; 1]%nat
    (conj eq_add_S (conj (proj1 handover_twice) (proj1 (proj2 handover_twice))))))).
Qed.
Print Assumptions C30_handed_to_one_caller_refuted.

Example C30_nonvacuous :
  let w := default_run S (default_start 0%nat) (flat_map (fun i => [i; i]) [2; 0; 1]%nat) in
  cell w = 2%nat /\ callers w 2%nat = Returned 0%nat /\ callers w 0%nat = Returned 3%nat /\
  callers w 1%nat = Returned 1%nat /\ NoDup [2; 0; 1]%nat.
Proof. cbn. repeat split; repeat constructor; cbn; intuition discriminate. Qed.
