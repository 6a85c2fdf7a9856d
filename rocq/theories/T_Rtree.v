(** * R-tree theorems (C37, C38, C65-C69) *)
From Coq Require Import ZArith Bool List Permutation Sorted.
From Verif Require Import Base_F64 Base_F64Arith Base_Res M_Rtree M_RtreeAlias S_Rtree S_RtreeEx
  P_Rtree P_Rtree2 P_RtreeTop P_RtreeNN.
Import ListNotations.
Open Scope Z_scope.

(** ** C37: Insert and SearchIntersect *)

Theorem C37_contents : forall A (bounds : A -> rect) min max d l t, (2 <= max)%nat ->
  Forall (fun a => rect_ok d (bounds a)) l -> inserts bounds min max empty_tree l = Ok t ->
  Permutation (objs (root t)) l /\ t_size t = Z.of_nat (length l) /\ boxes_ok bounds (root t) /\ balanced (root t) /\
  height t = n_level (root t) /\ (length (n_entries (root t)) <= max)%nat /\
  below (fun k => 1 <= k <= max)%nat (root t).
Proof. intros A bounds min max d l t Hmax H E. exact (contents bounds min max d Hmax l t H E). Qed.
Print Assumptions C37_contents.

Theorem C37_min_children : forall A (bounds : A -> rect) min max d l t, (2 <= max)%nat -> (2 * min <= max + 1)%nat ->
  Forall (fun a => rect_ok d (bounds a)) l -> inserts bounds min max empty_tree l = Ok t ->
  below (fun k => min <= k <= max)%nat (root t).
Proof. intros A bounds min max d l t Hmax Hm H E. exact (min_children bounds min max d Hmax l t Hm H E). Qed.
Print Assumptions C37_min_children.

Theorem C37_search : forall A (bounds : A -> rect) min max d l t bb, (2 <= max)%nat ->
  Forall (fun a => rect_ok d (bounds a)) l -> inserts bounds min max empty_tree l = Ok t -> rect_ok d bb ->
  exists r, search_intersect t bb [] = Ok r /\ Permutation r (filter (fun a => overlap (bounds a) bb) l).
Proof.
  intros A bounds min max d l t bb Hmax H E.
  exact (searched bounds d t bb l (proj1 (ins_searchable bounds min max d Hmax l t H E)) (proj2 (ins_searchable bounds min max d Hmax l t H E))).
Qed.
Print Assumptions C37_search.

(** Insert returns, for coordinates whose boxes cannot overflow: in the plane up
    to 2^510 (about 3e153). *)
Theorem C37_no_panic_partial : forall A (bounds : A -> rect) min max d m l, (2 <= max)%nat ->
  0 <= m -> Z.of_nat d * (m + 1) <= 1022 -> Forall (fun a => small_rect d m (bounds a)) l ->
  exists t, inserts bounds min max empty_tree l = Ok t.
Proof. intros A bounds min max d m l Hmax. exact (no_panic bounds min max d Hmax m l). Qed.
Print Assumptions C37_no_panic_partial.

(** Beyond that Insert panics: four squares with sides 1e160. *)
Theorem C37_no_panic_refuted : exists l : list rect, Forall (fin_rect 2) l /\
  inserts (fun r => r) 1 2 empty_tree l = Panic.
Proof.
  exists (repeat [(f64_zero, f64_ofZ (10 ^ 160)); (f64_zero, f64_ofZ (10 ^ 160))] 4). split.
  - apply Forall_forall. intros r Hr. apply repeat_spec in Hr. subst r. split; [reflexivity|].
    repeat (constructor; [refine (conj _ (conj _ (conj _ (conj _ _)))); vm_compute; reflexivity|]). constructor.
  - vm_compute. reflexivity.
Qed.
Print Assumptions C37_no_panic_refuted.

Definition twelve : list obj :=
  [unit_box 0 0; unit_box 3 1; unit_box 5 5; unit_box 9 2; unit_box 1 7; unit_box 4 4;
   unit_box 8 8; unit_box 2 2; unit_box 6 1; unit_box 7 7; unit_box 0 9; unit_box 9 9].
Example C37_nonvacuous : exists t, inserts obj_bounds 2 3 empty_tree twelve = Ok t /\ height t = 3 /\
  search_intersect t (obj_bounds (0, 20, 0, 20)) [] =
    Ok [unit_box 3 1; unit_box 0 0; unit_box 2 2; unit_box 4 4] /\
  Forall (fun a => rect_ok 2 (obj_bounds a)) twelve.
Proof.
  eexists. split; [vm_compute; reflexivity|]. split; [reflexivity|]. split; [vm_compute; reflexivity|].
  repeat (constructor; [split; [reflexivity|]; repeat (constructor; [split; vm_compute; reflexivity|]); constructor|]). constructor.
Qed.

(** ** C38: bulk loading *)

(** [h], [s] and [ns] are the height, the number of subtrees and of slices, which
    the code computes in floating point; [s] need not be exact for this. *)
Theorem C38_exact : forall A (bounds : A -> rect) min max d (sorted : nat -> list (entry A) -> list (entry A)) dim fuel h s ns l,
  (2 <= max)%nat -> (forall i es, Permutation (sorted i es) es) ->
  Forall (fun a => rect_ok d (bounds a)) l -> 0 <= h ->
  ((max < length l)%nat -> 1 <= s < Z.of_nat (length l)) -> (Z.to_nat h + length l + 1 < fuel)%nat ->
  exists t, new_tree bounds min max sorted dim fuel h s ns l = Ok t /\
    Permutation (objs (root t)) l /\ t_size t = Z.of_nat (length l) /\
    forall bb, rect_ok d bb ->
      exists r, search_intersect t bb [] = Ok r /\ Permutation r (filter (fun a => overlap (bounds a) bb) l).
Proof.
  intros A bounds min max d sorted dim fuel h s ns l Hmax Hp H Hh Hs Hf.
  destruct (bulk bounds min max d Hmax sorted Hp dim fuel h s ns l H Hh Hs Hf) as (t & E & S & P & Z).
  exists t. split; [exact E|]. split; [exact P|]. split; [exact Z|]. intros bb Hb. exact (searched bounds d t bb l S P Hb).
Qed.
Print Assumptions C38_exact.

(** With the numbers of the paper (N <= s * M^(h-1), s <= M) the tree is balanced
    and no node has more than MaxChildren entries. *)
Theorem C38_shape : forall A (bounds : A -> rect) min max d (sorted : nat -> list (entry A) -> list (entry A)) dim fuel h s ns l t,
  (2 <= max)%nat -> (forall i es, Permutation (sorted i es) es) ->
  Forall (fun a => rect_ok d (bounds a)) l -> 1 <= h -> (max < length l)%nat -> 1 <= s <= Z.of_nat max ->
  Z.of_nat (length l) <= s * Z.of_nat max ^ (h - 1) ->
  new_tree bounds min max sorted dim fuel h s ns l = Ok t ->
  balanced (root t) /\ boxes_ok bounds (root t) /\ height t = n_level (root t) /\ height t = h /\
  (length (n_entries (root t)) <= max)%nat /\ below (fun k => 1 <= k <= max)%nat (root t).
Proof.
  intros A bounds min max d sorted dim fuel h s ns l t Hmax Hp.
  exact (bulk_shape bounds min max d Hmax sorted Hp dim fuel h s ns l t).
Qed.
Print Assumptions C38_shape.

Example C38_nonvacuous : exists t, new_tree obj_bounds 2 3 sort_dim 2 30 3 2 1 twelve = Ok t /\ t_size t = 12 /\
  length (n_entries (root t)) = 2%nat /\ Z.of_nat (length twelve) <= 2 * 3 ^ (3 - 1) /\
  search_intersect t (obj_bounds (0, 20, 0, 20)) [] =
    Ok [unit_box 0 0; unit_box 2 2; unit_box 3 1; unit_box 4 4].
Proof. eexists. split; [vm_compute; reflexivity|]. split; [reflexivity|]. split; [reflexivity|]. split; [discriminate|vm_compute; reflexivity]. Qed.

(** ** C65: limits and filters *)

(** SearchIntersectWithLimit returns the first k results of SearchIntersect. *)
Theorem C65_limit : forall A (bounds : A -> rect) min max d l t bb k r, (2 <= max)%nat ->
  Forall (fun a => rect_ok d (bounds a)) l -> inserts bounds min max empty_tree l = Ok t -> rect_ok d bb ->
  search_intersect t bb [] = Ok r ->
  search_intersect_with_limit t k bb = Ok (if k <? 0 then r else firstn (Z.to_nat k) r).
Proof.
  intros A bounds min max d l t bb k r Hmax H E.
  exact (limited bounds max d Hmax t bb k r (proj1 (ins_searchable bounds min max d Hmax l t H E))).
Qed.
Print Assumptions C65_limit.

(** Filters that never abort: the results of SearchIntersect are offered one after
    the other and kept unless some filter refuses, given those kept before. *)
Theorem C65_filters : forall A (bounds : A -> rect) min max d l t bb fs r, (2 <= max)%nat ->
  Forall (fun a => rect_ok d (bounds a)) l -> inserts bounds min max empty_tree l = Ok t -> rect_ok d bb ->
  Forall (fun f : filter_fn A => forall rs x, snd (f rs x) = false) fs ->
  search_intersect t bb [] = Ok r ->
  search_intersect t bb fs =
  Ok (fold_left (fun rs a => if existsb (fun f => fst (f rs a)) fs then rs else rs ++ [a]) r []).
Proof.
  intros A bounds min max d l t bb fs r Hmax H E.
  exact (filtered bounds d t bb fs r (proj1 (ins_searchable bounds min max d Hmax l t H E))).
Qed.
Print Assumptions C65_filters.
Example C65_filters_nonvacuous : exists t r, inserts obj_bounds 1 3 empty_tree twelve = Ok t /\
  search_intersect t (obj_bounds (0, 40, 0, 40)) [] = Ok r /\ length r = 12%nat /\
  search_intersect t (obj_bounds (0, 40, 0, 40)) [fun rs a => (Nat.leb 5 (length rs), false); fun _ _ => (false, false)]
  = Ok (firstn 5 r).
Proof.
  eexists. eexists. split; [vm_compute; reflexivity|]. split; [vm_compute; reflexivity|].
  split; [reflexivity|vm_compute; reflexivity].
Qed.

(** A filter that accepts and aborts ("the search is aborted and the current
    result set will be returned") gets called again for other leaves. *)
Theorem C65_abort_refuted : exists t bb, inserts obj_bounds 1 3 empty_tree twelve = Ok t /\
  exists r, search_intersect t bb [fun _ _ => (false, true)] = Ok r /\ (1 < length r)%nat.
Proof.
  eexists _, (obj_bounds (0, 40, 0, 40)). split; [vm_compute; reflexivity|].
  eexists. split; [vm_compute; reflexivity|]. cbn. repeat constructor.
Qed.
Print Assumptions C65_abort_refuted.

(** ** C66: Insert into a bulk loaded tree *)

(** Every leaf of a bulk loaded tree is a part of one array: the new entry is
    written over the first entry of the next leaf.  The overwritten object is no
    longer in the tree, the new one is in it twice, and Size counts both. *)
Theorem C66_insert_after_bulk_refuted : exists objects t t' lost new,
  new_tree obj_bounds 2 5 sort_dim 2 20 2 2 1 objects = Ok t /\
  a_insert obj_bounds 2 5 (stored t) new = Ok t' /\
  In lost objects /\ In lost (objs (root t)) /\ ~ In lost (objs (view (a_arr t') (a_root t'))) /\
  ~ In new objects /\ count_occ (list_eq_dec Z.eq_dec) (map (fun o => let '(a, b, c, d) := o in [a; b; c; d]) (objs (view (a_arr t') (a_root t'))))
     (let '(a, b, c, d) := new in [a; b; c; d]) = 2%nat /\
  a_size t' = 7.
Proof.
  eexists [unit_box 0 0; unit_box 3 1; unit_box 5 5; unit_box 9 2; unit_box 1 7; unit_box 4 4], _, _, (unit_box 4 4), (unit_box 2 0).
  split; [vm_compute; reflexivity|]. split; [vm_compute; reflexivity|].
  split; [cbn; tauto|]. split; [vm_compute; tauto|].
  split; [vm_compute; intuition discriminate|]. split; [vm_compute; intuition discriminate|].
  split; vm_compute; reflexivity.
Qed.
Print Assumptions C66_insert_after_bulk_refuted.

(** The storage model shows the tree it was made from. *)
Example C66_nonvacuous : exists t, new_tree obj_bounds 2 3 sort_dim 2 30 3 2 1 twelve = Ok t /\
  view (a_arr (stored t)) (a_root (stored t)) = root t.
Proof. eexists. split; [vm_compute; reflexivity|]. vm_compute. reflexivity. Qed.

(** ** C67: NearestNeighbors *)

Theorem C67_nearest : forall A (bounds : A -> rect) min max d l t p k sort_dists, (2 <= max)%nat ->
  Forall (fun a => fin_rect d (bounds a)) l -> inserts bounds min max empty_tree l = Ok t -> fin_point p -> (1 <= k)%nat ->
  (forall l, Permutation (sort_dists l) l) ->
  (forall l, Forall (fun e => f64_wf (snd e) = true /\ f64_isnan (snd e) = false) l ->
     StronglySorted (fun a b => f64_le (snd a) (snd b) = true) (sort_dists l)) ->
  exists r rest, nearest_neighbors sort_dists (Z.to_nat (height t)) k t p = Ok r /\
    Permutation (r ++ rest) l /\ length r = Nat.min k (length l) /\
    StronglySorted (fun a b => f64_le (min_dist p (bounds a)) (min_dist p (bounds b)) = true) r /\
    forall a b, In a r -> In b rest -> f64_le (min_dist p (bounds a)) (min_dist p (bounds b)) = true.
Proof. exact (@near). Qed.
Print Assumptions C67_nearest.

(** NearestNeighbors(0, p) panics as soon as the tree has two levels. *)
Theorem C67_zero_refuted : exists t, inserts obj_bounds 2 3 empty_tree twelve = Ok t /\
  nearest_neighbors sort_snd (Z.to_nat (height t)) 0 t [f64_zero; f64_zero] = Panic.
Proof. eexists. split; [vm_compute; reflexivity|]. vm_compute. reflexivity. Qed.
Print Assumptions C67_zero_refuted.

Example C67_nonvacuous : exists t, inserts obj_bounds 2 3 empty_tree twelve = Ok t /\
  nearest_neighbors sort_snd (Z.to_nat (height t)) 3 t [f64_ofZ 5; f64_ofZ 5] = Ok [unit_box 4 4; unit_box 5 5; unit_box 7 7].
Proof. eexists. split; [vm_compute; reflexivity|]. vm_compute. reflexivity. Qed.

(** ** C68: NearestNeighbor *)

Theorem C68_member : forall A (bounds : A -> rect) min max d l t p sort_dists, (2 <= max)%nat ->
  Forall (fun a => fin_rect d (bounds a)) l -> inserts bounds min max empty_tree l = Ok t ->
  (forall l, Permutation (sort_dists l) l) ->
  exists r, nearest_neighbor sort_dists (Z.to_nat (height t)) t p = Ok r /\ forall a, r = Some a -> In a l.
Proof. exact (@nn_member). Qed.
Print Assumptions C68_member.

(** Full statement: the same for trees of any height; it does not hold, see
    below.  Proved here for trees of one leaf. *)
Theorem C68_nearest_partial : forall A (bounds : A -> rect) min max d l t p sort_dists, (2 <= max)%nat ->
  Forall (fun a => fin_rect d (bounds a)) l -> inserts bounds min max empty_tree l = Ok t -> height t = 1 -> fin_point p ->
  exists r, nearest_neighbor sort_dists 1 t p = Ok r /\
    match r with
    | Some a => In a l /\ Forall (fun b => f64_le (f64_sqrt (min_dist p (bounds a))) (f64_sqrt (min_dist p (bounds b))) = true) l
    | None => Forall (fun b => f64_le f64_max (f64_sqrt (min_dist p (bounds b))) = true) l
    end.
Proof. exact (@nn_leaf_exact). Qed.
Print Assumptions C68_nearest_partial.

(** The pruning distance is computed by adding and subtracting the same square.
    With a box 2^27 high the remainder is lost, and the subtree with the nearest
    object (0.5 away) is pruned in favour of one 0.75 away. *)
Definition far : Z := 4 * 2 ^ 27.
Definition thin : list obj :=
  [(0, 4, -6, -2); (0, 4, -6, -2); (0, 4, -6, -2); (3, 4, 0, 2); (0, 2, far - 4, far); (0, 2, far - 4, far)].
Theorem C68_nearest_refuted : exists t a b, new_tree obj_bounds 2 5 sort_dim 2 20 2 2 1 thin = Ok t /\
  nearest_neighbor sort_snd 2 t [f64_zero; f64_zero] = Ok (Some a) /\ In b thin /\
  f64_lt (f64_sqrt (min_dist [f64_zero; f64_zero] (obj_bounds b))) (f64_sqrt (min_dist [f64_zero; f64_zero] (obj_bounds a))) = true.
Proof.
  eexists _, (3, 4, 0, 2), (0, 4, -6, -2). split; [vm_compute; reflexivity|]. split; [vm_compute; reflexivity|].
  split; [now left|vm_compute; reflexivity].
Qed.
Print Assumptions C68_nearest_refuted.

Example C68_nonvacuous : exists t, inserts obj_bounds 2 3 empty_tree [unit_box 0 0; unit_box 3 1] = Ok t /\ height t = 1 /\
  nearest_neighbor sort_snd 1 t [f64_ofZ 5; f64_ofZ 5] = Ok (Some (unit_box 3 1)).
Proof. eexists. split; [vm_compute; reflexivity|]. split; [reflexivity|vm_compute; reflexivity]. Qed.

(** ** C69: Delete *)

(** Every history of Insert and Delete that returns leaves exactly the expected
    objects, and Delete answers whether the object was there. *)
Theorem C69_history : forall A (bounds : A -> rect) min max d (eqb : A -> A -> bool) ops t answers,
  (2 <= max)%nat -> (1 <= min)%nat -> (forall a b, eqb a b = true <-> a = b) ->
  Forall (fun o => rect_ok d (bounds (op_obj o))) ops ->
  run bounds min max eqb empty_tree ops = Ok (t, answers) ->
  Permutation (objs (root t)) (fst (expected eqb [] ops)) /\ answers = snd (expected eqb [] ops) /\
  t_size t = Z.of_nat (length (objs (root t))) /\
  boxes_ok bounds (root t) /\ balanced (root t) /\ height t = n_level (root t) /\
  (length (n_entries (root t)) <= max)%nat /\ below (fun k => 1 <= k <= max)%nat (root t).
Proof.
  intros A bounds min max d eqb ops t answers Hmax Hmin He H E.
  destruct (history bounds min max d eqb ops t answers Hmax Hmin He H E) as (H1 & H2 & H3 & H4 & H5 & H6 & H7 & H8 & _).
  exact (conj H1 (conj H2 (conj H3 (conj H4 (conj H5 (conj H6 (conj H7 H8))))))).
Qed.
Print Assumptions C69_history.

Theorem C69_search : forall A (bounds : A -> rect) min max d (eqb : A -> A -> bool) ops t answers bb,
  (2 <= max)%nat -> (1 <= min)%nat -> (forall a b, eqb a b = true <-> a = b) ->
  Forall (fun o => rect_ok d (bounds (op_obj o))) ops ->
  run bounds min max eqb empty_tree ops = Ok (t, answers) -> rect_ok d bb ->
  exists r, search_intersect t bb [] = Ok r /\
    Permutation r (filter (fun a => overlap (bounds a) bb) (fst (expected eqb [] ops))).
Proof. exact (@history_search). Qed.
Print Assumptions C69_search.

(** Deleting can leave a root without entries that is not a leaf; then the next
    Insert panics. *)
Definition shrinking : list (op obj) :=
  [Ins (unit_box 0 0); Ins (unit_box 1 0); Ins (unit_box 5 0); Ins (unit_box 6 0); Ins (unit_box 20 0); Ins (unit_box 21 0);
   Ins (unit_box 30 0); Del (unit_box 30 0); Del (unit_box 20 0); Del (unit_box 0 0); Del (unit_box 1 0); Del (unit_box 5 0);
   Del (unit_box 6 0); Del (unit_box 21 0)].
Theorem C69_insert_after_delete_refuted :
  run obj_bounds 1 2 obj_eqb empty_tree shrinking = Ok (Rtree (Node false 2 []) 0 2, repeat true 7) /\
  run obj_bounds 1 2 obj_eqb empty_tree (shrinking ++ [Ins (unit_box 0 0)]) = Panic.
Proof. split; vm_compute; reflexivity. Qed.
Print Assumptions C69_insert_after_delete_refuted.

(** A deletion can leave nodes with fewer than MinChildren entries, although the
    insertions alone never do (C37_min_children). *)
Theorem C69_min_children_refuted : exists t answers,
  run obj_bounds 2 3 obj_eqb empty_tree (map (@Ins obj) twelve ++ [Del (unit_box 9 2)]) = Ok (t, answers) /\
  ~ below (fun k => 2 <= k)%nat (root t).
Proof.
  eexists _, _. split; [vm_compute; reflexivity|]. cbn [root below all fold_right snd fst n_entries length]. intros H.
  repeat match goal with H : _ /\ _ |- _ => destruct H end.
  match goal with H : (2 <= 1)%nat |- _ => inversion H as [|? X]; inversion X end.
Qed.
Print Assumptions C69_min_children_refuted.

Example C69_nonvacuous : exists t,
  run obj_bounds 2 3 obj_eqb empty_tree (map (@Ins obj) twelve ++ [Del (unit_box 9 2); Del (unit_box 9 2); Ins (unit_box 1 1)]) = Ok (t, [true; false]) /\
  t_size t = 12 /\ height t = 3.
Proof. eexists. split; [vm_compute; reflexivity|]. split; reflexivity. Qed.
