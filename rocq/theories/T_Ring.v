(** * Rings and the search over segments (C96-C100)

    [sides], [on_ring], [inside] (the even-odd rule over the reals), [joined],
    [crosses], [beyond], [small_pt], [mid_line], [share_point] and [boxes_near]
    are in S_Ring.v; [rpt] gives the real point of two words. *)
From Coq Require Import ZArith Bool List Permutation Sorted Reals.
From Verif Require Import Base_Res Base_F64 Base_F64Arith Base_Geom M_Geom M_Extent M_Cmp M_Intersect M_Rtree M_Ring
  S_Intersect S_RtreeEx S_Extent S_Ring P_F64Flocq P_Cmp3 P_Intersect4 P_RingMath P_RingIndex P_Ring2 P_Ring3 P_Ring4.
Import ListNotations.
Local Open Scope nat_scope.

(** ** C96: SearchIntersectIdxs *)

(** [sorted] is what sort.Sort does to the entries and [nums] what NewTree
    computes in floating point (M_Rtree.v). *)
Theorem C96_search : forall sorted nums segs, (forall i es, Permutation (sorted i es) es) -> numbers_ok nums ->
  Forall mid_line segs -> 1 < length segs ->
  exists index, new_search sorted nums segs = Ok index /\
    forall seg, mid_line seg -> exists idxs, search_idxs index seg [] = Ok idxs /\
      StronglySorted lt idxs /\
      (forall i, In i idxs -> exists s, nth_error segs i = Some s /\ boxes_near (2 / 100000) s seg) /\
      (forall i s, nth_error segs i = Some s -> share_point s seg -> In i idxs).
Proof. intros sorted nums segs Hs Hn. exact (search_spec sorted nums Hs Hn segs). Qed.
Print Assumptions C96_search.

(** The rectangle of a segment never makes NewRect fail, whatever the words. *)
Theorem C96_no_panic : forall s,
  f64_wf (fst (fst s)) = true -> f64_wf (snd (fst s)) = true -> f64_wf (fst (snd s)) = true -> f64_wf (snd (snd s)) = true ->
  exists r, rect_for_segment s = Ok r /\ length r = 2.
Proof. intros s A B C D. exact (ex_intro _ _ (conj (rect_never_panics s (conj A (conj B (conj C D)))) eq_refl)). Qed.
Print Assumptions C96_no_panic.

Example C96_nonvacuous : exists t,
  new_search sort_dim numbers_any (map zline [((0, 0), (4, 4)); ((1, 0), (2, 0)); ((0, 4), (4, 0))])%Z = Ok (Some t) /\
  search_idxs (Some t) (zline ((0, 3), (3, 3))%Z) [] = Ok [0; 2].
Proof. eexists. split; [vm_compute; reflexivity|]. vm_compute. reflexivity. Qed.

(** Every segment with a common point is found: false for a list of one segment,
    and where 0.00001 is lost in the rounding. *)
Theorem C99_one_refuted : forall sorted nums s, exists index, new_search sorted nums [s] = Ok index /\
  forall seg, search_idxs index seg [] = Ok [].
Proof. intros sorted nums s. exact (ex_intro _ None (conj eq_refl (fun _ => eq_refl))). Qed.
Print Assumptions C99_one_refuted.

(** [far] is 2^38. *)
Theorem C99_far_refuted : exists index, new_search sort_dim numbers_any [zline ((0, 0), (0, far))%Z; zline ((2, 0), (2, far))%Z] = Ok index /\
  share_point (zline ((0, 0), (0, far))%Z) (zline ((0, far), (3, far))%Z) /\
  search_idxs index (zline ((0, far), (3, far))%Z) [] = Ok [].
Proof. exact far_missed. Qed.
Print Assumptions C99_far_refuted.

(** ** C97: Ring.ContainsPoint is the even-odd rule *)

Theorem C97_parity : forall sorted nums border pts, (forall i es, Permutation (sorted i es) es) -> numbers_ok nums -> Forall small_pt pts ->
  exists r, new_ring_from_points sorted nums default_compare border pts = Ok r /\
    forall p, small_pt p -> exists v, ring_contains (Some r) p = Ok v /\
      (on_ring (map rpt pts) (rpt p) -> v = border) /\
      (~ on_ring (map rpt pts) (rpt p) -> v = S_Ring.inside (map rpt pts) (rpt p)).
Proof. intros sorted nums border pts Hs Hn. exact (ring_parity sorted nums Hs Hn border pts). Qed.
Print Assumptions C97_parity.

(** An L-shaped ring with and without an index (6 and 19 points): inside, outside, on the border. *)
Example C97_nonvacuous : forall pts, pts = ell \/ pts = long_ell -> Forall small_pt (map zpt pts) /\
  exists r, new_ring_from_points sort_dim numbers_any default_compare true (map zpt pts) = Ok r /\
    map (fun q => ring_contains (Some r) (zpt q)) [(1, 3); (5, 5); (9, 9); (8, 1); (3, 3); (2, 8)]%Z =
      [Ok true; Ok false; Ok false; Ok true; Ok true; Ok true] /\
    S_Ring.inside (map rpt (map zpt pts)) (rpt (zpt (1, 3)%Z)) = true /\
    ~ on_ring (map rpt (map zpt pts)) (rpt (zpt (1, 3)%Z)) /\
    S_Ring.inside (map rpt (map zpt pts)) (rpt (zpt (5, 5)%Z)) = false.
Proof. exact ells. Qed.

(** ** C98: paths *)

(** Two points joined by a path which does not touch the ring get the same answer. *)
Theorem C98_same : forall sorted nums border pts r p q, (forall i es, Permutation (sorted i es) es) -> numbers_ok nums -> Forall small_pt pts ->
  new_ring_from_points sorted nums default_compare border pts = Ok r -> small_pt p -> small_pt q ->
  ~ on_ring (map rpt pts) (rpt p) -> joined (map rpt pts) (rpt p) (rpt q) ->
  exists b, ring_contains (Some r) p = Ok b /\ ring_contains (Some r) q = Ok b.
Proof. intros sorted nums border pts r p q Hs Hn. exact (joined_same sorted nums Hs Hn border pts r p q). Qed.
Print Assumptions C98_same.

(** A point from which such a path leads past the ring is outside. *)
Theorem C98_outside : forall sorted nums border pts r p q, (forall i es, Permutation (sorted i es) es) -> numbers_ok nums -> Forall small_pt pts ->
  new_ring_from_points sorted nums default_compare border pts = Ok r -> small_pt p ->
  ~ on_ring (map rpt pts) (rpt p) -> joined (map rpt pts) (rpt p) q -> beyond (map rpt pts) q ->
  ring_contains (Some r) p = Ok false.
Proof. intros sorted nums border pts r p q Hs Hn. exact (joined_beyond sorted nums Hs Hn border pts r p q). Qed.
Print Assumptions C98_outside.

(** Crossing one side, inside of it, and no other changes the answer. *)
Theorem C98_crossing : forall sorted nums border pts r p q l1 e l2, (forall i es, Permutation (sorted i es) es) -> numbers_ok nums -> Forall small_pt pts ->
  new_ring_from_points sorted nums default_compare border pts = Ok r -> small_pt p -> small_pt q ->
  ~ on_ring (map rpt pts) (rpt p) -> ~ on_ring (map rpt pts) (rpt q) ->
  sides (map rpt pts) = l1 ++ e :: l2 -> crosses (rpt p) (rpt q) e ->
  (forall e' t, In e' (l1 ++ l2) -> (0 <= t <= 1)%R -> ~ on_side e' (along (rpt p) (rpt q) t)) ->
  exists b, ring_contains (Some r) p = Ok b /\ ring_contains (Some r) q = Ok (negb b).
Proof. intros sorted nums border pts r p q l1 e l2 Hs Hn. exact (crossing_changes sorted nums Hs Hn border pts r p q l1 e l2). Qed.
Print Assumptions C98_crossing.

Example C98_nonvacuous : exists e l2, sides (map rpt (map zpt ell)) = e :: l2 /\ crosses (rpt (zpt (1, 3)%Z)) (rpt (zpt (-1, 3)%Z)) e /\
  (forall e' t, In e' l2 -> (0 <= t <= 1)%R -> ~ on_side e' (along (rpt (zpt (1, 3)%Z)) (rpt (zpt (-1, 3)%Z)) t)) /\
  beyond (map rpt (map zpt ell)) (rpt (zpt (-1, 3)%Z)) /\
  joined (map rpt (map zpt ell)) (rpt (zpt (1, 3)%Z)) (rpt (zpt (2, 5)%Z)).
Proof. exact ell_paths. Qed.

(** ** C100: the even-odd rule for all coordinates, and the extent *)

(** A square of 8 by 8 at 10^7, as in web mercator metres: its centre is called
    outside, because it is within the relative tolerance of the crossing point. *)
Theorem C100_relative_refuted : exists pts p, forall sorted nums,
  exists r, new_ring_from_points sorted nums default_compare false pts = Ok r /\ ring_contains (Some r) p = Ok false /\
    ~ on_ring (map rpt pts) (rpt p) /\ S_Ring.inside (map rpt pts) (rpt p) = true.
Proof. exact relative. Qed.
Print Assumptions C100_relative_refuted.

(** The same with a tolerance which is absolute: near the height of a vertex. *)
Theorem C100_vertex_refuted : exists pts p, Forall small_pt pts /\ forall sorted nums,
  exists r, new_ring_from_points sorted nums default_compare false pts = Ok r /\ ring_contains (Some r) p = Ok false /\
    ~ on_ring (map rpt pts) (rpt p) /\ S_Ring.inside (map rpt pts) (rpt p) = true.
Proof. exact vertex. Qed.
Print Assumptions C100_vertex_refuted.

(** The answer depends on the number of segments: the same ring with more
    points on its sides, which gets an index. *)
Theorem C100_index_refuted : exists few many p,
  ~ on_ring (map rpt many) (rpt p) /\ S_Ring.inside (map rpt many) (rpt p) = true /\
  exists r s, new_ring_from_points sort_dim numbers18 default_compare false few = Ok r /\ ring_contains (Some r) p = Ok true /\
    new_ring_from_points sort_dim numbers18 default_compare false many = Ok s /\ ring_contains (Some s) p = Ok false.
Proof. exact indexed. Qed.
Print Assumptions C100_index_refuted.

(** ** C101: Ring.Extent *)

(** The extent is the least box around the points and the origin. *)
Theorem C101_least : forall sorted nums c border pts r, Forall num_pt pts -> new_ring_from_points sorted nums c border pts = Ok r ->
  exists b, ring_extent (Some r) = Some b /\ S_Extent.inside b (f64_zero, f64_zero) /\ (forall p, In p pts -> S_Extent.inside b p) /\
    forall e, S_Extent.inside e (f64_zero, f64_zero) -> (forall p, In p pts -> S_Extent.inside e p) -> box_within b e.
Proof. exact extent_least. Qed.
Print Assumptions C101_least.

(** It is not the least box around the points. *)
Theorem C101_origin_refuted : exists pts, Forall num_pt pts /\ forall sorted nums, exists r b,
  new_ring_from_points sorted nums default_compare false pts = Ok r /\ ring_extent (Some r) = Some b /\
  (forall p, In p pts -> S_Extent.inside (Ext (f64_ofZ 5) (f64_ofZ 5) (f64_ofZ 7) (f64_ofZ 7)) p) /\
  e0 b = f64_zero /\ e1 b = f64_zero.
Proof. exact extent_loose. Qed.
Print Assumptions C101_origin_refuted.
