(** * Theorems about the KD-tree *)
From Coq Require Import ZArith Bool List Permutation Sorted Reals.
From Flocq Require Import Core.Core.
From Verif Require Import Base_F64 Base_F64Arith Base_Geom Base_Res M_Extent S_Extent M_Heap M_Kd S_Kd
  P_F64 P_F64Flocq P_Kd P_KdR.
Import ListNotations.
Open Scope Z_scope.

(** ** C35: insertion.  [A] is any type of stored points, [xy] their coordinates. *)

(** The tree holds exactly the inserted points, each coordinate pair once. *)
Theorem C35_contents : forall A (xy : A -> point f64) history,
  Permutation (items (inserts xy history)) (kept xy history).
Proof. exact (fun A xy l => proj2 (inserts_inv xy l)). Qed.
Print Assumptions C35_contents.

(** What is kept: inserted points only, and one for every inserted point without NaN. *)
Theorem C35_kept : forall A (xy : A -> point f64) history,
  (forall x, In x (kept xy history) -> In x history) /\
  (forall x, In x history -> f64_isnan (fst (xy x)) = false -> f64_isnan (snd (xy x)) = false ->
     exists y, In y (kept xy history) /\ same_point xy x y = true).
Proof. exact (fun A xy l => conj (kept_in xy l) (kept_covers xy l)). Qed.
Print Assumptions C35_kept.

(** One more Insert: ErrDuplicateNode and the existing node, or a new node. *)
Theorem C35_insert : forall A (xy : A -> point f64) history p,
  let '(t', (q, dup)) := insert xy (inserts xy history) p in
  (dup = true /\ In q (kept xy history) /\ same_point xy p q = true /\
     items t' = items (inserts xy history)) \/
  (dup = false /\ q = p /\ (forall x, In x (kept xy history) -> same_point xy p x = false) /\
     Permutation (items t') (p :: items (inserts xy history))).
Proof. exact (@insert_result). Qed.
Print Assumptions C35_insert.

Theorem C35_split : forall A (xy : A -> point f64) history, split_ok xy (inserts xy history).
Proof. exact (@inserts_split). Qed.
Print Assumptions C35_split.

Theorem C35_boxes : forall A (xy : A -> point f64) history,
  Forall (fun p => num_pt (xy p)) history -> boxes_ok xy (inserts xy history).
Proof. exact (@inserts_boxes). Qed.
Print Assumptions C35_boxes.

Definition z := f64_ofZ.
Example C35_nonvacuous :
  let h := [(z 5, z 5); (z 2, z 3); (z 8, z 1); (z 2, z 3); (z 2, z 9)] in
  let id := fun p : point f64 => p in
  kept id h = [(z 5, z 5); (z 2, z 3); (z 8, z 1); (z 2, z 9)] /\
  insert id (inserts id h) (z 8, z 1) = (inserts id h, ((z 8, z 1), true)) /\
  Forall num_pt h /\
  inserts id h =
    KNode (z 5, z 5) (Ext (z 2) (z 1) (z 8) (z 9))
      (KNode (z 2, z 3) (Ext (z 2) (z 3) (z 2) (z 9)) KNil
         (KNode (z 2, z 9) (Ext (z 2) (z 9) (z 2) (z 9)) KNil KNil))
      (KNode (z 8, z 1) (Ext (z 8) (z 1) (z 8) (z 1)) KNil KNil).
Proof.
  cbv zeta. split; [vm_compute; reflexivity|]. split; [vm_compute; reflexivity|].
  split; [repeat (constructor; [now repeat split; vm_compute|]); constructor|vm_compute; reflexivity].
Qed.

(** ** C36: the nearest neighbour iterator *)

(** After [n] calls of Next: the [n] nearest points (or all of them), nearest
    first; when Next returned false, all of them. *)
Theorem C36_nearest_first : forall A (xy : A -> point f64) df p t n, lower_bound xy df p t ->
  exists vs finished it', iterate xy df p n (new_iterator xy df p t) = Ok (vs, finished, it') /\
    Forall (fun v => snd v = df p (pt_box (xy (fst v)))) vs /\
    StronglySorted (fun v w => f64_le (snd v) (snd w) = true) vs /\
    exists rest, Permutation (items t) (map fst vs ++ rest) /\
      (forall v x, In v vs -> In x rest -> f64_le (snd v) (df p (pt_box (xy x))) = true) /\
      (finished = false -> length vs = n) /\ (finished = true -> rest = []).
Proof. exact (@iterate_nearest). Qed.
Print Assumptions C36_nearest_first.

Theorem C36_all : forall A (xy : A -> point f64) df p t, lower_bound xy df p t ->
  exists vs it', iterate xy df p (S (length (items t))) (new_iterator xy df p t) = Ok (vs, true, it') /\
    Permutation (map fst vs) (items t) /\
    Forall (fun v => snd v = df p (pt_box (xy (fst v)))) vs /\
    StronglySorted (fun v w => f64_le (snd v) (snd w) = true) vs.
Proof. exact (@iterate_all). Qed.
Print Assumptions C36_all.

(** EuclideanDistance, rounding and overflow included, meets the condition on
    every tree built by Insert, unless a coordinate is closer to the query's
    than 2^-511 (about 1.5e-154) without being equal. *)
Theorem C36_euclidean_partial : forall A (xy : A -> point f64) p history,
  fin_pt p -> Forall (fun x => fin_pt (xy x)) history ->
  Forall (fun x => apart (X (xy x)) (X p) /\ apart (Y (xy x)) (Y p)) history ->
  lower_bound xy euclidean_distance p (inserts xy history).
Proof. exact (@euclid_lower_bound). Qed.
Print Assumptions C36_euclidean_partial.

(** Closer than that the computed distances come out of order: the second point
    is reported nearer (0) than the first (2^-601). *)
Definition tiny (k : Z) : f64 := (1023 - k) * 2 ^ 52.
Theorem C36_euclidean_refuted : exists (p : point f64) (history : list (point f64)),
  fin_pt p /\ Forall fin_pt history /\
  exists v1 v2 it', iterate (fun q => q) euclidean_distance p 2
      (new_iterator (fun q => q) euclidean_distance p (inserts (fun q => q) history)) =
    Ok ([v1; v2], false, it') /\ f64_lt (snd v2) (snd v1) = true.
Proof.
  exists (f64_zero, f64_zero),
    [(f64_neg (tiny 601), f64_zero); (f64_one, f64_zero); (tiny 600, tiny 600); (tiny 600, f64_neg (tiny 600))].
  split; [now repeat split|]. split; [repeat constructor|].
  eexists ((f64_neg (tiny 601), f64_zero), tiny 601), ((tiny 600, f64_neg (tiny 600)), f64_zero), _.
  split; [vm_compute; reflexivity|vm_compute; reflexivity].
Qed.
Print Assumptions C36_euclidean_refuted.

Example C36_nonvacuous :
  let h := [(z 5, z 5); (z 2, z 3); (z 8, z 1); (z 2, z 9)] in
  let id := fun p : point f64 => p in
  (exists it', iterate id euclidean_distance (z 5, z 1) 5
      (new_iterator id euclidean_distance (z 5, z 1) (inserts id h)) =
    Ok ([((z 8, z 1), z 3); ((z 2, z 3), f64_sqrt (z 13)); ((z 5, z 5), z 4); ((z 2, z 9), f64_sqrt (z 73))], true, it')) /\
  fin_pt (z 5, z 1) /\ Forall fin_pt h.
Proof.
  cbv zeta. split; [eexists; vm_compute; reflexivity|]. split; [now repeat split; vm_compute|].
  repeat (constructor; [now repeat split; vm_compute|]); constructor.
Qed.
