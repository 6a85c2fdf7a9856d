(** * The R-tree theorems, assembled *)
From Coq Require Import ZArith Bool List Permutation Sorted Lia ZifyBool ZifyNat.
From Verif Require Import Base_F64 Base_F64Arith Base_Res P_F64 S_Kd M_Rtree S_Rtree P_Rtree P_Rtree2 P_Rtree3 P_RtreeNear P_RtreeDel.
Import ListNotations.

Section Top.
  Context {A : Type} (bounds : A -> rect).
  Variables (min max d : nat).
  Hypothesis Hmax : (2 <= max)%nat.
  Local Notation okl l := (Forall (fun a => rect_ok d (bounds a)) l).

  Lemma ins_good lo l t : (lo <= 1 \/ lo <= min /\ 2 * min <= max + 1)%nat -> okl l ->
    inserts bounds min max empty_tree l = Ok t ->
    tree_good bounds max lo (rect_ok d) t /\ Permutation (objs (root t)) l /\ t_size t = Z.of_nat (length l).
  Proof.
    intros Hlo H E.
    destruct (inserts_spec bounds min max lo Hmax Hlo d (rect_ok d) (fun r Hr => Hr) (bounding_box_ok d) l empty_tree t)
      as (G & P & S & _); auto.
    - now apply (empty_good bounds min).
    - rewrite app_nil_r in P. auto.
  Qed.

  Lemma contents l t : okl l -> inserts bounds min max empty_tree l = Ok t ->
    Permutation (objs (root t)) l /\ t_size t = Z.of_nat (length l) /\ boxes_ok bounds (root t) /\ balanced (root t) /\
    height t = n_level (root t) /\ (length (n_entries (root t)) <= max)%nat /\
    below (fun k => 1 <= k <= max)%nat (root t).
  Proof.
    intros H E. destruct (ins_good 1 l t ltac:(lia) H E) as ((G & L & Hh) & P & S).
    split; [exact P|]. split; [exact S|]. split; [eapply good_boxes; exact G|]. split; [eapply good_balanced; exact G|].
    split; [exact Hh|]. split; [exact L|]. eapply good_below. exact G.
  Qed.

  Lemma min_children l t : (2 * min <= max + 1)%nat -> okl l -> inserts bounds min max empty_tree l = Ok t ->
    below (fun k => min <= k <= max)%nat (root t).
  Proof.
    intros Hm H E. destruct (ins_good min l t ltac:(lia) H E) as ((G & _ & _) & _). eapply good_below. exact G.
  Qed.

  Lemma searched t bb l : searchable bounds d (root t) -> Permutation (objs (root t)) l -> rect_ok d bb ->
    exists r, search_intersect t bb [] = Ok r /\ Permutation r (filter (fun a => overlap (bounds a) bb) l).
  Proof.
    intros S P Hb. unfold search_intersect. rewrite (search_all bounds d bb Hb _ S). cbn [app].
    eexists. split; [reflexivity|]. clear - P. unfold hit. induction P as [|x l l' P IH|x y l|l1 l2 l3 P1 IH1 P2 IH2]; cbn.
    - constructor.
    - destruct (overlap (bounds x) bb); [now constructor|exact IH].
    - destruct (overlap (bounds x) bb), (overlap (bounds y) bb); try reflexivity. apply perm_swap.
    - etransitivity; eassumption.
  Qed.

  Lemma limited t bb k r : searchable bounds d (root t) -> rect_ok d bb -> search_intersect t bb [] = Ok r ->
    search_intersect_with_limit t k bb = Ok (if (k <? 0)%Z then r else firstn (Z.to_nat k) r).
  Proof.
    intros S Hb E. unfold search_intersect_with_limit. destruct (k <? 0)%Z eqn:C; [exact E|].
    unfold search_intersect in *. rewrite (search_all bounds d bb Hb _ S) in E. injection E as <-.
    replace k with (Z.of_nat (Z.to_nat k)) at 1 by lia. rewrite (search_limit bounds d bb Hb _ _ S); [reflexivity|cbn; lia].
  Qed.

  Lemma filtered t bb fs r : searchable bounds d (root t) -> rect_ok d bb ->
    Forall (fun f : filter_fn A => forall rs x, snd (f rs x) = false) fs -> search_intersect t bb [] = Ok r ->
    search_intersect t bb fs =
    Ok (fold_left (fun rs a => if existsb (fun f => fst (f rs a)) fs then rs else rs ++ [a]) r []).
  Proof.
    intros S Hb NA E. unfold search_intersect in *. rewrite (search_all bounds d bb Hb _ S) in E. injection E as <-.
    now rewrite (search_filtered bounds d bb Hb fs _ NA S).
  Qed.

  Lemma ins_searchable l t : okl l -> inserts bounds min max empty_tree l = Ok t ->
    searchable bounds d (root t) /\ Permutation (objs (root t)) l.
  Proof.
    intros H E. destruct (ins_good 1 l t ltac:(lia) H E) as ((G & L & Hh) & P & S). split; [|exact P].
    eapply good_searchable. exact G.
  Qed.

  Lemma no_panic m l : (0 <= m)%Z -> (Z.of_nat d * (m + 1) <= 1022)%Z ->
    Forall (fun a => small_rect d m (bounds a)) l -> exists t, inserts bounds min max empty_tree l = Ok t.
  Proof.
    intros Hm Hd H.
    refine (inserts_total bounds min max 1 Hmax _ d (small_rect d m) _ _ _ _ l empty_tree _ _ H).
    - lia.
    - intros r Hr. now apply (small_ok m d).
    - intros r1 r2 H1 H2. now apply small_bb.
    - intros r e Hr He. now apply (small_choose m Hm d).
    - lia.
    - apply (empty_good bounds min); [exact Hmax|lia].
    - apply (empty_full min max 1); lia.
  Qed.

  (** Few objects: the root stays a leaf. *)
  Lemma few l : forall es n, (length es + length l <= max)%nat ->
    inserts bounds min max (Rtree (Node true 1 es) n 1) l = Ok (Rtree (Node true 1 (es ++ map (fun a => (bounds a, inr a)) l)) (n + Z.of_nat (length l)) 1).
  Proof.
    induction l as [|a l IH]; intros es n H; cbn [inserts map length]; cbn [length] in H.
    - rewrite app_nil_r. now replace (n + Z.of_nat 0)%Z with n by lia.
    - unfold insert, insert_entry. cbn [root]. rewrite insert_at_eq. cbn [orb]. unfold overflow. rewrite app_length. cbn [length].
      replace (max <? length es + 1)%nat with false by lia. cbn [bind root t_size height].
      rewrite IH by (rewrite app_length; cbn; lia). rewrite <- app_assoc. cbn [app].
      now replace (n + 1 + Z.of_nat (length l))%Z with (n + Z.of_nat (S (length l)))%Z by lia.
  Qed.

  (** ** Bulk loading *)
  Variable sorted : nat -> list (entry A) -> list (entry A).
  Hypothesis sorted_perm : forall i l, Permutation (sorted i l) l.
  Variable dim : nat.

  Lemma bulk_entries l : okl l ->
    Forall (isobj bounds d) (sorted 0 (map (fun a => (bounds a, inr a)) l)) /\
    Permutation (flat_map e_objs (sorted 0 (map (fun a => (bounds a, inr a)) l))) l /\
    length (sorted 0 (map (fun a => (bounds a, inr a)) l)) = length l.
  Proof.
    intros H. split; [|split].
    - eapply Permutation_Forall; [symmetry; apply sorted_perm|]. apply Forall_map. eapply Forall_impl; [|exact H].
      intros a Ha. exists a. now split.
    - rewrite (Permutation_flat_map _ (sorted_perm 0 _)). clear. induction l; cbn; [constructor|]. now constructor.
    - rewrite (Permutation_length (sorted_perm 0 _)). apply map_length.
  Qed.

  Lemma bulk fuel h s ns l : okl l -> (0 <= h)%Z -> ((max < length l)%nat -> (1 <= s < Z.of_nat (length l))%Z) ->
    (Z.to_nat h + length l + 1 < fuel)%nat ->
    exists t, new_tree bounds min max sorted dim fuel h s ns l = Ok t /\
      searchable bounds d (root t) /\ Permutation (objs (root t)) l /\ t_size t = Z.of_nat (length l).
  Proof.
    intros H Hh Hs Hf. unfold new_tree. destruct (length l <=? max)%nat eqn:C.
    - unfold empty_tree. rewrite few by (cbn; lia). eexists. split; [reflexivity|]. cbn [root t_size app].
      pose proof (ins_searchable l _ H (few l [] 0%Z ltac:(cbn; lia))) as [S P]. cbn [root app] in *.
      split; [exact S|]. split; [exact P|lia].
    - unfold bulk_load. destruct (bulk_entries l H) as (B1 & B2 & B3). specialize (Hs ltac:(lia)).
      destruct (omt_total_top max dim sorted sorted_perm Hmax fuel h h ns (sorted 0 (map (fun a => (bounds a, inr a)) l)) (Z.to_nat s))
        as (n & En); [lia|lia|lia|].
      rewrite En. cbn [bind]. eexists. split; [reflexivity|]. cbn [root t_size].
      destruct (omt_search bounds d max dim sorted sorted_perm Hmax fuel _ _ _ _ _ _ B1 En) as [S P].
      split; [exact S|]. split; [now rewrite P|reflexivity].
  Qed.

  Lemma bulk_shape fuel h s ns l t : okl l -> (1 <= h)%Z -> (max < length l)%nat -> (1 <= s <= Z.of_nat max)%Z ->
    (Z.of_nat (length l) <= s * Z.of_nat max ^ (h - 1))%Z ->
    new_tree bounds min max sorted dim fuel h s ns l = Ok t ->
    balanced (root t) /\ boxes_ok bounds (root t) /\ height t = n_level (root t) /\ height t = h /\
    (length (n_entries (root t)) <= max)%nat /\ below (fun k => 1 <= k <= max)%nat (root t).
  Proof.
    intros H Hh Hl Hs Hb E. unfold new_tree in E. replace (length l <=? max)%nat with false in E by lia.
    unfold bulk_load in E. apply bind_ok in E. destruct E as (n & En & E). injection E as <-. cbn [root height].
    destruct (bulk_entries l H) as (B1 & B2 & B3).
    destruct (omt_good_top bounds d max dim sorted sorted_perm Hmax fuel h h ns _ (Z.to_nat s) n Hh B1) as (G & Lv & Ln); [lia|lia| |exact En|].
    - rewrite B3. apply Nat2Z.inj_le. rewrite Nat2Z.inj_mul, Nat2Z.inj_pow. rewrite !Z2Nat.id by lia. exact Hb.
    - split; [eapply good_balanced; exact G|]. split; [eapply good_boxes; exact G|]. split; [lia|]. split; [lia|].
      split; [lia|]. eapply good_below. exact G.
  Qed.
End Top.

(** Nearest neighbours after insertions. *)
Lemma near {A} (bounds : A -> rect) min max d l t p k sort_dists : (2 <= max)%nat -> Forall (fun a => fin_rect d (bounds a)) l ->
  inserts bounds min max empty_tree l = Ok t -> fin_point p -> (1 <= k)%nat ->
  (forall l, Permutation (sort_dists l) l) ->
  (forall l, Forall (fun e => f64_wf (snd e) = true /\ f64_isnan (snd e) = false) l ->
     StronglySorted (fun a b => f64_le (snd a) (snd b) = true) (sort_dists l)) ->
  exists r rest, nearest_neighbors sort_dists (Z.to_nat (height t)) k t p = Ok r /\
    Permutation (r ++ rest) l /\ length r = Nat.min k (length l) /\
    StronglySorted (fun a b => f64_le (min_dist p (bounds a)) (min_dist p (bounds b)) = true) r /\
    forall a b, In a r -> In b rest -> f64_le (min_dist p (bounds a)) (min_dist p (bounds b)) = true.
Proof.
  intros Hmax H E Hp Hk Sp Ss.
  destruct (inserts_spec bounds min max 1 Hmax (or_introl (le_n 1)) d (fin_rect d) (fin_rect_ok d) (fin_rect_bb d) l empty_tree t)
    as (G & P & S & _); auto.
  { apply (empty_good bounds min); [exact Hmax|lia]. }
  rewrite app_nil_r in P. destruct G as (G & _ & Hh). rewrite Hh.
  destruct (near_spec bounds max 1 d p Hp sort_dists Sp) with (k := k) (t := t) as (r & rest & R1 & R2 & R3 & R4 & R5); auto.
  - intros l' Hl'. apply Ss. eapply Forall_impl; [|exact Hl']. intros e [[N1 N2] _]. now split.
  - exists r, rest. split; [exact R1|]. split; [now rewrite R2|]. split; [now rewrite R3, (Permutation_length P)|]. now split.
Qed.

(** Histories of insertions and deletions. *)
Lemma history {A} (bounds : A -> rect) min max d (eqb : A -> A -> bool) ops t answers : (2 <= max)%nat -> (1 <= min)%nat ->
  (forall a b, eqb a b = true <-> a = b) -> Forall (fun o => rect_ok d (bounds (op_obj o))) ops ->
  run bounds min max eqb empty_tree ops = Ok (t, answers) ->
  Permutation (objs (root t)) (fst (expected eqb [] ops)) /\ answers = snd (expected eqb [] ops) /\
  t_size t = Z.of_nat (length (objs (root t))) /\
  boxes_ok bounds (root t) /\ balanced (root t) /\ height t = n_level (root t) /\
  (length (n_entries (root t)) <= max)%nat /\ below (fun k => 1 <= k <= max)%nat (root t) /\
  searchable bounds d (root t).
Proof.
  intros Hmax Hmin He H E.
  destruct (run_spec bounds min max Hmax Hmin d eqb (fun a b C => f_equal bounds (proj1 (He a b) C)) He ops empty_tree [] t answers)
    as ((G & L & Hh) & P & An & S); auto.
  { apply (empty_good bounds min); [exact Hmax|lia]. }
  split; [exact P|]. split; [exact An|]. split; [exact S|].
  split; [eapply good_boxes; exact G|]. split; [eapply good_balanced; exact G|].
  split; [exact Hh|]. split; [exact L|]. split; [eapply good_below; exact G|]. eapply good_searchable. exact G.
Qed.

Lemma history_search {A} (bounds : A -> rect) min max d (eqb : A -> A -> bool) ops t answers bb : (2 <= max)%nat -> (1 <= min)%nat ->
  (forall a b, eqb a b = true <-> a = b) -> Forall (fun o => rect_ok d (bounds (op_obj o))) ops ->
  run bounds min max eqb empty_tree ops = Ok (t, answers) -> rect_ok d bb ->
  exists r, search_intersect t bb [] = Ok r /\ Permutation r (filter (fun a => overlap (bounds a) bb) (fst (expected eqb [] ops))).
Proof.
  intros Hmax Hmin He H E Hb.
  destruct (history bounds min max d eqb ops t answers Hmax Hmin He H E) as (P & _ & _ & _ & _ & _ & _ & _ & S).
  eapply searched; eassumption.
Qed.
