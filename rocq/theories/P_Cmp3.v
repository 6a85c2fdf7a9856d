(** Proofs about cmp: what equality implies, counterexamples, the default
    comparator. *)
From Coq Require Import ZArith Bool List Lia Permutation Sorted.
From Coq Require Import ZifyBool ZifyNat.
From Verif Require Import Base_F64 Base_F64Arith Base_Geom Base_Res Base_Bytes M_Geom M_Extent
  S_Geom M_Cmp S_Cmp P_F64 P_F64Flocq P_Cmp P_Cmp2 P_List.
Import ListNotations.

Lemma all2_to_Forall2 {A} (f : A -> A -> bool) l m : length l = length m -> all2 f l m = true ->
  Forall2 (fun a b => f a b = true) l m.
Proof.
  revert m. induction l as [|a l IH]; intros [|b m] L H; cbn in L; try lia; [constructor|].
  unfold all2 in H. cbn [combine forallb fst snd] in H. apply andb_prop in H. destruct H.
  constructor; auto.
Qed.

Section Sound.
  Variable S : sorters.
  Variables dflt c : compare.
  Hypothesis Hs : sorting S.

  Lemma matching {A} (f : A -> A -> bool) (srt : list A -> list A) a b :
    (forall l, Permutation l (srt l)) -> length a = length b ->
    all2 f (srt a) (srt b) = true ->
    exists b', Permutation b b' /\ Forall2 (fun x y => f x y = true) a b'.
  Proof.
    intros P L H. apply all2_to_Forall2 in H.
    - destruct (Permutation_Forall2 (Permutation_sym (P a)) H) as (b' & Pb & F).
      exists b'. split; [|exact F]. eapply perm_trans; eauto.
    - now rewrite <- (Permutation_length (P a)), <- (Permutation_length (P b)).
  Qed.

  Lemma multipoint_sound a b : multipoint_equal S c a b = true ->
    exists b', Permutation b b' /\ Forall2 (fun x y => point_equal c x y = true) a b'.
  Proof.
    unfold multipoint_equal. destruct (Nat.eqb_spec (length a) (length b)); cbn [negb]; [|discriminate].
    intros H. eapply matching; eauto. apply (points_perm S Hs).
  Qed.

  Lemma linestring_sound a b : linestring_equal c a b = true ->
    exists i j, Forall2 (fun x y => point_equal c x y = true) (rotated i a) (rotated j b).
  Proof.
    unfold linestring_equal. destruct (Nat.eqb_spec (length a) (length b)); cbn [negb]; [|discriminate].
    rewrite !rotate_leftmost_ok. intros H. exists (find_min_idx a), (find_min_idx b).
    apply all2_to_Forall2; [|exact H]. now rewrite !rotated_length.
  Qed.

  Lemma multiline_exact a b : multiline_equal c a b = true <->
    length a = length b /\ forall x, In x a -> exists y, In y b /\ linestring_equal c x y = true.
  Proof.
    unfold multiline_equal. destruct (Nat.eqb_spec (length a) (length b)); cbn [negb].
    - rewrite forallb_forall. split.
      + intros H. split; [assumption|]. intros x I. apply existsb_exists. auto.
      + intros [_ H] x I. apply existsb_exists. auto.
    - split; [discriminate|tauto].
  Qed.

  Lemma polygon_sound a b : fst (polygon_equal S dflt c a b) = true ->
    exists b', Permutation b b' /\ Forall2 (fun x y => linestring_equal c x y = true) a b'.
  Proof.
    unfold polygon_equal. destruct (Nat.eqb_spec (length a) (length b)); cbn [negb]; [|discriminate].
    destruct (negb _); [discriminate|]. cbn [fst]. intros H. eapply matching; eauto. apply (rings_perm S Hs).
  Qed.

  Lemma polygon_extents a b : fst (polygon_equal S dflt c a b) = true ->
    geom_extent dflt (new_extent (concat a)) (new_extent (concat b)) = true.
  Proof.
    unfold polygon_equal. destruct (negb _); [discriminate|].
    destruct (geom_extent _ _ _); [reflexivity|discriminate].
  Qed.

  Lemma polygon_args a b : let r := snd (polygon_equal S dflt c a b) in
    Permutation a (fst r) /\ Permutation b (snd r).
  Proof.
    unfold polygon_equal. destruct (negb _); [now split|].
    destruct (negb _); [now split|]. cbn. split; apply (rings_perm S Hs).
  Qed.

  Lemma multipolygon_sound a b : multipolygon_equal S dflt c a b = true ->
    exists b', Permutation b b' /\ Forall2 (fun x y => fst (polygon_equal S dflt c x y) = true) a b'.
  Proof.
    unfold multipolygon_equal. destruct (Nat.eqb_spec (length a) (length b)); cbn [negb]; [|discriminate].
    intros H. eapply (matching (fun x y => fst (polygon_equal S dflt c x y))); eauto. apply (polys_perm S Hs).
  Qed.

  Lemma collection_exact gs hs : geometry_equal S dflt c (GCollection gs) (GCollection hs) = true <->
    Forall2 (fun g h => geometry_equal S dflt c g h = true) gs hs.
  Proof.
    cbn [geometry_equal]. split.
    - intros H. apply andb_prop in H. destruct H as [L H]. apply Nat.eqb_eq in L.
      revert hs L H. induction gs as [|g gs IH]; intros [|h hs] L H; cbn in L; try lia; constructor.
      + now apply andb_prop in H.
      + apply IH; [lia|]. now apply andb_prop in H.
    - intros H. induction H as [|g h gs hs E _ IH]; [reflexivity|].
      cbn [length Nat.eqb]. rewrite E. exact IH.
  Qed.

  Lemma kinds_differ g h : geometry_equal S dflt c g h = true ->
    match g, h with
    | GPoint _, GPoint _ | GMultiPoint _, GMultiPoint _ | GLineString _, GLineString _
    | GMultiLineString _, GMultiLineString _ | GPolygon _, GPolygon _
    | GMultiPolygon _, GMultiPolygon _ | GCollection _, GCollection _ => True
    | _, _ => False
    end.
  Proof. destruct g, h; try discriminate; auto. Qed.
End Sound.

(** ** Insertion sort only reorders *)

Lemma upd_perm {A} (l : list A) i j a b : nth_error l i = Some a -> nth_error l j = Some b ->
  Permutation l (upd (upd l i b) j a).
Proof.
  revert i j. induction l as [|x l IH]; intros i j Hi Hj; [destruct i; discriminate|].
  assert (G : forall (l : list A) j b x, nth_error l j = Some b -> Permutation (x :: l) (b :: upd l j x)).
  { clear. induction l as [|y l IH]; intros j b x H; [destruct j; discriminate|].
    destruct j as [|j]; cbn in *.
    - injection H as ->. apply perm_swap.
    - eapply perm_trans; [apply perm_swap|]. eapply perm_trans; [apply perm_skip, (IH j b x H)|]. apply perm_swap. }
  destruct i as [|i], j as [|j]; cbn in *.
  - injection Hi as ->. injection Hj as ->. reflexivity.
  - injection Hi as ->. now apply G.
  - injection Hj as ->. apply G. exact Hi.
  - apply perm_skip. now apply IH.
Qed.

Lemma swap_perm {A} (l : list A) i j : Permutation l (swap l i j).
Proof.
  unfold swap. destruct (nth_error l i) eqn:E; [|reflexivity]. destruct (nth_error l j) eqn:F; [|reflexivity].
  now apply upd_perm.
Qed.

Lemma sift_perm {A} less j (l : list A) : Permutation l (sift_down less j l).
Proof.
  revert l. induction j as [|j IH]; intros l; cbn; [reflexivity|].
  destruct (less l (S j) j); [|reflexivity]. eapply perm_trans; [apply swap_perm|apply IH].
Qed.

Lemma insertion_sort_perm {A} less (l : list A) : Permutation l (insertion_sort less l).
Proof.
  unfold insertion_sort. generalize (seq 1 (length l - 1)). intros is. revert l.
  induction is as [|i is IH]; intros l; cbn; [reflexivity|].
  eapply perm_trans; [apply (sift_perm less i l)|apply IH].
Qed.

(** ** A set of sorting routines *)

  Lemma strongly_in_order {A} (lt : A -> A -> Prop) l : StronglySorted (fun a b => ~ lt b a) l -> in_order lt l.
  Proof.
    induction 1 as [|x l HS IH HF]; intros i j p q L P Q; [destruct i; discriminate|].
    destruct j as [|j]; [lia|]. destruct i as [|i]; cbn in *.
    - injection P as ->. rewrite Forall_forall in HF. apply HF. eapply nth_error_In; eauto.
    - apply (IH i j p q); auto. lia.
  Qed.
Section Insert.
  Context {A : Type} (less : A -> A -> bool).
  Fixpoint insert (x : A) (l : list A) : list A :=
    match l with
    | [] => [x]
    | y :: tl => if less y x then y :: insert x tl else x :: l
    end.
  Definition isort (l : list A) : list A := fold_right insert [] l.

  Lemma insert_perm x l : Permutation (x :: l) (insert x l).
  Proof.
    induction l as [|y l IH]; cbn; [reflexivity|]. destruct (less y x); [|reflexivity].
    eapply perm_trans; [apply perm_swap|]. now apply perm_skip.
  Qed.
  Lemma isort_perm l : Permutation l (isort l).
  Proof.
    induction l as [|x l IH]; cbn; [reflexivity|].
    eapply perm_trans; [apply perm_skip, IH|apply insert_perm].
  Qed.

  Variable ok : A -> Prop.
  Variable lt : A -> A -> Prop.
  Hypothesis less_lt : forall a b, ok a -> ok b -> (less a b = true <-> lt a b).
  Hypothesis lt_asym : forall a b, lt a b -> ~ lt b a.
  Hypothesis nlt_trans : forall a b d, ok a -> ok b -> ok d -> ~ lt b a -> ~ lt d b -> ~ lt d a.

  Lemma insert_sorted x l : ok x -> Forall ok l -> StronglySorted (fun a b => ~ lt b a) l ->
    StronglySorted (fun a b => ~ lt b a) (insert x l).
  Proof.
    intros Hx Hl HS. induction HS as [|y l HS IH HF]; cbn; [repeat constructor|].
    inversion_clear Hl. destruct (less y x) eqn:E.
    - apply less_lt in E; auto. constructor; [auto|].
      apply (Permutation_Forall (insert_perm x l)). constructor; auto.
    - constructor; [now constructor|]. constructor.
      + intros T. apply less_lt in T; auto. congruence.
      + rewrite Forall_forall in *. intros z Hz. apply nlt_trans with y; auto.
        intros T. apply less_lt in T; auto. congruence.
  Qed.
  Lemma isort_sorted l : Forall ok l -> StronglySorted (fun a b => ~ lt b a) (isort l).
  Proof.
    induction l as [|x l IH]; intros H; cbn; [constructor|]. inversion_clear H.
    apply insert_sorted; auto. apply (Permutation_Forall (isort_perm l)). assumption.
  Qed.
End Insert.

Definition small_sorters : sorters :=
  Sorters (isort f64_lt) (isort xy_less) (insertion_sort sub_ring_less) (insertion_sort main_ring_less).

Lemma small_sorting : sorting small_sorters.
Proof.
  constructor; cbn.
  - apply isort_perm.
  - intros l N. apply strongly_in_order.
    apply (isort_sorted _ (fun x => f64_isnan x = false)); auto.
    + reflexivity.
    + intros a b P Q. apply lt_inv in P, Q. lia.
    + intros a b d Ha Hb Hd. rewrite !lt_key by assumption. lia.
  - apply isort_perm.
  - intros l N. apply strongly_in_order.
    apply (isort_sorted _ number); auto.
    + intros. now apply xy_less_before.
    + intros a b P Q. apply (before_irrefl a). eapply before_trans; eauto.
    + intros a b d Ha Hb Hd. rewrite !before_kk by assumption. unfold klt. lia.
  - apply insertion_sort_perm.
  - apply insertion_sort_perm.
Qed.

(** ** Counterexamples *)

(** 1e-6, the default tolerance *)
Definition micro : f64 := 0x3EB0C6F7A0B5ED8D.
Definition default_compare : compare := new_compare micro.

Lemma default_positive : positive default_compare.
Proof. split; [reflexivity|]. vm_compute. split; [reflexivity|discriminate || reflexivity]. Qed.

(** 1e-300 and 2e-300: their difference is far below the tolerance. *)
Definition tiny1 : f64 := 0x01A56E1FC2F8F359.
Definition tiny2 : f64 := 0x01B56E1FC2F8F359.
Lemma within_tolerance_differs :
  f64_lt (f64_abs (f64_sub tiny2 tiny1)) (tol default_compare) = true /\
  cmp_float default_compare tiny1 tiny2 = false.
Proof. split; vm_compute; reflexivity. Qed.

Definition A0 : pt := (f64_zero, f64_zero).
Definition B0 : pt := (f64_one, f64_zero).
Definition C0 : pt := (f64_one, f64_one).
Definition D0 : pt := (f64_two, f64_three).

Lemma duplicate_leftmost :
  linestring_equal default_compare [A0; B0; A0; C0] (rotated 2 [A0; B0; A0; C0]) = false.
Proof. vm_compute. reflexivity. Qed.

Lemma multiline_asymmetric :
  multiline_equal default_compare [[A0; B0]; [A0; B0]] [[A0; B0]; [A0; C0]] = true /\
  multiline_equal default_compare [[A0; B0]; [A0; C0]] [[A0; B0]; [A0; B0]] = false.
Proof. split; vm_compute; reflexivity. Qed.

Definition two_holes : list (list pt) := [[A0; B0; D0]; [A0; B0; C0; D0]; [A0; B0; C0]].
Lemma polygon_reordered :
  polygon_equal small_sorters default_compare default_compare two_holes two_holes =
  (true, ([[A0; B0; D0]; [A0; B0; C0]; [A0; B0; C0; D0]], [[A0; B0; D0]; [A0; B0; C0]; [A0; B0; C0; D0]])).
Proof. vm_compute. reflexivity. Qed.

(** ** The default comparator *)

Section DefaultProofs.
  Context {V : Type} (news : nat -> V).

  Definition stored (w : @world V) (v : V) : Prop := exists i old, callers w i = Returned old /\ news i = v.

  Lemma set_same w i s : @set_caller V w i s i = s.
  Proof. unfold set_caller. now rewrite Nat.eqb_refl. Qed.
  Lemma set_other w i s j : j <> i -> @set_caller V w i s j = w j.
  Proof. unfold set_caller. intros H. now destruct (Nat.eqb_spec j i). Qed.

  Definition inv (v0 : V) (w : world) : Prop :=
    (cell w = v0 /\ (forall i old, callers w i <> Returned old) \/ stored w (cell w)) /\
    (forall i old, callers w i = Loaded old \/ callers w i = Returned old -> old = v0 \/ stored w old).

  Lemma stored_mono w i : forall v, stored w v -> stored (default_step news w i) v.
  Proof.
    intros v (j & old & E & F). unfold default_step, stored.
    destruct (callers w i) eqn:C; cbn.
    - exists j, old. split; [|exact F]. rewrite set_other; [exact E|]. intros ->. congruence.
    - exists j, old. split; [|exact F]. rewrite set_other; [exact E|]. intros ->. congruence.
    - eauto.
  Qed.

  Lemma inv_step v0 w i : inv v0 w -> inv v0 (default_step news w i).
  Proof.
    intros [H1 H2]. pose proof (stored_mono w i) as M. unfold inv in *.
    unfold default_step in *. destruct (callers w i) as [|old|old] eqn:C; cbn [cell callers] in *.
    - split.
      + destruct H1 as [[E N]|E].
        * left. split; [exact E|]. intros j o. destruct (Nat.eq_dec j i) as [->|D].
          -- rewrite set_same. discriminate.
          -- rewrite set_other by exact D. apply N.
        * right. auto.
      + intros j o. destruct (Nat.eq_dec j i) as [->|D].
        * rewrite set_same. intros [Q|Q]; [|discriminate]. injection Q as <-.
          destruct H1 as [[E N]|E]; [left; exact E|right; auto].
        * rewrite set_other by exact D. intros Q. destruct (H2 j o Q); auto.
    - split.
      + right. exists i, old. cbn. now rewrite set_same.
      + intros j o. destruct (Nat.eq_dec j i) as [->|D].
        * rewrite set_same. intros [Q|Q]; [discriminate|]. injection Q as <-.
          destruct (H2 i old (or_introl C)); auto.
        * rewrite set_other by exact D. intros Q. destruct (H2 j o Q); auto.
    - split; auto.
  Qed.

  Lemma inv_run v0 sched : inv v0 (default_run news (default_start v0) sched).
  Proof.
    assert (G : forall w, inv v0 w -> inv v0 (default_run news w sched)).
    { induction sched as [|i s IH]; intros w H; [exact H|]. apply IH. now apply inv_step. }
    apply G. split.
    - left. split; [reflexivity|]. intros. discriminate.
    - intros i old [H|H]; discriminate.
  Qed.

  Lemma returned_values v0 sched i old :
    callers (default_run news (default_start v0) sched) i = Returned old ->
    old = v0 \/ exists j old', callers (default_run news (default_start v0) sched) j = Returned old' /\ news j = old.
  Proof. intros H. destruct (inv_run v0 sched) as [_ I]. exact (I i old (or_intror H)). Qed.

  Lemma installed_value v0 sched :
    let w := default_run news (default_start v0) sched in
    cell w = v0 /\ (forall i old, callers w i <> Returned old) \/
    exists i old, callers w i = Returned old /\ cell w = news i.
  Proof.
    destruct (inv_run v0 sched) as [[H|(i & old & E & F)] _]; cbn; [left; exact H|right]. eauto.
  Qed.

  (** The last one to store. *)
  Lemma last_store w i old : callers w i = Loaded old -> cell (default_step news w i) = news i.
  Proof. unfold default_step. now intros ->. Qed.
  Lemma other_steps_keep w i : (forall old, callers w i <> Loaded old) -> cell (default_step news w i) = cell w.
  Proof. unfold default_step. intros H. destruct (callers w i); try reflexivity. now destruct (H old). Qed.

  (** Calls one after the other: a chain. *)
  Lemma sequential w order : NoDup order -> (forall i, In i order -> callers w i = Calling) ->
    let w' := default_run news w (flat_map (fun i => [i; i]) order) in
    cell w' = last (map news order) (cell w) /\
    (forall i v, In (i, v) (chain news (cell w) order) -> callers w' i = Returned v) /\
    (forall i, ~ In i order -> callers w' i = callers w i).
  Proof.
    revert w. induction order as [|i order IH]; intros w ND St; cbn zeta.
    - cbn. repeat split; auto. intros i v [].
    - inversion_clear ND. cbn [flat_map app default_run fold_left].
      assert (E1 : callers w i = Calling) by auto with datatypes.
      assert (E2 : default_step news (default_step news w i) i =
                   World (news i) (set_caller (set_caller (callers w) i (Loaded (cell w))) i (Returned (cell w)))).
      { unfold default_step at 2. rewrite E1. unfold default_step. cbn. now rewrite set_same. }
      rewrite E2. set (w2 := World _ _).
      assert (O : forall j, j <> i -> callers w2 j = callers w j).
      { intros j D. cbn. now rewrite !set_other. }
      destruct (IH w2) as (I1 & I2 & I3); auto.
      { intros j J. rewrite O by (intros ->; contradiction). auto with datatypes. }
      unfold default_run in *. split; [|split].
      + rewrite I1. cbn [map]. rewrite last_cons. reflexivity.
      + intros j v [Q|Q].
        * injection Q as <- <-. rewrite I3 by assumption. cbn. now rewrite set_same.
        * apply I2. exact Q.
      + intros j N. rewrite I3 by (intros Q; apply N; now right). apply O. intros ->. apply N. now left.
  Qed.
End DefaultProofs.

(** Two goroutines handed the same comparator. *)
Lemma handover_twice :
  let w := default_run (fun i => S i) (default_start 0%nat) [0; 1; 0; 1]%nat in
  callers w 0%nat = Returned 0%nat /\ callers w 1%nat = Returned 0%nat /\ cell w = 2%nat.
Proof. cbn. auto. Qed.

Lemma any_start_refuted : exists k a, Forall number a /\ (k <= length a)%nat /\
  linestring_equal (new_compare micro) a (rotated k a) = false.
Proof.
  exists 2%nat, [A0; B0; A0; C0]. split; [|split; [cbn; lia|exact duplicate_leftmost]].
  repeat (constructor; [split; reflexivity|]). constructor.
Qed.

Lemma arguments_change : exists S a, sorting S /\
  sort_rings S = insertion_sort sub_ring_less /\
  fst (snd (polygon_equal S (new_compare micro) (new_compare micro) a a)) <> a.
Proof.
  exists small_sorters, two_holes. split; [exact small_sorting|]. split; [reflexivity|].
  fold default_compare. rewrite polygon_reordered. discriminate.
Qed.
