(** * Proofs about the R-tree *)
From Coq Require Import ZArith Bool List Permutation Sorted Lia.
From Coq Require Import ZifyBool ZifyNat.
From Verif Require Import Base_F64 Base_F64Arith Base_Res P_F64 M_Rtree S_Rtree.
Import ListNotations.

Lemma all_Forall {X} (P : X -> Prop) l : all P l <-> Forall P l.
Proof.
  induction l as [|x l IH]; cbn.
  - split; intros; [constructor|exact I].
  - rewrite IH. split; [intros [? ?]; now constructor|intros H; inversion H; subst; now split].
Qed.

Lemma bind_ok {E X Y} (m : res E X) (f : X -> res E Y) y :
  bind m f = Ok y -> exists x, m = Ok x /\ f x = Ok y.
Proof. destruct m as [x| |]; cbn; intros H; [eauto|discriminate|discriminate]. Qed.

(** ** Rectangles *)
Section Rects.
  Variable d : nat.

  Lemma rect_in_refl r : rect_ok d r -> rect_in r r.
  Proof.
    intros [_ H]. induction H as [|i r [Ha Hb] H IH]; constructor; [|exact IH].
    split; now apply f64_le_refl.
  Qed.

  Lemma rect_in_trans r1 r2 r3 : rect_in r1 r2 -> rect_in r2 r3 -> rect_in r1 r3.
  Proof.
    intros H. revert r3. induction H as [|i j r1 r2 [Ha Hb] H IH]; intros r3 H2.
    - exact H2.
    - inversion H2 as [|? k ? r3' [Hc Hd] H3]; subst. constructor; [|now apply IH].
      split; eapply f64_le_trans; eauto.
  Qed.

  Lemma bounding_box_ok r1 r2 : rect_ok d r1 -> rect_ok d r2 -> rect_ok d (bounding_box r1 r2).
  Proof.
    intros [L1 H1] [L2 H2]. split.
    - unfold bounding_box. rewrite map_length, combine_length. lia.
    - clear L1 L2. revert r2 H2. unfold bounding_box.
      induction H1 as [|i r1 Hi H1 IH]; intros [|j r2] H2; cbn; try constructor.
      + inversion H2; subst. cbn. destruct (f64_le _ _), (f64_le _ _); tauto.
      + inversion H2; subst. now apply IH.
  Qed.

  Lemma bounding_box_l r1 r2 : rect_ok d r1 -> rect_ok d r2 -> rect_in r1 (bounding_box r1 r2).
  Proof.
    intros [L1 H1] [L2 H2]. rewrite <- L2 in L1. clear L2. revert r2 H2 L1. unfold bounding_box.
    induction H1 as [|i r1 [Hi Hi'] H1 IH]; intros [|j r2] H2 L; cbn in *; try discriminate; constructor.
    - inversion H2 as [|? ? [Hj Hj'] ?]; subst. cbn.
      destruct (f64_le (fst i) (fst j)) eqn:E1, (f64_le (snd i) (snd j)) eqn:E2; split;
        auto using f64_le_refl; apply f64_lt_le; now apply f64_not_le_lt.
    - inversion H2; subst. apply IH; [assumption|lia].
  Qed.

  Lemma bounding_box_r r1 r2 : rect_ok d r1 -> rect_ok d r2 -> rect_in r2 (bounding_box r1 r2).
  Proof.
    intros [L1 H1] [L2 H2]. rewrite <- L2 in L1. clear L2. revert r2 H2 L1. unfold bounding_box.
    induction H1 as [|i r1 [Hi Hi'] H1 IH]; intros [|j r2] H2 L; cbn in *; try discriminate; constructor.
    - inversion H2 as [|? ? [Hj Hj'] ?]; subst. cbn.
      destruct (f64_le (fst i) (fst j)) eqn:E1, (f64_le (snd i) (snd j)) eqn:E2; split;
        auto using f64_le_refl; apply f64_lt_le; now apply f64_not_le_lt.
    - inversion H2; subst. apply IH; [assumption|lia].
  Qed.

  Lemma fold_bb rs : forall r, rect_ok d r -> Forall (rect_ok d) rs ->
    let R := fold_left bounding_box rs r in
    rect_ok d R /\ rect_in r R /\ Forall (fun x => rect_in x R) rs.
  Proof.
    induction rs as [|x rs IH]; cbn; intros r Hr H.
    - split; [exact Hr|]. split; [now apply rect_in_refl|constructor].
    - inversion H as [|? ? Hx H']; subst.
      destruct (IH (bounding_box r x)) as (HR & Hin & Hall).
      + now apply bounding_box_ok.
      + exact H'.
      + cbn in *. split; [exact HR|]. split; [|constructor].
        * eapply rect_in_trans; [|exact Hin]. now apply bounding_box_l.
        * eapply rect_in_trans; [|exact Hin]. now apply bounding_box_r.
        * exact Hall.
  Qed.

  Lemma bounding_box_n_ok rs R : Forall (rect_ok d) rs -> bounding_box_n rs = Ok R ->
    rect_ok d R /\ Forall (fun x => rect_in x R) rs.
  Proof.
    intros H E. destruct rs as [|r rs]; cbn in E; [discriminate|]. injection E as <-.
    inversion H; subst. destruct (fold_bb rs r) as (HR & Hin & Hall); auto.
  Qed.

  (** Overlap is what [intersect] tests, and it only grows with the box. *)
  Lemma intersect_overlap r bb : rect_ok d r -> rect_ok d bb ->
    match intersect r bb with Some _ => true | None => false end = overlap r bb.
  Proof.
    intros [L1 H1] [L2 H2]. rewrite <- L2 in L1. clear L2. revert bb H2 L1.
    induction H1 as [|[a1 b1] r [Ha Hb] H1 IH]; intros [|[a2 b2] bb] H2 L; cbn in *; try discriminate; [reflexivity|].
    inversion H2 as [|? ? [Ha2 Hb2] H2']; subst. cbn in *.
    specialize (IH bb H2' ltac:(lia)). unfold overlap in IH.
    rewrite <- IH.
    destruct (f64_le b2 a1) eqn:E1; cbn [orb].
    - replace (f64_lt a1 b2) with false; [reflexivity|].
      symmetry. apply not_true_iff_false. intros C. rewrite f64_lt_not_le in C by auto. now rewrite E1 in C.
    - replace (f64_lt a1 b2) with true by (symmetry; now apply f64_not_le_lt).
      destruct (f64_le b1 a2) eqn:E2; cbn [andb].
      + replace (f64_lt a2 b1) with false; [reflexivity|].
        symmetry. apply not_true_iff_false. intros C. rewrite f64_lt_not_le in C by auto. now rewrite E2 in C.
      + replace (f64_lt a2 b1) with true by (symmetry; now apply f64_not_le_lt).
        cbn [andb]. destruct (intersect r bb); reflexivity.
  Qed.

  Lemma overlap_mono r R bb : rect_in r R -> overlap r bb = true -> overlap R bb = true.
  Proof.
    unfold overlap. intros H. revert bb. induction H as [|i I r R [H1 H2] H IH]; intros [|j bb] E; cbn in *; auto.
    apply andb_prop in E. destruct E as [E E3]. apply andb_prop in E. destruct E as [E1 E2].
    rewrite (IH _ E3), andb_true_r. apply andb_true_intro. split; [eapply f64_le_lt_trans|eapply f64_lt_le_trans]; eauto.
  Qed.
End Rects.

(** ** Splitting *)
Lemma nth_split_perm {X} (l : list X) i x : nth_error l i = Some x ->
  Permutation l (x :: firstn i l ++ skipn (i + 1) l).
Proof.
  revert i. induction l as [|y l IH]; intros [|i]; cbn; try discriminate.
  - intros [= ->]. reflexivity.
  - intros E. rewrite (IH _ E) at 1. apply perm_swap.
Qed.

Lemma skipn_skipn' {X} (l : list X) : forall n m, skipn n (skipn m l) = skipn (n + m) l.
Proof.
  induction l as [|x l IH]; intros n m; [now rewrite !skipn_nil|].
  destruct m as [|m]; [now rewrite Nat.add_0_r|]. rewrite Nat.add_succ_r. cbn [skipn]. apply IH.
Qed.

Lemma seeds_row_bound r1 i rs : forall j acc n,
  (i < j)%nat -> (j + length rs <= n)%nat -> (fst (fst acc) < snd (fst acc) < n)%nat ->
  let '(l, r, _) := seeds_row r1 i j rs acc in (l < r < n)%nat.
Proof.
  induction rs as [|r2 rs IH]; cbn; intros j [[l r] m] n Hi Hj H; [cbn in H; lia|].
  cbn in H. apply IH; cbn; [lia|lia|]. destruct (f64_gt _ _); cbn; lia.
Qed.
Lemma seeds_bound rs : forall i acc n,
  (i + length rs <= n)%nat -> (fst (fst acc) < snd (fst acc) < n)%nat ->
  let '(l, r, _) := seeds i rs acc in (l < r < n)%nat.
Proof.
  induction rs as [|r1 rs IH]; cbn; intros i [[l r] m] n Hi H; [cbn in H; lia|].
  apply IH; [lia|]. pose proof (seeds_row_bound r1 i rs (S i) (l, r, m) n ltac:(lia) ltac:(lia) H) as B.
  destruct (seeds_row r1 i (S i) rs (l, r, m)) as [[l' r'] m']. cbn. lia.
Qed.
Lemma pick_seeds_bound rs : (2 <= length rs)%nat ->
  (fst (pick_seeds rs) < snd (pick_seeds rs) < length rs)%nat.
Proof.
  intros H. unfold pick_seeds.
  pose proof (seeds_bound rs 0 (0%nat, 1%nat, f64_mone) (length rs) ltac:(lia)) as B. cbn [fst snd] in B.
  specialize (B ltac:(lia)). destruct (seeds _ _ _) as [[l r] m]. exact B.
Qed.

Lemma pick_next_from_bound lbb rbb rs : forall i next m n,
  (i + length rs <= n)%nat -> (next < n)%nat -> (pick_next_from lbb rbb i next m rs < n)%nat.
Proof.
  induction rs as [|r rs IH]; cbn; intros i next m n Hi H; [exact H|].
  destruct (f64_gt _ _); apply IH; lia.
Qed.
Lemma pick_next_bound lbb rbb rs : rs <> [] -> (pick_next lbb rbb rs < length rs)%nat.
Proof.
  intros H. apply pick_next_from_bound; [lia|]. destruct rs; [now contradict H|cbn; lia].
Qed.

Section Split.
  Context {A : Type}.
  Implicit Types es l r : list (entry A).

  Lemma compute_bb_total es : es <> [] -> exists bb, compute_bb es = Ok bb.
  Proof. destruct es as [|e es]; [easy|]. intros _. cbn. eauto. Qed.
  Lemma compute_bb_nonempty es bb : compute_bb es = Ok bb -> es <> [].
  Proof. intros H ->. discriminate. Qed.

  Lemma distribute_step min fuel rem l r : rem <> [] ->
    distribute min (S fuel) rem l r =
      do lbb <- compute_bb l;
      do rbb <- compute_bb r;
      let next := pick_next lbb rbb (map fst rem) in
      match nth_error rem next with
      | None => Panic
      | Some e =>
          let rem' := firstn next rem ++ skipn (next + 1) rem in
          if (length rem + length l <=? min)%nat then distribute min fuel rem' (l ++ [e]) r
          else if (length rem + length r <=? min)%nat then distribute min fuel rem' l (r ++ [e])
          else if to_left lbb rbb (length l) (length r) (fst e) then distribute min fuel rem' (l ++ [e]) r
          else distribute min fuel rem' l (r ++ [e])
      end.
  Proof. destruct rem; [easy|reflexivity]. Qed.

  Lemma distribute_spec min : forall fuel rem l r, (length rem <= fuel)%nat -> l <> [] -> r <> [] ->
    exists l' r', distribute min fuel rem l r = Ok (l', r') /\
      Permutation (rem ++ l ++ r) (l' ++ r') /\
      (length l <= length l')%nat /\ (length r <= length r')%nat /\
      (min <= length rem + length l -> min <= length rem + length r ->
       2 * min <= length rem + length l + length r -> min <= length l' /\ min <= length r')%nat.
  Proof.
    induction fuel as [|fuel IH]; intros rem l r Hf Hl Hr.
    - destruct rem; [|cbn in Hf; lia]. exists l, r. cbn. repeat split; auto; lia.
    - destruct rem as [|e0 rem']; [exists l, r; cbn; repeat split; auto; lia|].
      assert (N : e0 :: rem' <> []) by discriminate. revert Hf N. generalize (e0 :: rem'). clear e0 rem'.
      intros rem Hf N. rewrite (distribute_step _ _ _ _ _ N).
      destruct (compute_bb_total l Hl) as [lbb ->]. destruct (compute_bb_total r Hr) as [rbb ->]. cbn [bind].
      cbv zeta. set (nx := pick_next lbb rbb (map fst rem)).
      assert (Hnx : (nx < length rem)%nat).
      { unfold nx. eapply Nat.lt_le_trans; [apply pick_next_bound; now destruct rem|rewrite map_length; lia]. }
      destruct (nth_error rem nx) as [e|] eqn:En; [|apply nth_error_None in En; lia].
      pose proof (nth_split_perm rem nx e En) as P.
      set (rem2 := firstn nx rem ++ skipn (nx + 1) rem) in *.
      assert (L2 : length rem = S (length rem2)) by (apply Permutation_length in P; exact P).
      assert (PL : Permutation (rem ++ l ++ r) (rem2 ++ (l ++ [e]) ++ r)).
      { rewrite P. cbn [app]. rewrite <- (app_assoc l [e] r). cbn [app]. rewrite !(app_assoc rem2 l).
        apply Permutation_middle. }
      assert (PR : Permutation (rem ++ l ++ r) (rem2 ++ l ++ (r ++ [e]))).
      { rewrite P. cbn [app]. rewrite !app_assoc. apply Permutation_cons_append. }
      assert (NL : l ++ [e] <> []) by (destruct l; discriminate).
      assert (NR : r ++ [e] <> []) by (destruct r; discriminate).
      assert (ToL : exists l' r', distribute min fuel rem2 (l ++ [e]) r = Ok (l', r') /\
        Permutation (rem ++ l ++ r) (l' ++ r') /\ (length l <= length l')%nat /\ (length r <= length r')%nat /\
        (min <= length rem + length l -> min < length rem + length r \/ length rem + length l <= min ->
         2 * min <= length rem + length l + length r -> min <= length l' /\ min <= length r')%nat).
      { destruct (IH rem2 (l ++ [e]) r ltac:(lia) NL Hr) as (l' & r' & E & Pm & B1 & B2 & B3).
        exists l', r'. rewrite E, PL. rewrite app_length in *. cbn [length] in *.
        split; [reflexivity|]. split; [exact Pm|]. split; [lia|]. split; [lia|]. intros. apply B3; lia. }
      assert (ToR : exists l' r', distribute min fuel rem2 l (r ++ [e]) = Ok (l', r') /\
        Permutation (rem ++ l ++ r) (l' ++ r') /\ (length l <= length l')%nat /\ (length r <= length r')%nat /\
        (min <= length rem + length r -> min < length rem + length l \/ length rem + length r <= min ->
         2 * min <= length rem + length l + length r -> min <= length l' /\ min <= length r')%nat).
      { destruct (IH rem2 l (r ++ [e]) ltac:(lia) Hl NR) as (l' & r' & E & Pm & B1 & B2 & B3).
        exists l', r'. rewrite E, PR. rewrite app_length in *. cbn [length] in *.
        split; [reflexivity|]. split; [exact Pm|]. split; [lia|]. split; [lia|]. intros. apply B3; lia. }
      destruct (length rem + length l <=? min)%nat eqn:C1;
        [|destruct (length rem + length r <=? min)%nat eqn:C2; [|destruct (to_left _ _ _ _ _)]].
      + destruct ToL as (l' & r' & Q1 & Q2 & Q3 & Q4 & B). exists l', r'. refine (conj Q1 (conj Q2 (conj Q3 (conj Q4 _)))). clear - B C1. intros; apply B; lia.
      + destruct ToR as (l' & r' & Q1 & Q2 & Q3 & Q4 & B). exists l', r'. refine (conj Q1 (conj Q2 (conj Q3 (conj Q4 _)))). clear - B C1 C2. intros; apply B; lia.
      + destruct ToL as (l' & r' & Q1 & Q2 & Q3 & Q4 & B). exists l', r'. refine (conj Q1 (conj Q2 (conj Q3 (conj Q4 _)))). clear - B C1 C2. intros; apply B; lia.
      + destruct ToR as (l' & r' & Q1 & Q2 & Q3 & Q4 & B). exists l', r'. refine (conj Q1 (conj Q2 (conj Q3 (conj Q4 _)))). clear - B C1 C2. intros; apply B; lia.
  Qed.

  Lemma split_spec min es : (2 <= length es)%nat ->
    exists l r, split min es = Ok (l, r) /\ Permutation es (l ++ r) /\
      (1 <= length l)%nat /\ (1 <= length r)%nat /\
      (1 <= min -> 2 * min <= length es -> min <= length l /\ min <= length r)%nat.
  Proof.
    intros H. unfold split.
    pose proof (pick_seeds_bound (map fst es)) as B. rewrite map_length in B. specialize (B H).
    destruct (pick_seeds (map fst es)) as [i j]. cbn [fst snd] in B.
    destruct (nth_error es i) as [ei|] eqn:Ei; [|apply nth_error_None in Ei; lia].
    destruct (nth_error es j) as [ej|] eqn:Ej; [|apply nth_error_None in Ej; lia].
    set (rem := firstn i es ++ firstn (j - (i + 1)) (skipn (i + 1) es) ++ skipn (j + 1) es).
    assert (P : Permutation es (ei :: ej :: rem)).
    { rewrite (nth_split_perm _ _ _ Ei) at 1. constructor.
      assert (Ej' : nth_error (skipn (i + 1) es) (j - (i + 1)) = Some ej).
      { rewrite <- Ej. rewrite <- (firstn_skipn (i + 1) es) at 2. rewrite nth_error_app2; rewrite firstn_length; [|lia].
        f_equal. lia. }
      rewrite (nth_split_perm _ _ _ Ej'). unfold rem.
      rewrite skipn_skipn'. replace (j - (i + 1) + 1 + (i + 1))%nat with (j + 1)%nat by lia.
      symmetry. apply Permutation_middle. }
    assert (L : length es = S (S (length rem))) by (apply Permutation_length in P; exact P).
    destruct (distribute_spec min (length rem) rem [ei] [ej]) as (l & r & E & Pm & B1 & B2 & B3);
      [lia|discriminate|discriminate|].
    exists l, r. split; [exact E|]. split.
    - rewrite P, <- Pm. exact (Permutation_app_comm [ei; ej] rem).
    - cbn [length] in *. repeat (split; [lia|]). intros. apply B3; lia.
  Qed.
End Split.

(** ** Insertion *)
Section Insert.
  Context {A : Type} (bounds : A -> rect).
  Variables (min max lo : nat).
  Hypothesis Hmax : (2 <= max)%nat.
  Hypothesis Hlo : (lo <= 1 \/ lo <= min /\ 2 * min <= max + 1)%nat.
  Variable d : nat.
  Variable ok : rect -> Prop.
  Hypothesis ok_rect : forall r, ok r -> rect_ok d r.
  Hypothesis ok_bb : forall r1 r2, ok r1 -> ok r2 -> ok (bounding_box r1 r2).
  Implicit Types (n c : node A) (e : entry A) (es : list (entry A)).

  Lemma node_ind' (P : node A -> Prop) :
    (forall leaf level es, Forall (fun e => match snd e with inl c => P c | inr _ => True end) es -> P (Node leaf level es)) ->
    forall n, P n.
  Proof.
    intros H. fix IH 1. intros [leaf level es]. apply H.
    induction es as [|[r [c|a]] es IHes]; constructor; cbn; auto.
  Qed.

  Definition e_objs e : list A := match snd e with inl c => objs c | inr a => [a] end.
  Lemma objs_node leaf level es : objs (Node leaf level es) = flat_map e_objs es.
  Proof. reflexivity. Qed.

  Fixpoint good n : Prop :=
    match n with
    | Node leaf level es =>
        (1 <= level)%Z /\ leaf = (level =? 1)%Z /\
        all (fun e => ok (fst e) /\
          match snd e with
          | inl c => leaf = false /\ n_level c = (level - 1)%Z /\ (lo <= length (n_entries c) <= max)%nat /\
                     (forall a, In a (objs c) -> rect_in (bounds a) (fst e)) /\ good c
          | inr a => leaf = true /\ fst e = bounds a
          end) es
    end.
  Definition ge (leaf : bool) (level : Z) e : Prop :=
    ok (fst e) /\
    match snd e with
    | inl c => leaf = false /\ n_level c = (level - 1)%Z /\ (lo <= length (n_entries c) <= max)%nat /\
               (forall a, In a (objs c) -> rect_in (bounds a) (fst e)) /\ good c
    | inr a => leaf = true /\ fst e = bounds a
    end.
  Lemma good_eq leaf level es : good (Node leaf level es) <->
    (1 <= level)%Z /\ leaf = (level =? 1)%Z /\ Forall (ge leaf level) es.
  Proof. cbn [good]. rewrite all_Forall. reflexivity. Qed.

  Lemma fold_ok rs : forall r, ok r -> Forall ok rs -> ok (fold_left bounding_box rs r).
  Proof. induction rs as [|x rs IH]; cbn; intros r Hr H; [exact Hr|]. inversion H; subst. auto. Qed.

  Lemma ge_in leaf level e a : ge leaf level e -> In a (e_objs e) -> rect_in (bounds a) (fst e).
  Proof.
    destruct e as [r [c|b]]; intros [Ho H] Ha; cbn in *.
    - destruct H as (_ & _ & _ & H & _). auto.
    - destruct H as [_ ->], Ha as [->|[]]. eapply rect_in_refl. apply ok_rect. exact Ho.
  Qed.

  Lemma compute_bb_good leaf level es bb : Forall (ge leaf level) es -> compute_bb es = Ok bb ->
    ok bb /\ forall a, In a (flat_map e_objs es) -> rect_in (bounds a) bb.
  Proof.
    intros H E. assert (Hok : Forall ok (map fst es)).
    { rewrite Forall_map. eapply Forall_impl; [|exact H]. now intros e [? _]. }
    assert (Hr : Forall (rect_ok d) (map fst es)) by (eapply Forall_impl; [|exact Hok]; auto).
    destruct (bounding_box_n_ok d _ _ Hr E) as [_ Hin]. split.
    - unfold compute_bb in E. destruct (map fst es) as [|r rs]; cbn in E; [discriminate|]. injection E as <-.
      inversion Hok; subst. now apply fold_ok.
    - intros a Ha. apply in_flat_map in Ha. destruct Ha as (e & He & Ha).
      rewrite Forall_forall in H, Hin. eapply rect_in_trans; [apply (ge_in leaf level e a); auto|].
      apply Hin. now apply in_map.
  Qed.

  Lemma child_good c level bb : good c -> (lo <= length (n_entries c) <= max)%nat -> n_level c = (level - 1)%Z ->
    compute_bb (n_entries c) = Ok bb -> ge false level (bb, inl c).
  Proof.
    intros G L V E. destruct c as [leaf lv es]. pose proof G as G'. apply good_eq in G. destruct G as (G1 & G2 & G3).
    destruct (compute_bb_good _ _ _ _ G3 E) as [Ho Hin]. split; [exact Ho|]. cbn [snd].
    refine (conj eq_refl (conj V (conj L (conj _ G')))). exact Hin.
  Qed.

  Definition outcome (leaf : bool) (level : Z) (count : nat) (content : list A) (n : node A) (sp : option (node A)) : Prop :=
    n_level n = level /\ n_leaf n = leaf /\ good n /\ (1 <= length (n_entries n) <= max)%nat /\
    ((lo <= count)%nat -> (lo <= length (n_entries n))%nat) /\
    match sp with
    | None => Permutation (objs n) content
    | Some r => n_level r = level /\ n_leaf r = leaf /\ good r /\
        (lo <= length (n_entries n))%nat /\ (lo <= length (n_entries r) <= max)%nat /\ (1 <= length (n_entries r))%nat /\
        Permutation (objs n ++ objs r) content
    end.

  Lemma overflow_spec leaf level es : (1 <= level)%Z -> leaf = (level =? 1)%Z -> Forall (ge leaf level) es ->
    (1 <= length es <= S max)%nat ->
    exists n sp, overflow min max leaf level es = Ok (n, sp) /\ outcome leaf level (length es) (flat_map e_objs es) n sp.
  Proof.
    intros Hl Hf H L. unfold overflow. destruct (max <? length es)%nat eqn:C.
    - destruct (split_spec min es ltac:(lia)) as (l & r & -> & P & L1 & L2 & L3). cbn [bind].
      pose proof (Permutation_length P) as PL. rewrite app_length in PL.
      assert (HF : Forall (ge leaf level) (l ++ r)) by (eapply Permutation_Forall; eauto).
      apply Forall_app in HF. destruct HF as [Fl Fr].
      assert (B : (lo <= length l /\ lo <= length r)%nat).
      { destruct Hlo as [Hlo'|[Hlo1 Hlo2]]; [lia|]. destruct (Nat.eq_dec min 0); [lia|]. specialize (L3 ltac:(lia) ltac:(lia)). lia. }
      exists (Node leaf level l), (Some (Node leaf level r)). split; [reflexivity|].
      unfold outcome. cbn [n_level n_leaf n_entries].
      split; [reflexivity|]. split; [reflexivity|]. split; [now apply good_eq|]. split; [lia|]. split; [lia|].
      split; [reflexivity|]. split; [reflexivity|]. split; [now apply good_eq|]. repeat (split; [lia|]).
      rewrite !objs_node, <- flat_map_app. apply Permutation_flat_map. now symmetry.
    - exists (Node leaf level es), None. split; [reflexivity|].
      unfold outcome. cbn [n_level n_leaf n_entries].
      split; [reflexivity|]. split; [reflexivity|]. split; [now apply good_eq|]. split; [lia|]. split; [lia|]. reflexivity.
  Qed.

  (** The walk to the chosen entry. *)
  Lemma insert_at_eq e lvl leaf level es :
    insert_at min max e lvl (Node leaf level es) =
      if leaf || (level =? lvl)%Z then overflow min max leaf level (es ++ [e])
      else
        do i <- choose_index (map fst es) (fst e);
        match nth_error es i with
        | Some (_, inl c) =>
            do (c, spl) <- insert_at min max e lvl c;
            do bb <- compute_bb (n_entries c);
            match spl with
            | None => Ok (Node leaf level (firstn i es ++ (bb, inl c) :: skipn (i + 1) es), None)
            | Some c2 =>
                do bb2 <- compute_bb (n_entries c2);
                overflow min max leaf level ((firstn i es ++ (bb, inl c) :: skipn (i + 1) es) ++ [(bb2, inl c2)])
            end
        | _ => Panic
        end.
  Proof.
    cbn [insert_at]. destruct (leaf || (level =? lvl)%Z); [reflexivity|].
    destruct (choose_index (map fst es) (fst e)) as [i| |]; [cbn [bind]|reflexivity|reflexivity].
    match goal with |- ?go i [] es = _ =>
      assert (H : forall rest i before, go i before rest =
        match nth_error rest i with
        | Some (_, inl c) =>
            do (c, spl) <- insert_at min max e lvl c;
            do bb <- compute_bb (n_entries c);
            match spl with
            | None => Ok (Node leaf level (before ++ firstn i rest ++ (bb, inl c) :: skipn (i + 1) rest), None)
            | Some c2 =>
                do bb2 <- compute_bb (n_entries c2);
                overflow min max leaf level ((before ++ firstn i rest ++ (bb, inl c) :: skipn (i + 1) rest) ++ [(bb2, inl c2)])
            end
        | _ => Panic
        end); [|exact (H es i [])]
    end.
    induction rest as [|[bb [c|a]] rest IH]; intros [|j] before; try reflexivity.
    all: etransitivity; [apply IH|]; cbn [nth_error firstn skipn Nat.add];
      destruct (nth_error rest j) as [[r [c'|a']]|]; try reflexivity;
      destruct (insert_at min max e lvl c') as [[c2 [sp|]]| |]; try reflexivity; cbn [bind];
      destruct (compute_bb (n_entries c2)) as [bb2| |]; try reflexivity; cbn [bind];
      try (destruct (compute_bb (n_entries sp)) as [bb3| |]; try reflexivity; cbn [bind]);
      rewrite <- (app_assoc before); reflexivity.
  Qed.

  Lemma nth_split {X} (l : list X) i x : nth_error l i = Some x -> l = firstn i l ++ x :: skipn (i + 1) l.
  Proof.
    revert i. induction l as [|y l IH]; intros [|i]; cbn; try discriminate.
    - now intros [= ->].
    - intros E. f_equal. now apply IH.
  Qed.

  Lemma insert_at_spec e lvl : (1 <= lvl)%Z -> ge (lvl =? 1)%Z lvl e -> forall n, good n -> (lvl <= n_level n)%Z ->
    (length (n_entries n) <= max)%nat ->
    forall n' sp, insert_at min max e lvl n = Ok (n', sp) ->
    outcome (n_leaf n) (n_level n) (length (n_entries n)) (e_objs e ++ objs n) n' sp.
  Proof.
    intros Hlvl He. induction n as [leaf level es IH] using node_ind'. intros G Hl L n' sp E.
    cbn [n_level n_leaf n_entries] in *. apply good_eq in G. destruct G as (G1 & G2 & G3).
    rewrite insert_at_eq in E. destruct (leaf || (level =? lvl)%Z) eqn:C.
    - assert (level = lvl) as -> by lia.
      assert (G3' : Forall (ge leaf lvl) (es ++ [e])).
      { apply Forall_app. split; [exact G3|]. constructor; [|constructor]. now rewrite G2. }
      destruct (overflow_spec leaf lvl (es ++ [e])) as (n2 & sp2 & E2 & O); auto.
      { rewrite app_length. cbn. lia. }
      rewrite E2 in E. injection E as <- <-.
      destruct O as (O1 & O2 & O3 & O4 & O5 & O6). rewrite app_length in O5. cbn [length] in O5.
      unfold outcome. repeat (split; [assumption|]). split; [intros; apply O5; lia|].
      assert (P : Permutation (flat_map e_objs (es ++ [e])) (e_objs e ++ objs (Node leaf lvl es))).
      { rewrite flat_map_app, objs_node. cbn. rewrite app_nil_r. apply Permutation_app_comm. }
      destruct sp2 as [r|]; [destruct O6 as (Q1 & Q2 & Q3 & Q4 & Q5 & Q6 & Q7); repeat (split; [assumption|])|]; etransitivity; eauto.
    - apply bind_ok in E. destruct E as (i & Ei & E).
      destruct (nth_error es i) as [[r [c|a]]|] eqn:En; try discriminate.
      apply bind_ok in E. destruct E as ([c' spl] & Ec & E).
      apply bind_ok in E. destruct E as (bb & Ebb & E).
      pose proof (nth_error_In _ _ En) as Hin.
      rewrite Forall_forall in IH. specialize (IH _ Hin). cbn [snd] in IH.
      pose proof G3 as G3f. rewrite Forall_forall in G3f. pose proof (G3f _ Hin) as Gc. destruct Gc as [_ (Lf & Lc & Lb & _ & Gc)].
      cbn [snd] in *. specialize (IH Gc ltac:(lia) ltac:(lia) _ _ Ec).
      destruct IH as (O1 & O2 & O3 & O4 & O5 & O6). specialize (O5 ltac:(lia)).
      pose proof (nth_split _ _ _ En) as Es.
      set (es' := firstn i es ++ (bb, inl c') :: skipn (i + 1) es) in *.
      assert (Les : length es' = length es).
      { unfold es'. rewrite Es at 3. rewrite !app_length. reflexivity. }
      assert (Gb : ge leaf level (bb, inl c')).
      { rewrite Lf. apply child_good; [exact O3|lia|lia|exact Ebb]. }
      assert (F : Forall (ge leaf level) es').
      { rewrite Es in G3. apply Forall_app in G3. destruct G3 as [Fa Fb]. inversion Fb; subst.
        apply Forall_app. split; [exact Fa|]. now constructor. }
      assert (Pe : forall X, Permutation (e_objs e ++ objs c) (objs c' ++ X) ->
        Permutation (flat_map e_objs es' ++ X) (e_objs e ++ flat_map e_objs es)).
      { intros X P. unfold es'. rewrite Es at 3. rewrite !flat_map_app. cbn [flat_map].
        change (e_objs (bb, inl c')) with (objs c'). change (e_objs (r, inl c)) with (objs c).
        set (U := flat_map e_objs (firstn i es)). set (V := flat_map e_objs (skipn (i + 1) es)).
        rewrite <- !app_assoc.
        rewrite (Permutation_app_comm V X). rewrite (app_assoc (objs c') X V). rewrite <- P.
        rewrite !app_assoc. apply Permutation_app_tail.
        apply Permutation_app_tail. apply Permutation_app_comm. }
      destruct spl as [c2|].
      + apply bind_ok in E. destruct E as (bb2 & Ebb2 & E).
        destruct O6 as (Q1 & Q2 & Q3 & Q4 & Q5 & Q6 & Q7).
        assert (Gb2 : ge leaf level (bb2, inl c2)).
        { rewrite Lf. apply child_good; [exact Q3|lia|lia|exact Ebb2]. }
        destruct (overflow_spec leaf level (es' ++ [(bb2, inl c2)])) as (n2 & sp2 & E2 & O); auto.
        { apply Forall_app. split; [exact F|]. now constructor. }
        { rewrite app_length. cbn [length]. lia. }
        rewrite E2 in E. injection E as <- <-.
        destruct O as (R1 & R2 & R3 & R4 & R5 & R6). rewrite app_length in R5. cbn [length] in R5.
        unfold outcome. repeat (split; [assumption|]). split; [intros; apply R5; lia|].
        rewrite objs_node. rewrite flat_map_app in R6. cbn [flat_map] in R6. rewrite app_nil_r in R6.
        change (e_objs (bb2, inl c2)) with (objs c2) in R6.
        pose proof (Pe (objs c2) ltac:(now symmetry)) as P.
        destruct sp2 as [r2|]; [destruct R6 as (T1 & T2 & T3 & T4 & T5 & T6 & T7); repeat (split; [assumption|])|]; etransitivity; eauto.
      + injection E as <- <-. unfold outcome. cbn [n_level n_leaf n_entries].
        split; [reflexivity|]. split; [reflexivity|]. split; [now apply good_eq|].
        split; [rewrite Les; assert (i < length es)%nat by (apply nth_error_Some; congruence); lia|]. split; [lia|].
        rewrite !objs_node. rewrite <- (app_nil_r (flat_map e_objs es')). apply Pe. rewrite app_nil_r. now symmetry.
  Qed.
  (** *** Whole trees *)
  Definition tree_good (t : rtree A) : Prop :=
    good (root t) /\ (length (n_entries (root t)) <= max)%nat /\ height t = n_level (root t).

  Lemma insert_entry_spec t e lvl t' : (1 <= lvl)%Z -> ge (lvl =? 1)%Z lvl e -> (lvl <= n_level (root t))%Z ->
    tree_good t -> insert_entry min max t e lvl = Ok t' ->
    tree_good t' /\ Permutation (objs (root t')) (e_objs e ++ objs (root t)) /\ t_size t' = t_size t /\
    (n_level (root t) <= n_level (root t'))%Z /\ (1 <= length (n_entries (root t')))%nat.
  Proof.
    intros Hl He Hr (G & L & Hh) E. unfold insert_entry in E.
    apply bind_ok in E. destruct E as ([r sp] & Er & E).
    destruct (insert_at_spec e lvl Hl He (root t) G Hr L r sp Er) as (O1 & O2 & O3 & O4 & O5 & O6).
    destruct sp as [r2|].
    - destruct O6 as (Q1 & Q2 & Q3 & Q4 & Q5 & Q6 & Q7).
      apply bind_ok in E. destruct E as (bb & Eb & E). apply bind_ok in E. destruct E as (bb2 & Eb2 & E).
      injection E as <-. cbn [root height t_size n_level n_entries].
      assert (Hlv : (1 <= n_level r)%Z) by (destruct r; now apply good_eq in O3).
      split; [|split; [|split; [reflexivity|split; [lia|cbn; lia]]]].
      + split; [|split; [cbn; lia|reflexivity]]. apply good_eq. split; [lia|]. split; [lia|].
        constructor; [|constructor; [|constructor]]; (apply child_good; [assumption|lia|lia|assumption]).
      + rewrite objs_node. cbn [flat_map e_objs snd]. rewrite app_nil_r. exact Q7.
    - injection E as <-. cbn [root height t_size]. split; [|split; [exact O6|split; [reflexivity|split; lia]]].
      split; [exact O3|]. split; [exact (proj2 O4)|]. cbn [height root]. congruence.
  Qed.

  Lemma insert_spec t a t' : tree_good t -> ok (bounds a) -> insert bounds min max t a = Ok t' ->
    tree_good t' /\ Permutation (objs (root t')) (a :: objs (root t)) /\ t_size t' = (t_size t + 1)%Z /\
    (1 <= length (n_entries (root t')))%nat.
  Proof.
    intros G Ha E. unfold insert in E. apply bind_ok in E. destruct E as (t1 & E1 & E). injection E as <-.
    assert (1 <= n_level (root t))%Z.
    { destruct G as (G & _). destruct (root t). now apply good_eq in G. }
    destruct (insert_entry_spec t (bounds a, inr a) 1 t1) as (G1 & P1 & S1 & _ & N1); auto; [lia| |].
    - split; [exact Ha|]. cbn. auto.
    - cbn [root t_size]. split; [exact G1|]. split; [exact P1|]. split; [lia|exact N1].
  Qed.

  Lemma inserts_spec l : forall t t', tree_good t -> Forall (fun a => ok (bounds a)) l ->
    inserts bounds min max t l = Ok t' ->
    tree_good t' /\ Permutation (objs (root t')) (l ++ objs (root t)) /\ t_size t' = (t_size t + Z.of_nat (length l))%Z /\
    (l <> [] -> 1 <= length (n_entries (root t')))%nat.
  Proof.
    induction l as [|a l IH]; intros t t' G H E; cbn [inserts] in E.
    - injection E as <-. cbn. repeat split; try apply G; [reflexivity|lia|congruence].
    - apply bind_ok in E. destruct E as (t1 & E1 & E). inversion H as [|? ? Ha Hl]; subst.
      destruct (insert_spec _ _ _ G Ha E1) as (G1 & P1 & S1 & N1).
      destruct (IH _ _ G1 Hl E) as (G2 & P2 & S2 & N2).
      split; [exact G2|]. split; [|split; [cbn; lia|]].
      + rewrite P2, P1. cbn. symmetry. apply Permutation_middle.
      + intros _. destruct l; [injection E as <-; exact N1|apply N2; discriminate].
  Qed.

  Lemma empty_good : tree_good empty_tree.
  Proof. split; [apply good_eq; repeat split; [lia|constructor]|]. split; [cbn; lia|reflexivity]. Qed.

  (** *** Insertion does not panic *)
  Hypothesis ok_choose : forall r (e : rect), ok r -> ok e -> f64_lt (f64_sub (size (bounding_box r e)) (size r)) f64_max = true.
  Hypothesis Hlo1 : (1 <= lo)%nat.

  Lemma choose_some (e : rect) rs : forall i diff j r, (j < i)%nat ->
    exists k x, choose e i diff (Some (j, r)) rs = Ok (Some (k, x)) /\ (k < i + length rs)%nat.
  Proof.
    induction rs as [|x rs IH]; cbn [choose length]; intros i diff j r Hj.
    - exists j, r. split; [reflexivity|lia].
    - cbv zeta. destruct (f64_lt _ diff); [|destruct (f64_eq _ diff); [destruct (f64_lt _ _)|]];
        (edestruct IH as (k & y & -> & Hk); [|exists k, y; split; [reflexivity|lia]]); lia.
  Qed.
  Lemma choose_total (e : rect) rs : ok e -> Forall ok rs -> rs <> [] ->
    exists i, choose_index rs e = Ok i /\ (i < length rs)%nat.
  Proof.
    intros He H N. destruct rs as [|r rs]; [easy|]. inversion H; subst. unfold choose_index. cbn [choose]. cbv zeta.
    rewrite ok_choose by auto.
    destruct (choose_some e rs 1 (f64_sub (size (bounding_box r e)) (size r)) 0 r ltac:(lia)) as (k & x & -> & Hk).
    exists k. split; [reflexivity|]. cbn. lia.
  Qed.

  Lemma ge_ok_all leaf level es : Forall (ge leaf level) es -> Forall ok (map fst es).
  Proof. intros H. rewrite Forall_map. eapply Forall_impl; [|exact H]. now intros e [? _]. Qed.

  Lemma insert_at_total e lvl : (1 <= lvl)%Z -> ge (lvl =? 1)%Z lvl e -> forall n, good n -> (lvl <= n_level n)%Z ->
    (length (n_entries n) <= max)%nat -> (lvl < n_level n -> n_entries n <> [])%Z ->
    exists n' sp, insert_at min max e lvl n = Ok (n', sp).
  Proof.
    intros Hlvl He. induction n as [leaf level es IH] using node_ind'. intros G Hl L N.
    cbn [n_level n_leaf n_entries] in *. apply good_eq in G. destruct G as (G1 & G2 & G3).
    rewrite insert_at_eq. destruct (leaf || (level =? lvl)%Z) eqn:C.
    - assert (level = lvl) as -> by lia.
      destruct (overflow_spec leaf lvl (es ++ [e])) as (n2 & sp2 & E2 & O); eauto.
      + apply Forall_app. split; [exact G3|]. constructor; [|constructor]. now rewrite G2.
      + rewrite app_length. cbn. lia.
    - destruct (choose_total (fst e) (map fst es)) as (i & -> & Hi).
      { now destruct He. }
      { eapply ge_ok_all; eauto. }
      { specialize (N ltac:(lia)). now destruct es. }
      cbn [bind]. rewrite map_length in Hi.
      destruct (nth_error es i) as [[r s]|] eqn:En; [|apply nth_error_None in En; lia].
      pose proof (nth_error_In _ _ En) as Hin.
      pose proof G3 as G3f. rewrite Forall_forall in G3f. pose proof (G3f _ Hin) as [_ Gc]. cbn [snd] in Gc.
      destruct s as [c|a]; [|exfalso; lia].
      destruct Gc as (Lf & Lc & Lb & Ld & Gc).
      rewrite Forall_forall in IH. specialize (IH _ Hin). cbn [snd] in IH.
      destruct IH as (c' & spl & Ec); [exact Gc|lia|lia|destruct (n_entries c); [cbn in *; lia|discriminate]|].
      rewrite Ec. cbn [bind].
      destruct (insert_at_spec e lvl Hlvl He c Gc ltac:(lia) ltac:(lia) c' spl Ec) as (O1 & O2 & O3 & O4 & O5 & O6).
      destruct (compute_bb_total (n_entries c')) as [bb Eb]; [now destruct (n_entries c'); [cbn in *; lia|]|].
      rewrite Eb. cbn [bind]. destruct spl as [c2|]; [|eauto].
      destruct O6 as (Q1 & Q2 & Q3 & Q4 & Q5 & Q6 & Q7).
      destruct (compute_bb_total (n_entries c2)) as [bb2 Eb2]; [now destruct (n_entries c2); [cbn in *; lia|]|].
      rewrite Eb2. cbn [bind].
      match goal with |- exists n' sp, overflow _ _ _ _ ?l = _ =>
        destruct (overflow_spec leaf level l) as (n2 & sp2 & E2 & O); eauto
      end.
      + rewrite (nth_split _ _ _ En) in G3. apply Forall_app in G3. destruct G3 as [Fa Fb]. apply Forall_inv_tail in Fb.
        apply Forall_app. split; [apply Forall_app; split; [exact Fa|constructor; [|assumption]]|constructor; [|constructor]];
          (rewrite Lf; apply child_good; [assumption|lia|lia|assumption]).
      + pose proof (f_equal (@length _) (nth_split _ _ _ En)) as LL.
        rewrite !app_length in *. cbn [length] in *. lia.
  Qed.

  Lemma insert_entry_total t e lvl : (1 <= lvl)%Z -> ge (lvl =? 1)%Z lvl e -> (lvl <= n_level (root t))%Z ->
    tree_good t -> (lvl < n_level (root t) -> n_entries (root t) <> [])%Z ->
    exists t', insert_entry min max t e lvl = Ok t'.
  Proof.
    intros Hl He Hr (G & L & Hh) N. unfold insert_entry.
    destruct (insert_at_total e lvl Hl He (root t) G Hr L N) as (r & sp & E). rewrite E. cbn [bind].
    destruct (insert_at_spec e lvl Hl He (root t) G Hr L r sp E) as (O1 & O2 & O3 & O4 & O5 & O6).
    destruct sp as [r2|]; [|eauto].
    destruct O6 as (Q1 & Q2 & Q3 & Q4 & Q5 & Q6 & Q7).
    destruct (compute_bb_total (n_entries r)) as [bb ->]; [now destruct (n_entries r); [cbn in *; lia|]|].
    destruct (compute_bb_total (n_entries r2)) as [bb2 ->]; [now destruct (n_entries r2); [cbn in *; lia|]|].
    cbn [bind]. eauto.
  Qed.

  Definition tree_full (t : rtree A) : Prop := (1 < n_level (root t) -> n_entries (root t) <> [])%Z.

  Lemma insert_total t a : tree_good t -> tree_full t -> ok (bounds a) ->
    exists t', insert bounds min max t a = Ok t' /\ tree_good t' /\ tree_full t'.
  Proof.
    intros G F Ha. assert (1 <= n_level (root t))%Z.
    { destruct G as (G & _). destruct (root t). now apply good_eq in G. }
    assert (He : ge (1 =? 1)%Z 1 (bounds a, inr a)) by (split; [exact Ha|cbn; auto]).
    destruct (insert_entry_total t (bounds a, inr a) 1 ltac:(lia) He ltac:(lia) G F) as (t1 & E).
    exists (Rtree (root t1) (t_size t1 + 1) (height t1)). unfold insert. rewrite E. split; [reflexivity|].
    destruct (insert_entry_spec t _ 1 t1 ltac:(lia) He ltac:(lia) G E) as (G1 & _ & _ & _ & N1).
    split; [exact G1|]. intros _. cbn [root]. destruct (n_entries (root t1)); [cbn in N1; lia|discriminate].
  Qed.

  Lemma inserts_total l : forall t, tree_good t -> tree_full t -> Forall (fun a => ok (bounds a)) l ->
    exists t', inserts bounds min max t l = Ok t'.
  Proof.
    induction l as [|a l IH]; intros t G F H; cbn [inserts]; [eauto|]. inversion H as [|? ? Ha Hl]; subst.
    destruct (insert_total t a G F Ha) as (t1 & -> & G1 & F1). cbn [bind]. auto.
  Qed.
  Lemma empty_full : tree_full empty_tree.
  Proof. intros H. cbn in H. lia. Qed.

  (** *** What [good] says *)
  Lemma good_boxes n : good n -> boxes_ok bounds n.
  Proof.
    induction n as [leaf level es IH] using node_ind'. intros G. apply good_eq in G. destruct G as (_ & _ & G).
    cbn [boxes_ok]. apply all_Forall. rewrite Forall_forall in *. intros [r [c|a]] Hin.
    - specialize (IH _ Hin). destruct (G _ Hin) as [_ (_ & _ & _ & H & Hc)]. cbn in *. auto.
    - destruct (G _ Hin) as [_ [_ H]]. exact H.
  Qed.
  Lemma good_balanced n : good n -> balanced n.
  Proof.
    induction n as [leaf level es IH] using node_ind'. intros G. apply good_eq in G. destruct G as (G1 & G2 & G).
    cbn [balanced]. split; [exact G1|]. split; [exact G2|]. apply all_Forall. rewrite Forall_forall in *. intros [r [c|a]] Hin.
    - specialize (IH _ Hin). destruct (G _ Hin) as [_ (H1 & H2 & _ & H & Hc)]. cbn in *. auto.
    - destruct (G _ Hin) as [_ [H _]]. exact H.
  Qed.
  Lemma good_below n : good n -> below (fun k => lo <= k <= max)%nat n.
  Proof.
    induction n as [leaf level es IH] using node_ind'. intros G. apply good_eq in G. destruct G as (G1 & G2 & G).
    cbn [below]. apply all_Forall. rewrite Forall_forall in *. intros [r [c|a]] Hin; [|exact I].
    specialize (IH _ Hin). destruct (G _ Hin) as [_ (H1 & H2 & H3 & H & Hc)]. cbn in *. auto.
  Qed.
End Insert.
