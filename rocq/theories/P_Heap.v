(** The heap: a permutation of what was pushed, smallest first. *)
From Coq Require Import Arith Bool List Lia ZArith Permutation.
From Coq Require Import ZifyBool ZifyNat.
From Verif Require Import M_Heap.
Import ListNotations.

Ltac Zify.zify_post_hook ::= Z.to_euclidean_division_equations.

Section Lists.
  Context {E : Type}.
  Lemma upd_length (l : list E) i x : length (upd l i x) = length l.
  Proof. revert i; induction l as [|y l IH]; destruct i; cbn; auto. Qed.

  Lemma upd_nth (l : list E) i x k : i < length l ->
    nth_error (upd l i x) k = if k =? i then Some x else nth_error l k.
  Proof.
    revert i k. induction l as [|y l IH]; intros i k L; [cbn in L; lia|].
    destruct i, k; cbn; auto. apply IH. cbn in L; lia.
  Qed.

  Lemma swap_length (h : list E) i j : length (swap h i j) = length h.
  Proof. unfold swap. destruct (nth_error h i), (nth_error h j); auto. now rewrite !upd_length. Qed.

  Lemma swap_nth (h : list E) i j k : i < length h -> j < length h ->
    nth_error (swap h i j) k = if k =? j then nth_error h i else if k =? i then nth_error h j else nth_error h k.
  Proof.
    intros Li Lj. unfold swap. destruct (nth_error h i) eqn:Ei; [|apply nth_error_None in Ei; lia].
    destruct (nth_error h j) eqn:Ej; [|apply nth_error_None in Ej; lia].
    rewrite upd_nth by now rewrite upd_length. rewrite upd_nth by assumption. reflexivity.
  Qed.

  Lemma swap_perm (h : list E) i j : Permutation (swap h i j) h.
  Proof.
    destruct (lt_dec i (length h)) as [Li|Li]; [destruct (lt_dec j (length h)) as [Lj|Lj]|].
    - apply Permutation_sym, Permutation_nth_error_bis.
      set (f := fun k => if k =? j then i else if k =? i then j else k).
      exists f. split; [|split].
      + intros a b. unfold f. destruct (Nat.eqb_spec a j), (Nat.eqb_spec a i), (Nat.eqb_spec b j), (Nat.eqb_spec b i); lia.
      + intros k Lk. unfold f. destruct (Nat.eqb_spec k j), (Nat.eqb_spec k i); lia.
      + intros k. rewrite swap_nth by assumption. unfold f.
        destruct (Nat.eqb_spec k j); [|destruct (Nat.eqb_spec k i)]; reflexivity.
    - unfold swap. destruct (nth_error h i); [|reflexivity].
      replace (nth_error h j) with (@None E); [reflexivity|]. symmetry. apply nth_error_None. lia.
    - unfold swap. replace (nth_error h i) with (@None E); [reflexivity|]. symmetry. apply nth_error_None. lia.
  Qed.
End Lists.

Section Heap.
  Context {E : Type} (less : E -> E -> bool) (key : E -> Z) (ok : E -> Prop).
  Hypothesis Hless : forall a b, ok a -> ok b -> less a b = (key a <? key b)%Z.

  Definition parent (j : nat) : nat := (j - 1) / 2.

  (** The key at a position. *)
  Definition at_key (h : list E) (i : nat) (z : Z) : Prop := exists x, nth_error h i = Some x /\ key x = z.

  Definition K (h : list E) (i : nat) : Z := match nth_error h i with Some x => key x | None => 0 end.

  Lemma K_swap h i j k : i < length h -> j < length h ->
    K (swap h i j) k = if k =? j then K h i else if k =? i then K h j else K h k.
  Proof. intros. unfold K. rewrite swap_nth by assumption. now destruct (k =? j), (k =? i). Qed.

  Definition heap_n (h : list E) (n : nat) : Prop :=
    forall j, 0 < j < n -> (K h (parent j) <= K h j)%Z.
  Definition heap (h : list E) : Prop := heap_n h (length h) /\ Forall ok h.

  Lemma nth_ok h i x : Forall ok h -> nth_error h i = Some x -> ok x.
  Proof. intros F H. rewrite Forall_forall in F. apply F. eapply nth_error_In; eauto. Qed.

  Lemma swap_ok h i j : Forall ok h -> Forall ok (swap h i j).
  Proof. intros F. eapply Permutation_Forall; [apply Permutation_sym, swap_perm|exact F]. Qed.

  Lemma nth_some (h : list E) i : i < length h -> exists x, nth_error h i = Some x.
  Proof. intros L. destruct (nth_error h i) eqn:Q; eauto. apply nth_error_None in Q. lia. Qed.

  (** up: heap except between [j] and its parent, and children of [j] respect
      the grandparent. *)
  Definition up_inv (h : list E) (j : nat) : Prop :=
    (forall k, 0 < k < length h -> k <> j -> (K h (parent k) <= K h k)%Z) /\
    (forall k, 0 < k < length h -> parent k = j -> 0 < j -> (K h (parent j) <= K h k)%Z).

  Lemma up_heap fuel : forall h j, j < fuel -> j < length h -> Forall ok h -> up_inv h j ->
    heap (up less fuel h j) /\ Permutation (up less fuel h j) h.
  Proof.
    induction fuel as [|f IH]; intros h j Lf Lj F [I1 I2]; [lia|]. cbn [up].
    change ((j - 1) / 2) with (parent j).
    destruct (Nat.eqb_spec (parent j) j) as [Q|Q].
    - split; [|reflexivity]. split; [|exact F]. intros k Lk. apply I1; [exact Lk|].
      intros ->. unfold parent in Q. lia.
    - assert (0 < j) by (destruct j; [exfalso; apply Q; reflexivity|lia]).
      assert (Pj : parent j < j) by (unfold parent; lia).
      destruct (nth_some h j Lj) as (a & Ea). destruct (nth_some h (parent j)) as (b & Eb); [lia|].
      rewrite Ea, Eb. rewrite Hless by eauto using nth_ok.
      assert (Ka : K h j = key a) by (unfold K; now rewrite Ea).
      assert (Kb : K h (parent j) = key b) by (unfold K; now rewrite Eb).
      destruct (key a <? key b)%Z eqn:Lt.
      + destruct (IH (swap h (parent j) j) (parent j)) as [H1 H2]; [lia|rewrite swap_length; lia|now apply swap_ok| |].
        * split.
          -- intros k Lk Nk. rewrite swap_length in Lk. rewrite !K_swap by lia.
             destruct (Nat.eqb_spec k j) as [->|Nkj].
             ++ replace (parent j =? j) with false by lia. rewrite Nat.eqb_refl. lia.
             ++ destruct (Nat.eqb_spec k (parent j)); [congruence|].
                destruct (Nat.eqb_spec (parent k) j) as [Pk|Nk1].
                ** specialize (I2 k Lk Pk ltac:(lia)). lia.
                ** specialize (I1 k Lk Nkj). destruct (Nat.eqb_spec (parent k) (parent j)) as [Pk|Nk2].
                   --- rewrite Pk in I1. lia.
                   --- exact I1.
          -- intros k Lk Pk Gp. rewrite swap_length in Lk. rewrite !K_swap by lia.
             assert (parent (parent j) < parent j) by (unfold parent in *; lia).
             assert (I0 : (K h (parent (parent j)) <= K h (parent j))%Z) by (apply I1; lia).
             replace (parent (parent j) =? j) with false by lia.
             replace (parent (parent j) =? parent j) with false by lia.
             destruct (Nat.eqb_spec k j) as [->|Nkj]; [lia|].
             destruct (Nat.eqb_spec k (parent j)) as [->|Nkp]; [unfold parent in *; lia|].
             specialize (I1 k Lk Nkj). rewrite Pk in I1. lia.
        * split; [exact H1|]. rewrite H2. apply swap_perm.
      + split; [|reflexivity]. split; [|exact F]. intros k Lk.
        destruct (Nat.eq_dec k j) as [->|]; [lia|]. apply I1; auto.
  Qed.

  Lemma K_app h x k : k < length h -> K (h ++ [x]) k = K h k.
  Proof. intros. unfold K. now rewrite nth_error_app1. Qed.

  Theorem push_heap h x : heap h -> ok x -> heap (hpush less h x) /\ Permutation (hpush less h x) (x :: h).
  Proof.
    intros [H F] Ox. unfold hpush. rewrite app_length. cbn [length].
    replace (length h + 1 - 1) with (length h) by lia.
    destruct (up_heap (length h + 1) (h ++ [x]) (length h)) as [H1 H2].
    - lia.
    - rewrite app_length; cbn; lia.
    - apply Forall_app; auto.
    - split.
      + intros k Lk Nk. rewrite app_length in Lk. cbn in Lk.
        rewrite !K_app by (unfold parent; lia). apply H. lia.
      + intros k Lk Pk. rewrite app_length in Lk. cbn in Lk. unfold parent in Pk. lia.
    - split; [exact H1|]. rewrite H2. rewrite Permutation_app_comm. reflexivity.
  Qed.

  (** down *)
  Definition down_inv (h : list E) (i n : nat) : Prop :=
    (forall k, 0 < k < n -> parent k <> i -> (K h (parent k) <= K h k)%Z) /\
    (forall k, 0 < k < n -> parent k = i -> 0 < i -> (K h (parent i) <= K h k)%Z).

  Lemma down_heap fuel : forall h i n, n <= length h -> n < fuel + i -> i < length h -> Forall ok h -> down_inv h i n ->
    let h' := down less fuel h i n in
    heap_n h' n /\ Permutation h' h /\ (forall k, n <= k -> (i < n \/ n = 0) -> nth_error h' k = nth_error h k).
  Proof.
    induction fuel as [|f IH]; intros h i n Ln Lf Li F [I1 I2]; cbn [down].
    - split; [|split; auto]. intros k Lk. apply I1; [exact Lk|]. unfold parent. lia.
    - destruct (Nat.leb_spec n (2 * i + 1)) as [Le|Lt].
      + split; [|split; auto]. intros k Lk. apply I1; [exact Lk|]. unfold parent. lia.
      + set (j := match nth_error h (2 * i + 1 + 1) with
                  | Some a => match nth_error h (2 * i + 1) with
                              | Some b => if (2 * i + 1 + 1 <? n) && less a b then 2 * i + 1 + 1 else 2 * i + 1
                              | None => 2 * i + 1 end
                  | None => 2 * i + 1 end).
        assert (J : (j = 2 * i + 1 \/ j = 2 * i + 2) /\ j < n /\
                    (forall k, 0 < k < n -> parent k = i -> (K h j <= K h k)%Z)).
        { unfold j. destruct (nth_some h (2 * i + 1)) as (b & Eb); [lia|].
          assert (Kb : K h (2 * i + 1) = key b) by (unfold K; now rewrite Eb).
          assert (Ck : forall k, 0 < k < n -> parent k = i -> k = 2 * i + 1 \/ k = 2 * i + 2)
            by (unfold parent; intros; lia).
          destruct (Nat.ltb_spec (2 * i + 1 + 1) n) as [L2|L2].
          - destruct (nth_some h (2 * i + 1 + 1)) as (a & Ea); [lia|]. rewrite Ea, Eb. cbn [andb].
            rewrite Hless by eauto using nth_ok.
            assert (Ka : K h (2 * i + 2) = key a) by (unfold K; replace (2 * i + 2) with (2 * i + 1 + 1) by lia; now rewrite Ea).
            destruct (key a <? key b)%Z eqn:Lab; (split; [lia|]); (split; [lia|]); intros k Lk Pk;
              destruct (Ck k Lk Pk) as [->| ->]; replace (2 * i + 1 + 1) with (2 * i + 2) by lia; lia.
          - rewrite Eb. cbn [andb]. replace (match nth_error h (2 * i + 1 + 1) with Some _ => 2 * i + 1 | None => 2 * i + 1 end) with (2 * i + 1)
              by (destruct (nth_error h (2 * i + 1 + 1)); reflexivity).
            split; [lia|]. split; [lia|]. intros k Lk Pk. destruct (Ck k Lk Pk) as [->| ->]; lia. }
        clearbody j. destruct J as (J & Ljn & Jmin).
        destruct (nth_some h j) as (a & Ea); [lia|]. destruct (nth_some h i Li) as (b & Eb).
        rewrite Ea, Eb, Hless by eauto using nth_ok.
        assert (Ka : K h j = key a) by (unfold K; now rewrite Ea).
        assert (Kb : K h i = key b) by (unfold K; now rewrite Eb).
        assert (Pj : parent j = i) by (unfold parent; lia).
        destruct (key a <? key b)%Z eqn:Lab.
        * destruct (IH (swap h i j) j n) as (H1 & H2 & H3); try (rewrite swap_length; lia); try lia.
          -- now apply swap_ok.
          -- split.
             ++ intros k Lk Nk. rewrite !K_swap by lia.
                destruct (Nat.eqb_spec (parent k) j); [congruence|].
                destruct (Nat.eqb_spec (parent k) i) as [Pi|Ni].
                ** destruct (Nat.eqb_spec k j); [lia|].
                   destruct (Nat.eqb_spec k i); [unfold parent in *; lia|]. now apply Jmin.
                ** destruct (Nat.eqb_spec k j) as [->|]; [congruence|].
                   destruct (Nat.eqb_spec k i) as [->|].
                   --- assert (0 < i) by lia. specialize (I2 j ltac:(lia) Pj H). lia.
                   --- now apply I1.
             ++ intros k Lk Pk Gj. rewrite !K_swap by lia. rewrite Pj.
                replace (i =? j) with false by lia. rewrite Nat.eqb_refl.
                destruct (Nat.eqb_spec k j) as [->|]; [unfold parent in *; lia|].
                destruct (Nat.eqb_spec k i) as [->|]; [unfold parent in *; lia|].
                rewrite <- Pk. apply I1; [exact Lk|]. unfold parent in *; lia.
          -- split; [exact H1|]. split; [rewrite H2; apply swap_perm|].
             intros k Lk _. rewrite H3 by lia. rewrite swap_nth by lia.
             replace (k =? j) with false by lia. now replace (k =? i) with false by lia.
        * split; [|split; auto]. intros k Lk. destruct (Nat.eq_dec (parent k) i) as [Pk|Nk]; [|now apply I1].
          rewrite Pk. specialize (Jmin k Lk Pk). lia.
  Qed.

  Lemma heap_root h : heap_n h (length h) -> forall k, k < length h -> (K h 0 <= K h k)%Z.
  Proof.
    intros H k. induction k as [k IH] using lt_wf_ind. intros L.
    destruct (Nat.eq_dec k 0) as [->|N]; [lia|].
    assert (P : parent k < k) by (unfold parent; lia).
    specialize (IH (parent k) P ltac:(lia)). specialize (H k ltac:(lia)). lia.
  Qed.

  Theorem heap_min h a l : heap h -> h = a :: l -> Forall (fun b => (key a <= key b)%Z) l.
  Proof.
    intros [H _] ->. apply Forall_forall. intros b Hb. apply In_nth_error in Hb. destruct Hb as (k & Hk).
    pose proof (heap_root _ H (S k)) as R. unfold K in R. cbn [nth_error] in R. rewrite Hk in R. apply R.
    cbn. apply -> Nat.succ_lt_mono. apply nth_error_Some. congruence.
  Qed.

  Theorem pop_heap h a l : heap h -> h = a :: l ->
    exists l', hpop less h = Some (a, l') /\ heap l' /\ Permutation l' l.
  Proof.
    intros [H F] Eh. unfold hpop. destruct (length h) as [|n] eqn:L; [subst; discriminate|].
    assert (L' : length l = n) by (subst; cbn in L; lia).
    destruct (down_heap (S n) (swap h 0 n) 0 n) as (H1 & H2 & H3).
    - rewrite swap_length. lia.
    - lia.
    - rewrite swap_length. lia.
    - now apply swap_ok.
    - split; [|intros; lia]. intros k Lk Pk. rewrite !K_swap by lia.
      replace (parent k =? n) with false by (unfold parent; lia).
      replace (parent k =? 0) with false by lia. replace (k =? n) with false by lia.
      replace (k =? 0) with false by lia. apply H. lia.
    - set (h' := down less (S n) (swap h 0 n) 0 n) in *.
      assert (En : nth_error h' n = Some a).
      { rewrite H3 by lia. rewrite swap_nth by lia. rewrite Nat.eqb_refl. now subst. }
      rewrite En. exists (firstn n h'). split; [reflexivity|].
      assert (L2 : length h' = S n) by (rewrite (Permutation_length H2), swap_length; exact L).
      assert (Sp : h' = firstn n h' ++ [a]).
      { rewrite <- (firstn_skipn n h') at 1. f_equal.
        apply nth_error_split in En. destruct En as (l1 & l2 & E1 & E2).
        assert (l2 = []) by (rewrite E1, app_length in L2; cbn in L2; destruct l2; [auto|cbn in L2; lia]).
        subst l2. rewrite E1, skipn_app, <- E2, skipn_all, Nat.sub_diag. reflexivity. }
      assert (Pm : Permutation (firstn n h') l).
      { apply (Permutation_cons_inv (a := a)). rewrite <- Eh.
        rewrite <- (swap_perm h 0 n), <- H2. rewrite Sp at 2. now rewrite Permutation_app_comm. }
      split; [|exact Pm]. split.
      + assert (Lf : length (firstn n h') = n) by (rewrite (Permutation_length Pm); exact L').
        rewrite Lf. intros k Lk. specialize (H1 k Lk). rewrite Sp in H1.
        rewrite !K_app in H1 by (rewrite Lf; unfold parent; lia). exact H1.
      + eapply Permutation_Forall; [symmetry; exact Pm|]. subst. now inversion F.
  Qed.

  Lemma heap_nil : heap [].
  Proof. split; [|constructor]. intros k Lk. cbn in Lk. lia. Qed.
End Heap.
