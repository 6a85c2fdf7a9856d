(** Proofs about the point order, rotations and geometry equality. *)
From Coq Require Import ZArith Bool List Lia Permutation.
From Coq Require Import ZifyBool ZifyNat.
From Verif Require Import Base_F64 Base_F64Arith Base_Geom Base_Res Base_Bytes M_Geom M_Extent
  S_Geom M_Cmp S_Cmp P_F64 P_F64Flocq P_Cmp P_List.
Import ListNotations.

(** ** The order *)

Lemma xy_less_before p q : number p -> number q -> (xy_less p q = true <-> before p q).
Proof.
  intros [Px Py] [Qx Qy]. unfold xy_less, before, f64_ne.
  rewrite eq_key by assumption. rewrite !lt_key by assumption.
  destruct (Z.eqb_spec (f64_key (fst p)) (f64_key (fst q))); cbn [negb]; lia.
Qed.

Lemma before_keys p q : before p q ->
  number p /\ number q \/ f64_lt (fst p) (fst q) = true.
Proof.
  intros [H|[H G]]; [auto|]. apply eq_inv in H. apply lt_inv in G. left. unfold number. intuition.
Qed.

Lemma before_irrefl p : ~ before p p.
Proof. intros [H|[_ H]]; rewrite f64_lt_irrefl in H; discriminate. Qed.

Lemma before_trans p q r : before p q -> before q r -> before p r.
Proof.
  unfold before. intros [A|[A A']] [B|[B B']].
  - left. apply f64_lt_le_trans with (fst q); auto using f64_lt_le.
  - left. apply lt_inv in A. apply eq_inv in B. destruct A as (? & ? & ?), B as (? & ? & ?).
    rewrite lt_key by assumption. lia.
  - left. apply eq_inv in A. apply lt_inv in B. destruct A as (? & ? & ?), B as (? & ? & ?).
    rewrite lt_key by assumption. lia.
  - right. apply eq_inv in A, B. apply lt_inv in A', B'.
    destruct A as (? & ? & ?), B as (? & ? & ?), A' as (? & ? & ?), B' as (? & ? & ?).
    rewrite eq_key, lt_key by assumption. lia.
Qed.

Lemma before_total p q : number p -> number q -> before p q \/ same_place p q \/ before q p.
Proof.
  intros [Px Py] [Qx Qy]. unfold before, same_place.
  rewrite !eq_key, !lt_key by assumption. lia.
Qed.

Lemma before_same p q : same_place p q -> ~ before p q.
Proof.
  intros [A B] [C|[_ C]]; apply lt_inv in C.
  - apply eq_inv in A. lia.
  - apply eq_inv in B. lia.
Qed.

Lemma xy_less_irrefl p : xy_less p p = false.
Proof. unfold xy_less. destruct (f64_ne _ _); apply f64_lt_irrefl. Qed.

(** Sorting has one result up to the sign of zeros. *)
Definition kk (p : pt) : Z * Z := (f64_key (fst p), f64_key (snd p)).
Definition klt (a b : Z * Z) : Prop := (fst a < fst b \/ fst a = fst b /\ snd a < snd b)%Z.

Lemma before_kk p q : number p -> number q -> (before p q <-> klt (kk p) (kk q)).
Proof.
  intros [Px Py] [Qx Qy]. unfold before, klt, kk. cbn.
  rewrite eq_key, !lt_key by assumption. lia.
Qed.
Lemma same_kk p q : number p -> number q -> (same_place p q <-> kk p = kk q).
Proof.
  intros [Px Py] [Qx Qy]. unfold same_place, kk. rewrite !eq_key by assumption.
  split; [intros; f_equal; lia|]. intros E. injection E as E1 E2. lia.
Qed.

Section SortUnique.
  Context {A : Type} (lt : A -> A -> Prop).
  Hypothesis total : forall a b, lt a b \/ a = b \/ lt b a.

  Lemma in_order_tail a l : in_order lt (a :: l) -> in_order lt l.
  Proof. intros H i j p q L P Q. apply (H (S i) (S j)); auto. lia. Qed.

  Lemma in_order_unique l m : Permutation l m -> in_order lt l -> in_order lt m -> l = m.
  Proof.
    revert m. induction l as [|a l IH]; intros [|b m] P L M; auto.
    - apply Permutation_nil in P. discriminate.
    - apply Permutation_sym, Permutation_nil in P. discriminate.
    - assert (E : a = b).
      { assert (Ia : In a (b :: m)) by (eapply Permutation_in; eauto; now left).
        assert (Ib : In b (a :: l)) by (eapply Permutation_in; [apply Permutation_sym|]; eauto; now left).
        destruct Ia as [->|Ia]; [reflexivity|]. destruct Ib as [->|Ib]; [reflexivity|].
        destruct (total a b) as [T|[T|T]]; [|exact T|].
        - apply In_nth_error in Ia. destruct Ia as [n Ia].
          exfalso. apply (M 0%nat (S n) b a) in T; auto. lia.
        - apply In_nth_error in Ib. destruct Ib as [n Ib].
          exfalso. apply (L 0%nat (S n) a b) in T; auto. lia. }
      subst b. f_equal. apply IH.
      + now apply Permutation_cons_inv in P.
      + eapply in_order_tail; eauto.
      + eapply in_order_tail; eauto.
  Qed.
End SortUnique.

Lemma klt_total a b : klt a b \/ a = b \/ klt b a.
Proof.
  destruct a as [a1 a2], b as [b1 b2]. unfold klt. cbn.
  destruct (Z.lt_total a1 b1) as [|[->|]]; auto.
  destruct (Z.lt_total a2 b2) as [|[->|]]; auto.
Qed.

Lemma in_order_map {A B} (f : A -> B) (ltA : A -> A -> Prop) (ltB : B -> B -> Prop) l :
  (forall p q, In p l -> In q l -> ltB (f p) (f q) -> ltA p q) ->
  in_order ltA l -> in_order ltB (map f l).
Proof.
  intros H O i j p q L P Q. rewrite nth_error_map in P, Q.
  destruct (nth_error l i) as [a|] eqn:Ea; [|discriminate].
  destruct (nth_error l j) as [b|] eqn:Eb; [|discriminate].
  injection P as <-. injection Q as <-. intros T. apply (O i j a b); auto.
  apply H; eauto using nth_error_In.
Qed.

Lemma map_Forall2 {A B} (f : A -> B) l m : map f l = map f m -> Forall2 (fun a b => f a = f b) l m.
Proof.
  revert m. induction l as [|a l IH]; intros [|b m] E; try discriminate; constructor.
  - now injection E.
  - apply IH. now injection E.
Qed.

Lemma points_sorted_unique l m : Permutation l m -> Forall number l ->
  in_order before l -> in_order before m -> Forall2 same_place l m.
Proof.
  intros P N L M.
  assert (N' : Forall number m) by (eapply Permutation_Forall; eauto).
  rewrite Forall_forall in N, N'.
  assert (E : map kk l = map kk m).
  { apply (in_order_unique klt klt_total); [now apply Permutation_map| |].
    - apply in_order_map with before; auto. intros. apply before_kk; auto.
    - apply in_order_map with before; auto. intros. apply before_kk; auto. }
  apply map_Forall2 in E. revert N N' E. clear. intros N N' E.
  induction E as [|a b l m E _ IH]; constructor.
  - apply same_kk; auto with datatypes.
  - apply IH; auto with datatypes.
Qed.

Lemma floats_sorted_unique (l m : list f64) : Permutation l m -> Forall (fun x => f64_isnan x = false) l ->
  in_order (fun a b => f64_lt a b = true) l -> in_order (fun a b => f64_lt a b = true) m ->
  Forall2 (fun a b => f64_eq a b = true) l m.
Proof.
  intros P N L M.
  assert (N' : Forall (fun x => f64_isnan x = false) m) by (eapply Permutation_Forall; eauto).
  rewrite Forall_forall in N, N'.
  assert (E : map f64_key l = map f64_key m).
  { apply (in_order_unique Z.lt Z.lt_total); [now apply Permutation_map| |].
    - apply in_order_map with (fun a b => f64_lt a b = true); auto.
      intros. rewrite lt_key by (apply N; auto). lia.
    - apply in_order_map with (fun a b => f64_lt a b = true); auto.
      intros. rewrite lt_key by (apply N'; auto). lia. }
  apply map_Forall2 in E. revert N N' E. clear. intros N N' E.
  induction E as [|a b l m E _ IH]; constructor.
  - rewrite eq_key by (first [apply N; now left | apply N'; now left]). lia.
  - apply IH; auto with datatypes.
Qed.

(** ** Rotations *)

Lemma copy_same {A} (dst src : list A) : length dst = length src -> copy dst src = src.
Proof.
  intros E. unfold copy. rewrite E, firstn_all. rewrite skipn_all2 by lia. apply app_nil_r.
Qed.

Lemma rotate_to_idx_ok k ln : (0 <= k <= Z.of_nat (length ln))%Z \/ ln = [] ->
  rotate_to_idx k ln = Ok (rotated (Z.to_nat k) ln).
Proof.
  intros H. unfold rotate_to_idx. destruct ln as [|p tl].
  - unfold rotated. now rewrite skipn_nil, firstn_nil.
  - destruct H as [H|H]; [|discriminate]. set (ln := p :: tl) in *.
    destruct (k <? 0)%Z eqn:K1; [lia|]. destruct (Z.of_nat (length ln) <? k)%Z eqn:K2; [lia|].
    cbn [orb]. cbv zeta. f_equal.
    set (n := Z.to_nat k) in *. assert (Hn : (n <= length ln)%nat) by lia.
    set (z := (f64_zero, f64_zero)). unfold point in *.
    assert (E1 : copy (repeat z (length ln)) (skipn n ln) = skipn n ln ++ repeat z n).
    { unfold copy. rewrite repeat_length, skipn_length.
      rewrite firstn_all2 by (rewrite skipn_length; lia). f_equal.
      replace (length ln) with ((length ln - n) + n)%nat at 2 by lia.
      rewrite repeat_app, skipn_app, repeat_length.
      rewrite skipn_all2 by (rewrite repeat_length; lia).
      replace (length ln - n - (length ln - n))%nat with 0%nat by lia. reflexivity. }
    rewrite E1. unfold copy_at. rewrite skipn_length.
    rewrite firstn_app, skipn_length, skipn_app, skipn_length.
    rewrite firstn_all2 by (rewrite skipn_length; lia).
    rewrite (skipn_all2 (skipn n ln)) by (rewrite skipn_length; lia).
    replace (length ln - n - (length ln - n))%nat with 0%nat by lia. cbn [firstn skipn app].
    rewrite app_nil_r.
    assert (E2 : copy (repeat z n) ln = firstn n ln).
    { unfold copy. rewrite repeat_length. rewrite skipn_all2 by (rewrite repeat_length; lia). apply app_nil_r. }
    rewrite E2. apply copy_same. unfold point in *. unfold rotated. rewrite app_length, skipn_length, firstn_length. lia.
Qed.

Lemma rotate_to_idx_panic k ln : ln <> [] -> (k < 0 \/ Z.of_nat (length ln) < k)%Z ->
  rotate_to_idx k ln = Panic.
Proof.
  intros N H. unfold rotate_to_idx. destruct ln; [congruence|].
  replace ((k <? 0) || (Z.of_nat (length (p :: ln)) <? k))%Z with true by lia. reflexivity.
Qed.

Lemma find_min_from_spec pre p mid rest :
  Forall number (pre ++ p :: mid ++ rest) ->
  (forall q, In q (pre ++ p :: mid) -> ~ before q p) ->
  (forall q, In q pre -> before p q) ->
  let l := pre ++ p :: mid ++ rest in
  let k := find_min_from (length pre + S (length mid)) (length pre) p rest in
  exists m, nth_error l k = Some m /\ (forall q, In q l -> ~ before q m) /\
    (forall j q, (j < k)%nat -> nth_error l j = Some q -> before m q).
Proof.
  revert pre p mid. induction rest as [|q rest IH]; intros pre p mid N M F; cbn zeta.
  - cbn [find_min_from]. rewrite app_nil_r in *. exists p. split; [|split].
    + rewrite nth_error_app2 by lia. now rewrite Nat.sub_diag.
    + exact M.
    + intros j q L E. rewrite nth_error_app1 in E by lia. apply F. eapply nth_error_In; eauto.
  - cbn [find_min_from].
    assert (Np : number p) by (rewrite Forall_forall in N; apply N; apply in_or_app; right; now left).
    assert (Nq : number q).
    { rewrite Forall_forall in N. apply N. apply in_or_app; right. right. apply in_or_app. right. now left. }
    destruct (xy_less q p) eqn:X.
    + apply xy_less_before in X; auto.
      replace (pre ++ p :: mid ++ q :: rest) with ((pre ++ p :: mid) ++ q :: [] ++ rest) in *
        by (rewrite <- app_assoc; reflexivity).
      replace (S (length pre + S (length mid))) with (length (pre ++ p :: mid) + S (@length pt []))%nat
        by (rewrite app_length; cbn; lia).
      replace (length pre + S (length mid))%nat with (length (pre ++ p :: mid)) by (rewrite app_length; cbn; lia).
      apply IH; auto.
      * intros r Hr. rewrite in_app_iff in Hr. destruct Hr as [Hr|[->|[]]]; [|apply before_irrefl].
        intros B. apply (M r Hr). eapply before_trans; eauto.
      * intros r Hr.
        assert (Nr : number r) by (rewrite Forall_forall in N; apply N; apply in_or_app; now left).
        destruct (before_total q r Nq Nr) as [T|[T|T]]; [exact T| |].
        -- exfalso. apply (M r Hr). destruct T as [T1 T2].
           apply eq_inv in T1, T2. unfold before in *. destruct X as [X|[X1 X2]].
           ++ left. apply lt_inv in X. rewrite lt_key by (apply Nr || apply Np). lia.
           ++ right. apply eq_inv in X1. apply lt_inv in X2.
              rewrite eq_key, lt_key by (apply Nr || apply Np). lia.
        -- exfalso. apply (M r Hr). eapply before_trans; eauto.
    + replace (pre ++ p :: mid ++ q :: rest) with (pre ++ p :: (mid ++ [q]) ++ rest) in *
        by (rewrite <- app_assoc; reflexivity).
      replace (S (length pre + S (length mid))) with (length pre + S (length (mid ++ [q])))%nat
        by (rewrite app_length; cbn; lia).
      apply IH; auto.
      intros r Hr. rewrite app_comm_cons, app_assoc, in_app_iff in Hr. destruct Hr as [Hr|[->|[]]]; [now apply M|].
      intros B. apply xy_less_before in B; auto. congruence.
Qed.

(** The index found is that of the first minimum. *)
Lemma find_min_spec ln : ln <> [] -> Forall number ln ->
  exists m, nth_error ln (find_min_idx ln) = Some m /\ (forall q, In q ln -> ~ before q m) /\
    (forall j q, (j < find_min_idx ln)%nat -> nth_error ln j = Some q -> before m q).
Proof.
  intros H N. destruct ln as [|p tl]; [congruence|].
  apply (find_min_from_spec [] p [] tl); auto.
  - intros q [->|[]]. apply before_irrefl.
  - intros q [].
Qed.

Lemma find_min_from_lt i min mp rest n : (min < n)%nat -> (i + length rest <= n)%nat ->
  (find_min_from i min mp rest < n)%nat.
Proof.
  revert i min mp. induction rest as [|p tl IH]; intros i min mp H L; cbn in *; [exact H|].
  destruct (xy_less p mp); apply IH; lia.
Qed.
Lemma find_min_lt ln : ln <> [] -> (find_min_idx ln < length ln)%nat.
Proof.
  destruct ln as [|p tl]; [congruence|]. intros _. cbn [find_min_idx].
  apply find_min_from_lt; cbn; lia.
Qed.

Lemma rotate_leftmost_ok ln : rotate_leftmost ln = Ok (rotated (find_min_idx ln) ln).
Proof.
  unfold rotate_leftmost. destruct ln as [|p tl] eqn:E.
  - rewrite rotate_to_idx_ok by auto. now rewrite Nat2Z.id.
  - rewrite rotate_to_idx_ok.
    + now rewrite Nat2Z.id.
    + left. pose proof (find_min_lt (p :: tl) ltac:(congruence)). lia.
Qed.

Lemma rotated_length {A} k (l : list A) : length (rotated k l) = length l.
Proof. unfold rotated. rewrite app_length, skipn_length, firstn_length. lia. Qed.

Lemma rotated_nth {A} k (l : list A) j : (k <= length l)%nat -> (j < length l)%nat ->
  nth_error (rotated k l) j = nth_error l (if (k + j <? length l)%nat then k + j else k + j - length l).
Proof.
  intros K J. unfold rotated. destruct (Nat.ltb_spec (k + j) (length l)).
  - rewrite nth_error_app1 by (rewrite skipn_length; lia).
    clear J. revert l K H. induction k as [|k IH]; intros l K H; [reflexivity|].
    destruct l as [|a l]; [cbn in *; lia|]. cbn. apply IH; cbn in *; lia.
  - rewrite nth_error_app2 by (rewrite skipn_length; lia). rewrite skipn_length.
    replace (j - (length l - k))%nat with (k + j - length l)%nat by lia.
    assert (H1 : (k + j - length l < k)%nat) by lia. revert H1. generalize (k + j - length l)%nat.
    clear. revert l. induction k as [|k IH]; intros l n H; [lia|].
    destruct l as [|a l]; [now destruct n|]. destruct n; [reflexivity|]. cbn. apply IH. lia.
Qed.

Lemma nth_error_ext' {A} (l m : list A) : length l = length m ->
  (forall j, (j < length l)%nat -> nth_error l j = nth_error m j) -> l = m.
Proof.
  revert m. induction l as [|a l IH]; intros [|b m] L H; cbn in *; try lia; [reflexivity|].
  pose proof (H 0%nat ltac:(lia)) as H0. injection H0 as ->. f_equal.
  apply IH; [lia|]. intros j J. apply (H (S j)). lia.
Qed.

(** All rotations of a list with a single leftmost vertex are rotated to the
    same list. *)
Lemma number_before_ne p q : before p q -> number p -> number q -> ~ before q p.
Proof. intros A _ _ B. apply (before_irrefl p). eapply before_trans; eauto. Qed.

Lemma leftmost_of_rotation k ln : Forall number ln -> single_leftmost ln -> (k <= length ln)%nat ->
  rotate_leftmost (rotated k ln) = rotate_leftmost ln.
Proof.
  intros N (i & p & Ei & U) K.
  assert (NE : ln <> []) by (intros ->; destruct i; discriminate).
  assert (Li : (i < length ln)%nat) by (apply nth_error_Some; congruence).
  rewrite !rotate_leftmost_ok. f_equal.
  set (rl := rotated k ln).
  assert (Lr : length rl = length ln) by apply rotated_length.
  assert (Nr : Forall number rl).
  { unfold rl, rotated. rewrite <- (firstn_skipn k ln) in N. apply Forall_app in N. apply Forall_app. tauto. }
  assert (NEr : rl <> []) by (intros E; rewrite E in Lr; destruct ln; [congruence|discriminate]).
  destruct (find_min_spec ln NE N) as (m & E1 & E2 & _).
  destruct (find_min_spec rl NEr Nr) as (m' & F1 & F2 & _).
  assert (Ip : In p ln) by (eapply nth_error_In; eauto).
  assert (I1 : find_min_idx ln = i).
  { destruct (Nat.eq_dec (find_min_idx ln) i) as [|D]; [assumption|].
    exfalso. apply (E2 p Ip). eapply U; eauto. }
  pose proof (find_min_lt rl NEr) as Lm. set (j := find_min_idx rl) in *.
  pose proof F1 as F1'. unfold rl in F1'. rewrite rotated_nth in F1' by lia.
  assert (Ipr : In p rl).
  { unfold rl, rotated. rewrite <- (firstn_skipn k ln) in Ip. rewrite in_app_iff in *. tauto. }
  assert (I2 : (if (k + j <? length ln)%nat then k + j else k + j - length ln)%nat = i).
  { match goal with |- ?x = _ => destruct (Nat.eq_dec x i) as [|D]; [assumption|] end.
    exfalso. apply (F2 p Ipr). eapply U; eauto. }
  apply nth_error_ext'.
  - now rewrite !rotated_length.
  - intros x Hx. rewrite rotated_length in Hx.
    rewrite (rotated_nth j) by lia. rewrite I1. rewrite (rotated_nth i) by lia. rewrite Lr in *.
    unfold rl. rewrite rotated_nth; [|lia|].
    + f_equal.
      destruct (Nat.ltb_spec (k + j) (length ln)); destruct (Nat.ltb_spec (j + x) (length ln));
        repeat match goal with |- context [(?a <? ?b)%nat] => destruct (Nat.ltb_spec a b) end; lia.
    + destruct (Nat.ltb_spec (j + x) (length ln)); lia.
Qed.

(** ** Equality *)

Lemma all2_refl {A} (f : A -> A -> bool) l : (forall x, In x l -> f x x = true) -> all2 f l l = true.
Proof.
  unfold all2. intros H. apply forallb_forall. intros [a b] I.
  assert (E : a = b /\ In a l).
  { clear H. induction l as [|x l IH]; [destruct I|]. destruct I as [I|I].
    - injection I as -> ->. auto with datatypes.
    - destruct (IH I). auto with datatypes. }
  destruct E as [-> I']. cbn. auto.
Qed.

Lemma all2_sym {A} (f : A -> A -> bool) l m : (forall x y, In x l -> In y m -> f x y = f y x) ->
  all2 f l m = all2 f m l.
Proof.
  unfold all2. revert m. induction l as [|a l IH]; intros [|b m] H; auto.
  cbn [combine forallb fst snd]. rewrite H by auto with datatypes. f_equal.
  apply IH. auto with datatypes.
Qed.

Lemma all2_Forall2 {A} (f : A -> A -> bool) l m : Forall2 (fun a b => f a b = true) l m -> all2 f l m = true.
Proof. induction 1; [reflexivity|]. unfold all2 in *. cbn [combine forallb fst snd]. now rewrite H. Qed.

Section Eq.
  Variable S : sorters.
  Variables dflt c : compare.
  Hypothesis Pc : positive c.
  Hypothesis Pd : positive dflt.

  Lemma fl_refl x : cmp_float c x x = true.
  Proof. apply float_reflexive; apply Pc. Qed.
  Lemma fl_sym x y : cmp_float c x y = cmp_float c y x.
  Proof. apply float_symmetric. destruct Pc. lia. Qed.

  Lemma point_equal_refl p : point_equal c p p = true.
  Proof. unfold point_equal. now rewrite !fl_refl. Qed.
  Lemma point_equal_sym p q : point_equal c p q = point_equal c q p.
  Proof. unfold point_equal. now rewrite (fl_sym (fst p)), (fl_sym (snd p)). Qed.

  Lemma point_equal_same p q : f64_wf (fst p) = true -> f64_wf (snd p) = true ->
    f64_wf (fst q) = true -> f64_wf (snd q) = true -> same_place p q -> point_equal c p q = true.
  Proof.
    intros ? ? ? ? [A B]. unfold point_equal. destruct Pc as [T B0].
    rewrite !float_same; auto; lia.
  Qed.

  Lemma multipoint_equal_refl a : multipoint_equal S c a a = true.
  Proof.
    unfold multipoint_equal. rewrite Nat.eqb_refl. cbn [negb].
    apply all2_refl. intros. apply point_equal_refl.
  Qed.
  Lemma multipoint_equal_sym a b : multipoint_equal S c a b = multipoint_equal S c b a.
  Proof.
    unfold multipoint_equal. rewrite (Nat.eqb_sym (length b)). destruct (negb _); [reflexivity|].
    apply all2_sym. intros. apply point_equal_sym.
  Qed.

  Lemma linestring_equal_refl a : linestring_equal c a a = true.
  Proof.
    unfold linestring_equal. rewrite Nat.eqb_refl. cbn [negb]. rewrite rotate_leftmost_ok.
    apply all2_refl. intros. apply point_equal_refl.
  Qed.
  Lemma linestring_equal_sym a b : linestring_equal c a b = linestring_equal c b a.
  Proof.
    unfold linestring_equal. rewrite (Nat.eqb_sym (length b)). destruct (negb _); [reflexivity|].
    rewrite !rotate_leftmost_ok. apply all2_sym. intros. apply point_equal_sym.
  Qed.

  Lemma multiline_equal_refl a : multiline_equal c a a = true.
  Proof.
    unfold multiline_equal. rewrite Nat.eqb_refl. cbn [negb].
    apply forallb_forall. intros x I. apply existsb_exists. exists x. split; [exact I|apply linestring_equal_refl].
  Qed.

  Lemma geom_extent_refl e : geom_extent dflt e e = true.
  Proof.
    unfold geom_extent, cmp_extent. rewrite !float_reflexive by apply Pd. reflexivity.
  Qed.
  Lemma geom_extent_sym e f : geom_extent dflt e f = geom_extent dflt f e.
  Proof.
    assert (G : forall x y, cmp_float dflt x y = cmp_float dflt y x).
    { intros. apply float_symmetric. destruct Pd. lia. }
    unfold geom_extent, cmp_extent.
    now rewrite (G (e0 (ext_values e))), (G (e1 (ext_values e))), (G (e2 (ext_values e))), (G (e3 (ext_values e))).
  Qed.

  Lemma polygon_equal_refl a : fst (polygon_equal S dflt c a a) = true.
  Proof.
    unfold polygon_equal. rewrite Nat.eqb_refl. cbn [negb]. rewrite geom_extent_refl. cbn [negb fst].
    apply all2_refl. intros. apply linestring_equal_refl.
  Qed.
  Lemma polygon_equal_sym a b : fst (polygon_equal S dflt c a b) = fst (polygon_equal S dflt c b a).
  Proof.
    unfold polygon_equal. rewrite (Nat.eqb_sym (length b)). destruct (negb (length a =? length b)%nat); [reflexivity|].
    rewrite (geom_extent_sym (new_extent (concat b))). destruct (negb _); [reflexivity|]. cbn [fst].
    apply all2_sym. intros. apply linestring_equal_sym.
  Qed.

  Lemma multipolygon_equal_refl a : multipolygon_equal S dflt c a a = true.
  Proof.
    unfold multipolygon_equal. rewrite Nat.eqb_refl. cbn [negb].
    apply all2_refl. intros. apply polygon_equal_refl.
  Qed.
  Lemma multipolygon_equal_sym a b : multipolygon_equal S dflt c a b = multipolygon_equal S dflt c b a.
  Proof.
    unfold multipolygon_equal. rewrite (Nat.eqb_sym (length b)). destruct (negb _); [reflexivity|].
    apply all2_sym. intros. apply polygon_equal_sym.
  Qed.

  Lemma geometry_equal_refl g : unknown_inside g = false -> geometry_equal S dflt c g g = true.
  Proof.
    induction g as [p|ps|ps|ls|rs|pls|gs IH|] using geom_ind'; cbn [geometry_equal unknown_inside]; intros U.
    - apply point_equal_refl.
    - apply multipoint_equal_refl.
    - apply linestring_equal_refl.
    - apply multiline_equal_refl.
    - apply polygon_equal_refl.
    - apply multipolygon_equal_refl.
    - rewrite Nat.eqb_refl. cbn [andb]. induction IH as [|g gs H _ IH]; [reflexivity|].
      cbn in U. apply orb_false_iff in U. destruct U as [U1 U2]. rewrite H by exact U1. now apply IH.
    - discriminate.
  Qed.

  Lemma geometry_equal_sym g : forall h, no_multiline g = true ->
    geometry_equal S dflt c g h = geometry_equal S dflt c h g.
  Proof.
    induction g as [p|ps|ps|ls|rs|pls|gs IH|] using geom_ind'; intros h U;
      destruct h as [p'|ps'|ps'|ls'|rs'|pls'|hs|]; try reflexivity; cbn [geometry_equal no_multiline] in *.
    - apply point_equal_sym.
    - apply multipoint_equal_sym.
    - apply linestring_equal_sym.
    - discriminate.
    - apply polygon_equal_sym.
    - apply multipolygon_equal_sym.
    - rewrite (Nat.eqb_sym (length hs)). f_equal. revert hs.
      induction IH as [|g gs H _ IH]; intros [|h hs]; try reflexivity.
      cbn in U. apply andb_prop in U. destruct U as [U1 U2].
      rewrite H by exact U1. f_equal. now apply IH.
  Qed.

  Lemma multipoint_order a b : sorting S -> Permutation a b -> Forall words a -> Forall number a ->
    multipoint_equal S c a b = true.
  Proof.
    intros Hs P W N. unfold multipoint_equal.
    rewrite (Permutation_length P), Nat.eqb_refl. cbn [negb].
    assert (Na : Forall number b) by (eapply Permutation_Forall; eauto).
    pose proof (points_perm S Hs a) as Pa. pose proof (points_perm S Hs b) as Pb.
    assert (PP : Permutation (sort_points S a) (sort_points S b)).
    { eapply perm_trans; [apply Permutation_sym, Pa|]. eapply perm_trans; [exact P|exact Pb]. }
    assert (Ns : Forall number (sort_points S a)) by (eapply Permutation_Forall; eauto).
    assert (Wa : Forall words (sort_points S a)) by (eapply Permutation_Forall; eauto).
    assert (Wb : Forall words (sort_points S b)) by (eapply Permutation_Forall; eauto).
    pose proof (points_sorted_unique _ _ PP Ns (points_order S Hs a N) (points_order S Hs b Na)) as F.
    apply all2_Forall2. clear Pa Pb PP Ns. revert Wa Wb. induction F as [|x y l m E _ IH]; intros Wa Wb; constructor.
    - inversion_clear Wa. inversion_clear Wb. destruct H, H1. now apply point_equal_same.
    - inversion_clear Wa. inversion_clear Wb. now apply IH.
  Qed.

  Lemma floatslice_order a b : sorting S -> Permutation a b ->
    Forall (fun x => f64_wf x = true) a -> Forall (fun x => f64_isnan x = false) a ->
    float_slice S c a b = true.
  Proof.
    intros Hs P W N. unfold float_slice.
    rewrite (Permutation_length P), Nat.eqb_refl. cbn [negb].
    destruct (length b =? 0)%nat; [reflexivity|].
    assert (Na : Forall (fun x => f64_isnan x = false) b) by (eapply Permutation_Forall; eauto).
    pose proof (floats_perm S Hs a) as Pa. pose proof (floats_perm S Hs b) as Pb.
    assert (PP : Permutation (sort_floats S a) (sort_floats S b)).
    { eapply perm_trans; [apply Permutation_sym, Pa|]. eapply perm_trans; [exact P|exact Pb]. }
    assert (Ns : Forall (fun x => f64_isnan x = false) (sort_floats S a)) by (eapply Permutation_Forall; eauto).
    assert (Wa : Forall (fun x => f64_wf x = true) (sort_floats S a)) by (eapply Permutation_Forall; eauto).
    assert (Wb : Forall (fun x => f64_wf x = true) (sort_floats S b)) by (eapply Permutation_Forall; eauto).
    pose proof (floats_sorted_unique _ _ PP Ns (floats_order S Hs a N) (floats_order S Hs b Na)) as F.
    apply all2_Forall2. clear Pa Pb PP Ns. revert Wa Wb. destruct Pc as [T B]. induction F as [|x y l m E _ IH]; intros Wa Wb; constructor.
    - inversion_clear Wa. inversion_clear Wb. apply float_same; auto; lia.
    - inversion_clear Wa. inversion_clear Wb. now apply IH.
  Qed.

  Lemma linestring_start k a : (k <= length a)%nat -> Forall number a -> single_leftmost a ->
    linestring_equal c a (rotated k a) = true.
  Proof.
    intros K N U. unfold linestring_equal. rewrite rotated_length, Nat.eqb_refl. cbn [negb].
    rewrite leftmost_of_rotation by assumption. rewrite rotate_leftmost_ok.
    apply all2_refl. intros. apply point_equal_refl.
  Qed.
End Eq.

(** Different kinds never compare equal, nor do different numbers of vertices. *)
Lemma all2_in {A} (f : A -> A -> bool) l m x : length l = length m -> all2 f l m = true -> In x l ->
  exists y, In y m /\ f x y = true.
Proof.
  revert m. induction l as [|a l IH]; intros [|b m] L H I; cbn in *; try tauto; try lia.
  unfold all2 in H. cbn in H. apply andb_prop in H. destruct H as [H1 H2]. destruct I as [->|I].
  - eauto.
  - destruct (IH m ltac:(lia) H2 I) as (y & ? & ?). eauto.
Qed.
