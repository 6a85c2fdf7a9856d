(** * Directed, sorted lines without repetitions *)
From Coq Require Import ZArith Bool List Lia Permutation Sorted.
From Verif Require Import Base_Res Base_F64 Base_Geom M_Geom M_Extent M_Cmp M_Planar
  S_Cmp S_Intersect S_Planar P_F64 P_Cmp P_Cmp2 P_Cmp3 P_Intersect4.
Import ListNotations.

(** ** The loop *)
Section Loop.
  Variable c : compare.
  Definition same_ends (x y : line) : bool := linestring_equal c (ends_list x) (ends_list y).
  Fixpoint adjacent (prev : option line) (l : list line) : list line :=
    match l with
    | [] => []
    | x :: tl =>
        if match prev with None => true | Some y => negb (same_ends x y) end
        then x :: adjacent (Some x) tl else adjacent (Some x) tl
    end.

  Lemma upd_length {A} (l : list A) i v : length (upd l i v) = length l.
  Proof. revert i. induction l as [|x l IH]; intros [|i]; cbn; auto. Qed.
  Lemma upd_nth_same {A} (l : list A) i v : (i < length l)%nat -> nth_error (upd l i v) i = Some v.
  Proof. revert i. induction l as [|x l IH]; intros [|i] H; cbn in *; try lia; auto. apply IH. lia. Qed.
  Lemma upd_nth_other {A} (l : list A) i j v : i <> j -> nth_error (upd l i v) j = nth_error l j.
  Proof. revert i j. induction l as [|x l IH]; intros [|i] [|j] H; cbn in *; try lia; auto. Qed.
  Lemma upd_firstn {A} (l : list A) i v : (i < length l)%nat -> firstn (S i) (upd l i v) = firstn i l ++ [v].
  Proof.
    revert i. induction l as [|x l IH]; intros [|i] H; cbn [length] in H; try lia; [reflexivity|].
    cbn [upd]. rewrite !firstn_cons. rewrite IH by lia. reflexivity.
  Qed.
  Lemma upd_skipn {A} (l : list A) i j v : (i < j)%nat -> skipn j (upd l i v) = skipn j l.
  Proof. revert i j. induction l as [|x l IH]; intros [|i] [|j] H; cbn; try lia; auto. apply IH. lia. Qed.
  Lemma skipn_nth {A} (l : list A) i x : nth_error l i = Some x -> skipn i l = x :: skipn (S i) l.
  Proof. revert i. induction l as [|y l IH]; intros [|i] H; cbn in *; try discriminate; [congruence|]. now apply IH. Qed.

  Lemma loop_spec n : forall i k (arr : list line), (k <= i)%nat -> (length arr <= i + n)%nat ->
    let r := unique_loop c n i k arr in
    firstn (fst r) (snd r) = firstn k arr ++ adjacent (match i with O => None | S j => nth_error arr j end) (skipn i arr) /\
    length (snd r) = length arr /\ (k <= fst r)%nat /\ skipn (fst r) (snd r) = skipn (fst r) arr.
  Proof.
    induction n as [|n IH]; intros i k arr Hk Hn; cbv zeta; cbn [unique_loop].
    - cbn [fst snd]. rewrite (skipn_all2 arr) by lia. cbn [adjacent]. rewrite app_nil_r. auto.
    - destruct (nth_error arr i) as [x|] eqn:X.
      2:{ cbn [fst snd]. apply nth_error_None in X. rewrite (skipn_all2 arr) by lia. cbn [adjacent]. rewrite app_nil_r. auto. }
      assert (Li : (i < length arr)%nat) by (apply nth_error_Some; congruence).
      rewrite (skipn_nth arr i x X). cbn [adjacent].
      assert (Kp : ((i =? 0)%nat || match nth_error arr (i - 1) with None => false | Some y => negb (linestring_equal c (ends_list x) (ends_list y)) end) =
                   match (match i with O => None | S j => nth_error arr j end) with None => true | Some y => negb (same_ends x y) end).
      { destruct i as [|j]; [reflexivity|]. cbn [Nat.eqb orb]. rewrite Nat.sub_succ, Nat.sub_0_r.
        destruct (nth_error arr j) eqn:J; [reflexivity|]. apply nth_error_None in J. lia. }
      rewrite Kp. destruct (match (match i with O => None | S j => nth_error arr j end) with None => true | Some y => negb (same_ends x y) end).
      + destruct (IH (S i) (S k) (upd arr k x)) as (A & B & C & D); [lia|rewrite upd_length; lia|]. cbv zeta in *.
        rewrite A, B, upd_length, upd_firstn by lia. split; [|split; [reflexivity|split; [lia|]]].
        * rewrite <- app_assoc. cbn [app]. rewrite upd_skipn by lia. do 3 f_equal.
          destruct (Nat.eq_dec k i) as [->|N]; [rewrite upd_nth_same by lia; reflexivity|rewrite upd_nth_other by lia; congruence].
        * rewrite D. apply upd_skipn. lia.
      + destruct (IH (S i) k arr) as (A & B & C & D); [lia|lia|]. cbv zeta in *. rewrite A, B, X. auto.
  Qed.

  Lemma unique_spec sort ls : let s := sort (lines_less c) (normalize_lines ls) in
    fst (normalize_unique c sort ls) = adjacent None s /\
    snd (normalize_unique c sort ls) = adjacent None s ++ skipn (length (adjacent None s)) s.
  Proof.
    cbv zeta. unfold normalize_unique. set (s := sort _ _).
    destruct (loop_spec (length s) 0 0 s) as (A & B & _ & D); [lia|lia|]. cbv zeta in *.
    destruct (unique_loop c (length s) 0 0 s) as [k arr]. cbn [fst snd firstn app] in *. change (skipn 0 s) with s in A. cbn [firstn app] in A.
    split; [exact A|]. rewrite <- A. transitivity (firstn k arr ++ skipn k arr); [symmetry; apply firstn_skipn|]. f_equal. rewrite D.
    rewrite firstn_length, B. destruct (le_lt_dec k (length s)) as [L|L]; [now rewrite Nat.min_l by lia|].
    rewrite Nat.min_r, !skipn_all2 by lia. reflexivity.
  Qed.

  Lemma adjacent_incl prev l : incl (adjacent prev l) l.
  Proof.
    revert prev. induction l as [|x l IH]; intros prev y H; [exact H|]. cbn [adjacent] in H.
    destruct (match prev with None => true | Some y => negb (same_ends x y) end); [destruct H as [H|H]; [now left|]|]; right; eapply IH; eauto.
  Qed.
End Loop.

(** ** Strictly sorted *)
Section Strict.
  Variable c : compare.
  Variable ok : line -> Prop.
  Variable lt same : line -> line -> Prop.
  Hypothesis same_dec : forall a b, ok a -> ok b -> (same_ends c b a = true <-> same a b).
  Hypothesis lt_trans : forall a b d, ok a -> ok b -> ok d -> lt a b -> lt b d -> lt a d.
  Hypothesis lt_total : forall a b, ok a -> ok b -> lt a b \/ same a b \/ lt b a.
  Hypothesis same_lt : forall a b d, ok a -> ok b -> ok d -> same a b -> lt b d -> lt a d.
  Hypothesis same_refl : forall a, ok a -> same a a.
  Hypothesis same_trans : forall a b d, ok a -> ok b -> ok d -> same a b -> same b d -> same a d.

  Lemma adjacent_strict x l : ok x -> Forall ok l -> StronglySorted (fun a b => ~ lt b a) (x :: l) ->
    StronglySorted lt (adjacent c (Some x) l) /\ Forall (lt x) (adjacent c (Some x) l) /\
    forall y, In y l -> same x y \/ exists z, In z (adjacent c (Some x) l) /\ same z y.
  Proof.
    revert x. induction l as [|y l IH]; intros x Ox Ol Hs; cbn [adjacent].
    { split; [constructor|]. split; [constructor|]. intros ? []. }
    inversion_clear Ol as [|? ? Oy Ol']. inversion_clear Hs as [|? ? Hs' Hf]. inversion_clear Hf as [|? ? Hxy Hf'].
    destruct (IH y Oy Ol' Hs') as (A & B & C).
    assert (In_ok : forall z, In z (adjacent c (Some y) l) -> ok z).
    { intros z Hz. apply adjacent_incl in Hz. rewrite Forall_forall in Ol'. auto. }
    destruct (same_ends c y x) eqn:E; cbn [negb].
    - apply same_dec in E; auto. split; [exact A|]. split.
      + rewrite Forall_forall in *. intros z Hz. eapply same_lt; [| | |exact E|]; auto.
      + intros z [->|Hz]; [now left|]. destruct (C z Hz) as [K|K]; [left|now right].
        rewrite Forall_forall in Ol'. eapply same_trans; [| | |exact E|exact K]; auto.
    - assert (N : ~ same x y) by (intros K; apply same_dec in K; auto; congruence).
      assert (L : lt x y) by (destruct (lt_total x y Ox Oy) as [K|[K|K]]; tauto).
      split; [constructor; assumption|]. split.
      + constructor; [exact L|]. rewrite Forall_forall in *. intros z Hz. eapply lt_trans; [| | |exact L|]; auto.
      + intros z [->|Hz]; right; [exists z; split; [now left|now apply same_refl]|].
        destruct (C z Hz) as [K|(w & W1 & W2)]; [exists y; split; [now left|exact K]|exists w; split; [now right|exact W2]].
  Qed.

  Lemma adjacent_sorted l : Forall ok l -> StronglySorted (fun a b => ~ lt b a) l ->
    StronglySorted lt (adjacent c None l) /\ forall y, In y l -> exists z, In z (adjacent c None l) /\ same z y.
  Proof.
    destruct l as [|x l]; intros Ol Hs; cbn [adjacent]; [split; [constructor|intros ? []]|].
    inversion_clear Ol as [|? ? Ox Ol']. destruct (adjacent_strict x l Ox Ol' Hs) as (A & B & C).
    split; [constructor; assumption|]. intros y [->|Hy]; [exists y; split; [now left|now apply same_refl]|].
    destruct (C y Hy) as [K|(z & Z1 & Z2)]; [exists x; split; [now left|exact K]|exists z; split; [now right|exact Z2]].
  Qed.
End Strict.

(** ** Lines *)
Lemma in_order_strongly {A} (lt : A -> A -> Prop) l : in_order lt l -> StronglySorted (fun a b => ~ lt b a) l.
Proof.
  induction l as [|x l IH]; intros H; constructor.
  - apply IH. intros i j p q L P Q. apply (H (S i) (S j) p q); auto. lia.
  - rewrite Forall_forall. intros y Hy. apply In_nth_error in Hy as [j Hj]. apply (H 0%nat (S j) x y); auto. lia.
Qed.

Lemma same_place_keys p q : same_place p q <-> number p /\ number q /\ f64_key (fst p) = f64_key (fst q) /\ f64_key (snd p) = f64_key (snd q).
Proof.
  unfold same_place, number. split.
  - intros [A B]. apply eq_inv in A as (? & ? & ?), B as (? & ? & ?). auto 10.
  - intros ([A B] & [C D] & E & F). rewrite !eq_key by assumption. lia.
Qed.
Lemma before_key2 p q : number p -> number q -> before p q <->
  (f64_key (fst p) < f64_key (fst q) \/ f64_key (fst p) = f64_key (fst q) /\ f64_key (snd p) < f64_key (snd q))%Z.
Proof. intros [A B] [C D]. unfold before. rewrite !lt_key, eq_key by assumption. lia. Qed.

Definition lkey (l : line) : (Z * Z) * (Z * Z) :=
  ((f64_key (fst (fst l)), f64_key (snd (fst l))), (f64_key (fst (snd l)), f64_key (snd (snd l)))).
Definition number_line (l : line) : Prop := number (fst l) /\ number (snd l).

Lemma line_before_key a b : number_line a -> number_line b -> line_before a b <->
  (let '((a1, a2), (a3, a4)) := lkey a in let '((b1, b2), (b3, b4)) := lkey b in
   a1 < b1 \/ a1 = b1 /\ (a2 < b2 \/ a2 = b2 /\ (a3 < b3 \/ a3 = b3 /\ a4 < b4)))%Z.
Proof.
  intros [A1 A2] [B1 B2]. unfold line_before, lkey. rewrite !before_key2, same_place_keys by assumption.
  intuition lia.
Qed.
Definition same_line (a b : line) : Prop := same_place (fst a) (fst b) /\ same_place (snd a) (snd b).
Lemma same_line_key a b : number_line a -> number_line b -> same_line a b <-> lkey a = lkey b.
Proof.
  intros [A1 A2] [B1 B2]. unfold same_line, lkey. rewrite !same_place_keys. split.
  - intros ((_ & _ & E1 & E2) & (_ & _ & E3 & E4)). now rewrite E1, E2, E3, E4.
  - intros E. apply pair_equal_spec in E as [E F]. apply pair_equal_spec in E as [E1 E2]. apply pair_equal_spec in F as [E3 E4]. auto 10.
Qed.

Lemma directed_equal c p q r s : xy_less q p = false -> xy_less s r = false ->
  linestring_equal c [p; q] [r; s] = point_equal c p r && point_equal c q s.
Proof.
  intros A B. unfold linestring_equal. cbn [length Nat.eqb negb]. unfold rotate_leftmost.
  cbn [length find_min_idx find_min_from]. rewrite A, B. cbn. now rewrite andb_true_r.
Qed.

Section Main.
  Variable c : compare.
  Variable sort : (line -> line -> bool) -> list line -> list line.
  Variable ls : list line.
  Hypothesis Pc : positive c.
  Hypothesis Hsort : sort_ok sort.
  Hypothesis Num : number_lines ls.
  Hypothesis Apart : told_apart c ls.

  Lemma normal_ends l : ends (normalize_line l) = ends l \/ ends (normalize_line l) = rev (ends l).
  Proof. unfold normalize_line. destruct (negb _); [right|left]; reflexivity. Qed.
  Lemma normal_in l p : In p (ends (normalize_line l)) -> In p (ends l).
  Proof. destruct (normal_ends l) as [->| ->]; [auto|]. now rewrite <- in_rev. Qed.
  Definition good (l : line) : Prop :=
    (exists l0, In l0 ls /\ l = normalize_line l0) /\ number_line l /\ directed l /\ xy_less (snd l) (fst l) = false.
  Lemma normal_good l0 : In l0 ls -> good (normalize_line l0).
  Proof.
    intros H. destruct (Num l0 (fst l0) H) as [_ N1]; [now left|]. destruct (Num l0 (snd l0) H) as [_ N2]; [right; now left|].
    split; [eauto|]. unfold normalize_line. destruct (xy_less (fst l0) (snd l0)) eqn:E; cbn [negb fst snd].
    - apply xy_less_before in E; auto. assert (D : ~ before (snd l0) (fst l0)).
      { intros K. apply (before_irrefl (fst l0)). eapply before_trans; eauto. }
      split; [split; assumption|]. split; [exact D|].
      destruct (xy_less (snd l0) (fst l0)) eqn:F; [|reflexivity]. apply xy_less_before in F; tauto.
    - split; [split; assumption|]. split; [|exact E]. unfold directed. cbn [fst snd]. rewrite <- xy_less_before by assumption. congruence.
  Qed.
  Lemma apart_good a b p q : good a -> good b -> In p (ends a) -> In q (ends b) -> (point_equal c p q = true <-> same_place p q).
  Proof.
    intros [(a0 & Ha & ->) _] [(b0 & Hb & ->) _] Hp Hq. apply normal_in in Hp, Hq. split.
    - now apply (Apart a0 b0).
    - destruct (Num a0 p Ha Hp) as [[? ?] _], (Num b0 q Hb Hq) as [[? ?] _]. now apply point_equal_same.
  Qed.
  Lemma less_line a b : good a -> good b -> (lines_less c a b = true <-> line_before a b).
  Proof.
    intros Ga Gb. pose proof (apart_good a b (fst a) (fst b) Ga Gb ltac:(now left) ltac:(now left)) as E.
    destruct Ga as (_ & [Na1 Na2] & _), Gb as (_ & [Nb1 Nb2] & _).
    unfold lines_less, line_before. destruct (point_equal c (fst a) (fst b)); cbn [negb]; rewrite xy_less_before by assumption.
    - assert (S : same_place (fst a) (fst b)) by now apply E. pose proof (before_same _ _ S). tauto.
    - assert (S : ~ same_place (fst a) (fst b)) by (intros K; apply E in K; discriminate). tauto.
  Qed.
  Lemma same_good a b : good a -> good b -> (same_ends c b a = true <-> same_line a b).
  Proof.
    intros Ga Gb. pose proof (apart_good b a (fst b) (fst a) Gb Ga ltac:(now left) ltac:(now left)) as E1.
    pose proof (apart_good b a (snd b) (snd a) Gb Ga ltac:(right; now left) ltac:(right; now left)) as E2.
    destruct Ga as (_ & _ & _ & Da), Gb as (_ & _ & _ & Db).
    unfold same_ends, ends_list. rewrite directed_equal, andb_true_iff, E1, E2 by assumption. unfold same_line.
    rewrite !same_place_keys. intuition congruence.
  Qed.

  Definition sorted_lines : list line := sort (lines_less c) (normalize_lines ls).
  Lemma sorted_good : Forall good sorted_lines.
  Proof.
    destruct (Hsort (lines_less c) (normalize_lines ls)) as [P _]. fold sorted_lines in P.
    apply (Permutation_Forall P). rewrite Forall_forall. intros l Hl. apply in_map_iff in Hl as (l0 & <- & H). now apply normal_good.
  Qed.
  Lemma normal_all_good l : In l (normalize_lines ls) -> good l.
  Proof. intros Hl. apply in_map_iff in Hl as (l0 & <- & H). now apply normal_good. Qed.
  Lemma sorted_order : StronglySorted (fun a b => ~ line_before b a) sorted_lines.
  Proof.
    apply in_order_strongly. destruct (Hsort (lines_less c) (normalize_lines ls)) as [P O]. fold sorted_lines in *.
    pose proof normal_all_good as G.
    assert (O' : in_order (fun a b => lines_less c a b = true) sorted_lines).
    { apply O.
      - intros a Ha. destruct (lines_less c a a) eqn:E; [|reflexivity]. apply less_line in E; auto.
        pose proof (proj1 (proj2 (G a Ha))) as N. apply line_before_key in E; auto. destruct (lkey a) as [[? ?] [? ?]]. lia.
      - intros a b d Ha Hb Hd. apply G in Ha, Hb, Hd. rewrite !less_line by assumption.
        pose proof (proj1 (proj2 Ha)). pose proof (proj1 (proj2 Hb)). pose proof (proj1 (proj2 Hd)).
        rewrite !line_before_key by assumption. destruct (lkey a) as [[? ?] [? ?]], (lkey b) as [[? ?] [? ?]], (lkey d) as [[? ?] [? ?]]. lia.
      - intros a b d Ha Hb Hd. apply G in Ha, Hb, Hd. rewrite <- !not_true_iff_false, !less_line by assumption.
        pose proof (proj1 (proj2 Ha)). pose proof (proj1 (proj2 Hb)). pose proof (proj1 (proj2 Hd)).
        rewrite !line_before_key by assumption. destruct (lkey a) as [[? ?] [? ?]], (lkey b) as [[? ?] [? ?]], (lkey d) as [[? ?] [? ?]]. lia. }
    intros i j p q L Hi Hj K. apply (O' i j p q L Hi Hj).
    pose proof sorted_good as Gs. rewrite Forall_forall in Gs.
    apply less_line; auto; apply Gs; eapply nth_error_In; eauto.
  Qed.

  Lemma sorted_unique : StronglySorted line_before (adjacent c None sorted_lines) /\
    forall y, In y sorted_lines -> exists z, In z (adjacent c None sorted_lines) /\ same_line z y.
  Proof.
    apply (adjacent_sorted c good line_before same_line).
    - apply same_good.
    - intros a b d Ga Gb Gd. pose proof (proj1 (proj2 Ga)). pose proof (proj1 (proj2 Gb)). pose proof (proj1 (proj2 Gd)).
      rewrite !line_before_key by assumption. destruct (lkey a) as [[? ?] [? ?]], (lkey b) as [[? ?] [? ?]], (lkey d) as [[? ?] [? ?]]. lia.
    - intros a b Ga Gb. pose proof (proj1 (proj2 Ga)). pose proof (proj1 (proj2 Gb)).
      rewrite !line_before_key, same_line_key by assumption.
      destruct (lkey a) as [[a1 a2] [a3 a4]], (lkey b) as [[b1 b2] [b3 b4]].
      destruct (Z.lt_total a1 b1) as [?|[->|?]]; [lia| |lia]. destruct (Z.lt_total a2 b2) as [?|[->|?]]; [lia| |lia].
      destruct (Z.lt_total a3 b3) as [?|[->|?]]; [lia| |lia]. destruct (Z.lt_total a4 b4) as [?|[->|?]]; [lia| |lia]. auto.
    - intros a b d Ga Gb Gd. pose proof (proj1 (proj2 Ga)). pose proof (proj1 (proj2 Gb)). pose proof (proj1 (proj2 Gd)).
      rewrite same_line_key, !line_before_key by assumption. intros ->. auto.
    - intros a Ga. pose proof (proj1 (proj2 Ga)). now rewrite same_line_key by assumption.
    - intros a b d Ga Gb Gd. pose proof (proj1 (proj2 Ga)). pose proof (proj1 (proj2 Gb)). pose proof (proj1 (proj2 Gd)).
      rewrite !same_line_key by assumption. congruence.
    - apply sorted_good.
    - apply sorted_order.
  Qed.

  Lemma same_line_segment l l0 z : l = normalize_line l0 -> same_line z l -> same_segment l0 z.
  Proof.
    intros -> [A B]. unfold normalize_line in *. unfold same_segment. rewrite !same_place_keys in *.
    destruct (negb _); cbn [fst snd] in *; intuition congruence.
  Qed.

  Lemma strict_apart out : Forall good out -> StronglySorted line_before out ->
    forall i j a b, (i < j)%nat -> nth_error out i = Some a -> nth_error out j = Some b -> line_before a b /\ ~ same_segment a b.
  Proof.
    intros Hg Hs. induction Hs as [|x l Hs IH Hf]; intros i j a b L A B; [destruct i; discriminate|].
    destruct j as [|j]; [lia|]. inversion_clear Hg as [|? ? Gx Gl]. destruct i as [|i]; cbn in A, B.
    - injection A as ->. rewrite Forall_forall in Hf, Gl. apply nth_error_In in B. pose proof (Hf b B) as K. split; [exact K|].
      destruct Gx as (_ & [Nx1 Nx2] & Dx & _), (Gl b B) as (_ & [Nb1 Nb2] & Db & _).
      unfold same_segment, directed, line_before in *. rewrite !same_place_keys, !before_key2 in * by assumption. lia.
    - apply (IH Gl i j); auto. lia.
  Qed.

  Theorem unique_lines out arr : normalize_unique c sort ls = (out, arr) ->
    (forall l, In l out -> directed l /\ (In l ls \/ In (snd l, fst l) ls)) /\
    (forall l, In l ls -> exists l', In l' out /\ same_segment l l') /\
    (forall i j a b, (i < j)%nat -> nth_error out i = Some a -> nth_error out j = Some b -> line_before a b /\ ~ same_segment a b) /\
    length arr = length ls /\ firstn (length out) arr = out.
  Proof.
    intros E. destruct (unique_spec c sort ls) as [U1 U2]. rewrite E in U1, U2. cbn [fst snd] in *. cbv zeta in *. fold sorted_lines in U1, U2.
    destruct sorted_unique as [S1 S2]. rewrite <- U1 in S1, S2. pose proof sorted_good as Gs.
    assert (Go : Forall good out).
    { rewrite Forall_forall in *. intros l Hl. rewrite U1 in Hl. apply adjacent_incl in Hl. auto. }
    destruct (Hsort (lines_less c) (normalize_lines ls)) as [P _]. fold sorted_lines in P.
    split; [|split; [|split; [|split]]].
    - intros l Hl. rewrite Forall_forall in Go. destruct (Go l Hl) as ((l0 & H0 & ->) & _ & D & _). split; [exact D|].
      unfold normalize_line. destruct (negb _); [right; destruct l0|left]; exact H0.
    - intros l Hl. destruct (S2 (normalize_line l)) as (z & Hz & Sz).
      + apply (Permutation_in _ P). now apply in_map.
      + exists z. split; [exact Hz|]. eapply same_line_segment; [reflexivity|exact Sz].
    - now apply strict_apart.
    - rewrite U2, app_length, skipn_length, <- (map_length normalize_line ls). fold (normalize_lines ls). rewrite (Permutation_length P).
      assert (L : (length (adjacent c None sorted_lines) <= length sorted_lines)%nat).
      { clear. generalize (@None line). induction sorted_lines as [|x l IH]; intros o; cbn [adjacent length]; [lia|].
        destruct (match o with None => true | Some y => negb (same_ends c x y) end); cbn [length]; pose proof (IH (Some x)); lia. }
      lia.
    - rewrite U2, U1. rewrite firstn_app, Nat.sub_diag, firstn_all. cbn [firstn]. apply app_nil_r.
  Qed.
End Main.

(** ** A routine which sorts, and Go's on few elements *)
Lemma isort_ok : sort_ok (fun less => isort less).
Proof.
  intros less l. split; [apply isort_perm|]. intros Ir Tr Nt. apply strongly_in_order.
  pose proof (isort_sorted less (fun x => In x l) (fun a b => In a l /\ In b l /\ less a b = true)) as H.
  assert (K : StronglySorted (fun a b => ~ (In b l /\ In a l /\ less b a = true)) (isort less l)).
  { apply H.
    - intros a b Ha Hb. tauto.
    - intros a b (A & B & E) (_ & _ & F). pose proof (Tr a b a A B A E F). pose proof (Ir a A). congruence.
    - intros a b d Ha Hb Hd N1 N2 (_ & _ & E).
      assert (less d a = false); [|congruence]. apply (Nt d b a); auto.
      + destruct (less d b) eqn:X; [|reflexivity]. tauto.
      + destruct (less b a) eqn:X; [|reflexivity]. tauto.
    - rewrite Forall_forall. auto. }
  assert (Inl : forall x, In x (isort less l) -> In x l).
  { intros x. apply Permutation_in. apply Permutation_sym, isort_perm. }
  clear H. induction K as [|x r Hs IH Hf]; constructor.
  - apply IH. intros y Hy. apply Inl. now right.
  - rewrite Forall_forall in *. intros y Hy E. apply (Hf y Hy). split; [apply Inl; now right|]. split; [apply Inl; now left|exact E].
Qed.

Definition go_sort (less : line -> line -> bool) (l : list line) : list line :=
  insertion_sort (fun l i j => match nth_error l i, nth_error l j with Some a, Some b => less a b | _, _ => false end) l.
(** Three first points, neighbours equal within the tolerance, the outer ones not. *)
Definition near1 : pt := (0x3ff0000000000000%Z, f64_zero).
Definition near2 : pt := (0x3ff0000080000000%Z, f64_zero).
Definition near3 : pt := (0x3ff0000180000000%Z, f64_zero).
Definition cycle : list line :=
  [(near2, zpt (3, 0)%Z); (near3, zpt (2, 0)%Z); (near1, zpt (4, 0)%Z); (near3, zpt (2, 0)%Z)].
Lemma cycle_repeats : let out := fst (normalize_unique default_compare go_sort cycle) in
  number_lines cycle /\ length out = 4%nat /\ nth_error out 0 = nth_error out 3.
Proof.
  cbv zeta. split; [|vm_compute; auto]. intros l p Hl Hp. unfold cycle in Hl. cbn [In] in Hl.
  unfold ends in Hp. destruct Hl as [<-|[<-|[<-|[<-|[]]]]]; destruct Hp as [<-|[<-|[]]]; vm_compute; auto.
Qed.
Lemma unique_example : let ls := [zline ((3, 4), (1, 2)); zline ((0, 0), (5, 0)); zline ((1, 2), (3, 4)); zline ((5, 0), (0, 0))]%Z in
  number_lines ls /\ told_apart default_compare ls /\
  fst (normalize_unique default_compare (fun less => isort less) ls) = [zline ((0, 0), (5, 0)); zline ((1, 2), (3, 4))]%Z.
Proof.
  cbv zeta. split; [|split; [|vm_compute; reflexivity]].
  - intros l p Hl Hp. cbn [In] in Hl. unfold ends in Hp. destruct Hl as [<-|[<-|[<-|[<-|[]]]]]; destruct Hp as [<-|[<-|[]]]; vm_compute; auto.
  - intros a b p q Ha Hb Hp Hq. unfold ends in *. cbn [In] in *.
    destruct Ha as [<-|[<-|[<-|[<-|[]]]]]; destruct Hb as [<-|[<-|[<-|[<-|[]]]]]; destruct Hp as [<-|[<-|[]]]; destruct Hq as [<-|[<-|[]]];
    vm_compute; intros E; try discriminate E; auto.
Qed.
