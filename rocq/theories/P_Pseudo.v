(** Proofs about pseudopolygon: the combinatorial triangulation *)
From Coq Require Import ZArith Bool List Lia Arith.
From Verif Require Import Base_Res Base_F64 Base_F64Arith Base_Geom M_Cmp M_Winding M_Triangle M_Planar M_Walker M_Pseudo
  S_Pseudo P_Walker P_Walker7.
Import ListNotations.
Local Open Scope nat_scope.

(** ** Cyclic order *)
Definition cyc (x y z : nat) : Prop := (x < y /\ y < z) \/ (y < z /\ z < x) \/ (z < x /\ x < y).
Definition cyc_inc (l : list nat) : Prop :=
  forall i j k, i < j -> j < k -> k < length l -> cyc (nth i l 0) (nth j l 0) (nth k l 0).
Lemma cyc_rot x y z : cyc x y z -> cyc y z x. Proof. unfold cyc. tauto. Qed.
Lemma cyc_inc_any l i j k : cyc_inc l -> cyc i j k -> i < length l -> j < length l -> k < length l -> cyc (nth i l 0) (nth j l 0) (nth k l 0).
Proof.
  intros C [[A B]|[[A B]|[A B]]] Li Lj Lk; [now apply C|do 2 apply cyc_rot; now apply C|apply cyc_rot; now apply C].
Qed.
Lemma cyc_seq n : cyc_inc (seq 0 n).
Proof. intros i j k A B C. rewrite seq_length in C. rewrite !seq_nth by lia. left. lia. Qed.

(** Positions along an arc *)
Definition go_on (n a t : nat) : nat := (a + t) mod n.
Lemma go_on_val n a t : a < n -> t < n -> go_on n a t = if a + t <? n then a + t else a + t - n.
Proof.
  intros A T. unfold go_on. destruct (Nat.ltb_spec (a + t) n) as [L|L]; [now apply Nat.mod_small|].
  replace (a + t) with (a + t - n + 1 * n) at 1 by lia. rewrite Nat.mod_add by lia. apply Nat.mod_small. lia.
Qed.
Lemma go_on_cyc n a i j k : a < n -> i < j -> j < k -> k < n -> cyc (go_on n a i) (go_on n a j) (go_on n a k).
Proof.
  intros A B C D. rewrite !go_on_val by lia. unfold cyc.
  destruct (Nat.ltb_spec (a + i) n), (Nat.ltb_spec (a + j) n), (Nat.ltb_spec (a + k) n); lia.
Qed.
Definition span (n a b : nat) : nat := if a <? b then b - a else b + n - a.
Definition arc_idx (l : list nat) (a b : nat) : list nat :=
  map (fun t => nth (go_on (length l) a t) l 0) (seq 0 (S (span (length l) a b))).
Lemma arc_length l a b : length (arc_idx l a b) = S (span (length l) a b).
Proof. unfold arc_idx. now rewrite map_length, seq_length. Qed.
Lemma arc_nth l a b t : t <= span (length l) a b -> nth t (arc_idx l a b) 0 = nth (go_on (length l) a t) l 0.
Proof.
  intros T. unfold arc_idx. set (f := fun t0 => nth (go_on (length l) a t0) l 0).
  rewrite (nth_indep _ 0 (f 0)) by (rewrite map_length, seq_length; lia). rewrite map_nth, seq_nth by lia. reflexivity.
Qed.
Lemma span_lt n a b : a < n -> b < n -> a <> b -> span n a b < n /\ 0 < span n a b.
Proof. intros A B C. unfold span. destruct (Nat.ltb_spec a b); lia. Qed.
Lemma arc_cyc l a b : a < length l -> b < length l -> a <> b -> cyc_inc l -> cyc_inc (arc_idx l a b).
Proof.
  intros A B N C i j k I J K. rewrite arc_length in K. destruct (span_lt (length l) a b A B N) as [S _].
  rewrite !arc_nth by lia. apply cyc_inc_any; [exact C|apply go_on_cyc; lia| | |]; apply Nat.mod_upper_bound; lia.
Qed.
Lemma go_on_end n a b : a < n -> b < n -> a <> b -> go_on n a (span n a b) = b.
Proof.
  intros A B N. destruct (span_lt n a b A B N) as [S _]. rewrite go_on_val by lia. unfold span in *.
  destruct (Nat.ltb_spec a b).
  - destruct (Nat.ltb_spec (a + (b - a)) n); lia.
  - destruct (Nat.ltb_spec (a + (b + n - a)) n); lia.
Qed.

(** On the closed arc from [a] to [b]. *)
Definition on_arc (a b x : nat) : Prop := x = a \/ x = b \/ cyc a x b.
Lemma arc_on l a b x : a < length l -> b < length l -> a <> b -> cyc_inc l -> In x (arc_idx l a b) -> on_arc (nth a l 0) (nth b l 0) x.
Proof.
  intros A B N C H. apply (In_nth _ _ 0) in H as (t & T & <-). rewrite arc_length in T.
  destruct (span_lt (length l) a b A B N) as [S S0].
  rewrite arc_nth by lia.
  destruct (Nat.eq_dec t 0) as [->|T0]; [left; rewrite go_on_val by lia; rewrite Nat.add_0_r; destruct (Nat.ltb_spec a (length l)); [reflexivity|lia]|].
  destruct (Nat.eq_dec t (span (length l) a b)) as [->|T1]; [right; left; now rewrite go_on_end|].
  right; right. pose proof (go_on_cyc (length l) a 0 t (span (length l) a b) A ltac:(lia) ltac:(lia) S) as G.
  rewrite go_on_end in G by assumption. rewrite (go_on_val _ a 0) in G by lia. rewrite Nat.add_0_r in G.
  destruct (Nat.ltb_spec a (length l)); [|lia].
  apply cyc_inc_any; try assumption. apply Nat.mod_upper_bound. lia.
Qed.
Lemma arc_cover l a b x : a < length l -> b < length l -> a <> b -> In x l -> In x (arc_idx l a b) \/ In x (arc_idx l b a).
Proof.
  intros A B N H. apply (In_nth _ _ 0) in H as (k & K & <-).
  assert (G : exists t, (t <= span (length l) a b /\ go_on (length l) a t = k) \/ (t <= span (length l) b a /\ go_on (length l) b t = k)).
  { destruct (span_lt (length l) a b A B N), (span_lt (length l) b a B A (not_eq_sym N)). unfold span in *.
    destruct (Nat.ltb_spec a b), (Nat.ltb_spec b a); try lia.
    - destruct (Nat.leb_spec a k), (Nat.leb_spec k b).
      + exists (k - a). left. split; [lia|]. rewrite go_on_val by lia. destruct (Nat.ltb_spec (a + (k - a)) (length l)); lia.
      + exists (k - b). right. split; [lia|]. rewrite go_on_val by lia. destruct (Nat.ltb_spec (b + (k - b)) (length l)); lia.
      + exists (k + length l - b). right. split; [lia|]. rewrite go_on_val by lia. destruct (Nat.ltb_spec (b + (k + length l - b)) (length l)); lia.
      + exists (k - b). lia.
    - destruct (Nat.leb_spec b k), (Nat.leb_spec k a).
      + exists (k - b). right. split; [lia|]. rewrite go_on_val by lia. destruct (Nat.ltb_spec (b + (k - b)) (length l)); lia.
      + exists (k - a). left. split; [lia|]. rewrite go_on_val by lia. destruct (Nat.ltb_spec (a + (k - a)) (length l)); lia.
      + exists (k + length l - a). left. split; [lia|]. rewrite go_on_val by lia. destruct (Nat.ltb_spec (a + (k + length l - a)) (length l)); lia.
      + exists (k - a). lia. }
  destruct G as (t & [[T E]|[T E]]); [left|right]; rewrite <- E, <- arc_nth with (b := if false then 0 else _) by exact T; apply nth_In; rewrite arc_length; lia.
Qed.

(** ** Triangulations of a cyclically increasing list of numbers *)
Record tri_on (l : list nat) (E : list (nat * nat)) : Prop := {
  on_ends : forall i j, In (i, j) E -> In i l /\ In j l /\ i <> j;
  on_sides : forall k, k < length l -> joined E (nth k l 0) (nth (go_on (length l) k 1) l 0);
  on_planar : forall e f, In e E -> In f E -> ~ crossing e f;
  on_maximal : forall i j, In i l -> In j l -> i <> j -> joined E i j \/ exists e, In e E /\ crossing e (i, j)
}.

Lemma arcs_planar a b e f : on_arc a b (fst e) -> on_arc a b (snd e) -> on_arc b a (fst f) -> on_arc b a (snd f) -> ~ crossing e f /\ ~ crossing f e.
Proof. destruct e as [e1 e2], f as [f1 f2]. unfold on_arc, crossing, between, beyond, cyc. cbn [fst snd]. lia. Qed.
Lemma arcs_cross a b i j : cyc a i b -> cyc b j a -> crossing (a, b) (i, j) /\ crossing (b, a) (i, j) /\ crossing (a, b) (j, i) /\ crossing (b, a) (j, i).
Proof. unfold crossing, between, beyond, cyc. cbn [fst snd]. lia. Qed.
Lemma joined_app E F i j : joined (E ++ F) i j <-> joined E i j \/ joined F i j.
Proof. unfold joined. rewrite !in_app_iff. tauto. Qed.

Lemma cyc_inc_neq l i j : cyc_inc l -> 3 <= length l -> i < length l -> j < length l -> i <> j -> nth i l 0 <> nth j l 0.
Proof.
  intros C L I J N. destruct (Nat.lt_trichotomy i j) as [H|[H|H]]; [|lia|];
    (destruct (Nat.eq_dec i 0), (Nat.eq_dec j 0), (Nat.eq_dec i 1), (Nat.eq_dec j 1); try lia).
  all: assert (Q : exists k, k < length l /\ k <> i /\ k <> j) by
    (destruct (Nat.eq_dec i 0), (Nat.eq_dec j 0), (Nat.eq_dec i 1), (Nat.eq_dec j 1); try lia; try (exists 0; lia); try (exists 1; lia); exists 2; lia).
  all: destruct Q as (k & K & K1 & K2).
  all: assert (Z : cyc i j k \/ cyc j i k) by (unfold cyc; lia).
  all: destruct Z as [Z|Z]; apply (cyc_inc_any l) in Z; try assumption; unfold cyc in Z; lia.
Qed.

Lemma tri_split l a b E1 E2 : cyc_inc l -> a < length l -> b < length l -> a <> b -> 2 <= span (length l) a b -> 2 <= span (length l) b a ->
  tri_on (arc_idx l a b) E1 -> tri_on (arc_idx l b a) E2 -> tri_on l (E1 ++ E2).
Proof.
  intros C A B N SA SB T1 T2.
  assert (L4 : 4 <= length l) by (unfold span in *; destruct (Nat.ltb_spec a b), (Nat.ltb_spec b a); lia).
  assert (Sub : forall a b x, a < length l -> b < length l -> In x (arc_idx l a b) -> In x l).
  { intros a' b' x A' B' H. unfold arc_idx in H. apply in_map_iff in H as (t & <- & _). apply nth_In, Nat.mod_upper_bound. lia. }
  assert (Ends : forall E a b i j, a < length l -> b < length l -> a <> b -> tri_on (arc_idx l a b) E -> In (i, j) E ->
    on_arc (nth a l 0) (nth b l 0) i /\ on_arc (nth a l 0) (nth b l 0) j).
  { intros E a' b' i j A' B' N' T H. destruct (on_ends _ _ T i j H) as (I & J & _). split; now apply arc_on. }
  assert (Diag : joined E1 (nth a l 0) (nth b l 0)).
  { pose proof (on_sides _ _ T1 (span (length l) a b) ltac:(rewrite arc_length; lia)) as Sd.
     rewrite arc_length in Sd. rewrite (arc_nth l a b (span (length l) a b)) in Sd by lia. rewrite go_on_end in Sd by assumption.
    replace (go_on (S (span (length l) a b)) (span (length l) a b) 1) with 0 in Sd.
    - rewrite arc_nth in Sd by lia. rewrite go_on_val in Sd by lia. rewrite Nat.add_0_r in Sd.
      destruct (Nat.ltb_spec a (length l)); [|lia]. destruct Sd; [right|left]; assumption.
    - unfold go_on. rewrite Nat.add_1_r. symmetry. apply Nat.mod_same. lia. }
  constructor.
  - intros i j H. apply in_app_or in H as [H|H].
    + destruct (on_ends _ _ T1 _ _ H) as (I & J & D). split; [|split; [|exact D]]; now apply (Sub a b).
    + destruct (on_ends _ _ T2 _ _ H) as (I & J & D). split; [|split; [|exact D]]; now apply (Sub b a).
  - intros k K. apply joined_app.
    assert (Side : forall a b E t, a < length l -> b < length l -> a <> b -> tri_on (arc_idx l a b) E -> t < span (length l) a b ->
      joined E (nth (go_on (length l) a t) l 0) (nth (go_on (length l) (go_on (length l) a t) 1) l 0)).
    { intros a' b' E t A' B' N' T Ht. pose proof (on_sides _ _ T t ltac:(rewrite arc_length; lia)) as Sd.
      destruct (span_lt (length l) a' b' A' B' N') as [Sl _].
       rewrite arc_length in Sd. rewrite (arc_nth l a' b' t) in Sd by lia.
      rewrite (go_on_val (S (span (length l) a' b')) t 1) in Sd by lia. destruct (Nat.ltb_spec (t + 1) (S (span (length l) a' b'))); [|lia].
      rewrite arc_nth in Sd by lia. replace (go_on (length l) (go_on (length l) a' t) 1) with (go_on (length l) a' (t + 1)); [exact Sd|].
      unfold go_on. rewrite Nat.add_mod_idemp_l by lia. f_equal. lia. }
    destruct (Nat.ltb_spec a b) as [O|O].
    + assert (Sab : span (length l) a b = b - a) by (unfold span; destruct (Nat.ltb_spec a b); lia).
      assert (Sba : span (length l) b a = a + length l - b) by (unfold span; destruct (Nat.ltb_spec b a); lia).
      destruct (Nat.leb_spec a k), (Nat.ltb_spec k b).
      * left. specialize (Side a b E1 (k - a) A B N T1 ltac:(lia)). rewrite (go_on_val _ a) in Side by lia.
        destruct (Nat.ltb_spec (a + (k - a)) (length l)); [|lia]. now replace (a + (k - a)) with k in Side by lia.
      * right. specialize (Side b a E2 (k - b) B A (not_eq_sym N) T2 ltac:(lia)). rewrite (go_on_val _ b) in Side by lia.
        destruct (Nat.ltb_spec (b + (k - b)) (length l)); [|lia]. now replace (b + (k - b)) with k in Side by lia.
      * right. specialize (Side b a E2 (k + length l - b) B A (not_eq_sym N) T2 ltac:(lia)). rewrite (go_on_val _ b) in Side by lia.
        destruct (Nat.ltb_spec (b + (k + length l - b)) (length l)); [lia|]. now replace (b + (k + length l - b) - length l) with k in Side by lia.
      * lia.
    + assert (Sab : span (length l) a b = b + length l - a) by (unfold span; destruct (Nat.ltb_spec a b); lia).
      assert (Sba : span (length l) b a = a - b) by (unfold span; destruct (Nat.ltb_spec b a); lia).
      destruct (Nat.leb_spec b k), (Nat.ltb_spec k a).
      * right. specialize (Side b a E2 (k - b) B A (not_eq_sym N) T2 ltac:(lia)). rewrite (go_on_val _ b) in Side by lia.
        destruct (Nat.ltb_spec (b + (k - b)) (length l)); [|lia]. now replace (b + (k - b)) with k in Side by lia.
      * left. specialize (Side a b E1 (k - a) A B N T1 ltac:(lia)). rewrite (go_on_val _ a) in Side by lia.
        destruct (Nat.ltb_spec (a + (k - a)) (length l)); [|lia]. now replace (a + (k - a)) with k in Side by lia.
      * left. specialize (Side a b E1 (k + length l - a) A B N T1 ltac:(lia)). rewrite (go_on_val _ a) in Side by lia.
        destruct (Nat.ltb_spec (a + (k + length l - a)) (length l)); [lia|]. now replace (a + (k + length l - a) - length l) with k in Side by lia.
      * lia.
  - intros [i j] [i' j'] H H'. apply in_app_or in H, H'. destruct H as [H|H], H' as [H'|H'].
    + now apply (on_planar _ _ T1).
    + destruct (Ends _ _ _ _ _ A B N T1 H), (Ends _ _ _ _ _ B A (not_eq_sym N) T2 H').
      refine (proj1 (arcs_planar (nth a l 0) (nth b l 0) (i, j) (i', j') _ _ _ _)); assumption.
    + destruct (Ends _ _ _ _ _ B A (not_eq_sym N) T2 H), (Ends _ _ _ _ _ A B N T1 H').
      refine (proj2 (arcs_planar (nth a l 0) (nth b l 0) (i', j') (i, j) _ _ _ _)); assumption.
    + now apply (on_planar _ _ T2).
  - intros i j I J D.
    assert (Some1 : forall i j, In i (arc_idx l a b) -> In j (arc_idx l a b) -> i <> j -> joined (E1 ++ E2) i j \/ exists e, In e (E1 ++ E2) /\ crossing e (i, j)).
    { intros x y X Y Q. destruct (on_maximal _ _ T1 x y X Y Q) as [M|(e & He & M)]; [left; apply joined_app; now left|right; exists e; split; [apply in_or_app; now left|exact M]]. }
    assert (Some2 : forall i j, In i (arc_idx l b a) -> In j (arc_idx l b a) -> i <> j -> joined (E1 ++ E2) i j \/ exists e, In e (E1 ++ E2) /\ crossing e (i, j)).
    { intros x y X Y Q. destruct (on_maximal _ _ T2 x y X Y Q) as [M|(e & He & M)]; [left; apply joined_app; now right|right; exists e; split; [apply in_or_app; now right|exact M]]. }
    assert (EndIn : forall a b, a < length l -> b < length l -> a <> b -> In (nth a l 0) (arc_idx l a b) /\ In (nth b l 0) (arc_idx l a b)).
    { intros a' b' A' B' N'. destruct (span_lt (length l) a' b' A' B' N') as [S0 S1]. split.
      - replace (nth a' l 0) with (nth 0 (arc_idx l a' b') 0); [apply nth_In; rewrite arc_length; lia|].
        rewrite arc_nth by lia. rewrite go_on_val by lia. rewrite Nat.add_0_r. destruct (Nat.ltb_spec a' (length l)); [reflexivity|lia].
      - replace (nth b' l 0) with (nth (span (length l) a' b') (arc_idx l a' b') 0); [apply nth_In; rewrite arc_length; lia|].
        rewrite arc_nth by lia. now rewrite go_on_end. }
    destruct (EndIn a b A B N) as [Ea Eb], (EndIn b a B A (not_eq_sym N)) as [Eb' Ea'].
    destruct (arc_cover l a b i A B N I) as [Ii|Ii], (arc_cover l a b j A B N J) as [Jj|Jj]; [now apply Some1| | |now apply Some2].
    + pose proof (arc_on _ _ _ _ A B N C Ii) as Oi. pose proof (arc_on _ _ _ _ B A (not_eq_sym N) C Jj) as Oj.
      destruct Oi as [->|[->|Oi]]; [apply Some2; assumption|apply Some2; assumption|].
      destruct Oj as [->|[->|Oj]]; [apply Some1; assumption|apply Some1; assumption|].
      right. destruct (arcs_cross _ _ _ _ Oi Oj) as (X1 & X2 & _).
      destruct Diag as [Dg|Dg]; eexists; (split; [apply in_or_app; left; exact Dg|assumption]).
    + pose proof (arc_on _ _ _ _ A B N C Jj) as Oj. pose proof (arc_on _ _ _ _ B A (not_eq_sym N) C Ii) as Oi.
      destruct Oj as [->|[->|Oj]]; [apply Some2; assumption|apply Some2; assumption|].
      destruct Oi as [->|[->|Oi]]; [apply Some1; assumption|apply Some1; assumption|].
      right. destruct (arcs_cross _ _ _ _ Oj Oi) as (_ & _ & X1 & X2).
      destruct Diag as [Dg|Dg]; eexists; (split; [apply in_or_app; left; exact Dg|assumption]).
Qed.
