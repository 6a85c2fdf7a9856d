(** Proofs about pseudopolygon: convex polygons *)
From Coq Require Import ZArith Bool List Lia Arith Reals Lra.
From Verif Require Import Base_Res Base_F64 Base_F64Arith Base_Geom M_Cmp M_Winding M_Triangle M_Planar M_Walker M_Pseudo
  S_Intersect S_Winding S_Walker S_Pseudo P_F64Flocq P_Winding P_Walker P_Pseudo P_Pseudo2 P_Pseudo3 P_Pseudo4 P_Pseudo5 P_Pseudo6.
Import ListNotations.
Local Open Scope nat_scope.

Lemma turn_rot a b c : turn b c a = turn a b c. Proof. unfold turn. ring. Qed.
Lemma turn_swap a b c : turn a c b = (- turn a b c)%Z. Proof. unfold turn. ring. Qed.

Section Convex.
Variables (r : list (Z * Z)) (s : Z).
Hypothesis S1 : (s = 1 \/ s = -1)%Z.
Hypothesis Cv : forall i j k d, i < j -> j < k -> k < length r -> (0 < s * turn (nth i r d) (nth j r d) (nth k r d))%Z.
Hypothesis Sm : Forall small r.
Hypothesis Le : (Z.of_nat (length r) <= 2 ^ 18)%Z.
Let Q (i : nat) : Z * Z := nth i r (0, 0)%Z.

Lemma cyc_turn i j k : cyc i j k -> i < length r -> j < length r -> k < length r -> (0 < s * turn (Q i) (Q j) (Q k))%Z.
Proof.
  intros [[A B]|[[A B]|[A B]]] I J K; unfold Q.
  - now apply Cv.
  - rewrite <- turn_rot. now apply Cv.
  - rewrite <- turn_rot, <- turn_rot. now apply Cv.
Qed.
Lemma Q_inj i j : 3 <= length r -> i < length r -> j < length r -> Q i = Q j -> i = j.
Proof.
  intros L I J E. destruct (Nat.eq_dec i j) as [|N]; [assumption|]. exfalso.
  assert (K : exists k, k < length r /\ k <> i /\ k <> j).
  { destruct (Nat.eq_dec i 0), (Nat.eq_dec j 0), (Nat.eq_dec i 1), (Nat.eq_dec j 1); try lia; try (exists 0; lia); try (exists 1; lia); exists 2; lia. }
  destruct K as (k & K & K1 & K2). assert (C : cyc i j k \/ cyc j i k) by (unfold cyc; lia).
  destruct C as [C|C]; apply cyc_turn in C; try assumption; rewrite E in C; unfold turn in C; destruct S1 as [-> | ->]; lia.
Qed.

Lemma idx_distinct l : cyc_inc l -> 3 <= length l -> (forall i, In i l -> i < length r) -> distinct (map fpt (map Q l)).
Proof.
  intros C L B. rewrite Forall_forall in Sm. assert (Sq : forall i, i < length r -> small (Q i)) by (intros i I; apply Sm, nth_In, I).
  assert (R3 : 3 <= length r).
  { assert (Bn : forall k, k < length l -> nth k l 0 < length r) by (intros k K; apply B, nth_In, K).
    pose proof (Bn 0 ltac:(lia)). pose proof (Bn 1 ltac:(lia)). pose proof (Bn 2 ltac:(lia)).
    pose proof (cyc_inc_neq l 0 1 C L ltac:(lia) ltac:(lia) ltac:(lia)). pose proof (cyc_inc_neq l 0 2 C L ltac:(lia) ltac:(lia) ltac:(lia)).
    pose proof (cyc_inc_neq l 1 2 C L ltac:(lia) ltac:(lia) ltac:(lia)). lia. }
  split.
  - apply Forall_forall. intros p H. apply in_map_iff in H as (q & <- & H). apply in_map_iff in H as (i & <- & H). apply fpt_finite, Sq, B, H.
  - rewrite !map_map. apply (NoDup_nth _ (rpt (fpt (Q 0)))). rewrite map_length. intros i j I J E.
    rewrite !(map_nth (fun x => rpt (fpt (Q x)))) in E. destruct (Nat.eq_dec i j) as [|N]; [assumption|]. exfalso.
    apply (cyc_inc_neq l i j C L I J N). pose proof (B _ (nth_In l 0 I)) as Bi. pose proof (B _ (nth_In l 0 J)) as Bj.
    apply fpt_inj in E; [|now apply Sq|now apply Sq]. now apply Q_inj in E.
Qed.
Lemma idx_area l : cyc_inc l -> 3 <= length l -> (forall i, In i l -> i < length r) -> (0 < s * area2 (map Q l))%Z.
Proof.
  intros C L B. destruct l as [|x l]; [cbn in L; lia|]. cbn [map]. rewrite area2_fan.
  assert (G : forall m t, (forall k, k < length m -> nth k m 0 = nth (t + k) l 0) -> t + length m = length l ->
    (2 <= length m -> (0 < s * fan (Q x) (map Q m))%Z) /\ (0 <= s * fan (Q x) (map Q m))%Z).
  { induction m as [|y m IH]; intros t H T; [split; [cbn; lia|cbn; lia]|].
    destruct m as [|z m]; [split; [cbn [length]; lia|cbn; lia]|].
    destruct (IH (Datatypes.S t)) as [_ G].
    { intros k K. specialize (H (Datatypes.S k) ltac:(cbn [length] in *; lia)). change (nth (Datatypes.S k) (y :: z :: m) 0) with (nth k (z :: m) 0) in H. rewrite H. f_equal. lia. }
    { cbn [length] in *. lia. }
    cbn [map] in *. change (fan (Q x) (Q y :: Q z :: map Q m)) with (turn (Q x) (Q y) (Q z) + fan (Q x) (Q z :: map Q m))%Z.
    assert (P : (0 < s * turn (Q x) (Q y) (Q z))%Z).
    { pose proof (H 0 ltac:(cbn; lia)) as Hy. pose proof (H 1 ltac:(cbn [length]; lia)) as Hz. cbn [nth length] in Hy, Hz, T. rewrite Nat.add_0_r in Hy.
      pose proof (C 0 (Datatypes.S t) (Datatypes.S (t + 1)) ltac:(lia) ltac:(lia) ltac:(cbn [length]; lia)) as K. cbn [nth] in K. rewrite <- Hy, <- Hz in K.
      apply cyc_turn; [exact K| | |]; apply B; [now left|right; rewrite Hy; apply nth_In; lia|right; rewrite Hz; apply nth_In; lia]. }
    rewrite Z.mul_add_distr_l. split; lia. }
  destruct (G l 0) as [G1 _]; [reflexivity|reflexivity|]. apply G1. cbn [length] in L. lia.
Qed.

Lemma convex_ok ypd fuel : forall l, cyc_inc l -> 3 <= length l -> (forall i, In i l -> i < length r) -> length l <= length r -> length l < fuel ->
  exists es, triangulate fuel ypd (map fpt (map Q l)) = Ok es.
Proof.
  induction fuel as [|fuel IH]; intros l C L B Ll Lf; [lia|].
  pose proof (idx_distinct l C L B) as D. pose proof (idx_area l C L B) as A.
  assert (Sl : Forall small (map Q l)).
  { apply Forall_forall. intros p H. apply in_map_iff in H as (i & <- & H). rewrite Forall_forall in Sm. apply Sm, nth_In, B, H. }
  assert (Or : orientation ypd (map fpt (map Q l)) <> wColinear).
  { rewrite orientation_small; [|exact Sl|rewrite map_length; lia]. unfold wColinear. destruct S1 as [-> | ->], ypd; lia. }
  rewrite triangulate_finish, sub_rings_distinct; [|exact D|intros q v []]. cbn [bind app].
  assert (Len : length (map fpt (map Q l)) = length l) by now rewrite !map_length.
  destruct (finish_cases (triangulate fuel ypd) ypd (map fpt (map Q l)) []) as [[X _]|[[X _]|[(a & b & E & _)|[(a & b & c & _ & ->)|(L4 & _ & ->)]]]].
  - lia.
  - now destruct Or.
  - rewrite E in Len. cbn in Len. lia.
  - eexists. reflexivity.
  - rewrite Len in L4.
    assert (Nt : forall k, k < length l -> nth k (map Q l) (0, 0)%Z = Q (nth k l 0)).
    { intros k K. rewrite (nth_indep _ _ (Q 0)) by now rewrite map_length. apply map_nth. }
    destruct (split_small (triangulate fuel ypd) ypd (map Q l) [] Sl D) as (pe & p1 & ps & p2 & H1 & H2 & H3 & NA & ->).
    + rewrite map_length. exact L4.
    + rewrite map_length. exists 1. split; [lia|]. rewrite !Nt by lia.
      assert (P : (0 < s * turn (Q (nth 0 l 0%nat)) (Q (nth 1 l 0%nat)) (Q (nth (length l - 1)%nat l 0%nat)))%Z).
      { apply cyc_turn; [apply C; lia| | |]; apply B, nth_In; lia. }
      destruct S1 as [-> | ->]; lia.
    + rewrite map_length in *. destruct (length l =? 4); [eexists; reflexivity|].
      destruct (nonadj_span (length l) pe p1 L4 H1 H2 H3 NA) as (N1 & N2 & N3 & N4).
      assert (Arc : forall a b, a < length l -> b < length l -> a <> b -> 2 <= span (length l) a b -> Datatypes.S (span (length l) a b) < length l ->
        exists es, triangulate fuel ypd (arc (map fpt (map Q l)) a b) = Ok es).
      { intros a b A1 B1 N G1 G2. rewrite map_map, arc_spec, <- (map_map Q fpt) by assumption.
        apply IH; [now apply arc_cyc|rewrite arc_length; lia| |rewrite arc_length; lia|rewrite arc_length; lia].
        intros i I. apply B. unfold arc_idx in I. apply in_map_iff in I as (t & <- & _). apply nth_In, go_on_lt. lia. }
      destruct (Arc pe p1 H1 H2 H3 N1 N3) as (e1 & ->). destruct (Arc p1 pe H2 H1 (not_eq_sym H3) N2 N4) as (e2 & ->).
      eexists. reflexivity.
Qed.

(** In a convex polygon chords which do not cross as numbers do not cross as
    segments. *)
Lemma convex_cross e f : 3 <= length r -> fst e < length r -> snd e < length r -> fst f < length r -> snd f < length r -> ~ crossing e f ->
  ~ proper_crossing (Q (fst e)) (Q (snd e)) (Q (fst f)) (Q (snd f)).
Proof.
  destruct e as [a b], f as [c d]. cbn [fst snd]. intros L A B C D N [P _].
  assert (Z0 : forall x y, turn x y x = 0%Z /\ turn x y y = 0%Z /\ turn x x y = 0%Z) by (intros x y; unfold turn; split; [|split]; ring).
  destruct (Nat.eq_dec a b) as [->|Nab]; [rewrite (proj2 (proj2 (Z0 _ _))) in P; lia|].
  destruct (Nat.eq_dec c a) as [->|Nca]; [rewrite (proj1 (Z0 _ _)) in P; lia|].
  destruct (Nat.eq_dec c b) as [->|Ncb]; [rewrite (proj1 (proj2 (Z0 _ _))) in P; lia|].
  destruct (Nat.eq_dec d a) as [->|Nda]; [rewrite (proj1 (Z0 (Q a) (Q b))) in P; lia|].
  destruct (Nat.eq_dec d b) as [->|Ndb]; [rewrite (proj1 (proj2 (Z0 (Q a) (Q b)))) in P; lia|].
  assert (X : (cyc a b c /\ cyc a b d) \/ (cyc a c b /\ cyc a d b)) by (unfold crossing, between, beyond, cyc in *; cbn [fst snd] in N; lia).
  destruct X as [[X Y]|[X Y]]; apply cyc_turn in X, Y; try assumption.
  - destruct S1 as [-> | ->]; nia.
  - rewrite turn_swap in X, Y. destruct S1 as [-> | ->]; nia.
Qed.
End Convex.

Theorem convex_triangulated ypd r : convex r -> small_polygon r -> 3 <= length r ->
  exists E, triangulation (length r) E /\
    triangulate_points ypd (map fpt r) = Ok (map (fun e => (fpt (nth (fst e) r (0, 0)%Z), fpt (nth (snd e) r (0, 0)%Z))) E) /\
    forall e f, In e E -> In f E -> ~ proper_crossing (nth (fst e) r (0, 0)%Z) (nth (snd e) r (0, 0)%Z) (nth (fst f) r (0, 0)%Z) (nth (snd f) r (0, 0)%Z).
Proof.
  intros (s & S1 & Cv) [Sm Le] L.
  assert (Er : map (fun i => nth i r (0, 0)%Z) (seq 0 (length r)) = r).
  { apply (nth_ext _ _ (nth 0 r (0, 0)%Z) (0, 0)%Z); [now rewrite map_length, seq_length|]. intros k K. rewrite map_length, seq_length in K.
    rewrite (map_nth (fun i => nth i r (0, 0)%Z)), seq_nth by assumption. reflexivity. }
  assert (B : forall i, In i (seq 0 (length r)) -> i < length r) by (intros i I; apply in_seq in I; lia).
  destruct (convex_ok r s S1 Cv Sm Le ypd (Datatypes.S (length r)) (seq 0 (length r)) (cyc_seq _)) as (es & H); [rewrite seq_length; lia|exact B|rewrite seq_length; lia|rewrite seq_length; lia|].
  rewrite Er in H. pose proof (idx_distinct r s S1 Cv Sm (seq 0 (length r)) (cyc_seq _) ltac:(rewrite seq_length; lia) B) as D. rewrite Er in D.
  assert (Ht : triangulate_points ypd (map fpt r) = Ok es) by (unfold triangulate_points; rewrite map_length; exact H).
  destruct (triangulates ypd (map fpt r) es D ltac:(now rewrite map_length) Ht) as (E & T & ->). rewrite map_length in T.
  exists E. split; [exact T|]. split.
  - rewrite Ht. f_equal. apply map_ext_in. intros [i j] I. destruct (tri_chords _ _ T i j I) as (I1 & I2 & _). cbn [fst snd]. now rewrite !at_fpt by assumption.
  - intros [a b] [c d] He Hf. destruct (tri_chords _ _ T a b He) as (A1 & A2 & _). destruct (tri_chords _ _ T c d Hf) as (C1 & C2 & _).
    apply (convex_cross r s S1 Cv (a, b) (c, d) L A1 A2 C1 C2). now apply (tri_planar _ _ T).
Qed.
