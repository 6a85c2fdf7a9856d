(** Proofs about planar/makevalid/walker: the loop of PolygonForRing *)
From Coq Require Import ZArith Bool List Lia Reals Lra Permutation.
From Flocq Require Import Core.Core.
From Verif Require Import Base_Res Base_F64 Base_F64Arith Base_Geom M_Geom M_Extent M_Cmp M_Planar M_Triangle M_Winding M_Walker
  P_F64 P_F64Flocq S_Intersect S_Walker S_Cmp P_Cmp P_Cmp2 P_Walker.
Import ListNotations.
Local Open Scope nat_scope.

(** ** The point index *)
Definition live (m : pt_map) (i : nat) (rng : list pt) : Prop :=
  forall q j, In (q, j) m -> go_eq q q = true -> j < i /\ nth_error rng j = Some q.
Definition nowrap (m : pt_map) (i : nat) (rng : list pt) : Prop :=
  i < length rng -> forall q, In (q, 0) m -> go_eq q q = true -> go_eq q (last rng q) = false.

Lemma go_eq_refl_l p q : go_eq p q = true -> go_eq p p = true.
Proof. intros H. apply go_eq_trans with q; [exact H|now rewrite go_eq_sym]. Qed.

Lemma lookup_in m p j : lookup m p = Some j -> exists q, In (q, j) m /\ go_eq q p = true.
Proof.
  induction m as [|[q k] m IH]; cbn; [discriminate|]. destruct (go_eq q p) eqn:E.
  - intros [= <-]. exists q. auto.
  - intros H. destruct (IH H) as (r & I & G). exists r. auto.
Qed.
Lemma delete_in m d q j : In (q, j) (delete m d) <-> In (q, j) m /\ go_eq q d = false.
Proof. unfold delete. rewrite filter_In. cbn. now rewrite negb_true_iff. Qed.
Lemma deletes_in ds : forall m q j, In (q, j) (fold_left delete ds m) <-> In (q, j) m /\ forall d, In d ds -> go_eq q d = false.
Proof.
  induction ds as [|d ds IH]; intros m q j; cbn [fold_left].
  - split; [intros H; split; [exact H|intros d []]|tauto].
  - rewrite IH, delete_in. split.
    + intros [[H1 H2] H3]. split; [exact H1|]. intros e [<-|He]; auto.
    + intros [H1 H2]. split; [split|]; [exact H1|apply H2; now left|intros e He; apply H2; now right].
Qed.

Lemma range_in {A} (l : list A) s e j x : nth_error l j = Some x -> s <= j -> j <= e -> In x (firstn (e + 1 - s) (skipn s l)).
Proof.
  intros E H1 H2. apply nth_error_In with (j - s).
  rewrite <- (firstn_skipn (e + 1 - s) (skipn s l)) in *.
  assert (L : nth_error (skipn s l) (j - s) = Some x).
  { clear - E H1. revert j l E H1. induction s as [|s IH]; intros j l E H; [now rewrite Nat.sub_0_r|].
    destruct j as [|j]; [lia|]. destruct l as [|y l]; [discriminate|]. cbn. apply IH; [exact E|lia]. }
  assert (Lj : j - s < length (skipn s l)) by (apply nth_error_Some; congruence).
  rewrite firstn_skipn. rewrite <- L. rewrite <- (firstn_skipn (e + 1 - s) (skipn s l)) at 2.
  rewrite nth_error_app1; [reflexivity|]. rewrite firstn_length. lia.
Qed.

(** After the deletions only what stands before [idx] is left. *)
Lemma live_cut m rng idx i : live m i rng ->
  live (fold_left delete (firstn (i + 1 - idx) (skipn idx rng)) m) idx rng.
Proof.
  intros L q j H G. apply deletes_in in H. destruct H as [H D]. destruct (L q j H G) as [H1 H2]. split; [|exact H2].
  destruct (Nat.lt_ge_cases j idx) as [C|C]; [exact C|].
  exfalso. specialize (D q (range_in rng idx i j q H2 C ltac:(lia))). congruence.
Qed.

Lemma split_two {A} (rng : list A) idx i b b' : nth_error rng idx = Some b -> nth_error rng i = Some b' -> idx < i ->
  exists l1 mid l2, rng = l1 ++ b :: mid ++ b' :: l2 /\ length l1 = idx /\ i = idx + 1 + length mid.
Proof.
  intros E1 E2 L. apply nth_error_split in E1. destruct E1 as (l1 & r & -> & L1).
  rewrite nth_error_app2 in E2 by lia. replace (i - length l1) with (S (i - length l1 - 1)) in E2 by lia. cbn in E2.
  apply nth_error_split in E2. destruct E2 as (mid & l2 & -> & L2). exists l1, mid, l2. repeat split; [exact L1|lia].
Qed.

(** ** Results *)
Definition shape (rng : list pt) (plyg : list (list pt)) (w : walked) : Prop :=
  match w with
  | WNil => True
  | WRing rng' plyg' =>
      (exists dr, Permutation (rng ++ concat plyg) (rng' ++ concat plyg' ++ dr)) /\
      (exists ex, plyg' = plyg ++ ex /\ Forall (fun s => 3 <= length s /\ leftmost_first s) ex) /\
      (forall S, incl rng S -> Forall finite_pt S -> exact_on hi_cmp S ->
        (ring_area rng' + rings_area plyg' = ring_area rng + rings_area plyg)%R)
  end.

Lemma rotated_perm {A} k (l : list A) : Permutation l (rotated k l).
Proof. unfold rotated. rewrite <- (firstn_skipn k l) at 1. apply Permutation_app_comm. Qed.
Lemma rotated_area k l : ring_area (rotated k l) = ring_area l.
Proof. unfold ring_area, rotated. rewrite map_app, area_rot, <- map_app. now rewrite firstn_skipn. Qed.
Lemma rotated_leftmost l : l <> [] -> leftmost_first (rotated (find_min_idx l) l).
Proof.
  intros N. destruct (nth_error l (find_min_idx l)) as [p|] eqn:E.
  - exists p, (skipn (S (find_min_idx l)) l ++ firstn (find_min_idx l) l). unfold rotated. rewrite (skipn_nth _ _ _ E). split; [reflexivity|].
    intros F q Hq. rewrite <- (skipn_nth _ _ _ E) in F, Hq. change (Forall number (rotated (find_min_idx l) l)) in F. change (In q (rotated (find_min_idx l) l)) in Hq.
    rewrite <- rotated_perm in F, Hq. destruct (find_min_spec l N F) as (m & Em & M & _). rewrite E in Em. injection Em as <-. now apply M.
  - apply nth_error_None in E. pose proof (find_min_lt l N). lia.
Qed.

Lemma rings_app a b : rings_area (a ++ b) = (rings_area a + rings_area b)%R.
Proof.
  induction a as [|x a IH]; [symmetry; apply Rplus_0_l|].
  change (rings_area ((x :: a) ++ b)) with (ring_area x + rings_area (a ++ b))%R. change (rings_area (x :: a)) with (ring_area x + rings_area a)%R. rewrite IH. ring.
Qed.

(** The sliver [s] is appended if it has three points. *)
Lemma append_sliver s plyg : exists plyg', (if 3 <=? length s then do s' <- rotate_leftmost s; Ok (plyg ++ [s']) else Ok plyg) = @Ok unit _ plyg' /\
  (exists dr, Permutation (s ++ concat plyg) (concat plyg' ++ dr)) /\
  (exists ex, plyg' = plyg ++ ex /\ Forall (fun s => 3 <= length s /\ leftmost_first s) ex) /\
  rings_area plyg' = (ring_area s + rings_area plyg)%R.
Proof.
  destruct (Nat.leb_spec 3 (length s)) as [L|L].
  - rewrite rotate_leftmost_ok. cbn [bind]. exists (plyg ++ [rotated (find_min_idx s) s]). split; [reflexivity|]. split; [|split].
    + exists []. rewrite app_nil_r, concat_app. cbn [concat]. rewrite app_nil_r, Permutation_app_comm. apply Permutation_app_head, rotated_perm.
    + exists [rotated (find_min_idx s) s]. split; [reflexivity|]. constructor; [|constructor]. split.
      * now rewrite <- (Permutation_length (rotated_perm _ s)).
      * apply rotated_leftmost. intros ->. cbn in L. lia.
    + rewrite rings_app. change (rings_area [rotated (find_min_idx s) s]) with (ring_area (rotated (find_min_idx s) s) + 0)%R. rewrite rotated_area. ring.
  - exists plyg. split; [reflexivity|]. split; [|split].
    + exists s. apply Permutation_app_comm.
    + exists []. rewrite app_nil_r. split; [reflexivity|constructor].
    + unfold ring_area. rewrite area_short by (rewrite map_length; lia). ring.
Qed.

(** One round: the ring [rng] becomes [rng1] and the sliver [s]. *)
Definition round (rng : list pt) (rng1 s : list pt) : Prop :=
  (exists dr, Permutation rng (rng1 ++ s ++ dr)) /\
  (forall S, incl rng S -> Forall finite_pt S -> exact_on hi_cmp S -> ring_area rng = (ring_area rng1 + ring_area s)%R).

Lemma shape_refl rng plyg : shape rng plyg (WRing rng plyg).
Proof.
  cbn. split; [|split].
  - exists []. rewrite app_nil_r. apply Permutation_refl.
  - exists []. rewrite app_nil_r. split; [reflexivity|constructor].
  - reflexivity.
Qed.

Lemma shape_round rng plyg rng1 s plyg1 w : round rng rng1 s ->
  (exists dr, Permutation (s ++ concat plyg) (concat plyg1 ++ dr)) ->
  (exists ex, plyg1 = plyg ++ ex /\ Forall (fun s => 3 <= length s /\ leftmost_first s) ex) ->
  rings_area plyg1 = (ring_area s + rings_area plyg)%R ->
  shape rng1 plyg1 w -> shape rng plyg w.
Proof.
  intros [[d1 P1] A1] [d2 P2] (ex & -> & F) A2 Sh. destruct w as [|rng' plyg']; [exact I|]. cbn in *.
  destruct Sh as ([d3 P3] & (ex' & -> & F') & A3). split; [|split].
  - exists (d3 ++ d2 ++ d1). rewrite P1.
    transitivity ((rng1 ++ (s ++ concat plyg)) ++ d1).
    { rewrite <- !app_assoc. apply Permutation_app_head, Permutation_app_head, Permutation_app_comm. }
    rewrite P2, (app_assoc rng1), P3, <- !app_assoc. apply Permutation_refl.
  - exists (ex ++ ex'). rewrite app_assoc. split; [reflexivity|]. apply Forall_app. auto.
  - intros S I F0 E. rewrite A3 with S; [|intros x Hx; apply I; rewrite P1; apply in_or_app; now left|exact F0|exact E].
    rewrite (A1 S I F0 E), A2. ring.
Qed.

Lemma ring_eq_rpt l1 b b' l2 : rpt b = rpt b' -> ring_area (l1 ++ b :: l2) = ring_area (l1 ++ b' :: l2).
Proof. intros E. unfold ring_area. rewrite !map_app. cbn [map]. now rewrite E. Qed.

Lemma eq_in_rpt S b b' : Forall finite_pt S -> In b S -> In b' S -> go_eq b b' = true -> rpt b = rpt b'.
Proof. intros F I I'. rewrite Forall_forall in F. apply go_eq_R; auto. Qed.

(** ab...bc, b kept. *)
Lemma round_keep l1 b mid b' l2 s : go_eq b b' = true ->
  (exists dr, Permutation (b :: mid) (s ++ dr)) -> (Forall finite_pt (b :: mid) -> ring_area s = ring_area (b :: mid)) ->
  round (l1 ++ b :: mid ++ b' :: l2) (l1 ++ b' :: l2) s.
Proof.
  intros G [dr P] A. split.
  - exists dr. rewrite <- P. change (b :: mid ++ b' :: l2) with ((b :: mid) ++ b' :: l2). rewrite <- app_assoc.
    apply Permutation_app_head, Permutation_app_comm.
  - intros S I F E. rewrite A.
    + assert (Eb : rpt b = rpt b').
      { apply eq_in_rpt with S; [exact F| | |exact G]; apply I; rewrite !in_app_iff; right; [now left|right; apply in_app_iff; right; now left]. }
      unfold ring_area. rewrite !map_app. cbn [map]. rewrite !map_app. cbn [map]. rewrite Eb, area_split. ring.
    + rewrite Forall_forall in *. intros x Hx. apply F, I. apply in_app_iff. right. change (In x ((b :: mid) ++ b' :: l2)). apply in_app_iff. now left.
Qed.

(** the point [b'] between its neighbours [a] and [c] is dropped *)
Lemma area_drop l1 b' l2 a c S : incl (l1 ++ b' :: l2) S -> exact_on hi_cmp S ->
  (l2 ++ l1 <> [] -> a = last (l2 ++ l1) a /\ c = hd c (l2 ++ l1)) ->
  is_point_on_line hi_cmp b' a c = true -> ring_area (l1 ++ b' :: l2) = ring_area (l1 ++ l2).
Proof.
  intros I [_ X] N H. unfold ring_area. rewrite !map_app. cbn [map]. rewrite (area_rot _ (_ :: _)), (area_rot _ (map rpt l2)). cbn [app].
  rewrite <- map_app. 
  assert (I2 : incl (b' :: (l2 ++ l1)) S).
  { intros x Hx. apply I. cbn in Hx. rewrite in_app_iff in *. cbn. tauto. }
  clear I. destruct (l2 ++ l1) as [|c0 w] eqn:Ew; [cbn [map]; now rewrite area_1|].
  destruct (N ltac:(discriminate)) as [Na Nc]. cbn [hd] in Nc. subst c0.
  destruct w as [|a0 w] using rev_ind; [cbn [map]; now rewrite area_1, area_2|]. clear IHw.
  change (c :: w ++ [a0]) with ((c :: w) ++ [a0]) in *. rewrite last_last in Na. subst a0.
  rewrite !map_app. cbn [map app].
  change (rpt b' :: rpt c :: map rpt w ++ [rpt a]) with ((rpt b' :: rpt c :: map rpt w) ++ [rpt a]).
  change (rpt c :: map rpt w ++ [rpt a]) with ((rpt c :: map rpt w) ++ [rpt a]).
  rewrite (area_rot (rpt b' :: rpt c :: map rpt w)), (area_rot (rpt c :: map rpt w)). cbn [app].
  pose proof (area_remove [] (rpt a) (rpt b') (rpt c) (map rpt w)) as R. cbn [app] in R. rewrite R.
  rewrite (X b' a c); [ring| | | |exact H]; apply I2.
  - now left.
  - right. apply in_app_iff. right. now left.
  - right. now left.
Qed.

(** ab...bc, b dropped. *)
Lemma round_drop l1 b mid b' l2 s a c : go_eq b b' = true ->
  (exists dr, Permutation (b :: mid) (s ++ dr)) -> (Forall finite_pt (b :: mid) -> ring_area s = ring_area (b :: mid)) ->
  (l2 ++ l1 <> [] -> a = last (l2 ++ l1) a /\ c = hd c (l2 ++ l1)) ->
  is_point_on_line hi_cmp b' a c = true ->
  round (l1 ++ b :: mid ++ b' :: l2) (l1 ++ l2) s.
Proof.
  intros G P A N H. destruct (round_keep l1 b mid b' l2 s G P A) as [[dr P1] A1]. split.
  - exists (dr ++ [b']). rewrite P1. rewrite <- !app_assoc. apply Permutation_app_head. cbn [app].
    rewrite (Permutation_cons_append (l2 ++ s ++ dr) b'), <- !app_assoc. apply Permutation_refl.
  - intros S I F E. rewrite (A1 S I F E). rewrite (area_drop l1 b' l2 a c S); [reflexivity| |exact E|exact N|exact H].
    intros x Hx. apply I. rewrite P1. apply in_or_app. now left.
Qed.

(** ab...ba *)
Lemma round_bubble a b mid b' c l : go_eq b b' = true -> point_equal hi_cmp a c = true ->
  forall rng, Permutation (a :: b :: mid ++ b' :: c :: l) rng -> ring_area rng = ring_area (a :: b :: mid ++ b' :: c :: l) ->
  forall rng1, Permutation (c :: l) rng1 -> ring_area rng1 = ring_area (c :: l) ->
  round rng rng1 (mid ++ [b']).
Proof.
  intros G H rng P A rng1 P1 A1. split.
  - exists [a; b]. rewrite <- P, <- P1. 
    change (a :: b :: mid ++ b' :: c :: l) with ([a; b] ++ mid ++ [b'] ++ (c :: l)).
    rewrite (Permutation_app_comm [a; b]), (app_assoc mid), (app_assoc (c :: l)). apply Permutation_app_tail, Permutation_app_comm.
  - intros S I F [X _]. rewrite A, A1.
    assert (Ia : incl (a :: b :: mid ++ b' :: c :: l) S) by (intros x Hx; apply I; now rewrite <- P).
    assert (Ea : rpt a = rpt c). 
    { apply X; [| |exact H]; apply Ia; [now left|]. right. right. apply in_app_iff. right. right. now left. }
    assert (Eb : rpt b = rpt b').
    { apply eq_in_rpt with S; [exact F| | |exact G]; apply Ia; [right; now left|]. right. right. apply in_app_iff. right. now left. }
    unfold ring_area. cbn [map]. rewrite !map_app. cbn [map]. rewrite Ea, Eb, area_bubble. ring.
Qed.
