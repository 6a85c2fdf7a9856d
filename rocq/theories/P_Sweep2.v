(** * The order of the events *)
From Coq Require Import ZArith Bool List Lia Permutation.
From Verif Require Import Base_Res Base_F64 Base_Geom M_Geom M_Cmp M_Intersect M_Sweep S_Cmp S_Intersect S_Sweep
  P_F64 P_Cmp2 P_Sweep.
Import ListNotations.
Local Open Scope nat_scope.

Definition tag (e : event) : nat * event_type := (ev_edge e, ev_type e).
Definition kx (e : event) : Z := f64_key (fst (ev_pt e)).
Definition ky (e : event) : Z := f64_key (snd (ev_pt e)).
Definition kt (e : event) : Z := match ev_type e with LEFT => 0 | RIGHT => 1 end%Z.
Definition ev_number (e : event) : Prop := number (ev_pt e).

Lemma less_key a b : ev_number a -> ev_number b ->
  event_less a b = true <-> (kx a < kx b \/ kx a = kx b /\ (kt a < kt b \/ kt a = kt b /\ ky a < ky b))%Z.
Proof.
  intros [A1 A2] [B1 B2]. unfold event_less, f64_ne, kx, ky, kt. rewrite eq_key, !lt_key by assumption.
  destruct (f64_key (fst (ev_pt a)) =? f64_key (fst (ev_pt b)))%Z eqn:Q; cbn [negb].
  - apply Z.eqb_eq in Q. destruct (ev_type a), (ev_type b); cbn [type_eqb negb]; lia.
  - apply Z.eqb_neq in Q. lia.
Qed.

(** ** The two events of a segment *)
Lemma events_shape i (l : line) : number (fst l) -> number (snd l) ->
  exists p q, Permutation (events_of i l) [Event i LEFT p; Event i RIGHT q] /\
    In p (ends l) /\ In q (ends l) /\ (f64_key (fst p) <= f64_key (fst q))%Z /\
    (forall x, between (fst (fst l)) (fst (snd l)) x <-> f64_isnan x = false /\ (f64_key (fst p) <= f64_key x <= f64_key (fst q))%Z).
Proof.
  destruct l as [p1 p2]. cbn [fst snd]. intros [N1 M1] [N2 M2]. unfold events_of.
  assert (Bt : forall x, between (fst p1) (fst p2) x <-> f64_isnan x = false /\
     ((f64_key (fst p1) <= f64_key x <= f64_key (fst p2))%Z \/ (f64_key (fst p2) <= f64_key x <= f64_key (fst p1))%Z)).
  { intros x. unfold between. split.
    - intros [[A B]|[A B]]; apply le_inv in A as (? & ? & ?), B as (? & ? & ?); split; auto; lia.
    - intros [Nx H]. rewrite !le_key by assumption. lia. }
  destruct (f64_lt (fst p1) (fst p2) || _) eqn:K.
  - exists p1, p2. split; [reflexivity|]. unfold ends. cbn [fst snd In]. split; [auto|]. split; [auto|].
    assert (L : (f64_key (fst p1) <= f64_key (fst p2))%Z).
    { apply orb_true_iff in K as [K|K]; [apply lt_inv in K; lia|]. apply andb_true_iff in K as [K _]. apply eq_inv in K. lia. }
    split; [exact L|]. intros x. rewrite Bt. intuition lia.
  - exists p2, p1. split; [apply perm_swap|]. unfold ends. cbn [fst snd In]. split; [auto|]. split; [auto|].
    assert (L : (f64_key (fst p2) <= f64_key (fst p1))%Z).
    { apply orb_false_iff in K as [K _]. rewrite lt_key in K by assumption. lia. }
    split; [exact L|]. intros x. rewrite Bt. intuition lia.
Qed.

Lemma all_events_in segs : forall k e, In e (all_events k segs) <->
  exists i l, nth_error segs i = Some l /\ In e (events_of (k + i) l).
Proof.
  induction segs as [|l segs IH]; intros k e; cbn [all_events].
  { split; [intros []|]. intros (i & l & H & _). destruct i; discriminate. }
  rewrite in_app_iff, IH. split.
  - intros [H|(i & l' & H & K)]; [exists 0, l; rewrite Nat.add_0_r; auto|]. exists (S i), l'. rewrite Nat.add_succ_r. auto.
  - intros ([|i] & l' & H & K); cbn in H; [injection H as <-; rewrite Nat.add_0_r in K; auto|].
    right. exists i, l'. rewrite Nat.add_succ_r in K. auto.
Qed.
Lemma events_edge i l e : In e (events_of i l) -> ev_edge e = i.
Proof. destruct l as [p1 p2]. unfold events_of. destruct (_ || _); intros [<-|[<-|[]]]; reflexivity. Qed.
Lemma events_tags i l : Permutation (map tag (events_of i l)) [(i, LEFT); (i, RIGHT)].
Proof. destruct l as [p1 p2]. unfold events_of. destruct (_ || _); cbn [map tag ev_edge ev_type]; [reflexivity|apply perm_swap]. Qed.
Lemma all_tags segs : forall k, NoDup (map tag (all_events k segs)).
Proof.
  induction segs as [|l segs IH]; intros k; cbn [all_events map]; [constructor|]. rewrite map_app.
  apply (Permutation_NoDup (l := [(k, LEFT); (k, RIGHT)] ++ map tag (all_events (S k) segs))).
  { apply Permutation_app_tail. apply Permutation_sym, events_tags. }
  assert (N : forall t, ~ In (k, t) (map tag (all_events (S k) segs))).
  { intros t H. apply in_map_iff in H as (e & E & H). apply all_events_in in H as (i & l' & _ & H). apply events_edge in H.
    unfold tag in E. injection E as E _. lia. }
  constructor; [|constructor; [|apply IH]]; [intros [H|H]; [discriminate|now apply (N LEFT)]|apply N].
Qed.

Lemma NoDup_map_nth {A B} (f : A -> B) l p q x y : NoDup (map f l) -> nth_error l p = Some x -> nth_error l q = Some y -> f x = f y -> p = q.
Proof.
  intros N P Q E. rewrite NoDup_nth_error in N. apply N.
  - rewrite map_length. apply nth_error_Some. congruence.
  - rewrite !nth_error_map, P, Q. cbn. now rewrite E.
Qed.

(** ** The pairs examined, by positions *)
Lemma examined_pos evs i j pl pr pr' : NoDup (map tag evs) -> i <> j ->
  (exists e, nth_error evs pl = Some e /\ is_event j LEFT e) ->
  (exists e, nth_error evs pr = Some e /\ is_event i RIGHT e) ->
  (exists e, nth_error evs pr' = Some e /\ is_event j RIGHT e) ->
  pl < pr' ->
  In (i, j) (examined evs []) <-> pl < pr < pr'.
Proof.
  intros N Ne (el & Pl & Tl1 & Tl2) (er & Pr & Tr1 & Tr2) (er' & Pr' & Tr1' & Tr2') L. rewrite examined_in. split.
  - intros (a & b & e & -> & Hi & Ht & _ & H).
    assert (Ea : pr = length a).
    { eapply NoDup_map_nth; [exact N|exact Pr| |unfold tag; rewrite Tr1, Tr2, <- Hi, <- Ht; reflexivity].
      rewrite nth_error_app2, Nat.sub_diag by lia. reflexivity. }
    apply active_in in H as [(a1 & b1 & e1 & -> & [T1 T2] & F)|[[] _]].
    assert (El : pl = length a1).
    { eapply NoDup_map_nth; [exact N|exact Pl| |unfold tag; rewrite Tl1, Tl2, <- T1, <- T2; reflexivity].
      rewrite <- app_assoc. rewrite nth_error_app2, Nat.sub_diag by lia. reflexivity. }
    rewrite app_length in Ea. cbn [length] in Ea. split; [lia|].
    destruct (Nat.lt_ge_cases pr pr') as [K|K]; [exact K|exfalso].
    destruct (Nat.eq_dec pr pr') as [->|Nq]; [congruence|].
    rewrite <- app_assoc in Pr'. cbn [app] in Pr'. rewrite nth_error_app2 in Pr' by lia.
    destruct (pr' - length a1) as [|d] eqn:D; [lia|]. cbn [nth_error] in Pr'. rewrite nth_error_app1 in Pr' by lia.
    apply nth_error_In in Pr'. apply (F er' Pr'). split; assumption.
  - intros [L1 L2]. destruct (nth_error_split evs pr Pr) as (a & b & -> & La). exists a, b, er.
    split; [reflexivity|]. split; [exact Tr1|]. split; [exact Tr2|]. split; [auto|]. apply active_in. left.
    rewrite nth_error_app1 in Pl by lia. destruct (nth_error_split a pl Pl) as (a1 & b1 & -> & L1').
    exists a1, b1, el. split; [reflexivity|]. split; [split; assumption|]. intros e' He' [K1 K2].
    apply In_nth_error in He' as [d Hd].
    assert (Hp : nth_error ((a1 ++ el :: b1) ++ er :: b) (length a1 + S d) = Some e').
    { rewrite <- app_assoc. rewrite nth_error_app2 by lia. replace (length a1 + S d - length a1) with (S d) by lia. cbn [app nth_error].
      rewrite nth_error_app1; [exact Hd|]. apply nth_error_Some. congruence. }
    assert (pr' = length a1 + S d) by (eapply NoDup_map_nth; [exact N|exact Pr'|exact Hp|unfold tag; congruence]).
    assert (d < length b1) by (apply nth_error_Some; congruence). rewrite app_length in La. cbn [length] in La. lia.
Qed.

Lemma pairs_nodup (i : nat) (m : list nat) : NoDup m -> NoDup (map (pair i) m).
Proof. intros H. apply FinFun.Injective_map_NoDup; [|exact H]. intros x y E. now injection E. Qed.
Lemma examined_nodup evs : forall m, NoDup (map tag evs) -> ascending m -> NoDup (examined evs m).
Proof.
  induction evs as [|e evs IH]; intros m N A; cbn [examined]; [constructor|]. cbn [map] in N. inversion_clear N as [|? ? N1 N2].
  destruct (ev_type e) eqn:T; [apply IH; [exact N2|now apply add_key_asc]|].
  pose proof (delete_key_asc (ev_edge e) m A) as A'. pose proof (IH _ N2 A') as I.
  assert (G : forall l1 l2 : list (nat * nat), NoDup l1 -> NoDup l2 -> (forall x, In x l1 -> ~ In x l2) -> NoDup (l1 ++ l2)).
  { clear. induction l1 as [|x l1 IH]; intros l2 H1 H2 D; cbn [app]; [exact H2|]. inversion_clear H1. constructor.
    - rewrite in_app_iff. intros [K|K]; [auto|]. apply (D x); [now left|exact K].
    - apply IH; auto. intros y Hy. apply D. now right. }
  apply G; [now apply pairs_nodup, asc_nodup|exact I|].
  intros [i j] H K. apply in_map_iff in H as (j' & E & _). injection E as E _. apply examined_in in K as (a & b & f & -> & F1 & F2 & _).
  apply N1. rewrite map_app. apply in_app_iff. right. left. unfold tag. congruence.
Qed.

(** ** Sorted *)
Section Queue.
  Variable sort : (event -> event -> bool) -> list event -> list event.
  Hypothesis Hsort : sorts sort.
  Variable segs : list line.
  Hypothesis Num : number_segments segs.
  Definition queue : list event := new_event_queue sort segs.

  Lemma queue_perm : Permutation (all_events 0 segs) queue.
  Proof. apply Hsort. Qed.
  Lemma event_number e : In e (all_events 0 segs) -> ev_number e.
  Proof.
    intros H. apply all_events_in in H as (i & [p1 p2] & H & K). apply nth_error_In in H.
    destruct (Num _ p1 H) as [_ N1]; [now left|]. destruct (Num _ p2 H) as [_ N2]; [right; now left|].
    unfold events_of in K. destruct (_ || _); destruct K as [<-|[<-|[]]]; assumption.
  Qed.
  Lemma queue_number e : In e queue -> ev_number e.
  Proof. intros H. apply event_number. apply (Permutation_in _ (Permutation_sym queue_perm) H). Qed.
  Lemma queue_tags : NoDup (map tag queue).
  Proof. apply (Permutation_NoDup (Permutation_map tag queue_perm)). apply all_tags. Qed.
  Lemma queue_order : in_order (fun a b => event_less a b = true) queue.
  Proof.
    apply Hsort.
    - intros a Ha. apply event_number in Ha. apply not_true_iff_false. rewrite less_key by assumption. lia.
    - intros a b d Ha Hb Hd. apply event_number in Ha, Hb, Hd. rewrite !less_key by assumption. lia.
    - intros a b d Ha Hb Hd. apply event_number in Ha, Hb, Hd. rewrite <- !not_true_iff_false, !less_key by assumption. lia.
  Qed.
  Lemma less_pos p q e f : nth_error queue p = Some e -> nth_error queue q = Some f -> event_less e f = true -> p < q.
  Proof.
    intros P Q L. destruct (Nat.lt_trichotomy p q) as [K|[K|K]]; [exact K| |].
    - subst q. assert (e = f) by congruence. subst f. pose proof (queue_number e (nth_error_In _ _ P)) as N.
      apply less_key in L; try assumption. lia.
    - exfalso. exact (queue_order q p f e K Q P L).
  Qed.

  (** Positions and bounds of segment [i]. *)
  Lemma segment_events i l : nth_error segs i = Some l ->
    exists pl pr el er, nth_error queue pl = Some el /\ is_event i LEFT el /\ nth_error queue pr = Some er /\ is_event i RIGHT er /\
      ev_number el /\ ev_number er /\ (kx el <= kx er)%Z /\
      (forall x, between (fst (fst l)) (fst (snd l)) x <-> f64_isnan x = false /\ (kx el <= f64_key x <= kx er)%Z).
  Proof.
    intros H. pose proof (nth_error_In _ _ H) as Hin.
    destruct (Num l (fst l) Hin) as [_ N1]; [now left|]. destruct (Num l (snd l) Hin) as [_ N2]; [right; now left|].
    destruct (events_shape i l N1 N2) as (p & q & P & _ & _ & L & B).
    assert (M : forall e, In e (events_of i l) -> In e queue).
    { intros e He. apply (Permutation_in _ queue_perm). apply all_events_in. exists i, l. auto. }
    assert (I1 : In (Event i LEFT p) queue) by (apply M; apply (Permutation_in _ (Permutation_sym P)); now left).
    assert (I2 : In (Event i RIGHT q) queue) by (apply M; apply (Permutation_in _ (Permutation_sym P)); right; now left).
    pose proof (queue_number _ I1) as Q1. pose proof (queue_number _ I2) as Q2.
    apply In_nth_error in I1 as [pl I1]. apply In_nth_error in I2 as [pr I2].
    exists pl, pr, (Event i LEFT p), (Event i RIGHT q). unfold is_event. cbn [ev_edge ev_type]. auto 12.
  Qed.

  Lemma examined_edges i j : In (i, j) (examined queue []) -> i < length segs /\ j < length segs /\ i <> j.
  Proof.
    intros H. apply examined_in in H as (a & b & e & E & Hi & Ht & Nj & H).
    assert (K : forall e', In e' queue -> ev_edge e' < length segs).
    { intros e' He. apply (Permutation_in _ (Permutation_sym queue_perm)) in He. apply all_events_in in He as (k & l & Hk & He).
      apply events_edge in He. assert (k < length segs) by (apply nth_error_Some; congruence). lia. }
    split; [subst i; apply K; rewrite E; apply in_app_iff; right; now left|]. split; [|auto].
    apply active_in in H as [(a1 & b1 & e1 & -> & [T1 T2] & _)|[[] _]]. subst j. apply K. rewrite E, <- app_assoc. apply in_app_iff. right. now left.
  Qed.

  Theorem examined_once i j a b : i <> j -> nth_error segs i = Some a -> nth_error segs j = Some b ->
    ~ (In (i, j) (examined queue []) /\ In (j, i) (examined queue [])) /\
    ((In (i, j) (examined queue []) \/ In (j, i) (examined queue [])) <-> overlap_x a b).
  Proof.
    intros Ne Ha Hb.
    destruct (segment_events i a Ha) as (pl & pr & el & er & P1 & T1 & P2 & T2 & N1 & N2 & L & B).
    destruct (segment_events j b Hb) as (pl' & pr' & el' & er' & P1' & T1' & P2' & T2' & N1' & N2' & L' & B').
    assert (LR : pl < pr).
    { apply (less_pos pl pr el er P1 P2). apply less_key; try assumption. unfold kt. rewrite (proj2 T1), (proj2 T2). lia. }
    assert (LR' : pl' < pr').
    { apply (less_pos pl' pr' el' er' P1' P2'). apply less_key; try assumption. unfold kt. rewrite (proj2 T1'), (proj2 T2'). lia. }
    assert (X1 : In (i, j) (examined queue []) <-> pl' < pr < pr').
    { apply examined_pos; eauto. apply queue_tags. }
    assert (X2 : In (j, i) (examined queue []) <-> pl < pr' < pr).
    { apply examined_pos; eauto. apply queue_tags. }
    rewrite X1, X2. split; [lia|].
    assert (Ov : overlap_x a b <-> (kx el <= kx er' /\ kx el' <= kx er)%Z).
    { unfold overlap_x. split.
      - intros (x & H1 & H2). apply B in H1. apply B' in H2. lia.
      - intros [K1 K2]. destruct (Z.le_ge_cases (kx el) (kx el')) as [K|K].
        + exists (fst (ev_pt el')). rewrite B, B'. unfold kx in *. destruct N1' as [? _]. split; (split; [assumption|]); lia.
        + exists (fst (ev_pt el)). rewrite B, B'. unfold kx in *. destruct N1 as [? _]. split; (split; [assumption|]); lia. }
    rewrite Ov.
    assert (Q1 : (kx el' <= kx er)%Z <-> pl' < pr).
    { split; intros K.
      - apply (less_pos pl' pr el' er P1' P2). apply less_key; try assumption. unfold kt. rewrite (proj2 T1'), (proj2 T2). lia.
      - destruct (Z.le_gt_cases (kx el') (kx er)) as [G|G]; [exact G|exfalso].
        assert (pr < pl') by (apply (less_pos pr pl' er el' P2 P1'); apply less_key; try assumption; lia). lia. }
    assert (Q2 : (kx el <= kx er')%Z <-> pl < pr').
    { split; intros K.
      - apply (less_pos pl pr' el er' P1 P2'). apply less_key; try assumption. unfold kt. rewrite (proj2 T1), (proj2 T2'). lia.
      - destruct (Z.le_gt_cases (kx el) (kx er')) as [G|G]; [exact G|exfalso].
        assert (pr' < pl) by (apply (less_pos pr' pl er' el P2' P1); apply less_key; try assumption; lia). lia. }
    rewrite Q1, Q2.
    assert (pr <> pr').
    { intros ->. assert (er = er') by congruence. subst er'. destruct T2, T2'. congruence. }
    lia.
  Qed.
End Queue.
