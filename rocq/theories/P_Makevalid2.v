(** Proofs about planar/makevalid: where segments meet, both are cut *)
From Coq Require Import ZArith Bool List Lia Reals Lra Permutation.
From Flocq Require Import Core.Core.
From Verif Require Import Base_Res Base_F64 Base_F64Arith Base_Geom M_Geom M_Extent M_Cmp M_Intersect M_Sweep M_Walker M_Makevalid
  S_Cmp S_Intersect S_Sweep P_F64 P_F64Flocq P_F64Round P_F64Grid P_Cmp P_Cmp2 P_Cmp3 P_Intersect P_Intersect3 P_Intersect4 P_Sweep2 P_Sweep3 P_SlippyR P_Ring P_Ring2 P_Walker4 S_Ring S_Makevalid P_Makevalid.
Import ListNotations.
Local Open Scope R_scope.

Definition small_seg (l : line) : Prop := small_pt (fst l) /\ small_pt (snd l).

Lemma small_same p q : small_pt p -> small_pt q -> same_place p q <-> rpt p = rpt q.
Proof.
  intros A B. apply small_words in A as (? & ? & ? & ?), B as (? & ? & ? & ?). unfold same_place, rpt. rewrite !eq_R by assumption.
  split; [intros [-> ->]; reflexivity|]. intros E. injection E. auto.
Qed.
Lemma positive_same c p q : positive c -> small_pt p -> small_pt q -> rpt p = rpt q -> point_equal c p q = true.
Proof.
  intros Pc A B E. pose proof (small_words _ A) as (? & ? & ? & ?). pose proof (small_words _ B) as (? & ? & ? & ?).
  apply point_equal_same; auto. now apply small_same.
Qed.
Lemma default_apart : tells_apart default_compare.
Proof.
  intros p q A B. split; [|exact (positive_same _ p q default_positive A B)].
  unfold point_equal. intros E. apply andb_true_iff in E as [E1 E2]. destruct A as [A1 A2], B as [B1 B2].
  destruct (small_val _ A1) as (_ & _ & n1 & R1 & K1 & V1), (small_val _ A2) as (_ & _ & n2 & R2 & K2 & V2), (small_val _ B1) as (_ & _ & n3 & R3 & K3 & V3), (small_val _ B2) as (_ & _ & n4 & R4 & K4 & V4).
  unfold rpt. rewrite V1, V2, V3, V4. apply (cmp_int n1 n3) in E1; try assumption; try lia. apply (cmp_int n2 n4) in E2; try assumption; try lia. now subst.
Qed.
Lemma hi_positive : positive hi_cmp.
Proof. split; [reflexivity|]. vm_compute. split; [reflexivity|discriminate || reflexivity]. Qed.
Lemma hi_apart : tells_apart hi_cmp.
Proof.
  intros p q A B. split; [|exact (positive_same _ p q hi_positive A B)].
  unfold point_equal. intros E. apply andb_true_iff in E as [E1 E2]. destruct A as [A1 A2], B as [B1 B2].
  destruct (small_val _ A1) as (_ & _ & n1 & R1 & K1 & V1), (small_val _ A2) as (_ & _ & n2 & R2 & K2 & V2), (small_val _ B1) as (_ & _ & n3 & R3 & K3 & V3), (small_val _ B2) as (_ & _ & n4 & R4 & K4 & V4).
  unfold rpt. rewrite V1, V2, V3, V4. apply (hi_int n1 n3) in E1; try assumption; try lia. apply (hi_int n2 n4) in E2; try assumption; try lia. now subst.
Qed.

Lemma small_segs_grid a b : small_seg a -> small_seg b -> small_grid a b.
Proof.
  intros [[A1 A2] [A3 A4]] [[B1 B2] [B3 B4]].
  destruct (small_val _ A1) as (_ & _ & n1 & R1 & K1 & _), (small_val _ A2) as (_ & _ & n2 & R2 & K2 & _), (small_val _ A3) as (_ & _ & n3 & R3 & K3 & _), (small_val _ A4) as (_ & _ & n4 & R4 & K4 & _).
  destruct (small_val _ B1) as (_ & _ & m1 & S1 & L1 & _), (small_val _ B2) as (_ & _ & m2 & S2 & L2 & _), (small_val _ B3) as (_ & _ & m3 & S3 & L3 & _), (small_val _ B4) as (_ & _ & m4 & S4 & L4 & _).
  exists 0%Z, [(n1, n2); (n3, n4); (m1, m2); (m3, m4)]. split; [lia|]. split.
  - repeat (constructor; [split; assumption|]). constructor.
  - intros p [<-|[<-|[<-|[<-|[]]]]]; cbn [fst snd]; lia.
Qed.
Lemma on_bounds a q : small_seg a -> on_segment a q -> Rabs (fst q) <= 512 /\ Rabs (snd q) <= 512.
Proof.
  intros [[A1 A2] [A3 A4]] (t & T & ->). unfold along, rpt. cbn [fst snd].
  assert (G : forall u v, small_int u -> small_int v -> Rabs (f64_R u + t * (f64_R v - f64_R u)) <= 512).
  { intros u v U V. destruct (small_val _ U) as (_ & _ & n & _ & Bn & ->), (small_val _ V) as (_ & _ & m & _ & Bm & ->).
    assert (-512 <= IZR n <= 512) by (split; apply IZR_le; lia). assert (-512 <= IZR m <= 512) by (split; apply IZR_le; lia).
    apply Rabs_le. split; nra. }
  auto.
Qed.
Lemma on_line_of l q : on_segment l q -> on_line l q.
Proof. intros (t & _ & E). now exists t. Qed.

(** The point reported for two segments is their common point. *)
Lemma crossing_exact a b ls : In a ls -> In b ls -> meet_on_grid ls -> small_seg a -> small_seg b -> snd (segment_intersect a b) = true ->
  ~ parallel a b /\ small_pt (fst (segment_intersect a b)) /\ on_segment a (rpt (fst (segment_intersect a b))) /\ on_segment b (rpt (fst (segment_intersect a b))).
Proof.
  intros Ia Ib Mg Sa Sb H. pose proof (small_segs_grid a b Sa Sb) as G.
  assert (Np : ~ parallel a b) by (apply (proj1 (segment_exact a b (small_near _ _ G))), H).
  destruct (segment_intersect a b) as [p v] eqn:E. cbn [fst snd] in *. subst v.
  destruct (segment_point a b p G E) as ((q & Qa & Qb & F1 & F2 & V1 & V2) & _).
  destruct (Mg a b q Ia Ib Np Qa Qb) as (n & m & ->). cbn [fst snd] in V1, V2.
  destruct (on_bounds a _ Sa Qa) as [B1 B2]. cbn [fst snd] in B1, B2. rewrite <- abs_IZR in B1, B2. apply le_IZR in B1, B2.
  rewrite rnd_int in V1, V2 by (unfold two53; lia).
  assert (W : f64_wf (fst p) = true /\ f64_wf (snd p) = true).
  { assert (p = crossing a b) as ->; [|apply crossing_wf]. apply line_res.
    pose proof (segment_line a b) as L. rewrite E in L. exact (L eq_refl). }
  assert (Ep : rpt p = (IZR n, IZR m)) by (unfold rpt; now rewrite V1, V2). rewrite Ep.
  split; [exact Np|]. split; [|auto]. split.
  - exists n. split; [|exact B1]. split; [apply W|]. split; [exact F1|]. rewrite V1. cbn [bpow]. ring.
  - exists m. split; [|exact B2]. split; [apply W|]. split; [exact F2|]. rewrite V2. cbn [bpow]. ring.
Qed.

Lemma break_in i calls p : In p (break_points i calls) <-> exists j, In (i, j, p) calls \/ In (j, i, p) calls.
Proof.
  induction calls as [|[[s d] x] tl IH]; cbn [break_points].
  - split; [intros []|intros (j & [[]|[]])].
  - rewrite !in_app_iff, IH. destruct (Nat.eqb_spec s i) as [->|N], (Nat.eqb_spec d i) as [->|N2]; cbn [In]; split.
    + intros [[<-|[]]|[[<-|[]]|(j & [H|H])]]; [exists i; auto|exists i; auto|exists j; auto|exists j; auto].
    + intros (j & [[H|H]|[H|H]]); [injection H as <- <-; auto|right; right; exists j; auto|injection H as <- <-; auto|right; right; exists j; auto].
    + intros [[<-|[]]|[[]|(j & [H|H])]]; [exists d; auto|exists j; auto|exists j; auto].
    + intros (j & [[H|H]|[H|H]]); [injection H as <- <-; auto|right; right; exists j; auto|injection H as <- <- <-; congruence|right; right; exists j; auto].
    + intros [[]|[[<-|[]]|(j & [H|H])]]; [exists s; auto|exists j; auto|exists j; auto].
    + intros (j & [[H|H]|[H|H]]); [injection H as <- <- <-; congruence|right; right; exists j; auto|injection H as <- <-; auto|right; right; exists j; auto].
    + intros [[]|[[]|(j & [H|H])]]; exists j; auto.
    + intros (j & [[H|H]|[H|H]]); [injection H as <- <- <-; congruence|right; right; exists j; auto|injection H as <- <- <-; congruence|right; right; exists j; auto].
Qed.

Section Cut.
  Variable segs : list line.
  Hypothesis Sm : forall l, In l segs -> small_seg l.
  Hypothesis Mg : meet_on_grid segs.
  Variable calls : list call.
  Hypothesis Called : forall i j p, In (i, j, p) calls ->
       i <> j /\ exists a b, nth_error segs i = Some a /\ nth_error segs j = Some b /\ overlap_x a b /\
         reported default_compare true a b /\ p = fst (segment_intersect a b).
  Hypothesis Calls : forall i j a b, i <> j -> nth_error segs i = Some a -> nth_error segs j = Some b ->
       overlap_x a b -> reported default_compare true a b ->
       exists p, In (i, j, p) calls \/ In (j, i, p) calls.

  Definition points_of (i : nat) (s : line) : list pt := fst s :: snd s :: break_points i calls.

  Lemma points_small i s : nth_error segs i = Some s -> forall x, In x (points_of i s) -> small_pt x /\ on_segment s (rpt x).
  Proof.
    intros H x. assert (Is : In s segs) by (now apply nth_error_In in H). destruct (Sm s Is) as [S1 S2].
    intros [<-|[<-|B]].
    - split; [exact S1|]. exists 0. split; [lra|now rewrite along_0].
    - split; [exact S2|]. exists 1. split; [lra|now rewrite along_1].
    - apply break_in in B as (j & [B|B]); apply Called in B as (_ & a & b & Ha & Hb & _ & (R & _) & ->).
      + rewrite H in Ha. injection Ha as <-. assert (Ib : In b segs) by (now apply nth_error_In in Hb).
        destruct (crossing_exact s b segs Is Ib Mg (Sm _ Is) (Sm _ Ib) R) as (_ & Q & Q1 & _). auto.
      + rewrite H in Hb. injection Hb as <-. assert (Ia : In a segs) by (now apply nth_error_In in Ha).
        destruct (crossing_exact a s segs Ia Is Mg (Sm _ Ia) (Sm _ Is) R) as (_ & Q & _ & Q1). auto.
  Qed.

  Lemma small_finite l : small_seg l -> finite_line l.
  Proof. intros [A B]. apply small_words in A as (? & ? & ? & ?), B as (? & ? & ? & ?). split; intros p [<-|[<-|[]]]; auto. Qed.

  (** Where two segments meet both have one of their points. *)
  Lemma meeting i j a b q : nth_error segs i = Some a -> nth_error segs j = Some b -> ~ parallel a b -> on_segment a q -> on_segment b q ->
    (exists x, In x (points_of i a) /\ rpt x = q) /\ (exists y, In y (points_of j b) /\ rpt y = q).
  Proof.
    intros Ha Hb Np Qa Qb. assert (Ia : In a segs) by (now apply nth_error_In in Ha). assert (Ib : In b segs) by (now apply nth_error_In in Hb).
    assert (Ne : i <> j). { intros ->. rewrite Ha in Hb. injection Hb as <-. apply Np. unfold parallel. ring. }
    assert (Un : forall p, on_segment a p -> on_segment b p -> p = q) by (intros p Pa Pb; apply (line_unique a b); auto using on_line_of).
    assert (En : forall l p, In p (ends l) -> on_segment l (rpt p)).
    { intros l p [<-|[<-|[]]]; [exists 0|exists 1]; (split; [lra|]); [now rewrite along_0|now rewrite along_1]. }
    destruct (Sm a Ia) as [Sa1 Sa2], (Sm b Ib) as [Sb1 Sb2].
    destruct (Classical_Prop.classic (touch_ends default_compare a b)) as [(p & p' & Hp & Hp' & Q)|Nt].
    - assert (Sp : small_pt p) by (destruct Hp as [<-|[<-|[]]]; assumption). assert (Sp' : small_pt p') by (destruct Hp' as [<-|[<-|[]]]; assumption).
      apply default_apart in Q; [|assumption|assumption].
      assert (Eq : rpt p = q) by (apply Un; [now apply En|rewrite Q; now apply En]).
      split; [exists p|exists p']; (split; [|congruence]); unfold points_of; [destruct Hp as [<-|[<-|[]]]|destruct Hp' as [<-|[<-|[]]]]; cbn [In]; auto.
    - pose proof (small_segs_grid a b (Sm _ Ia) (Sm _ Ib)) as G.
      assert (R : snd (segment_intersect a b) = true) by (apply (proj1 (segment_exact a b (small_near _ _ G))); split; [exact Np|eauto]).
      destruct (Calls i j a b Ne Ha Hb) as (p & P).
      { apply (meet_overlap a b q); auto; apply small_finite; auto. }
      { split; [exact R|]. intros [_ T]. contradiction. }
      assert (Ep : rpt p = q).
      { destruct P as [P|P]; apply Called in P as (_ & a' & b' & Ha' & Hb' & _ & (R' & _) & ->).
        - rewrite Ha in Ha'. injection Ha' as <-. rewrite Hb in Hb'. injection Hb' as <-. destruct (crossing_exact a b segs Ia Ib Mg (Sm _ Ia) (Sm _ Ib) R') as (_ & _ & ? & ?). now apply Un.
        - rewrite Hb in Ha'. injection Ha' as <-. rewrite Ha in Hb'. injection Hb' as <-. destruct (crossing_exact b a segs Ib Ia Mg (Sm _ Ib) (Sm _ Ia) R') as (_ & _ & ? & ?). now apply Un. }
      split; exists p; (split; [|exact Ep]); unfold points_of; right; right; apply break_in; [exists j; tauto|exists i; tauto].
  Qed.
End Cut.
