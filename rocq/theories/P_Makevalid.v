(** Proofs about planar/makevalid: chains of points on a segment *)
From Coq Require Import ZArith Bool List Lia Reals Lra Permutation.
From Flocq Require Import Core.Core.
From Verif Require Import Base_Res Base_F64 Base_F64Arith Base_Geom M_Geom M_Extent M_Cmp M_Intersect M_Sweep M_Walker M_Makevalid
  S_Cmp S_Intersect S_Ring S_Makevalid P_F64 P_F64Flocq P_F64Round P_F64Grid P_Cmp P_Cmp2 P_Cmp3 P_Ring P_Ring2 P_Walker4.
Import ListNotations.
Local Open Scope R_scope.

Notation rless := point_before.
Lemma xy_rless p q : f64_wf (fst p) = true -> f64_finite (fst p) = true -> f64_wf (snd p) = true -> f64_finite (snd p) = true ->
  f64_wf (fst q) = true -> f64_finite (fst q) = true -> f64_wf (snd q) = true -> f64_finite (snd q) = true ->
  xy_less p q = true <-> rless (rpt p) (rpt q).
Proof.
  intros. unfold xy_less, rless, rpt. cbn [fst snd]. unfold f64_ne. destruct (f64_eq (fst p) (fst q)) eqn:Q; cbn [negb].
  - apply eq_R in Q; try assumption. rewrite lt_R by assumption. lra.
  - assert (N : f64_R (fst p) <> f64_R (fst q)) by (rewrite <- eq_R by assumption; congruence). rewrite lt_R by assumption. lra.
Qed.
Lemma small_words p : small_pt p -> f64_wf (fst p) = true /\ f64_finite (fst p) = true /\ f64_wf (snd p) = true /\ f64_finite (snd p) = true.
Proof. intros [A B]. apply small_val in A as (? & ? & _), B as (? & ? & _). auto. Qed.
Lemma xy_small p q : small_pt p -> small_pt q -> xy_less p q = true <-> rless (rpt p) (rpt q).
Proof. intros A B. apply small_words in A as (? & ? & ? & ?), B as (? & ? & ? & ?). now apply xy_rless. Qed.
Lemma rless_irrefl p : ~ rless p p. Proof. unfold point_before. lra. Qed.
Lemma rless_trans p q r : rless p q -> rless q r -> rless p r. Proof. unfold point_before. lra. Qed.
Lemma rless_total p q : p <> q -> rless p q \/ rless q p.
Proof.
  destruct p as [a b], q as [c d]. unfold point_before. cbn [fst snd]. intros N. destruct (Rtotal_order a c) as [H|[H|H]]; [lra| |lra].
  destruct (Rtotal_order b d) as [K|[K|K]]; [lra| |lra]. elim N. now rewrite H, K.
Qed.

(** ** Points along a segment *)
Definition tpar (A B q : R * R) : R :=
  if Req_EM_T (fst A) (fst B) then (snd q - snd A) / (snd B - snd A) else (fst q - fst A) / (fst B - fst A).
Lemma tpar_along A B t : A <> B -> tpar A B (along A B t) = t.
Proof.
  intros N. unfold tpar, along. cbn [fst snd]. destruct (Req_EM_T (fst A) (fst B)) as [E|E]; field; intros H; [|lra].
  apply N. destruct A, B. cbn [fst snd] in *. f_equal; lra.
Qed.
Lemma along_less A B t u : rless A B -> rless (along A B t) (along A B u) <-> t < u.
Proof.
  destruct A as [a b], B as [c d]. unfold point_before, along. cbn [fst snd]. intros H. split.
  - intros K. destruct (Rlt_le_dec t u) as [T|T]; [exact T|exfalso]. destruct H as [H|[-> H]].
    + destruct K as [K|[K K']].
      * assert (0 <= (t - u) * (c - a)) by (apply Rmult_le_pos; lra). lra.
      * assert (t = u). { assert (Z0 : (t - u) * (c - a) = 0) by lra. apply Rmult_integral in Z0. lra. } subst u. lra.
    + assert (0 <= (t - u) * (d - b)) by (apply Rmult_le_pos; lra). lra.
  - intros T. destruct H as [H|[-> H]].
    + left. assert (0 < (u - t) * (c - a)) by (apply Rmult_lt_0_compat; lra). lra.
    + right. assert (0 < (u - t) * (d - b)) by (apply Rmult_lt_0_compat; lra). lra.
Qed.
Lemma along_along A B s u t : along (along A B s) (along A B u) t = along A B (s + t * (u - s)).
Proof. unfold along. cbn [fst snd]. f_equal; ring. Qed.
Lemma along_rev A B t : along B A t = along A B (1 - t).
Proof. unfold along. f_equal; ring. Qed.
Lemma along_0 A B : along A B 0 = A. Proof. destruct A. unfold along. cbn [fst snd]. f_equal; ring. Qed.
Lemma along_1 A B : along A B 1 = B. Proof. destruct B. unfold along. cbn [fst snd]. f_equal; ring. Qed.
Lemma rless_neq A B : rless A B -> A <> B. Proof. intros H ->. now apply rless_irrefl in H. Qed.

Lemma between_param s u t : s < u -> s <= t <= u -> exists v, 0 <= v <= 1 /\ t = s + v * (u - s).
Proof.
  intros H K. exists ((t - s) / (u - s)). split; [|field; lra]. split.
  - apply Rmult_le_pos; [lra|]. apply Rlt_le, Rinv_0_lt_compat. lra.
  - apply Rmult_le_reg_r with (u - s); [lra|]. unfold Rdiv. rewrite Rmult_assoc, Rinv_l, Rmult_1_r by lra. lra.
Qed.

(** ** Neighbours in a sorted list *)
Lemma neighbours_around {A} (k : A -> R) t l : (forall i j x y, (i < j)%nat -> nth_error l i = Some x -> nth_error l j = Some y -> k x <= k y) ->
  forall x0 y0, In x0 l -> In y0 l -> k x0 <= t -> t <= k y0 -> k x0 < k y0 ->
  exists l1 x y l2, l = l1 ++ x :: y :: l2 /\ k x < k y /\ k x <= t <= k y.
Proof.
  induction l as [|h l IH]; intros S x0 y0 X Y T1 T2 D; [destruct X|].
  assert (S' : forall i j x y, (i < j)%nat -> nth_error l i = Some x -> nth_error l j = Some y -> k x <= k y) by (intros i j x y L Hi Hj; apply (S (Datatypes.S i) (Datatypes.S j)); [lia|exact Hi|exact Hj]).
  assert (H0 : forall z, In z l -> k h <= k z) by (intros z Hz; apply In_nth_error in Hz as (j & Hj); apply (S 0%nat (Datatypes.S j)); [lia|reflexivity|exact Hj]).
  destruct l as [|n l].
  - destruct X as [<-|[]], Y as [<-|[]]. lra.
  - assert (Hn : forall z, In z l -> k n <= k z) by (intros z Hz; apply In_nth_error in Hz as (j & Hj); apply (S' 0%nat (Datatypes.S j)); [lia|reflexivity|exact Hj]).
    assert (Yl : In y0 (n :: l)). { destruct Y as [<-|Y]; [|exact Y]. exfalso. destruct X as [<-|X]; [lra|]. specialize (H0 _ X). lra. }
    assert (N0 : k n <= k y0) by (destruct Yl as [<-|Yl]; [lra|now apply Hn]).
    destruct (Rle_lt_dec (k n) t) as [C|C].
    + destruct (Rlt_le_dec (k n) (k y0)) as [C2|C2].
      * destruct (IH S' n y0) as (l1 & x & y & l2 & -> & Q); try assumption; [now left|]. exists (h :: l1), x, y, l2. split; [reflexivity|exact Q].
      * exists [], h, n, l. split; [reflexivity|]. assert (k h <= k x0) by (destruct X as [<-|X]; [lra|now apply H0]). lra.
    + exists [], h, n, l. split; [reflexivity|]. assert (k h <= k x0) by (destruct X as [<-|X]; [lra|now apply H0]). lra.
Qed.

Lemma pieces_in c clip pts a b : In (a, b) (pieces c clip pts) <->
  exists l1 l2, pts = l1 ++ a :: b :: l2 /\ point_equal c a b = false /\ contains_line clip (a, b) = true.
Proof.
  induction pts as [|x [|y tl] IH].
  - split; [intros []|]. intros (l1 & l2 & E & _). destruct l1; discriminate.
  - split; [intros []|]. intros ([|z l1] & l2 & E & _); [discriminate|]. destruct l1; discriminate.
  - assert (G : (exists l1 l2, x :: y :: tl = l1 ++ a :: b :: l2 /\ point_equal c a b = false /\ contains_line clip (a, b) = true) <->
               ((a, b) = (x, y) /\ point_equal c x y = false /\ contains_line clip (x, y) = true) \/ In (a, b) (pieces c clip (y :: tl))).
    { rewrite IH. split.
      - intros ([|z l1] & l2 & E & Q); [injection E as -> -> ->; now left|]. injection E as -> E. right. exists l1, l2. auto.
      - intros [(E & Q)|(l1 & l2 & E & Q)]; [injection E as -> ->; now exists [], tl|]. exists (x :: l1), l2. split; [now rewrite E|exact Q]. }
    rewrite G. cbn [pieces]. fold (pieces c clip (y :: tl)). destruct (point_equal c x y); [intuition congruence|].
    destruct (contains_line clip (x, y)); cbn [negb]; [|intuition congruence]. cbn [In]. intuition congruence.
Qed.

Section Chain.
  Variables A B : R * R.
  Hypothesis AB : rless A B.
  Variable pts : list pt.
  Hypothesis Small : forall x, In x pts -> small_pt x.
  Hypothesis On : forall x, In x pts -> exists t, 0 <= t <= 1 /\ rpt x = along A B t.
  Hypothesis Sorted : in_order (fun a b => xy_less a b = true) pts.
  Let k (x : pt) : R := tpar A B (rpt x).

  Lemma k_along x : In x pts -> 0 <= k x <= 1 /\ rpt x = along A B (k x).
  Proof. intros H. destruct (On x H) as (t & T & E). unfold k. rewrite E, tpar_along by (now apply rless_neq). auto. Qed.
  Lemma k_sorted i j x y : (i < j)%nat -> nth_error pts i = Some x -> nth_error pts j = Some y -> k x <= k y.
  Proof.
    intros L X Y. assert (Ix : In x pts) by (eapply nth_error_In; eassumption). assert (Iy : In y pts) by (eapply nth_error_In; eassumption).
    destruct (Rle_lt_dec (k x) (k y)) as [H|H]; [exact H|exfalso]. apply (Sorted i j x y L X Y). apply xy_small; [auto|auto|].
    destruct (k_along x Ix) as [_ ->], (k_along y Iy) as [_ ->]. now apply along_less.
  Qed.
  Lemma k_value x y : In x pts -> In y pts -> rpt x = rpt y <-> k x = k y.
  Proof. intros X Y. split; [unfold k; now intros ->|]. intros E. destruct (k_along x X) as [_ ->], (k_along y Y) as [_ ->]. now rewrite E. Qed.

  (** Neighbours which differ go from left to right, along the segment, with none of
      the points between them. *)
  Lemma neighbour a b l1 l2 : pts = l1 ++ a :: b :: l2 -> rpt a <> rpt b ->
    In a pts /\ In b pts /\ rless (rpt a) (rpt b) /\ 
    (forall q, on_segment (a, b) q -> exists t, 0 <= t <= 1 /\ q = along A B t) /\
    (forall x q, In x pts -> on_segment (a, b) q -> q = rpt x -> q = rpt a \/ q = rpt b) /\
    exists v, fst (rpt b) - fst (rpt a) = v * (fst B - fst A) /\ snd (rpt b) - snd (rpt a) = v * (snd B - snd A).
  Proof.
    intros E N. assert (Ia : In a pts) by (rewrite E; apply in_or_app; right; now left). assert (Ib : In b pts) by (rewrite E; apply in_or_app; right; right; now left).
    assert (Na : nth_error pts (length l1) = Some a) by (rewrite E, nth_error_app2, Nat.sub_diag by lia; reflexivity).
    assert (Nb : nth_error pts (S (length l1)) = Some b) by (rewrite E, nth_error_app2 by lia; now replace (S (length l1) - length l1)%nat with 1%nat by lia).
    assert (Kab : k a < k b).
    { pose proof (k_sorted _ _ a b (Nat.lt_succ_diag_r _) Na Nb). assert (k a <> k b) by (intros H'; apply N; now apply k_value). lra. }
    destruct (k_along a Ia) as [Ta Ea], (k_along b Ib) as [Tb Eb].
    assert (Sub : forall q, on_segment (a, b) q -> exists t, k a <= t <= k b /\ q = along A B t).
    { intros q (t & T & ->). cbn [fst snd]. rewrite Ea, Eb, along_along. exists (k a + t * (k b - k a)). split; [|reflexivity].
      assert (0 <= t * (k b - k a) <= 1 * (k b - k a)) by (split; [apply Rmult_le_pos; lra|apply Rmult_le_compat_r; lra]). lra. }
    split; [exact Ia|]. split; [exact Ib|]. split; [rewrite Ea, Eb; now apply along_less|]. split; [|split].
    - intros q Q. destruct (Sub q Q) as (t & T & ->). exists t. split; [lra|reflexivity].
    - intros x q X Q Ex. destruct (Sub q Q) as (t & T & Eq).
      assert (Kt : k x = t) by (unfold k; rewrite <- Ex, Eq; apply tpar_along, rless_neq, AB).
      assert (C : k x <= k a \/ k b <= k x).
      { apply In_nth_error in X as (j & Hj). destruct (lt_eq_lt_dec j (length l1)) as [[L|L]|L].
        - left. exact (k_sorted _ _ x a L Hj Na).
        - subst j. rewrite Na in Hj. injection Hj as ->. left. lra.
        - destruct (Nat.eq_dec j (S (length l1))) as [->|L']; [rewrite Nb in Hj; injection Hj as ->; right; lra|]. right. exact (k_sorted (S (length l1)) j b x ltac:(lia) Nb Hj). }
      rewrite Ea, Eb, Eq. destruct C as [C|C]; [left|right]; f_equal; lra.
    - exists (k b - k a). rewrite Ea, Eb. unfold along. cbn [fst snd]. split; ring.
  Qed.

  (** They cover the segment. *)
  Lemma covered a0 b0 q : In a0 pts -> In b0 pts -> rpt a0 = A -> rpt b0 = B -> (exists t, 0 <= t <= 1 /\ q = along A B t) ->
    exists l1 a b l2, pts = l1 ++ a :: b :: l2 /\ rpt a <> rpt b /\ on_segment (a, b) q.
  Proof.
    intros I0 I1 E0 E1 (t & T & ->). assert (K0 : k a0 = 0) by (unfold k; rewrite E0; pose proof (tpar_along A B 0 (rless_neq _ _ AB)) as Q; now rewrite along_0 in Q).
    assert (K1 : k b0 = 1) by (unfold k; rewrite E1; pose proof (tpar_along A B 1 (rless_neq _ _ AB)) as Q; now rewrite along_1 in Q).
    destruct (neighbours_around k t pts k_sorted a0 b0 I0 I1) as (l1 & a & b & l2 & E & D & Q); try lra.
    assert (Ia : In a pts) by (rewrite E; apply in_or_app; right; now left). assert (Ib : In b pts) by (rewrite E; apply in_or_app; right; right; now left).
    exists l1, a, b, l2. split; [exact E|]. split; [intros H; apply k_value in H; auto; lra|].
    destruct (between_param _ _ _ D Q) as (v & V & ->). exists v. split; [exact V|]. cbn [fst snd].
    rewrite (proj2 (k_along a Ia)), (proj2 (k_along b Ib)), along_along. reflexivity.
  Qed.
End Chain.
