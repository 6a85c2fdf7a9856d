(** Proofs about planar/makevalid/walker: RingForTriangle on triangulations *)
From Coq Require Import ZArith Bool List Lia Reals Lra Permutation.
From Flocq Require Import Core.Core.
From Verif Require Import Base_Res Base_F64 Base_F64Arith Base_Geom M_Geom M_Extent M_Cmp M_Planar M_Triangle M_Winding M_Walker
  P_F64 P_F64Flocq S_Intersect S_Walker S_Cmp P_Cmp P_Cmp2 P_Walker P_Walker2 P_Walker6.
Import ListNotations.
Local Open Scope nat_scope.

(** ** Points *)
Lemma xy_less_val p q p' q' : finite_pt p -> finite_pt q -> finite_pt p' -> finite_pt q' -> rpt p = rpt p' -> rpt q = rpt q' ->
  xy_less p q = xy_less p' q'.
Proof.
  intros (A1 & A2 & A3 & A4) (B1 & B2 & B3 & B4) (C1 & C2 & C3 & C4) (D1 & D2 & D3 & D4) Ep Eq.
  unfold rpt in *. apply pair_equal_spec in Ep, Eq. destruct Ep as [E1 E2], Eq as [E3 E4].
  assert (Q : f64_eq (fst p) (fst q) = f64_eq (fst p') (fst q')).
  { apply eq_true_iff_eq. rewrite !eq_R by assumption. now rewrite E1, E3. }
  assert (L1 : f64_lt (fst p) (fst q) = f64_lt (fst p') (fst q')).
  { apply eq_true_iff_eq. rewrite !lt_R by assumption. now rewrite E1, E3. }
  assert (L2 : f64_lt (snd p) (snd q) = f64_lt (snd p') (snd q')).
  { apply eq_true_iff_eq. rewrite !lt_R by assumption. now rewrite E2, E4. }
  unfold xy_less, f64_ne. now rewrite Q, L1, L2.
Qed.
Lemma xy_less_total p q : finite_pt p -> finite_pt q -> rpt p <> rpt q -> xy_less p q = negb (xy_less q p).
Proof.
  intros (A1 & A2 & A3 & A4) (B1 & B2 & B3 & B4) N. unfold xy_less, f64_ne. rewrite (f64_eq_sym (fst q)).
  destruct (f64_eq (fst p) (fst q)) eqn:E; cbn [negb].
  - apply eq_R in E; [|assumption|assumption|assumption|assumption].
    destruct (f64_lt (snd p) (snd q)) eqn:L1, (f64_lt (snd q) (snd p)) eqn:L2; try reflexivity; exfalso.
    + rewrite lt_R in L1, L2 by assumption. lra.
    + apply N. unfold rpt. f_equal; [exact E|]. 
      destruct (Rtotal_order (f64_R (snd p)) (f64_R (snd q))) as [H|[H|H]]; [|exact H|].
      * apply lt_R in H; [congruence|assumption..].
      * apply lt_R in H; [congruence|assumption..].
  - assert (E' : f64_R (fst p) <> f64_R (fst q)) by (intros H; apply eq_R in H; [congruence|assumption..]).
    destruct (f64_lt (fst p) (fst q)) eqn:L1, (f64_lt (fst q) (fst p)) eqn:L2; try reflexivity; exfalso.
    + rewrite lt_R in L1, L2 by assumption. lra.
    + destruct (Rtotal_order (f64_R (fst p)) (f64_R (fst q))) as [H|[H|H]]; [|contradiction|].
      * apply lt_R in H; [congruence|assumption..].
      * apply lt_R in H; [congruence|assumption..].
Qed.

Lemma sorted_edge_eq a b p q : finite_pt a -> finite_pt b -> finite_pt p -> finite_pt q -> rpt a <> rpt b ->
  edge_eq (sorted_edge a b) (sorted_edge p q) = true <-> rpt p = rpt a /\ rpt q = rpt b \/ rpt p = rpt b /\ rpt q = rpt a.
Proof.
  intros Fa Fb Fp Fq N. split.
  - unfold edge_eq, sorted_edge. intros H. apply andb_prop in H. destruct H as [H1 H2].
    destruct (xy_less a b), (xy_less p q); cbn [fst snd] in H1, H2; apply go_eq_R in H1, H2; try assumption; rewrite H1, H2; auto.
  - intros [[E1 E2]|[E1 E2]].
    + assert (X : xy_less a b = xy_less p q) by (apply xy_less_val; congruence || assumption).
      unfold edge_eq, sorted_edge. rewrite X. destruct (xy_less p q); cbn [fst snd]; rewrite !go_eq_R' by congruence || assumption; reflexivity.
    + assert (X : xy_less b a = xy_less p q) by (apply xy_less_val; congruence || assumption).
      unfold edge_eq, sorted_edge. rewrite (xy_less_total a b Fa Fb N), X. destruct (xy_less p q); cbn [fst snd negb]; rewrite !go_eq_R' by congruence || assumption; reflexivity.
Qed.

(** ** Sides as pairs of points of the plane *)
Definition sideR (t : triangle) (u v : R * R) : Prop :=
  let '(a, b, c) := t in
  u = rpt a /\ v = rpt b \/ u = rpt b /\ v = rpt c \/ u = rpt c /\ v = rpt a.
Definition edgeR (t : triangle) (u v : R * R) : Prop := sideR t u v \/ sideR t v u.

Lemma sideR_in t u v : sideR t u v <-> exists a b, In (a, b) (sides3 t) /\ u = rpt a /\ v = rpt b.
Proof.
  destruct t as [[a b] c]. cbn. split.
  - intros [[-> ->]|[[-> ->]|[-> ->]]]; do 2 eexists; (split; [|split; reflexivity]); tauto.
  - intros (x & y & [E|[E|[E|[]]]] & -> & ->); injection E as <- <-; tauto.
Qed.
Lemma has_side_edge t a b : has_side t a b <-> edgeR t (rpt a) (rpt b).
Proof.
  unfold has_side, edgeR. rewrite !sideR_in. split.
  - intros (x & y & I & [[H1 H2]|[H1 H2]]); [left|right]; exists x, y; auto.
  - intros [(x & y & I & H1 & H2)|(x & y & I & H1 & H2)]; exists x, y; auto.
Qed.
Lemma neighbours_edge t u : neighbours t u <-> exists x y, sideR t x y /\ edgeR u x y.
Proof.
  unfold neighbours. split.
  - intros (a & b & I & H). exists (rpt a), (rpt b). split; [apply sideR_in; exists a, b; auto|now apply has_side_edge].
  - intros (x & y & S & H). apply sideR_in in S. destruct S as (a & b & I & -> & ->). exists a, b. split; [exact I|now apply has_side_edge].
Qed.

Lemma edgeR_sym t u v : edgeR t u v -> edgeR t v u.
Proof. unfold edgeR. tauto. Qed.

Section Proper.
  Variable ts : list triangle.
  Variable ctx : nat -> bool.
  Hypothesis Pr : proper ts.

  Definition vertex (p : pt) : Prop := exists t, In t ts /\ In p (vertices3 t).

  Lemma vertex_finite p : vertex p -> finite_pt p.
  Proof. intros (t & It & Ip). destruct Pr as (F & _). exact (F t p It Ip). Qed.
  Lemma vertex_eq p q : vertex p -> vertex q -> (point_equal nano_compare p q = true <-> rpt p = rpt q).
  Proof.
    intros Vp Vq. split.
    - destruct Vp as (t & It & Ip), Vq as (u & Iu & Iq). destruct Pr as (_ & _ & A). now apply (A t u).
    - intros E. pose proof (vertex_finite p Vp) as (A1 & A2 & A3 & A4). pose proof (vertex_finite q Vq) as (B1 & B2 & B3 & B4).
      unfold rpt in E. apply pair_equal_spec in E. destruct E as [E1 E2].
      unfold point_equal. apply andb_true_iff. split; apply float_same; try assumption; try reflexivity; apply eq_R; assumption.
  Qed.

  Lemma vertex_of a b c : In (a, b, c) ts -> vertex a /\ vertex b /\ vertex c.
  Proof. intros H. repeat split; exists (a, b, c); (split; [exact H|cbn; tauto]). Qed.

  (** The triangles the edge map gives for two points. *)
  Lemma on_edge_iff p q j : vertex p -> vertex q ->
    on_edge ts p q j <-> exists t, nth_error ts j = Some t /\ edgeR t (rpt p) (rpt q).
  Proof.
    intros Vp Vq. unfold on_edge. rewrite edge_map_in. pose proof (vertex_finite p Vp) as Fp. pose proof (vertex_finite q Vq) as Fq. split.
    - intros (t & Et & e & Ie & Ee). exists t. split; [exact Et|]. destruct t as [[a b] c].
      assert (It : In (a, b, c) ts) by (eapply nth_error_In, Et).
      destruct (vertex_of a b c It) as (Va & Vb & Vc). apply vertex_finite in Va, Vb, Vc.
      destruct Pr as (_ & D & _). destruct (D a b c It) as (D1 & D2 & D3).
      assert (D4 : rpt a <> rpt c) by congruence.
      cbn in Ie. destruct Ie as [<-|[<-|[<-|[]]]]; (apply sorted_edge_eq in Ee; [|assumption..]); destruct Ee as [[-> ->]|[-> ->]]; unfold edgeR, sideR; tauto.
    - intros (t & Et & E). exists t. split; [exact Et|]. destruct t as [[a b] c].
      assert (It : In (a, b, c) ts) by (eapply nth_error_In, Et).
      destruct (vertex_of a b c It) as (Va & Vb & Vc). apply vertex_finite in Va, Vb, Vc.
      destruct Pr as (_ & D & _). destruct (D a b c It) as (D1 & D2 & D3). assert (D4 : rpt a <> rpt c) by congruence.
      cbn [sorted_edges].
      destruct E as [[[E1 E2]|[[E1 E2]|[E1 E2]]]|[[E1 E2]|[[E1 E2]|[E1 E2]]]].
      + exists (sorted_edge a b). split; [cbn; tauto|]. apply sorted_edge_eq; auto.
      + exists (sorted_edge b c). split; [cbn; tauto|]. apply sorted_edge_eq; auto.
      + exists (sorted_edge a c). split; [cbn; tauto|]. apply sorted_edge_eq; auto.
      + exists (sorted_edge a b). split; [cbn; tauto|]. apply sorted_edge_eq; auto.
      + exists (sorted_edge b c). split; [cbn; tauto|]. apply sorted_edge_eq; auto.
      + exists (sorted_edge a c). split; [cbn; tauto|]. apply sorted_edge_eq; auto.
  Qed.

  (** The third point of a triangle, seen from two of its vertices. *)
  Lemma third_side t p q : In t ts -> vertex p -> vertex q -> sideR t (rpt p) (rpt q) ->
    vertex (third_point t p q) /\ rpt (third_point t p q) <> rpt p /\ rpt (third_point t p q) <> rpt q /\
    (forall u v, sideR t u v <-> u = rpt p /\ v = rpt q \/ u = rpt q /\ v = rpt (third_point t p q) \/ u = rpt (third_point t p q) /\ v = rpt p) /\
    ring_area (vertices3 t) = areaR [rpt q; rpt (third_point t p q); rpt p].
  Proof.
    intros It Vp Vq S. destruct t as [[a b] c]. destruct (vertex_of a b c It) as (Va & Vb & Vc).
    destruct Pr as (_ & D & _). destruct (D a b c It) as (D1 & D2 & D3).
    pose proof (vertex_eq a p Va Vp) as Eap. pose proof (vertex_eq b p Vb Vp) as Ebp. pose proof (vertex_eq c p Vc Vp) as Ecp.
    pose proof (vertex_eq a q Va Vq) as Eaq. pose proof (vertex_eq b q Vb Vq) as Ebq. pose proof (vertex_eq c q Vc Vq) as Ecq.
    assert (NB : forall x (P : Prop), (x = true <-> P) -> ~ P -> x = false) by (intros [] P H N; [elim N; now apply H|reflexivity]).
    unfold third_point. cbn in S.
    assert (Ar : forall x y z : R * R, areaR [x; y; z] = areaR [y; z; x]) by (intros x y z; exact (area_rot [x] [y; z])).
    assert (E0 : ring_area (vertices3 (a, b, c)) = areaR [rpt a; rpt b; rpt c]) by reflexivity.
    destruct S as [[E1 E2]|[[E1 E2]|[E1 E2]]].
    - rewrite (proj2 Eap), (proj2 Ebq) by auto. cbn [andb orb].
      split; [exact Vc|]. rewrite E1, E2. split; [congruence|]. split; [congruence|]. split; [reflexivity|]. rewrite E0, Ar. reflexivity.
    - rewrite (NB _ _ Eap), (NB _ _ Ecp), (NB _ _ Eaq) by congruence. rewrite !andb_false_r. cbn [andb orb].
      split; [exact Va|]. rewrite E1, E2. split; [congruence|]. split; [congruence|]. split; [intros u v; cbn; tauto|].
      rewrite E0, Ar, Ar. reflexivity.
    - rewrite (NB _ _ Eap), (NB _ _ Ebp) by congruence. rewrite (proj2 Ecp), (proj2 Eaq) by auto. cbn [andb orb].
      split; [exact Vb|]. rewrite E1, E2. split; [congruence|]. split; [congruence|]. split; [intros u v; cbn; tauto|].
      rewrite E0. reflexivity.
  Qed.

  (** The same when the side has the other direction. *)
  Lemma third_swap t p q : third_point t p q = third_point t q p.
  Proof.
    destruct t as [[a b] c]. unfold third_point. 
    rewrite (orb_comm (point_equal nano_compare a p && point_equal nano_compare b q)), (andb_comm (point_equal nano_compare b p)), (andb_comm (point_equal nano_compare a p) (point_equal nano_compare b q)).
    rewrite (orb_comm (point_equal nano_compare a p && point_equal nano_compare c q)), (andb_comm (point_equal nano_compare c p)), (andb_comm (point_equal nano_compare a p) (point_equal nano_compare c q)).
    reflexivity.
  Qed.

  Lemma third_edge t p q : In t ts -> vertex p -> vertex q -> edgeR t (rpt p) (rpt q) ->
    vertex (third_point t p q) /\ rpt (third_point t p q) <> rpt p /\ rpt (third_point t p q) <> rpt q.
  Proof.
    intros It Vp Vq [S|S].
    - destruct (third_side t p q It Vp Vq S) as (A & B & C & _). auto.
    - rewrite third_swap. destruct (third_side t q p It Vq Vp S) as (A & B & C & _). auto.
  Qed.

  (** *** Neighbouring points of the ring *)
  Definition adj {A} (l : list A) (u v : A) : Prop := exists l1 l2, l = l1 ++ u :: v :: l2.

  Lemma adj_app {A} (l : list A) x m u v : adj (l ++ x :: m) u v <-> adj (l ++ [x]) u v \/ adj (x :: m) u v.
  Proof.
    split.
    - intros (l1 & l2 & E). revert l1 E. induction l as [|y l IH]; intros l1 E; cbn [app] in *.
      + right. exists l1, l2. exact E.
      + destruct l1 as [|z l1]; cbn [app] in E; injection E as -> E.
        * left. destruct l as [|w l]; cbn [app] in *; injection E as -> _; [exists [], []|exists [], (l ++ [x])]; reflexivity.
        * destruct (IH l1 E) as [(k1 & k2 & H)|H]; [left|now right]. exists (z :: k1), k2. cbn. now rewrite H.
    - intros [(l1 & l2 & E)|(l1 & l2 & E)].
      + revert l E. induction l1 as [|y l1 IH]; intros l E; cbn [app] in *.
        * destruct l as [|w l]; cbn [app] in E; injection E as -> E; [discriminate|]. destruct l as [|w' l]; cbn [app] in E; injection E as -> _.
          -- exists [], m. reflexivity.
          -- exists [], (l ++ x :: m). reflexivity.
        * destruct l as [|w l]; cbn [app] in E; injection E as -> E; [now destruct l1|]. destruct (IH l E) as (k1 & k2 & H).
          exists (y :: k1), k2. cbn. now rewrite H.
      + exists (l ++ l1), l2. rewrite E, app_assoc. reflexivity.
  Qed.
  Lemma adj_cons {A} (x : A) y m u v : adj (x :: y :: m) u v <-> u = x /\ v = y \/ adj (y :: m) u v.
  Proof.
    change (x :: y :: m) with ([x] ++ y :: m). rewrite adj_app. split.
    - intros [(l1 & l2 & E)|H]; [left|now right]. destruct l1 as [|z [|z' [|z'' l1]]]; cbn in E; try discriminate. injection E as -> ->. auto.
    - intros [[-> ->]|H]; [left; exists [], []; reflexivity|now right].
  Qed.
  Lemma adj_one {A} (x : A) u v : ~ adj [x] u v.
  Proof. intros (l1 & l2 & E). destruct l1 as [|z [|z' l1]]; discriminate. Qed.

  Definition cyc (rng : list pt) : list (R * R) := map rpt (rng ++ firstn 1 rng).

  Lemma cyc_form p l q : cyc (p :: l ++ [q]) = (rpt p :: map rpt l) ++ [rpt q; rpt p].
  Proof. unfold cyc. cbn [firstn]. rewrite map_app. cbn [map app]. rewrite map_app. cbn [map]. rewrite <- app_assoc. reflexivity. Qed.
  Lemma cyc_old p l q u v : adj (cyc (p :: l ++ [q])) u v <-> adj ((rpt p :: map rpt l) ++ [rpt q]) u v \/ u = rpt q /\ v = rpt p.
  Proof. rewrite cyc_form, (adj_app (rpt p :: map rpt l) (rpt q) [rpt p]), adj_cons. pose proof (adj_one (rpt p) u v). tauto. Qed.
  Lemma cyc_back p l q u v : adj (cyc (q :: p :: l)) u v <-> adj (cyc (p :: l ++ [q])) u v.
  Proof.
    rewrite cyc_old. unfold cyc. cbn [firstn]. rewrite map_app. cbn [map app]. rewrite adj_cons. tauto.
  Qed.
  Lemma cyc_fwd p l q z u v : adj (cyc ((p :: l ++ [q]) ++ [z])) u v <->
    adj ((rpt p :: map rpt l) ++ [rpt q]) u v \/ u = rpt q /\ v = rpt z \/ u = rpt z /\ v = rpt p.
  Proof.
    assert (E : cyc ((p :: l ++ [q]) ++ [z]) = (rpt p :: map rpt l) ++ rpt q :: [rpt z; rpt p]).
    { unfold cyc. cbn [firstn app map]. f_equal. rewrite !map_app. cbn [map]. rewrite <- !app_assoc. reflexivity. }
    rewrite E, adj_app, !adj_cons. pose proof (adj_one (rpt p) u v). tauto.
  Qed.

  (** Triangles as they come: neighbours of the ring differ. *)
  Theorem ring_no_repeat n idx t seen : nth_error ts idx = Some t ->
    exists rng s n', ring_for_triangle ts ctx n idx seen = Ok (rng, s, n') /\ no_repeat go_eq rng.
  Proof.
    intros Et.
    destruct (ring_for_triangle_ind ts ctx n idx t seen (fun rng head s => Forall vertex rng /\ forall u v, adj (cyc rng) u v -> u <> v) Et) as (rng & head & s & n' & E & (Vx & D) & _).
    - assert (It : In t ts) by (eapply nth_error_In, Et). split.
      + apply Forall_forall. intros p Hp. exists t. auto.
      + destruct t as [[a b] c]. destruct Pr as (_ & Df & _). destruct (Df a b c It) as (D1 & D2 & D3).
        intros u v. change (cyc (vertices3 (a, b, c))) with [rpt a; rpt b; rpt c; rpt a]. rewrite !adj_cons. 
        intros [[-> ->]|[[-> ->]|[[-> ->]|H]]]; [assumption..|]. now apply adj_one in H.
    - intros p l q head s (Vx & D) L A. split.
      + inversion Vx as [|? ? Vp Vl]; subst. apply Forall_app in Vl. destruct Vl as [Vl Vq]. inversion Vq; subst. constructor; [assumption|]. now constructor.
      + intros u v H. apply D. now apply cyc_back.
    - intros p l q head s j t' (Vx & D) L O Nj Ej.
      assert (Vp : vertex p) by now inversion Vx. assert (Vq : vertex q).
      { inversion Vx as [|? ? _ Vl]; subst. apply Forall_app in Vl. destruct Vl as [_ Vq]. now inversion Vq. }
      apply on_edge_iff in O; [|assumption|assumption]. destruct O as (t2 & Et2 & Ed). rewrite Ej in Et2. injection Et2 as <-.
      destruct (third_edge t' p q ltac:(eapply nth_error_In, Ej) Vp Vq Ed) as (Vz & Zp & Zq). split.
      + apply Forall_app. split; [exact Vx|]. constructor; [exact Vz|constructor].
      + intros u v H. apply cyc_fwd in H. destruct H as [H|[[-> ->]|[-> ->]]]; [|congruence|exact Zp].
        apply D. apply cyc_old. now left.
    - exists rng, s, n'. split; [exact E|]. intros l1 p q l2 Hr.
      destruct (go_eq p q) eqn:G; [|reflexivity]. exfalso.
      assert (Vr : forall x, In x (rng ++ firstn 1 rng) -> vertex x).
      { intros x Hx. rewrite Forall_forall in Vx. apply Vx. apply in_app_or in Hx. destruct Hx as [Hx|Hx]; [exact Hx|].
        rewrite <- (firstn_skipn 1 rng). apply in_or_app. now left. }
      apply (D (rpt p) (rpt q)).
      + exists (map rpt l1), (map rpt l2). unfold cyc. rewrite Hr, map_app. reflexivity.
      + apply go_eq_R in G; [exact G| |]; apply vertex_finite, Vr; rewrite Hr; apply in_or_app; right; cbn; tauto.
  Qed.
End Proper.
