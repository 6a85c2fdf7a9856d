(** Proofs about planar/makevalid: Destructure *)
From Coq Require Import ZArith Bool List Lia Reals Lra Permutation.
From Flocq Require Import Core.Core.
From Verif Require Import Base_Res Base_F64 Base_F64Arith Base_Geom M_Geom M_Extent M_Cmp M_Intersect M_Sweep M_Walker M_Makevalid
  S_Geom S_Extent S_Cmp S_Intersect S_Sweep P_F64 P_F64Flocq P_F64Round P_F64Grid P_Extent P_Extent2 P_Cmp P_Cmp2 P_Cmp3 P_Intersect3 P_Sweep2 P_Sweep3 P_Ring P_Ring2 P_Walker4 S_Ring S_Makevalid P_Makevalid P_Makevalid2.
Import ListNotations.
Local Open Scope R_scope.

Lemma sort_small (sort : (pt -> pt -> bool) -> list pt -> list pt) l : sorts sort -> (forall x, In x l -> small_pt x) ->
  in_order (fun a b => xy_less a b = true) (sort point_less l).
Proof.
  intros Hs S. apply (proj2 (Hs point_less l)); unfold point_less.
  - intros a Ha. destruct (xy_less a a) eqn:E; [|reflexivity]. apply xy_small in E; auto. now apply rless_irrefl in E.
  - intros a b d Ha Hb Hd. rewrite !xy_small by auto. apply rless_trans.
  - intros a b d Ha Hb Hd A B. destruct (xy_less a d) eqn:E; [exfalso|reflexivity]. apply xy_small in E; auto.
    assert (A' : ~ rless (rpt a) (rpt b)) by (rewrite <- xy_small by auto; congruence). assert (B' : ~ rless (rpt b) (rpt d)) by (rewrite <- xy_small by auto; congruence).
    unfold point_before in *. lra.
Qed.
Lemma on_segment_rev a b q : on_segment (a, b) q <-> on_segment (b, a) q.
Proof.
  split; intros (t & T & ->); exists (1 - t); (split; [lra|]); cbn [fst snd]; rewrite along_rev; f_equal; ring.
Qed.

Section Pieces.
  Variable sort_pts : (pt -> pt -> bool) -> list pt -> list pt.
  Hypothesis Hs : sorts sort_pts.
  Variable c : compare.
  Hypothesis Tc : tells_apart c.
  Variable segs : list line.
  Hypothesis Sm : forall l, In l segs -> small_seg l.
  Hypothesis Mg : meet_on_grid segs.
  Variable calls : list call.
  Hypothesis Called : forall i j p, In (i, j, p) calls ->
       i <> j /\ exists a b, nth_error segs i = Some a /\ nth_error segs j = Some b /\ overlap_x a b /\
         reported default_compare true a b /\ p = fst (segment_intersect a b).
  Hypothesis Calls : forall i j a b, i <> j -> nth_error segs i = Some a -> nth_error segs j = Some b ->
       overlap_x a b -> reported default_compare true a b ->
       exists p, In (i, j, p) calls \/ In (j, i, p) calls.

  Definition pieces_of (clip : option extent) (i : nat) (s : line) : list line := pieces c clip (sort_pts point_less (points_of calls i s)).
  Definition piece_ok (i : nat) (s l : line) : Prop :=
    small_seg l /\ rightward l /\ (forall q, on_segment l q -> on_segment s q) /\
    (exists v, fst (rpt (snd l)) - fst (rpt (fst l)) = v * (fst (rpt (snd s)) - fst (rpt (fst s))) /\ snd (rpt (snd l)) - snd (rpt (fst l)) = v * (snd (rpt (snd s)) - snd (rpt (fst s)))) /\
    (forall x q, In x (points_of calls i s) -> on_segment l q -> q = rpt x -> end_of l q).

  Lemma sorted_points i s : nth_error segs i = Some s -> let pts := sort_pts point_less (points_of calls i s) in
    Permutation (points_of calls i s) pts /\ (forall x, In x pts -> small_pt x /\ on_segment s (rpt x)) /\ in_order (fun a b => xy_less a b = true) pts.
  Proof.
    intros H pts. assert (P : Permutation (points_of calls i s) pts) by apply Hs. split; [exact P|].
    pose proof (points_small segs Sm Mg calls Called i s H) as K. split.
    - intros x Hx. apply K. now apply (Permutation_in _ (Permutation_sym P)).
    - apply sort_small; [exact Hs|]. intros x Hx. now apply K.
  Qed.
  Lemma flat_point s x : rpt (fst s) = rpt (snd s) -> on_segment s x -> x = rpt (fst s).
  Proof. intros E (t & T & ->). rewrite <- E. unfold along. destruct (rpt (fst s)). cbn [fst snd]. f_equal; ring. Qed.

  Lemma piece_sound clip i s l : nth_error segs i = Some s -> In l (pieces_of clip i s) ->
    rpt (fst s) <> rpt (snd s) /\ contains_line clip l = true /\ piece_ok i s l.
  Proof.
    intros H Hl. destruct l as [a b]. apply pieces_in in Hl as (l1 & l2 & E & Ne & C).
    destruct (sorted_points i s H) as (P & K & O). set (pts := sort_pts point_less (points_of calls i s)) in *.
    assert (Ia : In a pts) by (rewrite E; apply in_or_app; right; now left). assert (Ib : In b pts) by (rewrite E; apply in_or_app; right; right; now left).
    destruct (K a Ia) as [Sa Oa], (K b Ib) as [Sb Ob].
    assert (N : rpt a <> rpt b) by (intros Q; apply Tc in Q; [congruence|assumption|assumption]).
    assert (Nd : rpt (fst s) <> rpt (snd s)) by (intros Q; apply N; rewrite (flat_point s _ Q Oa), (flat_point s _ Q Ob); reflexivity).
    split; [exact Nd|]. split; [exact C|].
    assert (Sm' : forall x, In x pts -> small_pt x) by (intros x Hx; now apply K).
    assert (Pin : forall x, In x (points_of calls i s) -> In x pts) by (intros x Hx; now apply (Permutation_in _ P)).
    destruct (rless_total _ _ Nd) as [L|L].
    - destruct (neighbour _ _ L pts Sm') with (a := a) (b := b) (l1 := l1) (l2 := l2) as (_ & _ & Q1 & Q2 & Q3 & v & V1 & V2); [|exact O|exact E|exact N|].
      { intros x Hx. destruct (K x Hx) as [_ (t & T & Et)]. eauto. }
      split; [split; assumption|]. split; [exact Q1|]. split; [intros q Hq; exact (Q2 q Hq)|]. split; [exists v; auto|].
      intros x q Hx Hq Eq. exact (Q3 x q (Pin x Hx) Hq Eq).
    - destruct (neighbour _ _ L pts Sm') with (a := a) (b := b) (l1 := l1) (l2 := l2) as (_ & _ & Q1 & Q2 & Q3 & v & V1 & V2); [|exact O|exact E|exact N|].
      { intros x Hx. destruct (K x Hx) as [_ Q]. destruct s as [s1 s2]. apply on_segment_rev in Q. exact Q. }
      split; [split; assumption|]. split; [exact Q1|]. split; [intros q Hq; specialize (Q2 q Hq); destruct s as [s1 s2]; apply on_segment_rev; exact Q2|].
      split; [exists (- v); cbn [fst snd]; rewrite V1, V2; split; ring|].
      intros x q Hx Hq Eq. exact (Q3 x q (Pin x Hx) Hq Eq).
  Qed.
  Lemma piece_ends clip i s l : In l (pieces_of clip i s) -> In (fst l) (points_of calls i s) /\ In (snd l) (points_of calls i s).
  Proof.
    intros H. destruct l as [a b]. apply pieces_in in H as (l1 & l2 & E & _). assert (P : Permutation (points_of calls i s) (sort_pts point_less (points_of calls i s))) by apply Hs.
    cbn [fst snd]. split; apply (Permutation_in _ (Permutation_sym P)); rewrite E; apply in_or_app; right; [now left|right; now left].
  Qed.
  (** A point at which a segment is cut is its end or on another which is not parallel. *)
  Lemma point_kind i s x : nth_error segs i = Some s -> In x (points_of calls i s) ->
    end_of s (rpt x) \/ exists j d, nth_error segs j = Some d /\ ~ parallel s d /\ on_segment d (rpt x).
  Proof.
    intros Hi [<-|[<-|H]]; [left; now left|left; now right|right]. apply break_in in H as (j & [H|H]); apply Called in H as (Ne & a & b & Ha & Hb & _ & Rp & ->).
    - rewrite Hi in Ha. injection Ha as <-. assert (Ia : In s segs) by (now apply nth_error_In in Hi). assert (Ib : In b segs) by (now apply nth_error_In in Hb).
      destruct (crossing_exact s b segs Ia Ib Mg (Sm _ Ia) (Sm _ Ib) (proj1 Rp)) as (Np & _ & _ & Q). eauto.
    - rewrite Hi in Hb. injection Hb as <-. assert (Ia : In a segs) by (now apply nth_error_In in Ha). assert (Ib : In s segs) by (now apply nth_error_In in Hi).
      destruct (crossing_exact a s segs Ia Ib Mg (Sm _ Ia) (Sm _ Ib) (proj1 Rp)) as (Np & _ & Q & _). exists j, a. split; [exact Ha|]. split; [|exact Q].
      intros X. apply Np. unfold parallel in *. lra.
  Qed.
  Lemma piece_cover i s q : nth_error segs i = Some s -> rpt (fst s) <> rpt (snd s) -> on_segment s q ->
    exists l, In l (pieces_of None i s) /\ on_segment l q.
  Proof.
    intros H Nd Q. destruct (sorted_points i s H) as (P & K & O). unfold pieces_of. set (pts := sort_pts point_less (points_of calls i s)) in *.
    assert (Sm' : forall x, In x pts -> small_pt x) by (intros x Hx; now apply K).
    assert (I0 : In (fst s) pts) by (apply (Permutation_in _ P); now left). assert (I1 : In (snd s) pts) by (apply (Permutation_in _ P); right; now left).
    assert (G : exists l1 a b l2, pts = l1 ++ a :: b :: l2 /\ rpt a <> rpt b /\ on_segment (a, b) q).
    { destruct (rless_total _ _ Nd) as [L|L].
      - apply (covered _ _ L pts Sm') with (a0 := fst s) (b0 := snd s); auto. intros x Hx. destruct (K x Hx) as [_ (t & T & Et)]. eauto.
      - apply (covered _ _ L pts Sm') with (a0 := snd s) (b0 := fst s); auto.
        + intros x Hx. destruct (K x Hx) as [_ Q']. destruct s as [s1 s2]. apply on_segment_rev in Q'. exact Q'.
        + destruct s as [s1 s2]. apply on_segment_rev in Q. exact Q. }
    destruct G as (l1 & a & b & l2 & E & N & Qs). exists (a, b). split; [|exact Qs]. apply pieces_in. exists l1, l2. split; [exact E|]. split; [|reflexivity].
    destruct (point_equal c a b) eqn:Eq; [exfalso|reflexivity]. apply N, Tc; [| |exact Eq]; apply Sm'; rewrite E; apply in_or_app; right; [now left|right; now left].
  Qed.
  Lemma piece_clip clip i s l : In l (pieces_of clip i s) <-> In l (pieces_of None i s) /\ contains_line clip l = true.
  Proof.
    destruct l as [a b]. unfold pieces_of. rewrite !pieces_in. split.
    - intros (l1 & l2 & E & N & C). split; [exists l1, l2; auto|exact C].
    - intros ((l1 & l2 & E & N & _) & C). exists l1, l2. auto.
  Qed.

  (** Pieces of segments which are not parallel meet at ends. *)
  Lemma pieces_noded clip i j a b l m q : nth_error segs i = Some a -> nth_error segs j = Some b ->
    In l (pieces_of clip i a) -> In m (pieces_of clip j b) -> ~ parallel l m -> on_segment l q -> on_segment m q -> end_of l q /\ end_of m q.
  Proof.
    intros Ha Hb Hl Hm Np Ql Qm. destruct (piece_sound clip i a l Ha Hl) as (_ & _ & _ & _ & L1 & (v & V1 & V2) & L2), (piece_sound clip j b m Hb Hm) as (_ & _ & _ & _ & M1 & (u & U1 & U2) & M2).
    assert (Np' : ~ parallel a b).
    { intros Q. apply Np. unfold parallel in *. cbn zeta in *. rewrite V1, V2, U1, U2.
      replace (v * (fst (rpt (snd a)) - fst (rpt (fst a))) * (u * (snd (rpt (snd b)) - snd (rpt (fst b))))) with (v * u * ((fst (rpt (snd a)) - fst (rpt (fst a))) * (snd (rpt (snd b)) - snd (rpt (fst b))))) by ring.
      rewrite Q. ring. }
    destruct (meeting segs Sm Mg calls Called Calls i j a b q Ha Hb Np' (L1 q Ql) (M1 q Qm)) as ((x & Hx & Ex) & (y & Hy & Ey)).
    split; [now apply (L2 x)|now apply (M2 y)].
  Qed.

  (** Points of one of two parallel segments on the other are points of that one. *)
  Lemma point_shared i j a b x : corners segs -> nth_error segs i = Some a -> nth_error segs j = Some b -> rpt (fst a) <> rpt (snd a) -> rpt (fst b) <> rpt (snd b) ->
    parallel a b -> In x (points_of calls j b) -> on_segment a (rpt x) -> exists y, In y (points_of calls i a) /\ rpt y = rpt x.
  Proof.
    intros Co Ha Hb Na Nb Pa Hx Qa. assert (Ia : In a segs) by (now apply nth_error_In in Ha). assert (Ib : In b segs) by (now apply nth_error_In in Hb).
    assert (Cut : forall k d, nth_error segs k = Some d -> ~ parallel a d -> on_segment d (rpt x) -> exists y, In y (points_of calls i a) /\ rpt y = rpt x).
    { intros k d Hd Np Qd. destruct (meeting segs Sm Mg calls Called Calls i k a d (rpt x) Ha Hd Np Qa Qd) as [Y _]. exact Y. }
    destruct (point_kind j b x Hb Hx) as [E|(k & d & Hd & Np & Qd)].
    - destruct (Co a b (rpt x) Ia Ib Na Nb Pa E Qa) as [[E'|E']|(d & Hd & Np & Qd)].
      + exists (fst a). split; [now left|now rewrite E'].
      + exists (snd a). split; [right; now left|now rewrite E'].
      + apply In_nth_error in Hd as (k & Hd). eauto.
    - apply (Cut k d Hd); [|exact Qd]. intros X. apply Np. clear - Pa X Na Nb. unfold parallel in *. cbn zeta in *.
      destruct (rpt (fst a)) as [ax ay], (rpt (snd a)) as [bx by_], (rpt (fst b)) as [cx cy], (rpt (snd b)) as [dx dy], (rpt (fst d)) as [ex ey], (rpt (snd d)) as [fx fy]. cbn [fst snd] in *.
      destruct (Req_dec bx ax) as [E|E].
      + subst bx. assert (by_ - ay <> 0) by (intros Q; apply Na; f_equal; lra).
        assert (dx - cx = 0). { apply Rmult_eq_reg_l with (by_ - ay); [lra|assumption]. }
        assert (fx - ex = 0). { apply Rmult_eq_reg_l with (by_ - ay); [lra|assumption]. } rewrite H0, H1. ring.
      + apply Rmult_eq_reg_l with (bx - ax); [|lra].
        replace ((bx - ax) * ((dx - cx) * (fy - ey))) with ((dx - cx) * ((bx - ax) * (fy - ey))) by ring. rewrite X.
        replace ((bx - ax) * ((dy - cy) * (fx - ex))) with ((fx - ex) * ((bx - ax) * (dy - cy))) by ring. rewrite Pa. ring.
  Qed.
  Lemma inner l q : rightward l -> on_segment l q -> ~ end_of l q -> exists w, 0 < w < 1 /\ q = along (rpt (fst l)) (rpt (snd l)) w.
  Proof.
    intros R (w & W & E) N. exists w. split; [|exact E]. split.
    - destruct (Req_dec w 0) as [Z|Z]; [exfalso; apply N; left; rewrite E, Z; apply along_0|lra].
    - destruct (Req_dec w 1) as [Z|Z]; [exfalso; apply N; right; rewrite E, Z; apply along_1|lra].
  Qed.
  (** Two intervals which have an inner point of the first in common. *)
  Lemma overlap l m q : rightward l -> rightward m -> parallel l m -> on_segment l q -> on_segment m q -> ~ end_of l q ->
    (on_segment l (rpt (fst m)) -> end_of l (rpt (fst m))) -> (on_segment l (rpt (snd m)) -> end_of l (rpt (snd m))) ->
    (on_segment m (rpt (fst l)) -> end_of m (rpt (fst l))) -> (on_segment m (rpt (snd l)) -> end_of m (rpt (snd l))) -> same_line l m.
  Proof.
    intros Rl Rm Pa Ql Qm Ne M1 M2 L1 L2. destruct (inner l q Rl Ql Ne) as (w & W & Ew). set (A := rpt (fst l)) in *. set (B := rpt (snd l)) in *.
    assert (AB : rless A B) by exact Rl. destruct Qm as (z & Z & Ez).
    assert (D : exists k, fst (rpt (snd m)) - fst (rpt (fst m)) = k * (fst B - fst A) /\ snd (rpt (snd m)) - snd (rpt (fst m)) = k * (snd B - snd A)).
    { unfold parallel in Pa. cbn zeta in Pa. fold A B in Pa. unfold point_before in AB. destruct (Req_dec (fst B) (fst A)) as [E|E].
      - assert (snd B - snd A <> 0) by lra. exists ((snd (rpt (snd m)) - snd (rpt (fst m))) / (snd B - snd A)). split; [|field; assumption].
        rewrite E in Pa |- *. assert (fst (rpt (snd m)) - fst (rpt (fst m)) = 0) by (apply Rmult_eq_reg_l with (snd B - snd A); [lra|assumption]). lra.
      - exists ((fst (rpt (snd m)) - fst (rpt (fst m))) / (fst B - fst A)). split; [field; lra|]. apply Rmult_eq_reg_l with (fst B - fst A); [|lra]. rewrite Pa. field. lra. }
    destruct D as (k & K1 & K2).
    assert (E1 : rpt (fst m) = along A B (w - z * k)).
    { assert (Q : along A B w = along (rpt (fst m)) (rpt (snd m)) z) by congruence. unfold along in *. rewrite K1, K2 in Q.
      pose proof (f_equal fst Q) as Q1. pose proof (f_equal snd Q) as Q2. cbn [fst snd] in Q1, Q2. apply injective_projections; cbn [fst snd]; lra. }
    assert (E2 : rpt (snd m) = along A B (w - z * k + k)).
    { apply injective_projections; [apply (f_equal fst) in E1|apply (f_equal snd) in E1]; unfold along in *; cbn [fst snd] in *; lra. }
    assert (Kp : 0 < k). { assert (Rm' : rless (rpt (fst m)) (rpt (snd m))) by exact Rm. rewrite E1, E2 in Rm'. apply (along_less A B) in Rm'; [lra|exact AB]. }
    set (u := w - z * k) in *. assert (Uw : u <= w <= u + k) by (unfold u; split; nra).
    assert (On : forall v, 0 <= v <= 1 -> on_segment l (along A B v)) by (intros v V; exists v; auto).
    assert (Inj : forall s t, along A B s = along A B t -> s = t).
    { intros s t Q. destruct (Rtotal_order s t) as [H|[H|H]]; [exfalso|exact H|exfalso]; apply (along_less A B _ _ AB) in H; rewrite Q in H; now apply rless_irrefl in H. }
    assert (Onm : forall v, u <= v <= u + k -> on_segment m (along A B v)).
    { intros v V. exists ((v - u) / k). split; [split; [apply Rmult_le_reg_r with k; [lra|]|apply Rmult_le_reg_r with k; [lra|]]; replace ((v - u) / k * k) with (v - u) by (field; lra); lra|].
      rewrite E1, E2. unfold along. cbn [fst snd]. f_equal; field; lra. }
    assert (A0 : A = along A B 0) by (symmetry; apply along_0). assert (B1 : B = along A B 1) by (symmetry; apply along_1).
    assert (Eu : u = 0).
    { destruct (Rlt_le_dec u 0) as [H|H].
      - exfalso. assert (Q0 : on_segment m A) by (rewrite A0; apply Onm; lra). destruct (L1 Q0) as [Q|Q].
        + assert (Q' : along A B 0 = along A B u) by (rewrite <- E1, <- Q; symmetry; exact A0). apply Inj in Q'. lra.
        + assert (Q' : along A B 0 = along A B (u + k)) by (rewrite <- E2, <- Q; symmetry; exact A0). apply Inj in Q'. lra.
      - assert (Q0 : on_segment l (rpt (fst m))) by (rewrite E1; apply On; lra). destruct (M1 Q0) as [Q|Q].
        + assert (Q' : along A B u = along A B 0) by (rewrite <- E1, Q; exact A0). now apply Inj in Q'.
        + assert (Q' : along A B u = along A B 1) by (rewrite <- E1, Q; exact B1). apply Inj in Q'. lra. }
    assert (Ev : u + k = 1).
    { destruct (Rlt_le_dec 1 (u + k)) as [H|H].
      - exfalso. assert (Q0 : on_segment m B) by (rewrite B1; apply Onm; lra). destruct (L2 Q0) as [Q|Q].
        + assert (Q' : along A B 1 = along A B u) by (rewrite <- E1, <- Q; symmetry; exact B1). apply Inj in Q'. lra.
        + assert (Q' : along A B 1 = along A B (u + k)) by (rewrite <- E2, <- Q; symmetry; exact B1). apply Inj in Q'. lra.
      - assert (Q0 : on_segment l (rpt (snd m))) by (rewrite E2; apply On; lra). destruct (M2 Q0) as [Q|Q].
        + assert (Q' : along A B (u + k) = along A B 0) by (rewrite <- E2, Q; exact A0). apply Inj in Q'. lra.
        + assert (Q' : along A B (u + k) = along A B 1) by (rewrite <- E2, Q; exact B1). now apply Inj in Q'. }
    split; fold A B; [rewrite E1, Eu; exact A0|rewrite E2, Ev; exact B1].
  Qed.
  Lemma parallel_sym a b : parallel a b -> parallel b a. Proof. unfold parallel. cbn zeta. lra. Qed.
  Lemma same_sym a b : same_line a b -> same_line b a. Proof. intros [A B]. split; auto. Qed.
  Lemma pieces_settled clip i j a b l m q : corners segs -> nth_error segs i = Some a -> nth_error segs j = Some b ->
    In l (pieces_of clip i a) -> In m (pieces_of clip j b) -> on_segment l q -> on_segment m q -> end_of l q /\ end_of m q \/ same_line l m.
  Proof.
    intros Co Ha Hb Hl Hm Ql Qm. destruct (Classical_Prop.classic (parallel l m)) as [Pa|Np]; [|left; exact (pieces_noded clip i j a b l m q Ha Hb Hl Hm Np Ql Qm)].
    destruct (piece_sound clip i a l Ha Hl) as (Na & _ & _ & Rl & L1 & (v & V1 & V2) & L2), (piece_sound clip j b m Hb Hm) as (Nb & _ & _ & Rm & M1 & (u & U1 & U2) & M2).
    assert (Nv : v <> 0) by (intros ->; unfold rightward in Rl; lra). assert (Nu : u <> 0) by (intros ->; unfold rightward in Rm; lra).
    assert (Pab : parallel a b).
    { unfold parallel in *. cbn zeta in *. rewrite V1, V2, U1, U2 in Pa. apply Rmult_eq_reg_l with (v * u); [|now apply Rmult_integral_contrapositive]. lra. }
    assert (E : forall w (o : line), (w = fst o \/ w = snd o) -> on_segment o (rpt w)).
    { intros w o [-> | ->]; [exists 0; split; [lra|symmetry; apply along_0]|exists 1; split; [lra|symmetry; apply along_1]]. }
    destruct (piece_ends clip i a l Hl) as [Pl1 Pl2], (piece_ends clip j b m Hm) as [Pm1 Pm2].
    assert (X : forall x, In x (points_of calls j b) -> on_segment l (rpt x) -> end_of l (rpt x)).
    { intros x Hx Qx. destruct (point_shared i j a b x Co Ha Hb Na Nb Pab Hx (L1 _ Qx)) as (y & Hy & Ey). apply (L2 y _ Hy Qx). now rewrite Ey. }
    assert (Y : forall x, In x (points_of calls i a) -> on_segment m (rpt x) -> end_of m (rpt x)).
    { intros x Hx Qx. destruct (point_shared j i b a x Co Hb Ha Nb Na (parallel_sym _ _ Pab) Hx (M1 _ Qx)) as (y & Hy & Ey). apply (M2 y _ Hy Qx). now rewrite Ey. }
    destruct (Classical_Prop.classic (end_of l q)) as [El|El].
    - destruct (Classical_Prop.classic (end_of m q)) as [Em|Em]; [left; auto|right].
      apply same_sym, (overlap m l q); auto using parallel_sym.
    - right. apply (overlap l m q); auto.
  Qed.

  (** The loop over the segments. *)
  Lemma split_spec stop clip tl : (forall n, stop n = false) -> forall i,
    exists out, split sort_pts stop c clip calls i tl = Some out /\
      forall l, In l out <-> exists k s, nth_error tl k = Some s /\ In l (pieces_of clip (i + k) s).
  Proof.
    intros Hst. induction tl as [|s tl IH]; intros i; cbn [split].
    - exists []. split; [reflexivity|]. intros l. split; [intros []|intros ([|k] & s & H & _); discriminate].
    - rewrite Hst. destruct (IH (S i)) as (out & -> & R). eexists. split; [reflexivity|]. intros l. rewrite in_app_iff, R. split.
      + intros [H|(k & s' & H & Q)]; [exists 0%nat, s; split; [reflexivity|]; rewrite Nat.add_0_r; exact H|]. exists (S k), s'. split; [exact H|]. now rewrite Nat.add_succ_r.
      + intros ([|k] & s' & H & Q); [left; injection H as <-; rewrite Nat.add_0_r in Q; exact Q|]. right. exists k, s'. split; [exact H|]. now rewrite Nat.add_succ_r in Q.
  Qed.
End Pieces.

(** ** Removing duplicates *)
Lemma uniqued_after_in segs : forall prev x, In x (uniqued_after prev segs) -> In x segs.
Proof.
  induction segs as [|s tl IH]; intros prev x; cbn [uniqued_after]; [intros []|]. destruct (_ && _); cbn [In]; [intros H; right; now apply (IH s)|].
  intros [<-|H]; [now left|right; now apply (IH s)].
Qed.
Lemma uniqued_in segs x : In x (uniqued segs) -> In x segs.
Proof. destruct segs as [|s tl]; [intros []|]. intros [<-|H]; [now left|right; now apply (uniqued_after_in tl s)]. Qed.
Lemma same_line_trans a b d : same_line a b -> same_line b d -> same_line a d.
Proof. intros [A B] [C D]. split; congruence. Qed.
Lemma equal_ends a b : small_seg a -> small_seg b -> point_equal hi_cmp (fst a) (fst b) && point_equal hi_cmp (snd a) (snd b) = true <-> same_line a b.
Proof. intros [A1 A2] [B1 B2]. rewrite andb_true_iff. unfold same_line. now rewrite (hi_apart _ _ A1 B1), (hi_apart _ _ A2 B2). Qed.
Lemma uniqued_after_all segs : forall prev, small_seg prev -> (forall x, In x segs -> small_seg x) ->
  forall x, In x segs -> exists y, In y (prev :: uniqued_after prev segs) /\ same_line x y.
Proof.
  induction segs as [|s tl IH]; intros prev Sp S x Hx; [destruct Hx|]. cbn [uniqued_after]. assert (Ss : small_seg s) by (apply S; now left).
  assert (S' : forall y, In y tl -> small_seg y) by (intros y Hy; apply S; now right).
  destruct (_ && _) eqn:E.
  - apply equal_ends in E; [|assumption|assumption]. destruct Hx as [<-|Hx]; [exists prev; split; [now left|exact E]|].
    destruct (IH s Ss S' x Hx) as (y & [<-|Hy] & Q); [exists prev; split; [now left|eapply same_line_trans; eassumption]|]. exists y. split; [now right|exact Q].
  - destruct Hx as [<-|Hx]; [exists s; split; [right; now left|split; reflexivity]|]. destruct (IH s Ss S' x Hx) as (y & Hy & Q). exists y. split; [right; exact Hy|exact Q].
Qed.
Lemma uniqued_all segs : (forall x, In x segs -> small_seg x) -> forall x, In x segs -> exists y, In y (uniqued segs) /\ same_line x y.
Proof.
  destruct segs as [|s tl]; intros S x Hx; [destruct Hx|]. cbn [uniqued]. destruct Hx as [<-|Hx]; [exists s; split; [now left|split; reflexivity]|].
  apply uniqued_after_all; [apply S; now left|intros y Hy; apply S; now right|exact Hx].
Qed.
Lemma skipn_In {A} n (l : list A) x : In x (skipn n l) -> In x l.
Proof. intros H. rewrite <- (firstn_skipn n l). apply in_or_app. now right. Qed.

Lemma unique_set sort segs : sorts sort -> (forall x, In x segs -> small_seg x) ->
  (forall x, In x (unique sort segs) -> In x segs) /\ (forall x, In x segs -> exists y, In y (unique sort segs) /\ same_line x y).
Proof.
  intros Hs S. unfold unique. pose proof (proj1 (Hs line_less segs)) as P. set (st := sort line_less segs) in *. split.
  - intros x Hx. apply (Permutation_in _ (Permutation_sym P)). apply in_app_or in Hx as [Hx|Hx]; [now apply uniqued_in|now apply skipn_In in Hx].
  - intros x Hx. destruct (uniqued_all st) with (x := x) as (y & Hy & Q); [intros z Hz; apply S; now apply (Permutation_in _ (Permutation_sym P))|now apply (Permutation_in _ P)|].
    exists y. split; [apply in_or_app; now left|exact Q].
Qed.
(** The beginning is strictly ascending; the length does not change. *)
Lemma line_less_small a b : small_seg a -> small_seg b -> line_less a b = true <-> line_before a b.
Proof. intros [A1 A2] [B1 B2]. unfold line_less, line_before. rewrite orb_true_iff, andb_true_iff, !xy_small by assumption. now rewrite (hi_apart _ _ A1 B1). Qed.
Lemma line_before_irrefl a : ~ line_before a a.
Proof. intros [H|[_ H]]; now apply rless_irrefl in H. Qed.
Lemma line_before_trans a b d : line_before a b -> line_before b d -> line_before a d.
Proof. intros [A|[A A']] [B|[B B']]; unfold line_before; [left; eapply rless_trans; eassumption|left; now rewrite <- B|left; now rewrite A|right]. split; [congruence|eapply rless_trans; eassumption]. Qed.
Lemma line_total a b : line_before a b \/ same_line a b \/ line_before b a.
Proof.
  unfold line_before, same_line. destruct (Classical_Prop.classic (rpt (fst a) = rpt (fst b))) as [E|E]; [|destruct (rless_total _ _ E); auto].
  destruct (Classical_Prop.classic (rpt (snd a) = rpt (snd b))) as [E'|E']; [auto|]. rewrite E. destruct (rless_total _ _ E'); auto.
Qed.
Lemma sort_lines_order sort segs : sorts sort -> (forall x, In x segs -> small_seg x) -> in_order (fun a b => line_less a b = true) (sort line_less segs).
Proof.
  intros Hs S. apply (proj2 (Hs line_less segs)).
  - intros a Ha. destruct (line_less a a) eqn:E; [|reflexivity]. apply line_less_small in E; auto. now apply line_before_irrefl in E.
  - intros a b d Ha Hb Hd. rewrite !line_less_small by auto. apply line_before_trans.
  - intros a b d Ha Hb Hd A B. destruct (line_less a d) eqn:E; [exfalso|reflexivity]. apply line_less_small in E; auto.
    assert (A' : ~ line_before a b) by (rewrite <- line_less_small by auto; congruence). assert (B' : ~ line_before b d) by (rewrite <- line_less_small by auto; congruence).
    destruct (line_total a b) as [Q|[Q|Q]]; [contradiction| |].
    + destruct Q as [Q1 Q2]. apply B'. unfold line_before in *. now rewrite <- Q1, <- Q2.
    + apply B'. eapply line_before_trans; eassumption.
Qed.
Definition ascending (l : list line) : Prop := forall i j x y, (i < j)%nat -> nth_error l i = Some x -> nth_error l j = Some y -> line_before x y.
Lemma uniqued_after_ascending segs : forall prev, (forall x, In x (prev :: segs) -> small_seg x) -> in_order (fun a b => line_less a b = true) (prev :: segs) ->
  (forall x, In x (uniqued_after prev segs) -> line_before prev x) /\ ascending (uniqued_after prev segs).
Proof.
  induction segs as [|s tl IH]; intros prev S O; [split; [intros x []|intros i j x y _ Hi; destruct i; discriminate]|].
  assert (Sp : small_seg prev) by (apply S; now left). assert (Ss : small_seg s) by (apply S; right; now left).
  assert (O' : in_order (fun a b => line_less a b = true) (s :: tl)) by (intros i j x y L Hi Hj; apply (O (Datatypes.S i) (Datatypes.S j) x y); [lia|exact Hi|exact Hj]).
  assert (Ps : ~ line_before s prev) by (rewrite <- line_less_small by assumption; apply (O 0%nat 1%nat); [lia|reflexivity|reflexivity]).
  destruct (IH s) as [I1 I2]; [intros x Hx; apply S; now right|exact O'|]. cbn [uniqued_after]. destruct (_ && _) eqn:E.
  - apply equal_ends in E as [E1 E2]; [|assumption|assumption]. split; [|exact I2]. intros x Hx. specialize (I1 x Hx). unfold line_before in *. now rewrite <- E1, <- E2.
  - assert (N : ~ same_line s prev) by (rewrite <- equal_ends by assumption; congruence).
    assert (L : line_before prev s). { destruct (line_total prev s) as [Q|[Q|Q]]; [exact Q|elim N; destruct Q; split; auto|contradiction]. }
    split.
    + intros x [<-|Hx]; [exact L|eapply line_before_trans; [exact L|now apply I1]].
    + intros [|i] [|j] x y Lij Hi Hj; try lia.
      * injection Hi as <-. apply I1. exact (nth_error_In _ j Hj).
      * apply (I2 i j); [lia|exact Hi|exact Hj].
Qed.
Lemma uniqued_ascending segs : (forall x, In x segs -> small_seg x) -> in_order (fun a b => line_less a b = true) segs -> ascending (uniqued segs).
Proof.
  destruct segs as [|s tl]; intros S O; [intros i j x y _ Hi; destruct i; discriminate|]. destruct (uniqued_after_ascending tl s S O) as [A B].
  intros [|i] [|j] x y Lij Hi Hj; try lia; cbn [uniqued] in *.
  - injection Hi as <-. apply A. exact (nth_error_In _ j Hj).
  - apply (B i j); [lia|exact Hi|exact Hj].
Qed.
Lemma uniqued_after_length segs : forall prev, (length (uniqued_after prev segs) <= length segs)%nat.
Proof. induction segs as [|s tl IH]; intros prev; cbn [uniqued_after]; [cbn; lia|]. destruct (_ && _); cbn [length]; specialize (IH s); lia. Qed.
Theorem unique_spec sort segs : sorts sort -> (forall x, In x segs -> small_seg x) ->
  exists u rest, unique sort segs = u ++ rest /\ ascending u /\ length (unique sort segs) = length segs /\
    (forall x, In x (u ++ rest) -> In x segs) /\ (forall x, In x segs -> exists y, In y u /\ same_line x y).
Proof.
  intros Hs S. pose proof (proj1 (Hs line_less segs)) as P. pose proof (sort_lines_order sort segs Hs S) as O.
  exists (uniqued (sort line_less segs)), (skipn (length (uniqued (sort line_less segs))) (sort line_less segs)). split; [reflexivity|]. split.
  - apply uniqued_ascending; [|exact O]. intros x Hx. apply S. now apply (Permutation_in _ (Permutation_sym P)).
  - split; [|split].
    + unfold unique. rewrite app_length, skipn_length, (Permutation_length P).
      assert (length (uniqued (sort line_less segs)) <= length (sort line_less segs))%nat; [|lia].
      destruct (sort line_less segs) as [|s tl]; cbn [uniqued length]; [lia|]. pose proof (uniqued_after_length tl s). lia.
    + apply (unique_set sort segs Hs S).
    + intros x Hx. apply uniqued_all; [|now apply (Permutation_in _ P)]. intros z Hz. apply S. now apply (Permutation_in _ (Permutation_sym P)).
Qed.
