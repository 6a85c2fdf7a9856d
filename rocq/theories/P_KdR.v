(** EuclideanDistance of a box is a lower bound for the points inside. *)
From Coq Require Import ZArith Bool List Lia Reals Lra Permutation Sorted.
From Flocq Require Import Core.Core.
From Verif Require Import Base_F64 Base_F64Arith Base_Geom Base_Res M_Extent S_Extent M_Heap M_Kd S_Kd
  P_F64 P_F64Flocq P_F64Round P_Extent P_Extent2 P_F64Sqrt P_Kd.
Import ListNotations.
Open Scope R_scope.

Definition fin_box (e : extent) : Prop := fin (e0 e) /\ fin (e1 e) /\ fin (e2 e) /\ fin (e3 e).

Lemma fin_lt a b : fin a -> fin b -> if f64_lt a b then f64_R a < f64_R b else f64_R b <= f64_R a.
Proof.
  intros [Wa Fa] [Wb Fb]. pose proof (lt_R a b Wa Wb Fa Fb) as H.
  destruct (f64_lt a b); [now apply H|]. apply Rnot_lt_le. intros L. apply H in L. discriminate.
Qed.
Lemma fin_le a b : fin a -> fin b -> if f64_le a b then f64_R a <= f64_R b else f64_R b < f64_R a.
Proof.
  intros [Wa Fa] [Wb Fb]. pose proof (le_R a b Wa Wb Fa Fb) as H.
  destruct (f64_le a b); [now apply H|]. apply Rnot_le_lt. intros L. apply H in L. discriminate.
Qed.

Lemma fin_sub a b : fin a -> fin b -> is_round (f64_R a - f64_R b) (f64_sub a b).
Proof. intros [Wa Fa] [Wb Fb]. now apply sub_round. Qed.

(** ** distance *)
Lemma distance_le p c q : fin_pt p -> fin_pt c -> fin_pt q ->
  Rabs (X c - X p) <= Rabs (X q - X p) -> Rabs (Y c - Y p) <= Rabs (Y q - Y p) ->
  f64_le (distance p c) (distance p q) = true.
Proof.
  intros [P1 P2] [C1 C2] [Q1 Q2] L1 L2. unfold distance.
  pose proof (fin_sub _ _ C1 P1) as A1. pose proof (fin_sub _ _ C2 P2) as A2.
  pose proof (fin_sub _ _ Q1 P1) as B1. pose proof (fin_sub _ _ Q2 P2) as B2.
  apply sqrt_le; [apply add_pos; eapply sq_pos; eassumption|apply add_pos; eapply sq_pos; eassumption|].
  apply add_le; try (eapply sq_pos; eassumption); eapply sq_le; eassumption.
Qed.

Lemma distance_pos p c : fin_pt p -> fin_pt c -> pos (distance p c).
Proof.
  intros [P1 P2] [C1 C2]. unfold distance. apply fsqrt_pos, add_pos; eapply sq_pos; apply fin_sub; assumption.
Qed.

Lemma leg_le g a r v w : is_round g a -> is_round r v -> bpow radix2 (-511) <= g -> g <= Rabs r -> pos w ->
  f64_le a (f64_sqrt (f64_add (f64_mul v v) w)) = true /\ f64_le a (f64_sqrt (f64_add w (f64_mul v v))) = true.
Proof.
  intros Ha Hv Lg Lr Pw. pose proof (bpow_gt_0 radix2 (-511)).
  pose proof (sqrt_sq_ge g a Ha Lg) as S.
  assert (Q : f64_le (f64_mul a a) (f64_mul v v) = true).
  { eapply sq_le; [exact Ha|exact Hv|]. rewrite (Rabs_pos_eq g) by lra. exact Lr. }
  assert (Pa : pos (f64_mul a a)) by (eapply sq_pos; eassumption).
  assert (Pv : pos (f64_mul v v)) by (eapply sq_pos; eassumption).
  split; eapply f64_le_trans; try exact S; apply sqrt_le; auto using add_pos.
  - eapply f64_le_trans; [exact Q|]. now apply add_ge_l.
  - eapply f64_le_trans; [exact Q|]. now apply add_comm_f.
Qed.

(** ** The four kinds of result *)
Definition gap (v lo hi g : R) : Prop :=
  (lo <= v <= hi /\ g = 0) \/ (v < lo /\ g = lo - v) \/ (hi < v /\ g = v - hi).

Lemma gap_mono v lo hi q g h : lo <= q <= hi -> gap v lo hi g -> gap v q q h -> 0 <= g <= h.
Proof. unfold gap. intros H1 [[H2 ->]|[[H2 ->]|[H2 ->]]] [[H3 ->]|[[H3 ->]|[H3 ->]]]; lra. Qed.

Lemma gap_q v q h : gap v q q h -> h = Rabs (q - v).
Proof.
  unfold gap. intros [[H ->]|[[H ->]|[H ->]]].
  - rewrite Rabs_pos_eq by lra. lra.
  - now rewrite Rabs_pos_eq by lra.
  - rewrite Rabs_left by lra. lra.
Qed.

Lemma eu_cases p e : fin_pt p -> fin_box e -> f64_R (e0 e) <= f64_R (e2 e) -> f64_R (e1 e) <= f64_R (e3 e) ->
  exists gx gy, gap (X p) (f64_R (e0 e)) (f64_R (e2 e)) gx /\ gap (Y p) (f64_R (e1 e)) (f64_R (e3 e)) gy /\
  ((gx = 0 /\ gy = 0 /\ euclidean_distance p e = f64_zero) \/
   (0 < gx /\ gy = 0 /\ is_round gx (euclidean_distance p e)) \/
   (gx = 0 /\ 0 < gy /\ is_round gy (euclidean_distance p e)) \/
   (0 < gx /\ 0 < gy /\ exists c, fin_pt c /\ euclidean_distance p e = distance p c /\
      Rabs (X c - X p) = gx /\ Rabs (Y c - Y p) = gy)).
Proof.
  intros [P1 P2] (E0 & E1 & E2 & E3) N1 N2. unfold euclidean_distance, contains_point, X, Y.
  pose proof (fin_le _ _ E0 P1) as A1. pose proof (fin_le _ _ P1 E2) as A2.
  pose proof (fin_le _ _ E1 P2) as A3. pose proof (fin_le _ _ P2 E3) as A4.
  pose proof (fin_lt _ _ P1 E0) as B1. pose proof (fin_lt _ _ P2 E1) as B2.
  pose proof (fin_lt _ _ E2 P1) as B3. pose proof (fin_lt _ _ E3 P2) as B4.
  unfold f64_gt.
  assert (G : forall v lo hi, lo <= v <= hi -> gap v lo hi 0) by (unfold gap; intros; lra).
  destruct (f64_lt (fst p) (e0 e)).
  - assert (F0 : f64_le (e0 e) (fst p) = false) by (destruct (f64_le (e0 e) (fst p)); [lra|reflexivity]).
    rewrite F0. cbn [andb].
    assert (Gx : gap (f64_R (fst p)) (f64_R (e0 e)) (f64_R (e2 e)) (f64_R (e0 e) - f64_R (fst p))) by (unfold gap; lra).
    destruct (f64_lt (snd p) (e1 e)).
    + exists (f64_R (e0 e) - f64_R (fst p)), (f64_R (e1 e) - f64_R (snd p)).
      split; [exact Gx|]. split; [unfold gap; lra|]. right; right; right. split; [lra|]. split; [lra|].
      exists (e0 e, e1 e). split; [split; assumption|]. split; [reflexivity|]. cbn [fst snd].
      rewrite !Rabs_pos_eq by lra. auto.
    + destruct (f64_lt (e3 e) (snd p)).
      * exists (f64_R (e0 e) - f64_R (fst p)), (f64_R (snd p) - f64_R (e3 e)).
        split; [exact Gx|]. split; [unfold gap; lra|]. right; right; right. split; [lra|]. split; [lra|].
        exists (e0 e, e3 e). split; [split; assumption|]. split; [reflexivity|]. cbn [fst snd].
        rewrite Rabs_pos_eq, Rabs_left by lra. split; lra.
      * exists (f64_R (e0 e) - f64_R (fst p)), 0. split; [exact Gx|]. split; [apply G; lra|].
        right; left. split; [lra|]. split; [reflexivity|]. now apply fin_sub.
  - destruct (f64_lt (e2 e) (fst p)).
    + assert (F0 : f64_le (fst p) (e2 e) = false) by (destruct (f64_le (fst p) (e2 e)); [lra|reflexivity]).
      rewrite F0, andb_false_r. cbn [andb].
      assert (Gx : gap (f64_R (fst p)) (f64_R (e0 e)) (f64_R (e2 e)) (f64_R (fst p) - f64_R (e2 e))) by (unfold gap; lra).
      destruct (f64_lt (snd p) (e1 e)).
      * exists (f64_R (fst p) - f64_R (e2 e)), (f64_R (e1 e) - f64_R (snd p)).
        split; [exact Gx|]. split; [unfold gap; lra|]. right; right; right. split; [lra|]. split; [lra|].
        exists (e2 e, e1 e). split; [split; assumption|]. split; [reflexivity|]. cbn [fst snd].
        rewrite Rabs_left, Rabs_pos_eq by lra. split; lra.
      * destruct (f64_lt (e3 e) (snd p)).
        -- exists (f64_R (fst p) - f64_R (e2 e)), (f64_R (snd p) - f64_R (e3 e)).
           split; [exact Gx|]. split; [unfold gap; lra|]. right; right; right. split; [lra|]. split; [lra|].
           exists (e2 e, e3 e). split; [split; assumption|]. split; [reflexivity|]. cbn [fst snd].
           rewrite !Rabs_left by lra. split; lra.
        -- exists (f64_R (fst p) - f64_R (e2 e)), 0. split; [exact Gx|]. split; [apply G; lra|].
           right; left. split; [lra|]. split; [reflexivity|]. now apply fin_sub.
    + assert (F0 : f64_le (e0 e) (fst p) = true) by (destruct (f64_le (e0 e) (fst p)); [reflexivity|lra]).
      assert (F1 : f64_le (fst p) (e2 e) = true) by (destruct (f64_le (fst p) (e2 e)); [reflexivity|lra]).
      rewrite F0, F1. cbn [andb]. exists 0.
      destruct (f64_lt (snd p) (e1 e)).
      * assert (F2 : f64_le (e1 e) (snd p) = false) by (destruct (f64_le (e1 e) (snd p)); [lra|reflexivity]).
        rewrite F2. cbn [andb]. exists (f64_R (e1 e) - f64_R (snd p)). split; [apply G; lra|].
        split; [unfold gap; lra|]. right; right; left. split; [reflexivity|]. split; [lra|]. now apply fin_sub.
      * assert (F2 : f64_le (e1 e) (snd p) = true) by (destruct (f64_le (e1 e) (snd p)); [reflexivity|lra]).
        rewrite F2. cbn [andb]. destruct (f64_le (snd p) (e3 e)).
        -- exists 0. split; [apply G; lra|]. split; [apply G; lra|]. left. auto.
        -- exists (f64_R (snd p) - f64_R (e3 e)). split; [apply G; lra|]. split; [unfold gap; lra|].
           right; right; left. split; [reflexivity|]. split; [lra|]. now apply fin_sub.
Qed.


Theorem euclid_lower p e q : fin_pt p -> fin_box e -> fin_pt q -> inside e q ->
  apart (f64_R (e0 e)) (X p) -> apart (f64_R (e2 e)) (X p) ->
  apart (f64_R (e1 e)) (Y p) -> apart (f64_R (e3 e)) (Y p) ->
  f64_le (euclidean_distance p e) (euclidean_distance p (pt_box q)) = true.
Proof.
  intros Fp Fe Fq (I1 & I2 & I3 & I4) S0 S2 S1 S3. pose proof Fe as (E0 & E1 & E2 & E3). pose proof Fq as [Q1 Q2].
  pose proof (fin_le _ _ E0 Q1) as A1. pose proof (fin_le _ _ Q1 E2) as A2.
  pose proof (fin_le _ _ E1 Q2) as A3. pose proof (fin_le _ _ Q2 E3) as A4.
  rewrite I1, I2, I3, I4 in *.
  destruct (eu_cases p e Fp Fe) as (gx & gy & Gx & Gy & C); [lra|lra|].
  destruct (eu_cases p (pt_box q) Fp) as (hx & hy & Hx & Hy & D).
  { repeat split; try apply Q1; try apply Q2. } { cbn; lra. } { cbn; lra. }
  cbn [pt_box e0 e1 e2 e3] in Hx, Hy.
  pose proof (gap_mono _ _ _ _ _ _ (conj A1 A2) Gx Hx) as Mx.
  pose proof (gap_mono _ _ _ _ _ _ (conj A3 A4) Gy Hy) as My.
  pose proof (gap_q _ _ _ Hx) as Ax. pose proof (gap_q _ _ _ Hy) as Ay.
  pose proof (bpow_gt_0 radix2 (-511)) as B0.
  assert (Sx : 0 < gx -> bpow radix2 (-511) <= gx).
  { intros Pg. unfold gap in Gx. destruct Gx as [[? ->]|[[H ->]|[H ->]]]; [lra| |].
    - destruct S0 as [S0|S0]; [lra|]. rewrite Rabs_pos_eq in S0 by lra. exact S0.
    - destruct S2 as [S2|S2]; [lra|]. rewrite Rabs_left in S2 by lra. lra. }
  assert (Sy : 0 < gy -> bpow radix2 (-511) <= gy).
  { intros Pg. unfold gap in Gy. destruct Gy as [[? ->]|[[H ->]|[H ->]]]; [lra| |].
    - destruct S1 as [S1|S1]; [lra|]. rewrite Rabs_pos_eq in S1 by lra. exact S1.
    - destruct S3 as [S3|S3]; [lra|]. rewrite Rabs_left in S3 by lra. lra. }
  assert (Dp : pos (euclidean_distance p (pt_box q))).
  { destruct D as [(_ & _ & ->)|[(H & _ & R)|[(_ & H & R)|(_ & _ & c & Fc & -> & _)]]].
    - now repeat split.
    - eapply pos_round; [exact R|lra].
    - eapply pos_round; [exact R|lra].
    - now apply distance_pos. }
  destruct C as [(-> & -> & ->)|[(Px & -> & R)|[(-> & Py & R)|(Px & Py & c & Fc & Ec & Cx & Cy)]]].
  - apply Dp.
  - destruct D as [(-> & _)|[(_ & _ & R')|[(-> & _)|(_ & _ & c & Fc & -> & Cx & Cy)]]]; [lra| |lra|].
    + eapply is_round_mono; [exact R|exact R'|lra].
    + destruct Fc as [Fc1 Fc2], Fp as [Fp1 Fp2]. unfold distance. cbn zeta.
      refine (proj1 (leg_le gx _ (X c - X p) _ _ R (fin_sub _ _ Fc1 Fp1) (Sx Px) _ _)); [rewrite Cx; lra|].
      eapply sq_pos. apply fin_sub; assumption.
  - destruct D as [(_ & -> & _)|[(_ & -> & _)|[(_ & _ & R')|(_ & _ & c & Fc & -> & Cx & Cy)]]]; [lra|lra| |].
    + eapply is_round_mono; [exact R|exact R'|lra].
    + destruct Fc as [Fc1 Fc2], Fp as [Fp1 Fp2]. unfold distance. cbn zeta.
      refine (proj2 (leg_le gy _ (Y c - Y p) _ _ R (fin_sub _ _ Fc2 Fp2) (Sy Py) _ _)); [rewrite Cy; lra|].
      eapply sq_pos. apply fin_sub; assumption.
  - destruct D as [(-> & _)|[(_ & -> & _)|[(-> & _)|(_ & _ & c' & Fc' & -> & Cx' & Cy')]]]; [lra|lra|lra|].
    rewrite Ec. apply distance_le; auto; lra.
Qed.

(** ** Box sides are coordinates of items *)
Section Tree.
  Context {A : Type} (xy : A -> point f64).

  Lemma list_min (f : A -> f64) (l : list A) : l <> [] -> (forall x, In x l -> nn (f x)) ->
    exists m, In m l /\ forall x, In x l -> f64_le (f m) (f x) = true.
  Proof.
    induction l as [|a l IH]; [congruence|]. intros _ H. destruct l as [|b l].
    - exists a. split; [now left|]. intros x [<-|[]]. apply f64_le_refl. apply H. now left.
    - destruct IH as (m & Im & Hm); [discriminate|intros; apply H; now right|].
      destruct (f64_le (f a) (f m)) eqn:L.
      + exists a. split; [now left|]. intros x [<-|Hx]; [apply f64_le_refl, H; now left|].
        eapply f64_le_trans; [exact L|auto].
      + exists m. split; [now right|]. intros x [<-|Hx]; [|auto].
        apply f64_lt_le, f64_not_le_lt; auto; apply H; [now left|now right].
  Qed.
  Lemma list_max (f : A -> f64) (l : list A) : l <> [] -> (forall x, In x l -> nn (f x)) ->
    exists m, In m l /\ forall x, In x l -> f64_le (f x) (f m) = true.
  Proof.
    induction l as [|a l IH]; [congruence|]. intros _ H. destruct l as [|b l].
    - exists a. split; [now left|]. intros x [<-|[]]. apply f64_le_refl. apply H. now left.
    - destruct IH as (m & Im & Hm); [discriminate|intros; apply H; now right|].
      destruct (f64_le (f m) (f a)) eqn:L.
      + exists a. split; [now left|]. intros x [<-|Hx]; [apply f64_le_refl, H; now left|].
        eapply f64_le_trans; [|exact L]. auto.
      + exists m. split; [now right|]. intros x [<-|Hx]; [|auto].
        apply f64_lt_le, f64_not_le_lt; auto; apply H; [now right|now left].
  Qed.

  Lemma key_same a b : fin b -> num a -> f64_le a b = true -> f64_le b a = true -> fin a /\ f64_R a = f64_R b.
  Proof.
    intros [Wb Fb] [Wa Na] L1 L2. apply le_inv in L1, L2. destruct L1 as (_ & _ & L1), L2 as (_ & _ & L2).
    pose proof (finite_key b Fb) as K.
    assert (Fa : f64_finite a = true).
    { destruct (finite_or_inf a (conj Wa Na)) as [H|[->| ->]]; [exact H| |].
      - rewrite key_pinf in *. lia.
      - rewrite key_ninf in *. lia. }
    split; [split; assumption|]. apply eq_R; auto. unfold f64_eq.
    rewrite (finite_nn _ Fa), (finite_nn _ Fb). cbn. lia.
  Qed.

  Lemma box_sides b (l : list A) : l <> [] -> (forall x, In x l -> fin_pt (xy x)) -> num_box b ->
    (forall x, In x l -> inside b (xy x)) ->
    (forall c, (forall x, In x l -> inside c (xy x)) -> box_within b c) ->
    fin_box b /\
    (exists x, In x l /\ f64_R (e0 b) = X (xy x)) /\ (exists x, In x l /\ f64_R (e1 b) = Y (xy x)) /\
    (exists x, In x l /\ f64_R (e2 b) = X (xy x)) /\ (exists x, In x l /\ f64_R (e3 b) = Y (xy x)).
  Proof.
    intros N F (N0 & N1 & N2 & N3) I L.
    assert (Fx : forall x, In x l -> nn (fst (xy x))) by (intros x Hx; apply finite_nn; apply F; auto).
    assert (Fy : forall x, In x l -> nn (snd (xy x))) by (intros x Hx; apply finite_nn; apply F; auto).
    destruct (list_min (fun x => fst (xy x)) l N Fx) as (m0 & I0 & H0).
    destruct (list_min (fun x => snd (xy x)) l N Fy) as (m1 & I1 & H1).
    destruct (list_max (fun x => fst (xy x)) l N Fx) as (m2 & I2 & H2).
    destruct (list_max (fun x => snd (xy x)) l N Fy) as (m3 & I3 & H3).
    destruct (L (Ext (fst (xy m0)) (snd (xy m1)) (fst (xy m2)) (snd (xy m3)))) as (B0 & B2 & B1 & B3).
    { intros x Hx. repeat split; cbn; auto. }
    cbn in B0, B1, B2, B3.
    destruct (I m0 I0) as (J0 & _). destruct (I m1 I1) as (_ & _ & J1 & _).
    destruct (I m2 I2) as (_ & J2 & _). destruct (I m3 I3) as (_ & _ & _ & J3).
    destruct (key_same (e0 b) (fst (xy m0))) as [K0 R0]; auto; [now apply F|].
    destruct (key_same (e1 b) (snd (xy m1))) as [K1 R1]; auto; [now apply F|].
    destruct (key_same (e2 b) (fst (xy m2))) as [K2 R2]; auto; [now apply F|].
    destruct (key_same (e3 b) (snd (xy m3))) as [K3 R3]; auto; [now apply F|].
    split; [repeat split; auto; try apply K0; try apply K1; try apply K2; try apply K3|].
    repeat split; eauto.
  Qed.

  Theorem euclid_lower_bound p l : fin_pt p -> Forall (fun x => fin_pt (xy x)) l ->
    Forall (fun x => apart (X (xy x)) (X p) /\ apart (Y (xy x)) (Y p)) l ->
    lower_bound xy euclidean_distance p (inserts xy l).
  Proof.
    intros Fp F S.
    assert (Nm : Forall (fun x => num_pt (xy x)) l).
    { eapply Forall_impl; [|exact F]. intros x [[W1 F1] [W2 F2]]. split; split; auto; now apply finite_nn. }
    destruct (inserts_inv xy l) as [_ P].
    assert (Sub : forall t d d' q b l' r x, In (d', q, b, l', r) (subtrees d t) -> In x (items (KNode q b l' r)) -> In x (items (A:=A) t)).
    { induction t as [|q b l1 IH1 r1 IH2]; intros d d' q' b' l' r' x I Hx; [destruct I|].
      destruct I as [E|I].
      - injection E as <- <- <- <- <-. exact Hx.
      - cbn [items]. right. apply in_or_app. apply in_app_or in I. destruct I; eauto. }
    pose proof (inserts_bx xy l Nm) as B. unfold bx in B. rewrite all_nodes_subtrees in B.
    intros d q b l' r I x Hx.
    destruct (B _ _ _ _ _ I) as (Nb & Bi & Bl).
    assert (In' : forall y, In y (items (KNode q b l' r)) -> In y l).
    { intros y Hy. apply (kept_in xy). apply (Permutation_in _ P). eapply Sub; eauto. }
    rewrite Forall_forall in F, S.
    destruct (box_sides b (items (KNode q b l' r))) as (Fb & (x0 & H0 & R0) & (x1 & H1 & R1) & (x2 & H2 & R2) & (x3 & H3 & R3)).
    - discriminate.
    - intros y Hy. apply F; auto.
    - exact Nb.
    - intros y Hy. exact (proj1 (within_pt _ _) (Bi y Hy)).
    - intros c Hc. apply Bl. intros y Hy. exact (proj2 (within_pt _ _) (Hc y Hy)).
    - apply euclid_lower; auto.
      + exact (proj1 (within_pt _ _) (Bi x Hx)).
      + rewrite R0. apply S; auto.
      + rewrite R2. apply S; auto.
      + rewrite R1. apply S; auto.
      + rewrite R3. apply S; auto.
  Qed.
End Tree.
