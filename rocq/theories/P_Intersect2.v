(** Proofs about segment intersection: exactness on grids. *)
From Coq Require Import ZArith Bool List Lia Reals Lra.
From Flocq Require Import Core.Core.
From Verif Require Import Base_F64 Base_F64Arith Base_Geom M_Geom M_Cmp M_Intersect S_Intersect S_Winding
  P_F64 P_F64Flocq P_F64Round P_F64Grid P_F64X P_Strconv4 P_Intersect.
Import ListNotations.
Open Scope Z_scope.

(** ** A quotient of integers rounded to float64, compared with 0 and 1 *)
Lemma rnd_1 : rnd 1 = 1%R.
Proof. pose proof (grid_rnd 0 1 ltac:(lia) ltac:(vm_compute; discriminate)) as H. cbn [bpow] in H. rewrite !Rmult_1_l in H. exact H. Qed.
Lemma rnd_above_1 : rnd (1 + bpow radix2 (-52)) = (1 + bpow radix2 (-52))%R.
Proof.
  pose proof (grid_rnd (-52) (2 ^ 52 + 1) ltac:(lia) ltac:(vm_compute; discriminate)) as H.
  replace (IZR (2 ^ 52 + 1) * bpow radix2 (-52))%R with (1 + bpow radix2 (-52))%R in H; [exact H|].
  rewrite plus_IZR. change (IZR (2 ^ 52)) with (bpow radix2 52). rewrite Rmult_plus_distr_r, <- bpow_plus.
  change (bpow radix2 (52 + -52)) with 1%R. ring.
Qed.
Lemma rnd_below_0 : rnd (- bpow radix2 (-52)) = (- bpow radix2 (-52))%R.
Proof.
  pose proof (grid_rnd (-52) (-1) ltac:(lia) ltac:(vm_compute; discriminate)) as H.
  replace (IZR (-1) * bpow radix2 (-52))%R with (- bpow radix2 (-52))%R in H by ring. exact H.
Qed.

Lemma div_pos_le (n d : R) : (0 < d)%R -> (0 <= n / d <-> 0 <= n)%R.
Proof.
  intros P. split; intros H.
  - replace n with (n / d * d)%R by (field; lra). nra.
  - apply Rmult_le_pos; [exact H | left; now apply Rinv_0_lt_compat].
Qed.

Lemma quotient_0 n d w : d <> 0 -> Z.abs d <= 2 ^ 52 ->
  is_round (IZR n / IZR d) w -> f64_le f64_zero w = true <-> (0 <= IZR n / IZR d)%R.
Proof.
  intros D B H. assert (Dr : IZR d <> 0%R) by now apply IZR_neq.
  assert (Z0 : is_round 0 f64_zero).
  { destruct (repr_zero 0) as (W & F & E). replace 0%R with (f64_R f64_zero) by (rewrite E; ring). now apply is_round_self. }
  split; intros L.
  - destruct (Rle_or_lt 0 (IZR n / IZR d)) as [P|P]; [exact P|exfalso].
    assert (Q : (IZR n / IZR d <= - bpow radix2 (-52))%R).
    { assert (N0 : n <> 0) by (intros ->; unfold Rdiv in P; rewrite Rmult_0_l in P; lra).
      assert (A : (IZR 1 <= Rabs (IZR n))%R) by (rewrite <- abs_IZR; apply IZR_le; lia).
      assert (C : (Rabs (IZR d) <= bpow radix2 52)%R) by (rewrite <- abs_IZR; change (bpow radix2 52) with (IZR (2 ^ 52)); apply IZR_le; lia).
      rewrite <- (Ropp_involutive (IZR n / IZR d)). apply Ropp_le_contravar.
      replace (- (IZR n / IZR d))%R with (Rabs (IZR n / IZR d)) by (rewrite Rabs_left by exact P; reflexivity).
      unfold Rdiv. rewrite Rabs_mult, Rabs_inv.
      assert (0 < Rabs (IZR d))%R by now apply Rabs_pos_lt.
      change (-52) with (- (52))%Z; rewrite bpow_opp. apply Rle_trans with (/ Rabs (IZR d))%R.
      - apply Rinv_le; assumption.
      - rewrite <- (Rmult_1_l (/ Rabs (IZR d))) at 1. apply Rmult_le_compat_r; [left; now apply Rinv_0_lt_compat | exact A]. }
    apply rnd_le in Q. rewrite rnd_below_0 in Q. pose proof (bpow_gt_0 radix2 (-52)) as B0.
    destruct H as [W [(F & E & _)|[(-> & G)|(-> & G)]]].
    + apply le_R in L; [|reflexivity|exact W|reflexivity|exact F]. destruct (repr_zero 0) as (_ & _ & E0). rewrite E0, E in L. lra.
    + assert (0 < huge)%R by apply bpow_gt_0. lra.
    + vm_compute in L. discriminate.
  - exact (is_round_mono _ _ _ _ Z0 H L).
Qed.

Lemma quotient_1 n d w : d <> 0 -> Z.abs d <= 2 ^ 52 ->
  is_round (IZR n / IZR d) w -> f64_le w f64_one = true <-> (IZR n / IZR d <= 1)%R.
Proof.
  intros D B H. assert (Dr : IZR d <> 0%R) by now apply IZR_neq.
  assert (E1 : f64_R f64_one = 1%R) by (pose proof xval_one as X; rewrite xval_finite in X by reflexivity; congruence).
  assert (O1 : is_round 1 f64_one) by (rewrite <- E1; now apply is_round_self).
  split; intros L.
  - destruct (Rle_or_lt (IZR n / IZR d) 1) as [P|P]; [exact P|exfalso].
    assert (Q : (1 + bpow radix2 (-52) <= IZR n / IZR d)%R).
    { assert (G : exists n' d', (0 < d' <= 2 ^ 52) /\ (IZR n / IZR d = IZR n' / IZR d')%R).
      { destruct (Z_lt_le_dec d 0).
        - exists (- n), (- d). split; [lia|]. rewrite !opp_IZR. field. exact Dr.
        - exists n, d. split; [lia | reflexivity]. }
      destruct G as (n' & d' & Hd & E). rewrite E in *. clear n d D B H Dr L E.
      assert (Dp : (0 < IZR d')%R) by (apply IZR_lt; lia).
      assert (Nd : (d' + 1 <= n')%Z).
      { assert (IZR d' < IZR n')%R as Lt; [|apply lt_IZR in Lt; lia].
        apply Rmult_lt_reg_r with (/ IZR d')%R; [now apply Rinv_0_lt_compat|]. rewrite Rinv_r by lra. exact P. }
      apply IZR_le in Nd. rewrite plus_IZR in Nd.
      assert (C : (IZR d' <= bpow radix2 52)%R) by (change (bpow radix2 52) with (IZR (2 ^ 52)); apply IZR_le; lia).
      apply Rle_trans with ((IZR d' + 1) / IZR d')%R.
      - replace ((IZR d' + 1) / IZR d')%R with (1 + / IZR d')%R by (field; lra).
        apply Rplus_le_compat_l. change (-52) with (- (52))%Z; rewrite bpow_opp. apply Rinv_le; assumption.
      - unfold Rdiv. apply Rmult_le_compat_r; [left; now apply Rinv_0_lt_compat | exact Nd]. }
    apply rnd_le in Q. rewrite rnd_above_1 in Q. pose proof (bpow_gt_0 radix2 (-52)) as B0.
    destruct H as [W [(F & E & _)|[(-> & G)|(-> & G)]]].
    + apply le_R in L; [|exact W|reflexivity|exact F|reflexivity]. rewrite E, E1 in L. lra.
    + vm_compute in L. discriminate.
    + assert (0 < huge)%R by apply bpow_gt_0. lra.
  - exact (is_round_mono _ _ _ _ H O1 L).
Qed.

Lemma quotient_repr e n d x y : repr e n x -> repr e d y -> d <> 0 -> is_round (IZR n / IZR d) (f64_div x y).
Proof.
  intros (Wx & Fx & Ex) (Wy & Fy & Ey) D. pose proof (bpow_gt_0 radix2 e) as P.
  assert (Dr : IZR d <> 0%R) by now apply IZR_neq.
  assert (N : f64_R y <> 0%R) by (rewrite Ey; apply Rmult_integral_contrapositive_currified; lra).
  pose proof (div_round x y Wx Wy Fx Fy N) as H. rewrite Ex, Ey in H.
  replace (IZR n / IZR d)%R with (IZR n * bpow radix2 e / (IZR d * bpow radix2 e))%R by (field; split; [exact Dr|lra]).
  exact H.
Qed.
Lemma repr_neg e n x : repr e n x -> repr e (- n) (f64_neg x).
Proof.
  intros (W & F & E). split; [now apply neg_word|]. split; [now rewrite neg_finite|].
  rewrite neg_R, E, opp_IZR by exact W. ring.
Qed.

(** ** Grid points *)
Definition det (a b c d : Z) : Z := a * d - b * c.

Lemma abs_mul_bound a b A B : Z.abs a <= A -> Z.abs b <= B -> Z.abs (a * b) <= A * B.
Proof. intros. rewrite Z.abs_mul. apply Z.mul_le_mono_nonneg; lia. Qed.

Lemma repr_det e a b c d x y z w : grid_exp e ->
  Z.abs a <= 2 ^ 25 -> Z.abs b <= 2 ^ 25 -> Z.abs c <= 2 ^ 25 -> Z.abs d <= 2 ^ 25 ->
  repr e a x -> repr e b y -> repr e c z -> repr e d w ->
  repr (e + e) (det a b c d) (f64_sub (f64_mul x w) (f64_mul y z)) /\ Z.abs (det a b c d) <= 2 ^ 52.
Proof.
  unfold grid_exp. intros He Ha Hb Hc Hd Ra Rb Rc Rd.
  pose proof (abs_mul_bound a d _ _ Ha Hd) as P. pose proof (abs_mul_bound b c _ _ Hb Hc) as Q.
  unfold det, two53 in *.
  split; [|lia]. apply repr_sub; [lia | unfold two53; lia | |]; apply repr_mul; auto; unfold two53; lia.
Qed.

Section Grid.
  Variables (e : Z) (a1 b1 a2 b2 a3 b3 a4 b4 : Z) (x1 y1 x2 y2 x3 y3 x4 y4 : f64).
  Hypothesis He : grid_exp e.
  Hypothesis X1 : repr e a1 x1.
  Hypothesis Y1 : repr e b1 y1.
  Hypothesis X2 : repr e a2 x2.
  Hypothesis Y2 : repr e b2 y2.
  Hypothesis X3 : repr e a3 x3.
  Hypothesis Y3 : repr e b3 y3.
  Hypothesis X4 : repr e a4 x4.
  Hypothesis Y4 : repr e b4 y4.
  Let l1 : line := ((x1, y1), (x2, y2)).
  Let l2 : line := ((x3, y3), (x4, y4)).
  Hypothesis B : Z.abs (a1 - a2) <= 2 ^ 25 /\ Z.abs (b1 - b2) <= 2 ^ 25 /\ Z.abs (a1 - a3) <= 2 ^ 25 /\
                 Z.abs (b1 - b3) <= 2 ^ 25 /\ Z.abs (a3 - a4) <= 2 ^ 25 /\ Z.abs (b3 - b4) <= 2 ^ 25.

  Let D := det (a1 - a2) (b1 - b2) (a3 - a4) (b3 - b4).
  Let T := det (a1 - a3) (b1 - b3) (a3 - a4) (b3 - b4).
  Let U := - det (a1 - a2) (b1 - b2) (a1 - a3) (b1 - b3).

  Lemma diff a b x y : Z.abs (a - b) <= 2 ^ 25 -> repr e a x -> repr e b y -> repr e (a - b) (f64_sub x y).
  Proof. intros H Rx Ry. unfold grid_exp in He. apply repr_sub; auto; [lia | unfold two53; lia]. Qed.

  Lemma grid_den : repr (e + e) D (denominator l1 l2) /\ Z.abs D <= 2 ^ 52.
  Proof. unfold denominator, l1, l2, D. apply repr_det; try apply diff; auto; apply B. Qed.

  Lemma grid_segment : snd (segment_intersect l1 l2) = true <->
    D <> 0 /\ (0 <= IZR T / IZR D <= 1)%R /\ (0 <= IZR U / IZR D <= 1)%R.
  Proof.
    destruct grid_den as [Rd Bd].
    destruct (repr_det e (a1 - a3) (b1 - b3) (a3 - a4) (b3 - b4) (f64_sub x1 x3) (f64_sub y1 y3) (f64_sub x3 x4) (f64_sub y3 y4)
                He ltac:(apply B) ltac:(apply B) ltac:(apply B) ltac:(apply B)) as [Rt _]; try (apply diff; auto; apply B).
    destruct (repr_det e (a1 - a2) (b1 - b2) (a1 - a3) (b1 - b3) (f64_sub x1 x2) (f64_sub y1 y2) (f64_sub x1 x3) (f64_sub y1 y3)
                He ltac:(apply B) ltac:(apply B) ltac:(apply B) ltac:(apply B)) as [Ru _]; try (apply diff; auto; apply B).
    apply repr_neg in Ru. fold T in Rt. fold U in Ru.
    unfold segment_intersect. unfold l1 at 1, l2 at 1. rewrite (repr_eq_zero _ _ _ Rd).
    destruct (Z.eqb_spec D 0) as [E|N]; cbn [snd]; [split; [discriminate | intros [H _]; contradiction]|].
    pose proof (quotient_repr _ _ _ _ _ Rt Rd N) as Qt. pose proof (quotient_repr _ _ _ _ _ Ru Rd N) as Qu.
    unfold f64_ge. rewrite !andb_true_iff.
    rewrite (quotient_0 _ _ _ N Bd Qt), (quotient_1 _ _ _ N Bd Qt), (quotient_0 _ _ _ N Bd Qu), (quotient_1 _ _ _ N Bd Qu).
    tauto.
  Qed.

  Let p1 := rpt (x1, y1).
  Let p2 := rpt (x2, y2).
  Let p3 := rpt (x3, y3).
  Let p4 := rpt (x4, y4).

  Lemma real_det_parallel : parallel l1 l2 <-> D = 0.
  Proof.
    unfold parallel, rpt, l1, l2; cbn [fst snd].
    destruct X1 as (_ & _ & ->), Y1 as (_ & _ & ->), X2 as (_ & _ & ->), Y2 as (_ & _ & ->),
             X3 as (_ & _ & ->), Y3 as (_ & _ & ->), X4 as (_ & _ & ->), Y4 as (_ & _ & ->).
    pose proof (bpow_gt_0 radix2 e) as P. set (s := bpow radix2 e) in *.
    split; intros H.
    - apply eq_IZR. unfold D, det. rewrite minus_IZR, !mult_IZR, !minus_IZR.
      apply Rmult_eq_reg_r with (s * s)%R; [|nra]. nra.
    - apply (f_equal IZR) in H. unfold D, det in H. rewrite minus_IZR, !mult_IZR, !minus_IZR in H. nra.
  Qed.

  Lemma meets (t u : R) : D <> 0 ->
    along p1 p2 t = along p3 p4 u <-> (t = IZR T / IZR D /\ u = IZR U / IZR D)%R.
  Proof.
    intros N. assert (Nr : IZR D <> 0%R) by now apply IZR_neq.
    unfold along, p1, p2, p3, p4, rpt; cbn [fst snd].
    destruct X1 as (_ & _ & ->), Y1 as (_ & _ & ->), X2 as (_ & _ & ->), Y2 as (_ & _ & ->),
             X3 as (_ & _ & ->), Y3 as (_ & _ & ->), X4 as (_ & _ & ->), Y4 as (_ & _ & ->).
    pose proof (bpow_gt_0 radix2 e) as P. set (s := bpow radix2 e) in *.
    unfold T, U, D, det in *. rewrite ?opp_IZR, !minus_IZR, !mult_IZR, !minus_IZR in *.
    set (A1 := IZR a1) in *. set (A2 := IZR a2) in *. set (A3 := IZR a3) in *. set (A4 := IZR a4) in *.
    set (B1 := IZR b1) in *. set (B2 := IZR b2) in *. set (B3 := IZR b3) in *. set (B4 := IZR b4) in *.
    clearbody A1 A2 A3 A4 B1 B2 B3 B4 s.
    split.
    - intros H. injection H as Hx Hy.
      assert (Ex : (A1 + t * (A2 - A1) = A3 + u * (A4 - A3))%R) by (apply Rmult_eq_reg_r with s; lra).
      assert (Ey : (B1 + t * (B2 - B1) = B3 + u * (B4 - B3))%R) by (apply Rmult_eq_reg_r with s; lra).
      clear Hx Hy.
      assert (Et : (t * ((A1 - A2) * (B3 - B4) - (B1 - B2) * (A3 - A4)) = (A1 - A3) * (B3 - B4) - (B1 - B3) * (A3 - A4))%R).
      { assert (C1 : (A1 - A3 = t * (A1 - A2) - u * (A3 - A4))%R) by lra.
        assert (C2 : (B1 - B3 = t * (B1 - B2) - u * (B3 - B4))%R) by lra. rewrite C1, C2. ring. }
      assert (Eu : (u * ((A1 - A2) * (B3 - B4) - (B1 - B2) * (A3 - A4)) = - ((A1 - A2) * (B1 - B3) - (B1 - B2) * (A1 - A3)))%R).
      { assert (C1 : (A1 - A3 = t * (A1 - A2) - u * (A3 - A4))%R) by lra.
        assert (C2 : (B1 - B3 = t * (B1 - B2) - u * (B3 - B4))%R) by lra. rewrite C1, C2. ring. }
      split; [rewrite <- Et | rewrite <- Eu]; field; exact Nr.
    - intros [-> ->]. f_equal; field; exact Nr.
  Qed.

  Lemma grid_exact : snd (segment_intersect l1 l2) = true <->
    ~ parallel l1 l2 /\ exists p, on_segment l1 p /\ on_segment l2 p.
  Proof.
    rewrite grid_segment, real_det_parallel. split.
    - intros (N & Ht & Hu). split; [exact N|].
      exists (along p1 p2 (IZR T / IZR D)). split.
      + exists (IZR T / IZR D)%R. split; [exact Ht | reflexivity].
      + exists (IZR U / IZR D)%R. split; [exact Hu|]. apply meets; auto.
    - intros (N & p & (t & Ht & Et) & (u & Hu & Eu)). split; [exact N|].
      assert (E : along p1 p2 t = along p3 p4 u) by (rewrite Et in Eu; exact Eu).
      apply meets in E; [|exact N]. destruct E as [-> ->]. auto.
  Qed.

  Lemma grid_line : snd (line_intersect l1 l2) = true <-> ~ parallel l1 l2.
  Proof.
    destruct grid_den as [Rd Bd]. rewrite real_det_parallel. unfold line_intersect.
    rewrite (repr_eq_zero _ _ _ Rd). destruct (Z.eqb_spec D 0); cbn [snd]; split; intros; congruence || discriminate || auto; contradiction.
  Qed.
End Grid.
