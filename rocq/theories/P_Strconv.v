(** Proofs about the decimal conversions: the parser rounds correctly. *)
From Coq Require Import ZArith Bool List Lia Reals Lra.
From Coq Require Import ZifyBool ZifyNat.
From Flocq Require Import Core.Core IEEE754.BinarySingleNaN IEEE754.Binary IEEE754.Bits.
From Verif Require Import Base_F64 Base_F64Arith M_Strconv P_F64 P_F64Flocq P_F64Round P_F64Grid.
Import ListNotations.
Open Scope Z_scope.

Local Notation prec := 53.
Local Notation emax := 1024.

Lemma div_even_spec a b : 0 < b -> div_even a b = ZnearestE (IZR a / IZR b).
Proof.
  intros Hb. assert (Rb : (0 < IZR b)%R) by now apply IZR_lt.
  assert (Fl : Zfloor (IZR a / IZR b) = a / b) by (apply Zfloor_div; lia).
  assert (Fr : (IZR a / IZR b - IZR (a / b) = IZR (a mod b) / IZR b)%R).
  { rewrite (Z.mod_eq a b) by lia. rewrite minus_IZR, mult_IZR. field. lra. }
  assert (Ce : 0 < a mod b -> Zceil (IZR a / IZR b) = a / b + 1).
  { intros H. rewrite Zceil_floor_neq; [now rewrite Fl|]. rewrite Fl. intros E.
    assert (IZR (a mod b) / IZR b = 0)%R by lra. apply IZR_lt in H.
    assert (0 < IZR (a mod b) / IZR b)%R by now apply Rdiv_lt_0_compat. lra. }
  assert (Hf : (IZR (a mod b) / IZR b * IZR b = IZR (a mod b))%R) by (field; lra).
  assert (Hm := Z.mod_pos_bound a b Hb).
  unfold div_even, Znearest. rewrite Fl, Fr.
  destruct (Z.ltb_spec (2 * (a mod b)) b) as [L|L].
  - rewrite Rcompare_Lt; [reflexivity|].
    apply IZR_lt in L. rewrite mult_IZR in L. nra.
  - destruct (Z.ltb_spec b (2 * (a mod b))) as [L2|L2].
    + rewrite Rcompare_Gt; [rewrite Ce; lia|]. apply IZR_lt in L2. rewrite mult_IZR in L2. nra.
    + rewrite Rcompare_Eq.
      * destruct (Z.even (a / b)); cbn; [reflexivity|]. rewrite Ce; lia.
      * assert (E : 2 * (a mod b) = b) by lia. apply (f_equal IZR) in E. rewrite mult_IZR in E. nra.
Qed.

Lemma bpow_IZR n : 0 <= n -> IZR (2 ^ n) = bpow radix2 n.
Proof. intros H. apply (IZR_Zpower radix2). assumption. Qed.

(** A scaling by a power of two of either sign, in integers. *)
Lemma scaled num den e : 0 < den ->
  (IZR (num * 2 ^ Z.max 0 (- e)) / IZR (den * 2 ^ Z.max 0 e) = IZR num / IZR den * bpow radix2 (- e))%R.
Proof.
  intros Hd. assert (0 < IZR den)%R by now apply IZR_lt. rewrite !mult_IZR, !bpow_IZR by lia.
  destruct (Z.le_ge_cases 0 e).
  - replace (Z.max 0 (- e)) with 0 by lia. replace (Z.max 0 e) with e by lia. rewrite bpow_opp.
    assert (0 < bpow radix2 e)%R by apply bpow_gt_0. cbn [bpow]. field. lra.
  - replace (Z.max 0 (- e)) with (- e) by lia. replace (Z.max 0 e) with 0 by lia. cbn [bpow]. field. lra.
Qed.
Lemma scaled_pos den e : 0 < den -> 0 < den * 2 ^ Z.max 0 e.
Proof. intros. apply Z.mul_pos_pos; [assumption|]. apply Z.pow_pos_nonneg; lia. Qed.

Lemma ratio_bounds num den : 0 < num -> 0 < den ->
  let e0 := Z.log2 num - Z.log2 den in
  let e1 := if num * 2 ^ Z.max 0 (- e0) <? den * 2 ^ Z.max 0 e0 then e0 - 1 else e0 in
  (bpow radix2 e1 <= IZR num / IZR den < bpow radix2 (e1 + 1))%R.
Proof.
  intros Hn Hd e0 e1. assert (0 < IZR den)%R by now apply IZR_lt. assert (0 < IZR num)%R by now apply IZR_lt.
  destruct (Z.log2_spec num Hn) as [N1 N2]. destruct (Z.log2_spec den Hd) as [D1 D2].
  pose proof (Z.log2_nonneg num). pose proof (Z.log2_nonneg den).
  apply IZR_le in N1. apply IZR_lt in N2. apply IZR_le in D1. apply IZR_lt in D2.
  rewrite bpow_IZR in N1, N2, D1, D2 by lia.
  assert (L : (bpow radix2 (e0 - 1) < IZR num / IZR den)%R).
  { apply (Rmult_lt_reg_r (IZR den)); [assumption|]. replace (IZR num / IZR den * IZR den)%R with (IZR num) by (field; lra).
    eapply Rlt_le_trans; [apply Rmult_lt_compat_l; [apply bpow_gt_0|exact D2]|]. rewrite <- bpow_plus.
    replace (e0 - 1 + Z.succ (Z.log2 den)) with (Z.log2 num) by (unfold e0; lia). assumption. }
  assert (U : (IZR num / IZR den < bpow radix2 (e0 + 1))%R).
  { apply (Rmult_lt_reg_r (IZR den)); [assumption|]. replace (IZR num / IZR den * IZR den)%R with (IZR num) by (field; lra).
    eapply Rlt_le_trans; [exact N2|]. eapply Rle_trans; [|apply Rmult_le_compat_l; [apply bpow_ge_0|exact D1]].
    rewrite <- bpow_plus. apply bpow_le. unfold e0. lia. }
  assert (S := scaled num den e0 Hd). pose proof (scaled_pos den e0 Hd) as P. 
  assert (PR : (0 < IZR (den * 2 ^ Z.max 0 e0))%R) by now apply IZR_lt.
  assert (B : (bpow radix2 (- e0) * bpow radix2 e0 = 1)%R).
  { rewrite <- bpow_plus. replace (- e0 + e0) with 0 by lia. reflexivity. }
  pose proof (bpow_gt_0 radix2 e0). pose proof (bpow_gt_0 radix2 (- e0)).
  set (A := num * 2 ^ Z.max 0 (- e0)) in *. set (C := den * 2 ^ Z.max 0 e0) in *.
  assert (E : (IZR num / IZR den = IZR A / IZR C * bpow radix2 e0)%R).
  { rewrite S, Rmult_assoc, B. ring. }
  unfold e1. destruct (Z.ltb_spec A C) as [K|K].
  - replace (e0 - 1 + 1) with e0 by lia. split; [lra|]. apply IZR_lt in K.
    assert (IZR A / IZR C < 1)%R.
    { apply (Rmult_lt_reg_r (IZR C)); [assumption|]. unfold Rdiv. rewrite Rmult_assoc, Rinv_l by lra. lra. }
    nra.
  - split; [|assumption]. apply IZR_le in K.
    assert (1 <= IZR A / IZR C)%R.
    { apply (Rmult_le_reg_r (IZR C)); [assumption|]. unfold Rdiv. rewrite Rmult_assoc, Rinv_l by lra. lra. }
    nra.
Qed.

Lemma ofZ2_correct q e : -1074 <= e -> 0 <= q <= two53 -> (IZR q * bpow radix2 e < huge)%R ->
  f64_wf (f64_ofZ2 q e) = true /\ f64_finite (f64_ofZ2 q e) = true /\
  f64_R (f64_ofZ2 q e) = (IZR q * bpow radix2 e)%R /\ f64_sign (f64_ofZ2 q e) = false.
Proof.
  intros He Hq Hu.
  pose proof (Binary.binary_normalize_correct prec emax eq_refl eq_refl mode_NE q e false) as H.
  replace (F2R (Float radix2 q e)) with (IZR q * bpow radix2 e)%R in H by reflexivity.
  change (round radix2 (SpecFloat.fexp prec emax) (round_mode mode_NE) (IZR q * bpow radix2 e))
    with (rnd (IZR q * bpow radix2 e)) in H.
  rewrite grid_rnd in H by lia.
  assert (P : (0 <= IZR q * bpow radix2 e)%R).
  { apply Rmult_le_pos; [apply IZR_le; lia|apply bpow_ge_0]. }
  rewrite Rlt_bool_true in H by (rewrite Rabs_pos_eq; assumption).
  destruct H as (E & F & S).
  split; [apply bits_wf|].
  assert (Fi : f64_finite (f64_ofZ2 q e) = true) by (unfold f64_ofZ2; rewrite finite_of_bits; exact F).
  split; [exact Fi|]. split; [unfold f64_ofZ2; rewrite R_of_bits; exact E|].
  rewrite sign_word by (apply bits_wf || exact Fi). unfold f64_ofZ2. rewrite of_bits_bits.
  refine (eq_trans S _). destruct (Rcompare_spec (IZR q * bpow radix2 e) 0); [lra|reflexivity|reflexivity].
Qed.

(** The conversion of a quotient is correctly rounded. *)
Theorem nearest_ratio_correct num den : 0 < num -> 0 < den -> (rnd (IZR num / IZR den) < huge)%R ->
  f64_wf (nearest_ratio num den) = true /\ f64_finite (nearest_ratio num den) = true /\
  f64_R (nearest_ratio num den) = rnd (IZR num / IZR den) /\ f64_sign (nearest_ratio num den) = false.
Proof.
  intros Hn Hd Hu. pose proof (ratio_bounds num den Hn Hd) as B. unfold nearest_ratio.
  set (e0 := Z.log2 num - Z.log2 den) in *. cbv zeta in B.
  set (e1 := if num * 2 ^ Z.max 0 (- e0) <? den * 2 ^ Z.max 0 e0 then e0 - 1 else e0) in *.
  cbv zeta. fold e0. fold e1. set (e := Z.max (e1 - 52) (-1074)).
  rewrite div_even_spec by now apply scaled_pos. rewrite scaled by assumption.
  set (x := (IZR num / IZR den)%R) in *.
  assert (Hx : (0 < x)%R) by (pose proof (bpow_gt_0 radix2 e1); lra).
  assert (M : mag radix2 x = e1 + 1 :> Z).
  { apply mag_unique_pos. replace (e1 + 1 - 1) with e1 by lia. exact B. }
  assert (Ce : cexp radix2 (SpecFloat.fexp prec emax) x = e).
  { unfold cexp, SpecFloat.fexp, SpecFloat.emin. rewrite M. unfold e. lia. }
  assert (E : rnd x = (IZR (ZnearestE (x * bpow radix2 (- e))) * bpow radix2 e)%R).
  { unfold rnd, round, scaled_mantissa, F2R. cbn [Fnum Fexp]. now rewrite Ce. }
  rewrite E. apply ofZ2_correct; [unfold e; lia| |now rewrite <- E].
  assert (XB : (0 <= x * bpow radix2 (- e) <= IZR two53)%R).
  { pose proof (bpow_gt_0 radix2 (- e)). split; [nra|].
    replace (IZR two53) with (bpow radix2 53) by reflexivity.
    eapply Rle_trans; [apply Rmult_le_compat_r; [apply bpow_ge_0|apply Rlt_le, B]|]. rewrite <- bpow_plus.
    apply bpow_le. unfold e. lia. }
  assert (Z0 : forall n, ZnearestE (IZR n) = n) by (intros n; apply (@Zrnd_IZR ZnearestE (valid_rnd_N _))).
  split.
  - rewrite <- (Z0 0). apply (@Zrnd_le ZnearestE (valid_rnd_N _)). apply XB.
  - rewrite <- (Z0 two53). apply (@Zrnd_le ZnearestE (valid_rnd_N _)). apply XB.
Qed.

(** Powers of ten *)
Definition r10 : radix := Build_radix 10 eq_refl.
Notation ten := (bpow r10).
Lemma ten_IZR n : 0 <= n -> IZR (10 ^ n) = ten n.
Proof. intros H. apply (IZR_Zpower r10). assumption. Qed.

Lemma ten_ratio m x : (IZR (m * 10 ^ Z.max 0 x) / IZR (10 ^ Z.max 0 (- x)) = IZR m * ten x)%R.
Proof.
  rewrite mult_IZR, !ten_IZR by lia. destruct (Z.le_ge_cases 0 x).
  - replace (Z.max 0 (- x)) with 0 by lia. replace (Z.max 0 x) with x by lia. cbn [bpow]. field.
  - replace (Z.max 0 (- x)) with (- x) by lia. replace (Z.max 0 x) with 0 by lia. rewrite bpow_opp.
    pose proof (bpow_gt_0 r10 x). cbn [bpow]. field. lra.
Qed.

Theorem nearest_correct m x : 0 <= m -> (rnd (IZR m * ten x) < huge)%R ->
  f64_wf (nearest m x) = true /\ f64_finite (nearest m x) = true /\
  f64_R (nearest m x) = rnd (IZR m * ten x) /\ f64_sign (nearest m x) = false.
Proof.
  intros Hm Hu. unfold nearest. destruct (Z.eqb_spec m 0) as [->|N].
  - repeat split. rewrite Rmult_0_l, rnd_0. reflexivity.
  - rewrite <- ten_ratio in *. apply nearest_ratio_correct; [|apply Z.pow_pos_nonneg; lia|assumption].
    apply Z.mul_pos_pos; [lia|]. apply Z.pow_pos_nonneg; lia.
Qed.

Theorem nearest_same m x m' x' : 0 <= m -> 0 <= m' -> (IZR m * ten x = IZR m' * ten x')%R ->
  (rnd (IZR m * ten x) < huge)%R -> nearest m x = nearest m' x'.
Proof.
  intros Hm Hm' E Hu. destruct (nearest_correct m x Hm Hu) as (A1 & A2 & A3 & A4).
  rewrite E in Hu. destruct (nearest_correct m' x' Hm' Hu) as (B1 & B2 & B3 & B4).
  apply word_inj; auto; [|congruence]. rewrite A3, B3, E. reflexivity.
Qed.
