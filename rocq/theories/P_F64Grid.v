(** Exact float64 arithmetic on a binary grid: numbers [n * 2^e] with
    [|n| <= 2^53] are represented exactly, and sums, differences and products
    that stay in that range are computed without rounding. *)
From Coq Require Import ZArith Bool List Lia Reals Lra.
From Coq Require Import ZifyBool.
From Coq Require Import Floats.SpecFloat.
From Flocq Require Import Core.Core IEEE754.BinarySingleNaN IEEE754.Binary IEEE754.Bits.
From Verif Require Import Base_F64 Base_F64Arith P_F64 P_F64Flocq P_F64Round.
Open Scope Z_scope.

Local Notation prec := 53.
Local Notation emax := 1024.

Definition two53 : Z := 2 ^ 53.

(** [w] is exactly [n * 2^e]. *)
Definition repr (e n : Z) (w : f64) : Prop :=
  f64_wf w = true /\ f64_finite w = true /\ f64_R w = (IZR n * bpow radix2 e)%R.

Lemma grid_format e n : -1074 <= e -> Z.abs n <= two53 ->
  generic_format radix2 (SpecFloat.fexp prec emax) (IZR n * bpow radix2 e).
Proof.
  intros He Hn. change (SpecFloat.fexp prec emax) with (FLT_exp (-1074) 53).
  destruct (Z.eq_dec (Z.abs n) two53) as [E|E].
  - (* n = +- 2^53 = +- 2^52 * 2 *)
    assert (Hn' : n = two53 \/ n = - two53) by lia.
    apply generic_format_FLT.
    destruct Hn' as [-> | ->].
    + apply (FLT_spec radix2 (-1074) 53 _ (Float radix2 (2^52) (e + 1))).
      * unfold F2R. cbn [Fnum Fexp]. rewrite bpow_plus. change (bpow radix2 1) with 2%R.
        unfold two53. change (2^53) with (2^52*2). rewrite mult_IZR. ring.
      * cbn. lia.
      * cbn [Fexp]. lia.
    + apply (FLT_spec radix2 (-1074) 53 _ (Float radix2 (- 2^52) (e + 1))).
      * unfold F2R. cbn [Fnum Fexp]. rewrite bpow_plus. change (bpow radix2 1) with 2%R.
        unfold two53. change (-2^53) with (-2^52*2). rewrite mult_IZR. ring.
      * cbn. lia.
      * cbn [Fexp]. lia.
  - apply generic_format_FLT.
    apply (FLT_spec radix2 (-1074) 53 _ (Float radix2 n e)).
    + reflexivity.
    + cbn [Fnum]. unfold two53 in *. change (radix2 ^ 53) with (2 ^ 53). lia.
    + exact He.
Qed.

Lemma grid_rnd e n : -1074 <= e -> Z.abs n <= two53 ->
  rnd (IZR n * bpow radix2 e) = (IZR n * bpow radix2 e)%R.
Proof. intros. apply round_generic; [apply valid_rnd_N|]. now apply grid_format. Qed.

Lemma grid_bound e n : e <= 970 -> Z.abs n <= two53 ->
  (Rabs (IZR n * bpow radix2 e) < huge)%R.
Proof.
  intros He Hn. rewrite Rabs_mult, <- abs_IZR, (Rabs_pos_eq (bpow radix2 e)) by apply bpow_ge_0.
  apply Rle_lt_trans with (bpow radix2 (53 + 970)).
  - rewrite bpow_plus. apply Rmult_le_compat; [apply IZR_le; lia | apply bpow_ge_0 | | now apply bpow_le].
    change (bpow radix2 53) with (IZR two53). now apply IZR_le.
  - apply bpow_lt. lia.
Qed.

Lemma is_round_repr e n w r : -1074 <= e <= 970 -> Z.abs n <= two53 ->
  is_round r w -> r = (IZR n * bpow radix2 e)%R -> repr e n w.
Proof.
  intros He Hn [Hw H] ->. rewrite grid_rnd in H by lia.
  pose proof (grid_bound e n ltac:(lia) Hn) as B. apply Rabs_lt_inv in B.
  destruct H as [(F & E & _)|[(-> & H)|(-> & H)]]; [| lra | lra].
  split; [exact Hw|]. split; assumption.
Qed.

Lemma repr_add e a b x y : -1074 <= e <= 970 -> Z.abs (a + b) <= two53 ->
  repr e a x -> repr e b y -> repr e (a + b) (f64_add x y).
Proof.
  intros He Hn (Wx & Fx & Rx) (Wy & Fy & Ry).
  apply (is_round_repr e (a + b) _ _ He Hn (add_round x y Wx Wy Fx Fy)).
  rewrite Rx, Ry, plus_IZR. ring.
Qed.

Lemma repr_sub e a b x y : -1074 <= e <= 970 -> Z.abs (a - b) <= two53 ->
  repr e a x -> repr e b y -> repr e (a - b) (f64_sub x y).
Proof.
  intros He Hn (Wx & Fx & Rx) (Wy & Fy & Ry).
  apply (is_round_repr e (a - b) _ _ He Hn (sub_round x y Wx Wy Fx Fy)).
  rewrite Rx, Ry, minus_IZR. ring.
Qed.

Lemma repr_mul e f a b x y : -1074 <= e + f <= 970 -> Z.abs (a * b) <= two53 ->
  repr e a x -> repr f b y -> repr (e + f) (a * b) (f64_mul x y).
Proof.
  intros He Hn (Wx & Fx & Rx) (Wy & Fy & Ry).
  apply (is_round_repr (e + f) (a * b) _ _ He Hn (mul_round x y Wx Wy Fx Fy)).
  rewrite Rx, Ry, mult_IZR, bpow_plus. ring.
Qed.

Lemma repr_zero e : repr e 0 f64_zero.
Proof.
  split; [reflexivity|]. split; [reflexivity|].
  rewrite Rmult_0_l. reflexivity.
Qed.

Lemma repr_eq_zero e n w : repr e n w -> f64_eq w f64_zero = (n =? 0).
Proof.
  intros (W & F & E).
  pose proof (eq_R w f64_zero W eq_refl F eq_refl) as H.
  assert (Hz : f64_R f64_zero = 0%R) by (destruct (repr_zero 0) as (_ & _ & H0); rewrite H0; ring).
  rewrite Hz, E in H. pose proof (bpow_gt_0 radix2 e) as P.
  destruct (Z.eqb_spec n 0) as [->|N].
  - apply H. ring.
  - apply not_true_is_false. intros Q. apply (proj1 H) in Q. apply Rmult_integral in Q. destruct Q as [Q|Q]; [|lra].
    apply eq_IZR in Q. lia.
Qed.

Lemma sign_word w : f64_wf w = true -> f64_finite w = true ->
  f64_sign w = Binary.Bsign prec emax (b64_of_bits w).
Proof.
  intros Hw Hf.
  pose proof (B2SF_word w Hw) as H.
  assert (Hm : 0 <= f64_mag w <= f64_pinf).
  { unfold f64_finite in Hf. apply Z.ltb_lt in Hf. unfold f64_mag in *.
    pose proof (Z.mod_pos_bound w two63 ltac:(reflexivity)). lia. }
  pose proof (sf_shape (f64_sign w) _ Hm) as Sh. rewrite <- H in Sh.
  destruct (b64_of_bits w); cbn [Binary.B2SF Binary.Bsign] in *; inversion Sh; try reflexivity.
Qed.

Lemma repr_sign e n w : repr e n w -> n <> 0 -> f64_sign w = (n <? 0).
Proof.
  intros (W & F & E) N. rewrite sign_word by assumption.
  assert (Fx : Binary.is_finite prec emax (b64_of_bits w) = true) by now rewrite is_finite_word.
  pose proof (sign_R _ Fx) as S. fold (f64_R w) in S. rewrite E in S.
  pose proof (bpow_gt_0 radix2 e) as P.
  destruct (Binary.Bsign prec emax (b64_of_bits w)).
  - assert (IZR n <= 0)%R by nra. apply le_IZR in H. lia.
  - assert (0 <= IZR n)%R by nra. apply le_IZR in H. lia.
Qed.

(** A finite word is determined by its value and sign. *)
Lemma word_inj a b : f64_wf a = true -> f64_wf b = true ->
  f64_finite a = true -> f64_finite b = true ->
  f64_R a = f64_R b -> f64_sign a = f64_sign b -> a = b.
Proof.
  intros Wa Wb Fa Fb E S. rewrite <- (bits_of_bits a Wa), <- (bits_of_bits b Wb). f_equal.
  apply Binary.B2R_Bsign_inj.
  - now rewrite is_finite_word.
  - now rewrite is_finite_word.
  - exact E.
  - rewrite <- !sign_word by assumption. exact S.
Qed.

Lemma ofZ_correct n : Z.abs n <= two53 ->
  repr 0 n (f64_ofZ n) /\ f64_sign (f64_ofZ n) = (n <? 0).
Proof.
  intros Hn.
  pose proof (Binary.binary_normalize_correct prec emax eq_refl eq_refl mode_NE n 0 false) as H.
  replace (F2R (Float radix2 n 0)) with (IZR n * bpow radix2 0)%R in H by (unfold F2R; cbn [Fnum Fexp]; reflexivity).
  change (round radix2 (SpecFloat.fexp prec emax) (round_mode mode_NE) (IZR n * bpow radix2 0))
    with (rnd (IZR n * bpow radix2 0)) in H.
  rewrite grid_rnd in H by lia.
  rewrite Rlt_bool_true in H by (apply (grid_bound 0 n); lia).
  destruct H as (E & F & S).
  assert (Hr : repr 0 n (f64_ofZ n)).
  { split; [apply bits_wf|]. split.
    - unfold f64_ofZ. rewrite finite_of_bits. exact F.
    - unfold f64_ofZ. rewrite R_of_bits. exact E. }
  split; [exact Hr|].
  destruct (Z.eq_dec n 0) as [->|N].
  - reflexivity.
  - now apply (repr_sign 0).
Qed.

Lemma repr_ofZ n : Z.abs n <= two53 -> repr 0 n (f64_ofZ n).
Proof. intros H. now apply ofZ_correct. Qed.
Lemma sign_ofZ n : Z.abs n <= two53 -> f64_sign (f64_ofZ n) = (n <? 0).
Proof. intros H. now apply ofZ_correct. Qed.

Lemma repr_is_ofZ n w : Z.abs n <= two53 -> repr 0 n w -> (n = 0 -> f64_sign w = false) -> w = f64_ofZ n.
Proof.
  intros Hn Hr Hs. destruct (ofZ_correct n Hn) as [(W & F & E) S].
  pose proof Hr as (W' & F' & E').
  apply word_inj; auto; [congruence|].
  rewrite S. destruct (Z.eq_dec n 0) as [->|N]; [now rewrite Hs | now apply (repr_sign 0)].
Qed.

(** Sums of integers are exact, as words. *)
Lemma add_ofZ a b : Z.abs a <= two53 -> Z.abs b <= two53 -> Z.abs (a + b) <= two53 ->
  f64_add (f64_ofZ a) (f64_ofZ b) = f64_ofZ (a + b).
Proof.
  intros Ha Hb Hab. pose proof (repr_ofZ a Ha) as Ra. pose proof (repr_ofZ b Hb) as Rb.
  apply repr_is_ofZ; [exact Hab | apply repr_add; auto; lia |].
  intros Z0.
  pose proof (sign_ofZ a Ha) as Sa. pose proof (sign_ofZ b Hb) as Sb.
  destruct Ra as (Wa & Fa & Ea), Rb as (Wb & Fb & Eb).
  assert (Fx : Binary.is_finite prec emax (b64_of_bits (f64_ofZ a)) = true) by now rewrite is_finite_word.
  assert (Fy : Binary.is_finite prec emax (b64_of_bits (f64_ofZ b)) = true) by now rewrite is_finite_word.
  pose proof (Binary.Bplus_correct prec emax eq_refl eq_refl binop_nan_pl64 mode_NE _ _ Fx Fy) as H.
  fold (f64_R (f64_ofZ a)) (f64_R (f64_ofZ b)) in H.
  rewrite Ea, Eb in H.
  replace (IZR a * bpow radix2 0 + IZR b * bpow radix2 0)%R with 0%R in H
    by (rewrite <- Rmult_plus_distr_r, <- plus_IZR, Z0; ring).
  rewrite round_0, Rabs_R0 in H by apply valid_rnd_N.
  rewrite Rlt_bool_true in H by apply bpow_gt_0.
  destruct H as (_ & F & S). rewrite Rcompare_Eq in S by reflexivity.
  unfold f64_add. rewrite sign_word by (apply bits_wf || (rewrite finite_of_bits; exact F)).
  rewrite of_bits_bits. unfold b64_plus. rewrite S.
  rewrite <- !sign_word by assumption. rewrite Sa, Sb. lia.
Qed.

Lemma trunc_repr n w : repr 0 n w -> f64_trunc w = Some n.
Proof.
  intros (W & F & E). unfold f64_trunc. unfold f64_R in E.
  rewrite <- is_finite_word in F by exact W.
  destruct (b64_of_bits w) as [s|s|s pl e|s m e B]; cbn [Binary.is_finite] in F; try discriminate.
  - cbn [Binary.B2R] in E. f_equal. apply eq_IZR. change (bpow radix2 0) with 1%R in E. lra.
  - cbn [Binary.B2R] in E. unfold F2R in E. cbn [Fnum Fexp] in E.
    change (bpow radix2 0) with 1%R in E. rewrite Rmult_1_r in E.
    assert (K : forall a, (IZR a = IZR (Z.pos m) * bpow radix2 e)%R -> (if s then - a else a) = n).
    { intros a Ha. apply eq_IZR. rewrite <- E. destruct s; cbn [cond_Zopp].
      - rewrite !opp_IZR, Ha. ring.
      - exact Ha. }
    f_equal. apply K. destruct e as [|p|p].
    + change (bpow radix2 0) with 1%R. ring.
    + rewrite mult_IZR. reflexivity.
    + assert (Ed : Z.pos m = Z.abs n * 2 ^ Z.pos p).
      { apply eq_IZR. rewrite mult_IZR, abs_IZR, <- E, Rabs_mult.
        rewrite (Rabs_pos_eq (bpow _ _)) by apply bpow_ge_0.
        replace (IZR (2 ^ Z.pos p)) with (bpow radix2 (Z.pos p)) by (rewrite <- IZR_Zpower by lia; reflexivity).
        rewrite Rmult_assoc, <- bpow_plus. change (Z.neg p) with (- Z.pos p).
        replace (- Z.pos p + Z.pos p) with 0 by lia. change (bpow radix2 0) with 1%R.
        rewrite <- abs_IZR, abs_cond_Zopp. cbn [Z.abs]. ring. }
      rewrite Ed. rewrite Z.div_mul by lia.
      rewrite mult_IZR. replace (IZR (2 ^ Z.pos p)) with (bpow radix2 (Z.pos p)) by (rewrite <- IZR_Zpower by lia; reflexivity).
      rewrite Rmult_assoc, <- bpow_plus. change (Z.neg p) with (- Z.pos p).
      replace (Z.pos p + - Z.pos p) with 0 by lia. change (bpow radix2 0) with 1%R. ring.
Qed.

Lemma to_i64_ofZ n : Z.abs n <= two53 -> f64_to_i64 (f64_ofZ n) = n.
Proof.
  intros H. unfold f64_to_i64. rewrite (trunc_repr n) by now apply repr_ofZ.
  unfold two53, two63 in *. destruct (_ && _) eqn:E; lia.
Qed.
