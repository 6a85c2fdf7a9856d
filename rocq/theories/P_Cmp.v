(** Proofs about cmp.Float, the point order and rotations. *)
From Coq Require Import ZArith Bool List Lia Permutation.
From Coq Require Import ZifyBool ZifyNat.
From Flocq Require Import IEEE754.BinarySingleNaN IEEE754.Binary IEEE754.Bits.
From Verif Require Import Base_F64 Base_F64Arith Base_Geom Base_Res Base_Bytes M_Geom M_Extent
  M_Cmp S_Cmp P_F64 P_F64Flocq.
Import ListNotations.
Open Scope Z_scope.

Local Notation prec := 53.
Local Notation emax := 1024.

(** ** Subtracting from or by a zero *)

Lemma split_word' w :
  split_bits 52 11 w = (f64_sign w, f64_mag w mod 2 ^ 52, f64_mag w / 2 ^ 52).
Proof.
  unfold split_bits. change (2 ^ 52 * 2 ^ 11) with two63.
  unfold f64_sign. f_equal; [f_equal|].
  - unfold f64_mag. change two63 with (2 ^ 52 * 2 ^ 11).
    rewrite Z.rem_mul_r by lia. rewrite Z.mul_comm, Z.mod_add by lia.
    now rewrite Z.mod_mod by lia.
  - unfold f64_mag. change two63 with (2 ^ 52 * 2 ^ 11).
    rewrite Z.rem_mul_r by lia.
    rewrite Z.mul_comm, Z.div_add by lia.
    rewrite (Z.div_small (w mod 2 ^ 52)) by (apply Z.mod_pos_bound; lia). lia.
Qed.

Lemma eq_zero_mag w : f64_eq w f64_zero = true -> f64_mag w = 0.
Proof.
  intros H. apply eq_inv in H. destruct H as (_ & _ & K).
  change (f64_key f64_zero) with 0 in K. unfold f64_key in K.
  destruct (f64_sign w); lia.
Qed.

Lemma zero_word w : f64_mag w = 0 ->
  exists s, b64_of_bits w = B754_zero prec emax s.
Proof.
  intros M.
  assert (E : Binary.B2SF prec emax (b64_of_bits w) = SpecFloat.S754_zero (f64_sign w)).
  { rewrite B2SF_bits. unfold binary_float_of_bits_aux. rewrite split_word', M.
    cbn. reflexivity. }
  destruct (b64_of_bits w) as [s|s|s p Q|s m e Q]; cbn in E; try discriminate.
  now exists s.
Qed.

Lemma triple_inv {A B C} (a a' : A) (b b' : B) (c c' : C) :
  (a, b, c) = (a', b', c') -> b = b' /\ c = c'.
Proof. intros H. injection H. auto. Qed.

Lemma abs_join s m e : 0 <= m < 2 ^ 52 -> 0 <= e < 2 ^ 11 ->
  f64_abs (join_bits 52 11 s m e) = e * 2 ^ 52 + m.
Proof.
  intros Hm He. unfold f64_abs, f64_mag, join_bits.
  rewrite Z.shiftl_mul_pow2 by lia. unfold two63.
  change (2 ^ 63) with 9223372036854775808. change (2 ^ 52) with 4503599627370496 in *.
  change (2 ^ 11) with 2048 in *.
  destruct s.
  - replace ((2048 + e) * 4503599627370496 + m) with (e * 4503599627370496 + m + 1 * 9223372036854775808) by ring.
    rewrite Z.mod_add by lia. apply Z.mod_small. lia.
  - rewrite Z.add_0_l. apply Z.mod_small. lia.
Qed.

Lemma abs_opp (x y : binary64) :
  (exists s, x = B754_infinity prec emax s /\ exists s', y = B754_infinity prec emax s') \/
  (exists s s' m e H H', x = B754_finite prec emax s m e H /\ y = B754_finite prec emax s' m e H') \/
  (exists s s', x = B754_zero prec emax s /\ y = B754_zero prec emax s') ->
  f64_abs (bits_of_b64 x) = f64_abs (bits_of_b64 y).
Proof.
  intros [(s & -> & s' & ->)|[(s & s' & m & e & H & H' & -> & ->)|(s & s' & -> & ->)]].
  - destruct s, s'; reflexivity.
  - unfold bits_of_b64, bits_of_binary_float.
    pose proof H as B. apply andb_prop in B. destruct B as [B1 B2].
    unfold SpecFloat.canonical_mantissa in B1.
    pose proof (bits_of_binary_float_range 52 11 ltac:(lia) ltac:(lia)) as R.
    assert (G : forall s0 (H0 : SpecFloat.bounded (52 + 1) (2 ^ (11 - 1)) m e = true),
      0 <= bits_of_binary_float 52 11 (B754_finite (52 + 1) (2 ^ (11 - 1)) s0 m e H0) < 2 ^ (52 + 11 + 1)) by (intros; apply R).
    pose proof (split_bits_of_binary_float_correct 52 11 ltac:(lia) ltac:(lia)) as SC.
    destruct (0 <=? Z.pos m - 2 ^ 52) eqn:Q.
    + assert (Hb : 0 <= Z.pos m - 2 ^ 52 < 2 ^ 52 /\ 0 <= e - SpecFloat.emin (52 + 1) (2 ^ (11 - 1)) + 1 < 2 ^ 11).
      { pose proof (SC (B754_finite (52 + 1) (2 ^ (11 - 1)) false m e H)) as S0.
        unfold bits_of_binary_float, split_bits_of_binary_float in S0. rewrite Q in S0.
        unfold split_bits in S0. apply triple_inv in S0. destruct S0 as [S1 S2]. rewrite <- S1, <- S2.
        split; apply Z.mod_pos_bound; lia. }
      destruct Hb. rewrite !abs_join; auto.
    + assert (Hb : 0 <= Z.pos m < 2 ^ 52) by lia.
      rewrite !abs_join; auto; lia.
  - destruct s, s'; reflexivity.
Qed.

Lemma sub_zero_sym a b t : f64_mag a = 0 ->
  f64_lt (f64_abs (f64_sub a b)) t = f64_lt (f64_abs (f64_sub b a)) t.
Proof.
  intros Z. destruct (zero_word a Z) as (s & E).
  unfold f64_sub. rewrite E.
  destruct (b64_of_bits b) as [s'|s'|s' p Q|s' m e Q] eqn:Eb.
  - f_equal. apply abs_opp. right. right. destruct s, s'; cbn; eauto.
  - f_equal. apply abs_opp. left. cbn. eauto.
  - match goal with |- f64_lt (f64_abs ?x) _ = f64_lt (f64_abs ?y) _ =>
      assert (N : f64_isnan (f64_abs x) = true /\ f64_isnan (f64_abs y) = true) end.
    { assert (G : forall z, f64_isnan (f64_abs z) = f64_isnan z).
      { intros z. unfold f64_isnan, f64_abs, f64_mag. now rewrite Z.mod_mod by (unfold two63; lia). }
      rewrite !G.
      rewrite <- !is_nan_word by apply bits_wf. rewrite !of_bits_bits. now destruct s, s'. }
    destruct N as [N1 N2]. unfold f64_lt. now rewrite N1, N2.
  - f_equal. apply abs_opp. right. left. cbn. repeat eexists.
Qed.

Lemma sub_zeros a b : f64_mag a = 0 -> f64_mag b = 0 -> f64_abs (f64_sub a b) = f64_zero.
Proof.
  intros A B. destruct (zero_word a A) as (s & Ea), (zero_word b B) as (s' & Eb).
  unfold f64_sub. rewrite Ea, Eb. now destruct s, s'.
Qed.

(** ** cmp.Float *)

Lemma i64_range v : - 2 ^ 63 <= i64 v < 2 ^ 63.
Proof. unfold i64, u64. pose proof (Z.mod_pos_bound v (2 ^ 64) ltac:(lia)).
  change (2 ^ 64) with 18446744073709551616 in *. change (2 ^ 63) with 9223372036854775808 in *.
  cbv zeta. destruct (Z.ltb_spec (v mod 18446744073709551616) 9223372036854775808); lia. Qed.

Lemma i64_mod v : (i64 v) mod 2 ^ 64 = v mod 2 ^ 64.
Proof.
  unfold i64. cbv zeta. pose proof (Z.mod_pos_bound v (2 ^ 64) ltac:(lia)).
  change (2 ^ 64) with 18446744073709551616 in *. change (2 ^ 63) with 9223372036854775808 in *.
  destruct (Z.ltb_spec (v mod 18446744073709551616) 9223372036854775808).
  - apply Z.mod_small. lia.
  - replace (v mod 18446744073709551616 - 18446744073709551616)
      with (v mod 18446744073709551616 + (-1) * 18446744073709551616) by ring.
    rewrite Z.mod_add by lia. now rewrite Z.mod_mod by lia.
Qed.

Lemma i64_id v : - 2 ^ 63 <= v < 2 ^ 63 -> i64 v = v.
Proof.
  intros H. unfold i64. cbv zeta.
  change (2 ^ 64) with 18446744073709551616 in *. change (2 ^ 63) with 9223372036854775808 in *.
  destruct (Z.ltb_spec v 0).
  - rewrite <- (Z.mod_add _ 1) by lia. rewrite Z.mod_small by lia.
    destruct (Z.ltb_spec (v + 1 * 18446744073709551616) 9223372036854775808); lia.
  - rewrite Z.mod_small by lia. destruct (Z.ltb_spec v 9223372036854775808); lia.
Qed.

Lemma i64_cong v w : v mod 2 ^ 64 = w mod 2 ^ 64 -> i64 v = i64 w.
Proof. intros H. unfold i64. now rewrite H. Qed.

Lemma i64_sub a b : i64 (i64 a - i64 b) = i64 (a - b).
Proof.
  apply i64_cong. rewrite Zminus_mod, !i64_mod. now rewrite <- Zminus_mod.
Qed.

Lemma float_reflexive c f : f64_lt f64_zero (tol c) = true -> 0 < bit_tol c -> cmp_float c f f = true.
Proof.
  intros T B. unfold cmp_float. rewrite !Bool.eqb_reflx. cbn [andb].
  destruct (f64_isinf f || f64_isinf f); [reflexivity|].
  rewrite orb_diag. destruct (f64_eq f f64_zero) eqn:E.
  - apply eq_zero_mag in E. now rewrite sub_zeros.
  - rewrite Z.sub_diag. cbn. lia.
Qed.

Lemma eqb_sym (a b : bool) : Bool.eqb a b = Bool.eqb b a.
Proof. now destruct a, b. Qed.

Lemma float_symmetric c a b : - 2 ^ 63 < bit_tol c < 2 ^ 63 -> cmp_float c a b = cmp_float c b a.
Proof.
  intros B. unfold cmp_float.
  rewrite (orb_comm (f64_isinf b)), (eqb_sym (f64_isninf b)), (eqb_sym (f64_ispinf b)).
  destruct (f64_isinf a || f64_isinf b); [reflexivity|].
  rewrite (orb_comm (f64_eq b f64_zero)).
  destruct (f64_eq a f64_zero || f64_eq b f64_zero) eqn:Z0.
  - apply orb_prop in Z0. destruct Z0 as [E|E]; apply eq_zero_mag in E.
    + symmetry. now apply sub_zero_sym.
    + now apply sub_zero_sym.
  - cbv zeta. rewrite !i64_sub. rewrite (i64_id (- bit_tol c)) by lia.
    pose proof (i64_range (b - a)) as R.
    assert (Neg : i64 (a - b) = (if i64 (b - a) =? - 2 ^ 63 then - 2 ^ 63 else - i64 (b - a))).
    { destruct (i64 (b - a) =? - 2 ^ 63) eqn:Q.
      - rewrite <- (i64_id (- 2 ^ 63)) by lia. apply i64_cong.
        replace (a - b) with (- (b - a)) by ring.
        pose proof (i64_mod (b - a)) as M.
        assert (Q' : i64 (b - a) = - 2 ^ 63) by lia. rewrite Q' in M.
        rewrite <- (Z.sub_0_l (b - a)), Zminus_mod, <- M, <- Zminus_mod. reflexivity.
      - rewrite <- (i64_id (- i64 (b - a))) by lia. apply i64_cong.
        replace (a - b) with (0 - (b - a)) by ring. rewrite <- (Z.sub_0_l (i64 (b - a))).
        rewrite Zminus_mod, (Zminus_mod 0 (i64 (b - a))). now rewrite i64_mod. }
    rewrite Neg. destruct (i64 (b - a) =? - 2 ^ 63) eqn:Q.
    + replace (i64 (b - a)) with (- 2 ^ 63) by lia. reflexivity.
    + destruct (Z.ltb_spec (i64 (b - a)) 0), (Z.ltb_spec (- i64 (b - a)) 0); lia.
Qed.

Lemma float_infinite c a b : f64_isinf a = true \/ f64_isinf b = true ->
  (cmp_float c a b = true <-> a = b).
Proof.
  intros H. unfold cmp_float.
  replace (f64_isinf a || f64_isinf b) with true by (destruct H as [-> | ->]; now rewrite ?orb_true_r).
  unfold f64_isinf, f64_ispinf, f64_isninf in *.
  assert (f64_pinf <> f64_ninf) by discriminate.
  rewrite andb_true_iff, !Bool.eqb_true_iff. split.
  - intros [N P]. destruct H as [H|H]; apply orb_prop in H; destruct H as [H|H]; lia.
  - intros ->. auto.
Qed.

Lemma finite_not_inf w : f64_wf w = true -> f64_finite w = true -> f64_isinf w = false.
Proof.
  intros W F. unfold f64_isinf, f64_ispinf, f64_isninf.
  apply not_true_is_false. intros H. apply orb_prop in H.
  destruct H as [H|H]; apply Z.eqb_eq in H; subst; discriminate.
Qed.

Lemma not_inf_finite w : f64_wf w = true -> f64_isnan w = false -> f64_isinf w = false ->
  f64_finite w = true.
Proof.
  intros W N I. unfold f64_isinf, f64_ispinf, f64_isninf, f64_isnan, f64_finite in *.
  apply orb_false_iff in I. destruct I as [I1 I2]. rewrite (wf_word w W) in I1, I2.
  unfold f64_pinf, f64_ninf, two63 in *. destruct (f64_sign w); lia.
Qed.

Lemma finite_nonzero_finite w : finite_nonzero w -> f64_finite w = true.
Proof. intros (W & N & I & _). now apply not_inf_finite. Qed.

Lemma finite_nonzero_mag w : finite_nonzero w -> 0 < f64_mag w < f64_pinf.
Proof.
  intros F0. pose proof (finite_nonzero_finite w F0) as F. destruct F0 as (W & N & I & Z0).
  unfold f64_finite in F. pose proof (mag_bounds w).
  enough (f64_mag w <> 0) by lia. intros M.
  rewrite eq_key in Z0 by (auto; reflexivity).
  unfold f64_key in Z0. rewrite M in Z0. now destruct (f64_sign w).
Qed.

Lemma float_bits c a b : finite_nonzero a -> finite_nonzero b ->
  cmp_float c a b =
  let d := i64 (b - a) in if d <? 0 then i64 (- bit_tol c) <? d else d <? bit_tol c.
Proof.
  intros (Wa & Na & Ia & Za) (Wb & Nb & Ib & Zb). unfold cmp_float.
  rewrite Ia, Ib, Za, Zb. cbn [orb]. now rewrite i64_sub.
Qed.

Lemma float_same_sign c a b : - 2 ^ 63 < bit_tol c < 2 ^ 63 ->
  finite_nonzero a -> finite_nonzero b -> f64_sign a = f64_sign b ->
  cmp_float c a b = (Z.abs (f64_key b - f64_key a) <? bit_tol c).
Proof.
  intros B Fa Fb S. rewrite float_bits by assumption. cbv zeta.
  pose proof (finite_nonzero_mag a Fa). pose proof (finite_nonzero_mag b Fb).
  destruct Fa as (Wa & _), Fb as (Wb & _).
  rewrite (wf_word a), (wf_word b) by assumption. rewrite (i64_id (- bit_tol c)) by lia.
  unfold f64_pinf, two63 in *.
  assert (E : i64 ((if f64_sign b then 2 ^ 63 else 0) + f64_mag b - ((if f64_sign a then 2 ^ 63 else 0) + f64_mag a))
    = f64_mag b - f64_mag a).
  { rewrite S. replace ((if f64_sign b then 2 ^ 63 else 0) + f64_mag b - ((if f64_sign b then 2 ^ 63 else 0) + f64_mag a))
      with (f64_mag b - f64_mag a) by ring.
    apply i64_id. lia. }
  rewrite E. rewrite <- !wf_word by assumption. unfold f64_key. rewrite S.
  destruct (f64_sign b); destruct (Z.ltb_spec (f64_mag b - f64_mag a) 0); lia.
Qed.

Lemma float_opposite_sign c a b : 0 < bit_tol c <= 2 ^ 52 ->
  finite_nonzero a -> finite_nonzero b -> f64_sign a <> f64_sign b ->
  cmp_float c a b = false.
Proof.
  intros B Fa Fb S.
  assert (G : forall a b, finite_nonzero a -> finite_nonzero b -> f64_sign a = false -> f64_sign b = true ->
    cmp_float c a b = false).
  { clear a b Fa Fb S. intros a b Fa Fb Sa Sb. rewrite float_bits by assumption. cbv zeta.
    pose proof (finite_nonzero_mag a Fa). pose proof (finite_nonzero_mag b Fb).
    destruct Fa as (Wa & _), Fb as (Wb & _).
    rewrite (wf_word a), (wf_word b), Sa, Sb by assumption.
    rewrite (i64_id (- bit_tol c)) by lia. unfold f64_pinf, two63 in *.
    destruct (Z.leb_spec (f64_mag a) (f64_mag b)).
    - replace (i64 (2 ^ 63 + f64_mag b - (0 + f64_mag a))) with (f64_mag b - f64_mag a - 2 ^ 63).
      + destruct (Z.ltb_spec (f64_mag b - f64_mag a - 2 ^ 63) 0); lia.
      + rewrite <- (i64_id (f64_mag b - f64_mag a - 2 ^ 63)) by lia. apply i64_cong.
        replace (2 ^ 63 + f64_mag b - (0 + f64_mag a)) with (f64_mag b - f64_mag a - 2 ^ 63 + 1 * 2 ^ 64) by lia.
        rewrite Z.mod_add by lia. reflexivity.
    - rewrite i64_id by lia. destruct (Z.ltb_spec (2 ^ 63 + f64_mag b - (0 + f64_mag a)) 0); lia. }
  destruct (f64_sign a) eqn:Sa, (f64_sign b) eqn:Sb; try congruence.
  - rewrite float_symmetric by lia. now apply G.
  - now apply G.
Qed.

(** Same value: equal under every positive tolerance. *)
Lemma float_same c a b : f64_lt f64_zero (tol c) = true -> 0 < bit_tol c ->
  f64_wf a = true -> f64_wf b = true -> f64_eq a b = true -> cmp_float c a b = true.
Proof.
  intros T B Wa Wb E.
  destruct (f64_eq a f64_zero) eqn:Za.
  - assert (Zb : f64_eq b f64_zero = true).
    { apply eq_inv in E, Za. destruct E as (Na & Nb & K), Za as (_ & _ & K0).
      rewrite eq_key by (auto; reflexivity). lia. }
    pose proof (eq_zero_mag a Za) as Ma. pose proof (eq_zero_mag b Zb) as Mb.
    unfold cmp_float.
    assert (Ia : f64_isinf a = false). { apply finite_not_inf; auto. unfold f64_finite. now rewrite Ma. }
    assert (Ib : f64_isinf b = false). { apply finite_not_inf; auto. unfold f64_finite. now rewrite Mb. }
    rewrite Ia, Ib, Za. cbn [orb]. now rewrite sub_zeros.
  - replace b with a; [now apply float_reflexive|].
    apply eq_inv in E. destruct E as (Na & Nb & K).
    rewrite eq_key in Za by (auto; reflexivity). change (f64_key f64_zero) with 0 in Za.
    rewrite (wf_word a), (wf_word b) by assumption. unfold f64_key in *.
    pose proof (mag_bounds a). pose proof (mag_bounds b).
    destruct (f64_sign a), (f64_sign b); lia.
Qed.
