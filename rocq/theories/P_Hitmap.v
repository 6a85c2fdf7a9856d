(** Proofs about planar/makevalid/hitmap: rounding to 20 bits *)
From Coq Require Import ZArith Bool List Lia Reals Lra.
From Coq Require Import Floats.SpecFloat.
From Flocq Require Import Core.Core IEEE754.BinarySingleNaN IEEE754.Binary IEEE754.Bits.
From Verif Require Import Base_Res Base_F64 Base_F64Arith Base_Geom M_Geom M_Extent M_Hitmap P_F64 P_F64Flocq P_F64Grid.
Import ListNotations.
Open Scope Z_scope.

(** ** Magnitudes as mantissa and exponent *)
Definition decomposed (m p e : Z) : Prop :=
  -1074 <= e /\ 0 <= p <= 2 ^ 53 /\ (e = -1074 \/ 2 ^ 52 <= p) /\ m = (e + 1074) * 2 ^ 52 + p.

Definition signed (s : bool) (x : R) : R := if s then (- x)%R else x.

Lemma mag_decomposed m : 0 <= m < f64_pinf -> exists p e, decomposed m p e /\ p < 2 ^ 53.
Proof.
  intros H. unfold f64_pinf in H. change (2 ^ 53) with 9007199254740992. destruct (Z.lt_ge_cases m (2 ^ 52)) as [L|L].
  - exists m, (-1074). unfold decomposed. change (2 ^ 53) with 9007199254740992 in *. change (2 ^ 52) with 4503599627370496 in *. lia.
  - pose proof (Z.mod_pos_bound m (2 ^ 52) ltac:(lia)) as Hr. pose proof (Z.div_mod m (2 ^ 52) ltac:(lia)) as Hd.
    set (q := m / 2 ^ 52) in *. set (r := m mod 2 ^ 52) in *. clearbody q r.
    exists (r + 2 ^ 52), (q - 1075). unfold decomposed. change (2 ^ 53) with 9007199254740992 in *. change (2 ^ 52) with 4503599627370496 in *. lia.
Qed.

Lemma decomposed_R w p e : f64_wf w = true -> f64_finite w = true -> decomposed (f64_mag w) p e ->
  f64_R w = signed (f64_sign w) (IZR p * bpow radix2 e)%R.
Proof.
  intros Hw Hf (He & Hp & Hn & Hm). unfold f64_R.
  assert (Hmag : 0 <= f64_mag w < f64_pinf).
  { unfold f64_finite in Hf. apply Z.ltb_lt in Hf. split; [|exact Hf]. unfold f64_mag. apply Z.mod_pos_bound. reflexivity. }
  pose proof (B2SF_word w Hw) as B. pose proof (sf_shape (f64_sign w) (f64_mag w) ltac:(lia)) as S. rewrite <- B in S. clear B.
  set (x := b64_of_bits w) in *. clearbody x. set (s := f64_sign w) in *. clearbody s. set (m := f64_mag w) in *. clearbody m.
  change (2 ^ 53) with 9007199254740992 in *. change (2 ^ 52) with 4503599627370496 in *. unfold f64_pinf in Hmag.
  destruct x as [sx|sx|sx pl Hpl|sx px ex Hb]; cbn [Binary.B2SF Binary.B2R] in *; inversion S; subst.
  - replace p with 0 by lia. destruct sx; cbn; lra.
  - unfold f64_pinf in *. lia.
  - change (2 ^ 53) with 9007199254740992 in *. change (2 ^ 52) with 4503599627370496 in *.
    destruct (Z.eq_dec p 9007199254740992) as [->|N].
    + assert (ex = e + 1 /\ Zpos px = 4503599627370496) as [-> Q] by lia.
      unfold F2R. cbn [Fnum Fexp]. rewrite bpow_plus. destruct sx; cbn [cond_Zopp signed]; rewrite ?opp_IZR, Q; change (bpow radix2 1) with 2%R; lra.
    + assert (ex = e /\ Zpos px = p) as [-> <-] by lia.
      unfold F2R. cbn [Fnum Fexp]. destruct sx; cbn [cond_Zopp signed]; [change (Z.neg px) with (- Zpos px); rewrite opp_IZR; lra|reflexivity].
Qed.

(** ** Rounding *)
Lemma near_even_spec u k : 0 <= u -> 1 <= k -> near_even u k = ZnearestE (IZR u * bpow radix2 (- k)).
Proof.
  intros Hu Hk. unfold near_even. set (q := u / 2 ^ k). set (r := u mod 2 ^ k).
  assert (P2 : 2 ^ k = 2 * 2 ^ (k - 1)) by (rewrite <- Z.pow_succ_r by lia; f_equal; lia).
  assert (Ph : 0 < 2 ^ (k - 1)) by (apply Z.pow_pos_nonneg; lia).
  assert (Hr : 0 <= r < 2 ^ k) by (apply Z.mod_pos_bound; lia).
  assert (E : u = q * 2 ^ k + r) by (rewrite Z.mul_comm; apply Z.div_mod; lia).
  assert (Ex : (IZR u * bpow radix2 (- k) = IZR q + IZR r * bpow radix2 (- k))%R).
  { rewrite E, plus_IZR, mult_IZR. change 2 with (radix_val radix2) at 1. rewrite IZR_Zpower by lia. rewrite Rmult_plus_distr_r, Rmult_assoc, <- bpow_plus.
    replace (k + - k) with 0 by lia. cbn [bpow]. ring. }
  assert (Bp : (0 < bpow radix2 (- k))%R) by apply bpow_gt_0.
  assert (Bh : (IZR (2 ^ (k - 1)) * bpow radix2 (- k) = / 2)%R).
  { change 2 with (radix_val radix2) at 1. rewrite IZR_Zpower by lia. rewrite <- bpow_plus. replace (k - 1 + - k) with (-1) by lia. reflexivity. }
  assert (Bk : (IZR (2 ^ k) * bpow radix2 (- k) = 1)%R) by (rewrite P2, mult_IZR, Rmult_assoc, Bh; lra).
  assert (Fl : Zfloor (IZR u * bpow radix2 (- k)) = q).
  { apply Zfloor_imp. rewrite Ex, plus_IZR. assert (0 <= IZR r)%R by (apply IZR_le; lia). assert (IZR r < IZR (2 ^ k))%R by (apply IZR_lt; lia). split; [nra|]. 
    rewrite <- Bk. nra. }
  replace (u + 2 ^ (k - 1) - 1 + q mod 2) with (q * 2 ^ k + (r + 2 ^ (k - 1) - 1 + q mod 2)) by lia.
  rewrite Z.div_add_l by lia. unfold Znearest. rewrite Fl.
  pose proof (Z.mod_pos_bound q 2 ltac:(lia)) as Hq.
  assert (Ce : (r <> 0 -> Zceil (IZR u * bpow radix2 (- k)) = q + 1)).
  { intros N. rewrite Zceil_floor_neq, Fl; [reflexivity|]. rewrite Fl, Ex. intros C. assert (0 < IZR r)%R by (apply IZR_lt; lia). nra. }
  assert (Df : (IZR u * bpow radix2 (- k) - IZR q = IZR r * bpow radix2 (- k))%R) by (rewrite Ex; ring). rewrite Df.
  set (h := 2 ^ (k - 1)) in *. clearbody h q r. rewrite P2 in *.
  destruct (Z.lt_trichotomy r h) as [L|[L|L]].
  - assert (IZR r < IZR h)%R by (apply IZR_lt; lia). rewrite Rcompare_Lt by nra. rewrite Z.div_small by lia. lia.
  - subst r. rewrite Bh, Rcompare_Eq by reflexivity. rewrite Ce by lia. rewrite Zmod_even in *. destruct (Z.even q) eqn:Ev; cbn [negb].
    + rewrite Z.div_small by lia. lia.
    + replace (h + h - 1 + 1) with (1 * (2 * h)) by lia. rewrite Z.div_mul by lia. reflexivity.
  - assert (IZR h < IZR r)%R by (apply IZR_lt; lia). rewrite Rcompare_Gt by nra. rewrite Ce by lia.
    replace (r + h - 1 + q mod 2) with (1 * (2 * h) + (r - h - 1 + q mod 2)) by lia. rewrite Z.div_add_l by lia. rewrite Z.div_small by lia. lia.
Qed.

Lemma near_even_shift a u k : 1 <= k -> near_even (a * 2 ^ (k + 1) + u) k = 2 * a + near_even u k.
Proof.
  intros Hk. unfold near_even. assert (P : 0 < 2 ^ k) by (apply Z.pow_pos_nonneg; lia).
  rewrite Z.pow_add_r by lia. change (2 ^ 1) with 2.
  replace (a * (2 ^ k * 2) + u) with (2 * a * 2 ^ k + u) by ring. rewrite Z.div_add_l by lia.
  rewrite <- (Z.add_mod_idemp_l (2 * a)) by lia. rewrite (Z.mul_comm 2 a), Z.mod_mul by lia. rewrite Z.add_0_l.
  replace (a * 2 * 2 ^ k + u + 2 ^ (k - 1) - 1 + (u / 2 ^ k) mod 2) with (a * 2 * 2 ^ k + (u + 2 ^ (k - 1) - 1 + (u / 2 ^ k) mod 2)) by ring.
  rewrite Z.div_add_l by lia. lia.
Qed.

Lemma near_even_bounds u k b : 0 <= u -> 1 <= k -> u <= b * 2 ^ k -> 0 <= near_even u k <= b.
Proof.
  intros Hu Hk Hb. rewrite (near_even_spec u k Hu Hk). assert (Bp : (0 < bpow radix2 (- k))%R) by apply bpow_gt_0. split.
  - rewrite <- (Zrnd_IZR ZnearestE 0) at 1. apply Zrnd_le; [apply valid_rnd_N|]. apply IZR_le in Hu. nra.
  - rewrite <- (Zrnd_IZR ZnearestE b) at 1. apply Zrnd_le; [apply valid_rnd_N|]. apply IZR_le in Hb. rewrite mult_IZR in Hb.
    change 2 with (radix_val radix2) in Hb at 1. rewrite IZR_Zpower in Hb by lia.
    apply Rmult_le_compat_r with (r := bpow radix2 (- k)) in Hb; [|lra]. rewrite Rmult_assoc, <- bpow_plus in Hb. replace (k + - k) with 0 in Hb by lia. cbn [bpow] in Hb. lra.
Qed.
Lemma near_even_least u k b : 0 <= u -> 1 <= k -> b * 2 ^ k <= u -> b <= near_even u k.
Proof.
  intros Hu Hk Hb. rewrite (near_even_spec u k Hu Hk). assert (Bp : (0 < bpow radix2 (- k))%R) by apply bpow_gt_0.
  rewrite <- (Zrnd_IZR ZnearestE b) at 1. apply Zrnd_le; [apply valid_rnd_N|]. apply IZR_le in Hb. rewrite mult_IZR in Hb.
  change 2 with (radix_val radix2) in Hb at 1. rewrite IZR_Zpower in Hb by lia.
  apply Rmult_le_compat_r with (r := bpow radix2 (- k)) in Hb; [|lra]. rewrite Rmult_assoc, <- bpow_plus in Hb. replace (k + - k) with 0 in Hb by lia. cbn [bpow] in Hb. lra.
Qed.

Definition rnd20 (x : R) : R := round radix2 (FLX_exp 20) ZnearestE x.

Lemma rnd20_signed s x : rnd20 (signed s x) = signed s (rnd20 x).
Proof. destruct s; [apply round_NE_opp|reflexivity]. Qed.

Lemma digits_bounds m p e : decomposed m p e -> p < 2 ^ 53 -> 0 < p -> 2 ^ (digits m - 1) <= p < 2 ^ digits m /\ 1 <= digits m <= 53 /\ (e = -1074 \/ digits m = 53).
Proof.
  intros (He & Hp & Hn & Hm) Lt Pp. unfold digits. destruct (Z.ltb_spec m (2 ^ 52)) as [L|L].
  - assert (e = -1074) by (change (2 ^ 52) with 4503599627370496 in *; lia). subst e. assert (Em : m = p) by lia. clear Hm. subst m.
    pose proof (Z.log2_spec p Pp) as [A B]. replace (Z.log2 p + 1 - 1) with (Z.log2 p) by lia. rewrite Z.add_1_r. split; [exact (conj A B)|].
    pose proof (Z.log2_nonneg p). assert (Z.log2 p < 52) by (apply Z.log2_lt_pow2; lia). lia.
  - change (53 - 1) with 52. split; [|lia]. change (2 ^ 52) with 4503599627370496 in *. change (2 ^ 53) with 9007199254740992 in *. lia.
Qed.

Lemma rnd20_keep p e : 0 <= p < 2 ^ 20 -> rnd20 (IZR p * bpow radix2 e) = (IZR p * bpow radix2 e)%R.
Proof.
  intros H. apply round_generic; [apply valid_rnd_N|]. apply generic_format_FLX. exists (Float radix2 p e); [reflexivity|]. cbn [Fnum]. change (Zpower radix2 20) with (2 ^ 20). lia.
Qed.

Lemma rnd20_cut p e d : 0 < p -> 2 ^ (d - 1) <= p < 2 ^ d -> 20 < d ->
  rnd20 (IZR p * bpow radix2 e) = (IZR (near_even p (d - 20) * 2 ^ (d - 20)) * bpow radix2 e)%R.
Proof.
  intros Hp Hd Ld. unfold rnd20, round, F2R. cbn [Fnum Fexp].
  assert (M : mag radix2 (IZR p * bpow radix2 e) = d + e :> Z).
  { apply mag_unique. rewrite Rabs_pos_eq by (apply Rmult_le_pos; [apply IZR_le; lia|apply bpow_ge_0]).
    replace (d + e - 1) with (d - 1 + e) by lia. rewrite !bpow_plus.
    assert (B : (0 < bpow radix2 e)%R) by apply bpow_gt_0.
    rewrite <- (IZR_Zpower radix2 (d - 1)), <- (IZR_Zpower radix2 d) by lia. change (radix_val radix2) with 2. split; [apply Rmult_le_compat_r; [lra|apply IZR_le; lia]|apply Rmult_lt_compat_r; [lra|apply IZR_lt; lia]]. }
  unfold scaled_mantissa, cexp, FLX_exp. rewrite M. replace (IZR p * bpow radix2 e * bpow radix2 (- (d + e - 20)))%R with (IZR p * bpow radix2 (- (d - 20)))%R.
  2:{ rewrite Rmult_assoc, <- bpow_plus. do 2 f_equal. lia. }
  rewrite <- near_even_spec by lia. rewrite mult_IZR, Rmult_assoc. f_equal. change 2 with (radix_val radix2). rewrite IZR_Zpower by lia. rewrite <- bpow_plus. f_equal. lia.
Qed.

Theorem round20_spec w : f64_wf w = true -> f64_finite w = true -> (Rabs (f64_R w) <= bpow radix2 1023)%R ->
  exists w', round20 w = Ok w' /\ f64_wf w' = true /\ f64_finite w' = true /\ f64_R w' = rnd20 (f64_R w).
Proof.
  intros Hw Hf Hb.
  assert (Hmag : 0 <= f64_mag w < f64_pinf).
  { unfold f64_finite in Hf. apply Z.ltb_lt in Hf. split; [|exact Hf]. unfold f64_mag. apply Z.mod_pos_bound. reflexivity. }
  destruct (mag_decomposed _ Hmag) as (p & e & D & Lt). pose proof (decomposed_R w p e Hw Hf D) as V.
  assert (R1 : round20 w = Ok ((if f64_sign w then two63 else 0) + round_mag (f64_mag w))).
  { unfold round20. replace (f64_isnan w) with false by (unfold f64_isnan; lia).
    replace (f64_isinf w) with false; [reflexivity|]. unfold f64_isinf, f64_ispinf, f64_isninf. symmetry. apply orb_false_intro; apply Z.eqb_neq; intros ->; vm_compute in Hf; discriminate. }
  eexists. split; [exact R1|].
  assert (K : exists p', decomposed (round_mag (f64_mag w)) p' e /\ round_mag (f64_mag w) < f64_pinf /\ (IZR p' * bpow radix2 e)%R = rnd20 (IZR p * bpow radix2 e)).
  { destruct (Z.eq_dec p 0) as [->|Np].
    { exists 0. assert (e = -1074) by (destruct D as (_ & _ & D & _); lia). subst e. assert (E0 : f64_mag w = 0) by (destruct D as (_ & _ & _ & D); lia). rewrite E0.
      split; [vm_compute; intuition congruence|]. split; [reflexivity|]. rewrite Rmult_0_l. symmetry. apply round_0. apply valid_rnd_N. }
    assert (Pp : 0 < p) by (destruct D as (_ & D & _); lia).
    destruct (digits_bounds _ p e D Lt Pp) as (Db & Dr & De). unfold round_mag. destruct (Z.leb_spec (digits (f64_mag w)) 20) as [L|L].
    - exists p. split; [exact D|]. split; [lia|]. symmetry. apply rnd20_keep. split; [lia|]. apply Z.lt_le_trans with (2 ^ digits (f64_mag w)); [lia|]. apply Z.pow_le_mono_r; lia.
    - set (d := digits (f64_mag w)) in *. clearbody d. exists (near_even p (d - 20) * 2 ^ (d - 20)).
      assert (Up : 0 <= near_even p (d - 20) <= 2 ^ 20).
      { apply near_even_bounds; [lia|lia|]. rewrite <- Z.pow_add_r by lia. replace (20 + (d - 20)) with d by lia. lia. }
      assert (Lo : 2 ^ 19 <= near_even p (d - 20)).
      { apply near_even_least; [lia|lia|]. rewrite <- Z.pow_add_r by lia. replace (19 + (d - 20)) with (d - 1) by lia. lia. }
      assert (Q : decomposed (near_even (f64_mag w) (d - 20) * 2 ^ (d - 20)) (near_even p (d - 20) * 2 ^ (d - 20)) e).
      { destruct D as (He & Hp & Hn & Hm). assert (Pk : 0 < 2 ^ (d - 20)) by (apply Z.pow_pos_nonneg; lia).
        assert (Ub : near_even p (d - 20) * 2 ^ (d - 20) <= 2 ^ 53).
        { apply Z.le_trans with (2 ^ 20 * 2 ^ (d - 20)); [apply Z.mul_le_mono_nonneg_r; lia|]. rewrite <- Z.pow_add_r by lia. apply Z.pow_le_mono_r; lia. }
        split; [exact He|]. split; [lia|]. destruct De as [-> | ->].
        - split; [now left|]. replace (f64_mag w) with p by lia. lia.
        - split; [right; change (53 - 20) with 33 in *; change (2 ^ 52) with (2 ^ 19 * 2 ^ 33); apply Z.mul_le_mono_nonneg_r; lia|].
          change (53 - 20) with 33 in *. rewrite Hm. replace ((e + 1074) * 2 ^ 52 + p) with ((e + 1074) * 2 ^ 18 * 2 ^ (33 + 1) + p) by (change (2 ^ 52) with (2 ^ 18 * 2 ^ 34); change (33 + 1) with 34; ring).
          rewrite near_even_shift by lia. change (2 ^ 52) with (2 ^ 18 * 2 * 2 ^ 33). ring. }
      split; [exact Q|]. split; [|symmetry; apply rnd20_cut; lia].
      destruct Q as (_ & Q1 & _ & ->). set (p' := near_even p (d - 20) * 2 ^ (d - 20)) in *.
      destruct (Z.le_gt_cases e 970) as [E1|E1]; [clearbody p'; change (2 ^ 52) with 4503599627370496 in *; change (2 ^ 53) with 9007199254740992 in *; unfold f64_pinf; lia|].
      assert (De' : d = 53) by lia. subst d. change (53 - 20) with 33 in *.
      assert (Eq : p = 2 ^ 52 /\ e = 971).
      { rewrite V in Hb. assert (Hb' : (IZR p * bpow radix2 e <= bpow radix2 1023)%R).
        { assert (0 <= IZR p * bpow radix2 e)%R by (apply Rmult_le_pos; [apply IZR_le; lia|apply bpow_ge_0]).
          destruct (f64_sign w); cbn [signed] in Hb; [rewrite Rabs_Ropp in Hb|]; rewrite Rabs_pos_eq in Hb by assumption; exact Hb. }
        assert (P1 : (bpow radix2 52 <= IZR p)%R) by (rewrite <- IZR_Zpower by lia; apply IZR_le; change (Zpower radix2 52) with (2 ^ 52); lia).
        assert (E2 : e <= 971).
        { destruct (Z.le_gt_cases e 971) as [|G]; [assumption|]. exfalso. assert (bpow radix2 972 <= bpow radix2 e)%R by (apply bpow_le; lia).
          assert (bpow radix2 1024 <= IZR p * bpow radix2 e)%R by (change 1024 with (52 + 972); rewrite bpow_plus; apply Rmult_le_compat; try apply bpow_ge_0; assumption).
          assert (bpow radix2 1023 < bpow radix2 1024)%R by (apply bpow_lt; lia). lra. }
        assert (e = 971) by lia. subst e. split; [|reflexivity]. change 1023 with (52 + 971) in Hb'. rewrite bpow_plus in Hb'.
        apply Rmult_le_reg_r in Hb'; [|apply bpow_gt_0]. rewrite <- IZR_Zpower in Hb' by lia. apply le_IZR in Hb'. change (Zpower radix2 52) with (2 ^ 52) in Hb'. change (53 - 1) with 52 in Db. lia. }
      destruct Eq as [-> ->]. vm_compute. reflexivity. }
  destruct K as (p' & D' & Fi & V').
  set (m' := round_mag (f64_mag w)) in *. clearbody m'.
  assert (Mb : 0 <= m') by (destruct D' as (A & B & _ & ->); change (2 ^ 52) with 4503599627370496; lia).
  assert (S2 : f64_sign ((if f64_sign w then two63 else 0) + m') = f64_sign w).
  { unfold f64_sign at 1. unfold f64_pinf, two63 in *. change (2 ^ 63) with 9223372036854775808 in *. destruct (f64_sign w); lia. }
  assert (M2 : f64_mag ((if f64_sign w then two63 else 0) + m') = m').
  { unfold f64_mag. destruct (f64_sign w); [rewrite <- (Z.add_mod_idemp_l two63), Z.mod_same by (vm_compute; discriminate)|]; rewrite Z.add_0_l; apply Z.mod_small; (split; [exact Mb|]); apply Z.lt_trans with f64_pinf; [exact Fi|reflexivity|exact Fi|reflexivity]. }
  assert (W2 : f64_wf ((if f64_sign w then two63 else 0) + m') = true).
  { unfold f64_wf. unfold f64_pinf, two63, two64 in *. change (2 ^ 63) with 9223372036854775808 in *. change (2 ^ 64) with 18446744073709551616. destruct (f64_sign w); lia. }
  assert (F2 : f64_finite ((if f64_sign w then two63 else 0) + m') = true) by (unfold f64_finite; rewrite M2; apply Z.ltb_lt; exact Fi).
  split; [exact W2|]. split; [exact F2|]. rewrite (decomposed_R _ p' e W2 F2); [|rewrite M2; exact D'].
  rewrite S2, V', V, rnd20_signed. reflexivity.
Qed.
