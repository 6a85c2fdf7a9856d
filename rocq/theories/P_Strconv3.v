(** Proofs about the decimal conversions: what is printed and read again. *)
From Coq Require Import String ZArith Bool List Lia Reals Lra.
From Coq Require Import ZifyBool ZifyNat.
From Flocq Require Import Core.Core IEEE754.BinarySingleNaN IEEE754.Binary IEEE754.Bits.
From Flocq Require Import Relative.
From Verif Require Import Base_F64 Base_F64Arith M_Wkt M_Strconv S_Wkt P_F64 P_F64Flocq P_F64Round P_F64Grid P_Wkt P_Strconv P_Strconv2.
Import ListNotations.
Open Scope Z_scope.

Local Notation prec := 53.
Local Notation emax := 1024.

Lemma ten_pos x : (0 < ten x)%R. Proof. apply bpow_gt_0. Qed.
Lemma pow10_pos x : 0 <= x -> 0 < 10 ^ x. Proof. intros. apply Z.pow_pos_nonneg; lia. Qed.
Lemma ZnE_IZR n : ZnearestE (IZR n) = n. Proof. apply (@Zrnd_IZR ZnearestE (valid_rnd_N _)). Qed.
Lemma ZnE_le x y : (x <= y)%R -> ZnearestE x <= ZnearestE y. Proof. apply (@Zrnd_le ZnearestE (valid_rnd_N _)). Qed.
Lemma ZnE_half x : (Rabs (x - IZR (ZnearestE x)) <= / 2)%R. Proof. apply Znearest_half. Qed.
Lemma ZnE_lower n x : (IZR n <= x)%R -> n <= ZnearestE x. Proof. intros H. rewrite <- (ZnE_IZR n). now apply ZnE_le. Qed.
Lemma ZnE_upper n x : (x <= IZR n)%R -> ZnearestE x <= n. Proof. intros H. rewrite <- (ZnE_IZR n). now apply ZnE_le. Qed.
Lemma ZnE_near n x : (Rabs (x - IZR n) < / 2)%R -> ZnearestE x = n. Proof. apply Znearest_imp. Qed.

Lemma floor_digits num den : 0 < num -> 0 < den -> den <= num * 10 ^ 400 ->
  let n := Z.of_nat (len (digits (num * 10 ^ 400 / den))) in
  (ten (n - 1) <= IZR num / IZR den * ten 400 < ten n)%R /\ 1 <= n.
Proof.
  intros Hn Hd Hb n. assert (0 < IZR den)%R by now apply IZR_lt.
  assert (P : 0 < num * 10 ^ 400 / den) by (apply Z.div_str_pos; lia).
  destruct (digits_spec _ P) as (_ & _ & B & L). fold n in B. assert (N1 : 1 <= n) by lia. split; [|assumption].
  rewrite <- (ten_IZR 400) by lia.
  replace (IZR num / IZR den * IZR (10 ^ 400))%R with (IZR (num * 10 ^ 400) / IZR den)%R by (rewrite mult_IZR; field; lra).
  rewrite <- !ten_IZR by lia. set (a := num * 10 ^ 400) in *.
  pose proof (Z.div_mod a den) as DM. pose proof (Z.mod_pos_bound a den Hd) as MB.
  assert (E : (IZR a = IZR den * IZR (a / den) + IZR (a mod den))%R).
  { rewrite <- mult_IZR, <- plus_IZR. f_equal. lia. }
  assert (E2 : (IZR a / IZR den * IZR den = IZR a)%R) by (field; lra).
  destruct B as [B1 B2]. apply IZR_le in B1. assert (B3 : a / den + 1 <= 10 ^ n) by lia. apply IZR_le in B3. rewrite plus_IZR in B3.
  destruct MB as [M1 M2]. apply IZR_le in M1. apply IZR_lt in M2.
  split; [apply (Rmult_le_reg_r (IZR den)); [assumption|nra]|apply (Rmult_lt_reg_r (IZR den)); [assumption|nra]].
Qed.

Lemma decimal_spec p num den : 0 < num -> 0 < den -> den <= num * 10 ^ 400 -> 1 <= p ->
  exists D t, decimal p num den = (trim (digits D), Z.of_nat (len (digits D)) - t) /\
    D = ZnearestE (IZR num / IZR den * ten t) /\
    (ten (p - 1) <= IZR num / IZR den * ten t < ten p)%R.
Proof.
  intros Hn Hd Hb Hp. destruct (floor_digits num den Hn Hd Hb) as [B N1].
  set (n := Z.of_nat (len (digits (num * 10 ^ 400 / den)))) in *.
  assert (0 < IZR den)%R by now apply IZR_lt.
  exists (ZnearestE (IZR num / IZR den * ten (400 + p - n))), (400 + p - n). split; [|split; [reflexivity|]].
  - unfold decimal. fold n.
    replace (if p <=? n then div_even (num * 10 ^ 400) (den * 10 ^ (n - p)) else div_even (num * 10 ^ (400 + (p - n))) den)
      with (ZnearestE (IZR num / IZR den * ten (400 + p - n))).
    + f_equal. lia.
    + destruct (Z.leb_spec p n).
      * rewrite div_even_spec by (apply Z.mul_pos_pos; [assumption|apply pow10_pos; lia]).
        rewrite !mult_IZR, !ten_IZR by lia. f_equal. replace (400 + p - n) with (400 - (n - p)) by lia.
        unfold Zminus at 1. rewrite bpow_plus, bpow_opp. pose proof (ten_pos (n - p)). field. lra.
      * rewrite div_even_spec by assumption. rewrite !mult_IZR, !ten_IZR by lia. f_equal.
        replace (400 + (p - n)) with (400 + p - n) by lia. field. lra.
  - replace (400 + p - n) with (400 + (p - n)) by lia. rewrite bpow_plus, <- Rmult_assoc.
    replace (p - 1) with (n - 1 + (p - n)) by lia. replace (ten p) with (ten n * ten (p - n))%R by (rewrite <- bpow_plus; f_equal; lia).
    rewrite bpow_plus. pose proof (ten_pos (p - n)). split; [apply Rmult_le_compat_r; [lra|tauto]|apply Rmult_lt_compat_r; [lra|tauto]].
Qed.

(** ** A finite number that is not 0 *)

Lemma pos_word w : f64_wf w = true -> f64_finite w = true -> f64_R w <> 0%R ->
  exists num den, 0 < num /\ 0 < den /\ den <= num * 10 ^ 400 /\ Rabs (f64_R w) = (IZR num / IZR den)%R /\
    forall p, format_g p w =
      let '(ds, dp) := decimal p num den in
      (if f64_sign w then [45] else []) ++
      (if (dp - 1 <? -4) || (p <=? dp - 1) then fmt_e ds dp else fmt_f ds dp).
Proof.
  intros W F N. pose proof (sign_word w W F) as S.
  unfold format_g. unfold f64_R in *. rewrite <- is_finite_word in F by exact W.
  destruct (b64_of_bits w) as [s|s|s pl e|s m e B]; cbn [Binary.is_finite] in F; try discriminate; [cbn in N; lra|].
  cbn [Binary.Bsign] in S. cbn [Binary.B2R] in *. rewrite S.
  assert (A : Rabs (F2R (Float radix2 (cond_Zopp s (Z.pos m)) e)) = (IZR (Z.pos m) * bpow radix2 e)%R).
  { rewrite <- F2R_Zabs, abs_cond_Zopp. reflexivity. }
  rewrite A. assert (Em : -1074 <= e).
  { pose proof B as B'. unfold SpecFloat.bounded, SpecFloat.canonical_mantissa in B'.
    apply andb_prop in B'. destruct B' as [B' _]. apply Zeq_bool_eq in B'.
    unfold SpecFloat.fexp, SpecFloat.emin in B'. clear - B'. lia. }
  destruct (Z.leb_spec 0 e).
  - exists (Z.pos m * 2 ^ e), 1. assert (0 < 2 ^ e) by (apply Z.pow_pos_nonneg; lia).
    assert (0 < 10 ^ 400) by (apply pow10_pos; lia).
    split; [lia|]. split; [lia|]. split; [nia|]. split; [|reflexivity].
    rewrite mult_IZR, bpow_IZR by lia. field.
  - exists (Z.pos m), (2 ^ (- e)). assert (0 < 2 ^ (- e)) by (apply Z.pow_pos_nonneg; lia).
    split; [lia|]. split; [lia|]. split; [|split; [|reflexivity]].
    + assert (2 ^ (- e) <= 2 ^ 1074) by (apply Z.pow_le_mono_r; lia).
      assert (2 ^ 1074 <= 10 ^ 400) by (vm_compute; discriminate). nia.
    + rewrite bpow_IZR by lia. rewrite bpow_opp. pose proof (bpow_gt_0 radix2 e). field. lra.
Qed.

Lemma small_rnd x : (0 <= x <= ten 15)%R -> (0 <= rnd x < huge)%R.
Proof.
  intros [A B]. split; [rewrite <- rnd_0; now apply rnd_le|].
  assert (T : (ten 15 <= 1 * bpow radix2 60)%R).
  { rewrite <- ten_IZR, <- bpow_IZR by lia. rewrite Rmult_1_l. apply IZR_le. vm_compute. discriminate. }
  apply Rle_lt_trans with (rnd (1 * bpow radix2 60)); [apply rnd_le; lra|].
  rewrite grid_rnd by (vm_compute; intuition discriminate). rewrite Rmult_1_l. apply bpow_lt. lia.
Qed.
Lemma finite_inf w : f64_finite w = true -> f64_isinf w = false.
Proof.
  intros H. unfold f64_isinf, f64_ispinf, f64_isninf. destruct (Z.eqb_spec w f64_pinf) as [->|_]; [discriminate|].
  destruct (Z.eqb_spec w f64_ninf) as [->|_]; [discriminate|reflexivity].
Qed.

Definition signed (s : bool) (w : f64) : f64 := if s then f64_neg w else w.

Lemma print_read p w : 1 <= p <= 15 -> f64_wf w = true -> f64_finite w = true ->
  (ten (-4) <= Rabs (f64_R w) < ten p - / 2)%R ->
  exists D t, 0 <= t /\ 1 <= D <= 10 ^ p /\ D = ZnearestE (Rabs (f64_R w) * ten t) /\
    (ten (p - 1) <= Rabs (f64_R w) * ten t < ten p)%R /\
    (ten (-4) <= IZR D * ten (- t) < ten p)%R /\
    format_g p w <> [] /\ Forall number_byte (format_g p w) /\
    parse_float (format_g p w) = Some (signed (f64_sign w) (nearest D (- t))).
Proof.
  intros Hp W F R. assert (N : f64_R w <> 0%R).
  { intros E. rewrite E, Rabs_R0 in R. pose proof (ten_pos (-4)). lra. }
  destruct (pos_word w W F N) as (num & den & Hn & Hd & Hb & E & Fm).
  destruct (decimal_spec p num den Hn Hd Hb ltac:(lia)) as (D & t & Dec & HD & B). specialize (Fm p). rewrite Dec in Fm. cbv iota beta in Fm.
  rewrite <- E in HD, B. set (x := Rabs (f64_R w)) in *.
  assert (T0 : 0 <= t).
  { apply Z.le_ngt. intros C. assert (ten t <= ten (-1))%R by (apply bpow_le; lia).
    assert (K : (ten (p - 1) < ten p * ten (-1))%R).
    { eapply Rle_lt_trans; [apply B|]. apply Rle_lt_trans with (x * ten (-1))%R; [apply Rmult_le_compat_l; [apply Rabs_pos|assumption]|].
      apply Rmult_lt_compat_r; [apply ten_pos|lra]. }
    rewrite <- bpow_plus in K. apply lt_bpow in K. lia. }
  assert (D1 : 10 ^ (p - 1) <= D <= 10 ^ p).
  { subst D. split; [apply ZnE_lower|apply ZnE_upper]; rewrite ten_IZR by lia; lra. }
  assert (P1 : 1 <= 10 ^ (p - 1)) by (pose proof (pow10_pos (p - 1)); lia).
  destruct (digits_spec D ltac:(lia)) as (V & Dg & DB & L1). set (L := Z.of_nat (len (digits D))) in *.
  assert (LP : L <= p + 1).
  { destruct (Z.le_gt_cases L (p + 1)) as [|G]; [assumption|]. exfalso.
    assert (10 ^ (p + 1) <= 10 ^ (L - 1)) by (apply Z.pow_le_mono_r; lia).
    assert (10 ^ p < 10 ^ (p + 1)) by (apply Z.pow_lt_mono_r; lia). lia. }
  assert (Dp : L - t <= p).
  { destruct (Z.eq_dec t 0) as [->|]; [|lia].
    assert (Dle : D < 10 ^ p).
    { assert (D <= 10 ^ p - 1); [|lia]. pose proof (ZnE_half (x * ten 0)) as H. rewrite <- HD in H. change (ten 0) with 1%R in H.
      rewrite Rmult_1_r in H. apply Rabs_le_inv in H. assert (K : (IZR D < IZR (10 ^ p))%R).
      { rewrite ten_IZR by lia. lra. } apply lt_IZR in K. lia. }
    destruct (Z.le_gt_cases L p) as [|G]; [lia|]. exfalso.
    assert (10 ^ p <= 10 ^ (L - 1)) by (apply Z.pow_le_mono_r; lia). lia. }
  assert (Dm : -3 <= L - t).
  { destruct (Z.le_gt_cases t 3) as [|G]; [lia|].
    assert (10 ^ (t - 4) <= D).
    { subst D. apply ZnE_lower. rewrite ten_IZR by lia. replace (t - 4) with (-4 + t) by lia. rewrite bpow_plus.
      apply Rmult_le_compat_r; [apply Rlt_le, ten_pos|lra]. }
    destruct (Z.le_gt_cases (t - 3) L) as [|G2]; [lia|]. exfalso.
    assert (10 ^ L <= 10 ^ (t - 4)) by (apply Z.pow_le_mono_r; lia). lia. }
  assert (V2 : (ten (-4) <= IZR D * ten (- t) < ten p)%R).
  { destruct DB as [DB1 DB2]. apply IZR_le in DB1. apply IZR_lt in DB2. rewrite ten_IZR in DB1, DB2 by lia.
    pose proof (ten_pos (- t)). split.
    - apply Rle_trans with (ten (L - 1) * ten (- t))%R; [|apply Rmult_le_compat_r; lra].
      rewrite <- bpow_plus. apply bpow_le. lia.
    - apply Rlt_le_trans with (ten L * ten (- t))%R; [apply Rmult_lt_compat_r; lra|].
      rewrite <- bpow_plus. apply bpow_le. lia. }
  exists D, t. split; [assumption|]. split; [lia|]. split; [assumption|]. split; [assumption|]. split; [assumption|].
  replace ((L - t - 1 <? -4) || (p <=? L - t - 1)) with false in Fm by lia.
  destruct (trim_spec (digits D)) as [Ts Tl]. assert (Td := trim_digits _ Dg).
  assert (Tn : trim (digits D) <> []).
  { intros C. rewrite C in Ts. cbn [app] in Ts. rewrite Ts in V. rewrite value_zeros in V. lia. }
  destruct (fmt_f_parts (trim (digits D)) (L - t) Td Tn) as (ip & fp & Di & Df & Ni & Tx & Lf & Va).
  assert (VD : D = value (trim (digits D)) * 10 ^ (L - Z.of_nat (len (trim (digits D))))).
  { rewrite <- V at 1. rewrite Ts at 1. rewrite value_app, value_zeros, repeat_length. fold (len (digits D)).
    replace (Z.of_nat (len (digits D) - len (trim (digits D)))) with (L - Z.of_nat (len (trim (digits D)))) by (unfold L; lia). lia. }
  rewrite Tx in Fm. rewrite Fm. split.
  { destruct (f64_sign w); [discriminate|]. destruct ip; [easy|discriminate]. }
  split; [now apply text2_bytes|].
  assert (Same : (IZR (value (ip ++ fp)) * ten (- Z.of_nat (len fp)) = IZR D * ten (- t))%R).
  { rewrite Va, Lf. assert (ND : Z.of_nat (len (trim (digits D))) <= L) by (unfold L; lia). clear - VD ND Dm T0.
    set (nd := Z.of_nat (len (trim (digits D)))) in *. set (V' := value (trim (digits D))) in *. clearbody nd V' L.
    rewrite VD.
    rewrite !mult_IZR, !ten_IZR by lia. rewrite !Rmult_assoc, <- !bpow_plus. do 2 f_equal. lia. }
  assert (Pos : (0 <= IZR D)%R) by (apply IZR_le; lia).
  assert (Sm : (0 <= IZR D * ten (- t) <= ten 15)%R).
  { split; [apply Rmult_le_pos; [assumption|apply Rlt_le, ten_pos]|]. apply Rle_trans with (ten p); [lra|]. apply bpow_le. lia. }
  apply small_rnd in Sm.
  assert (NE : nearest (value (ip ++ fp)) (- Z.of_nat (len fp)) = nearest D (- t)).
  { apply nearest_same; [|lia|exact Same|rewrite Same; tauto].
    rewrite Va. apply Z.mul_nonneg_nonneg; [|apply Z.lt_le_incl, pow10_pos; lia].
    apply Z.le_ngt. intros C. rewrite VD in D1. pose proof (pow10_pos (L - Z.of_nat (len (trim (digits D)))) ltac:(unfold L; lia)). nia. }
  rewrite parse_text2 by assumption. rewrite NE.
  destruct (nearest_correct D (- t) ltac:(lia) (proj2 Sm)) as (_ & Fi & _ & _).
  rewrite finite_inf by assumption. reflexivity.
Qed.
