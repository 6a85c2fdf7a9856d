(** Integers written as JSON and read back. *)
From Coq Require Import String ZArith Bool List Lia Reals Lra.
From Coq Require Import ZifyBool ZifyNat.
From Coq Require Import Floats.SpecFloat.
From Flocq Require Import Core.Core IEEE754.BinarySingleNaN IEEE754.Binary IEEE754.Bits.
From Verif Require Import Base_F64 Base_F64Arith M_Wkt M_Strconv M_Geojson S_Wkt S_Strconv
  P_F64 P_F64Flocq P_F64Round P_F64Grid P_Wkt P_Strconv P_Strconv2 P_Strconv3 P_Strconv4.
Import ListNotations.
Open Scope Z_scope.

Local Notation prec := 53.
Local Notation emax := 1024.

Lemma rnd_two64 n : 0 <= n <= 2 ^ 64 -> (0 <= rnd (IZR n) < huge)%R.
Proof.
  intros H. split; [rewrite <- rnd_0; apply rnd_le; apply IZR_le; lia|].
  apply Rle_lt_trans with (rnd (1 * bpow radix2 64)).
  - apply rnd_le. rewrite Rmult_1_l. rewrite <- bpow_IZR by lia. apply IZR_le. lia.
  - rewrite grid_rnd by (vm_compute; intuition discriminate). rewrite Rmult_1_l. apply bpow_lt. lia.
Qed.

Lemma rnd_opp x : rnd (- x) = (- rnd x)%R.
Proof. unfold rnd. apply round_NE_opp. Qed.

Lemma ofZ_big n : Z.abs n <= 2 ^ 64 ->
  f64_wf (f64_ofZ n) = true /\ f64_finite (f64_ofZ n) = true /\
  f64_R (f64_ofZ n) = rnd (IZR n) /\ f64_sign (f64_ofZ n) = (n <? 0).
Proof.
  intros Hn.
  pose proof (Binary.binary_normalize_correct prec emax eq_refl eq_refl mode_NE n 0 false) as H.
  replace (F2R (Float radix2 n 0)) with (IZR n) in H by (unfold F2R; cbn [Fnum Fexp bpow]; ring).
  change (round radix2 (SpecFloat.fexp prec emax) (round_mode mode_NE) (IZR n))
    with (rnd (IZR n)) in H.
  assert (A : (Rabs (rnd (IZR n)) < huge)%R).
  { destruct (Z_le_gt_dec 0 n).
    - destruct (rnd_two64 n); [lia|]. rewrite Rabs_pos_eq; assumption.
    - destruct (rnd_two64 (- n)) as [P Q]; [lia|]. rewrite opp_IZR, rnd_opp in *.
      rewrite <- Rabs_Ropp, Rabs_pos_eq; assumption. }
  rewrite Rlt_bool_true in H by exact A.
  destruct H as (E & F & S).
  split; [apply bits_wf|].
  assert (Fi : f64_finite (f64_ofZ n) = true) by (unfold f64_ofZ; rewrite finite_of_bits; exact F).
  split; [exact Fi|]. split; [unfold f64_ofZ; rewrite R_of_bits; exact E|].
  rewrite sign_word by (apply bits_wf || exact Fi). unfold f64_ofZ. rewrite of_bits_bits.
  refine (eq_trans S _).
  destruct (Rcompare_spec (IZR n) 0) as [L|L|L].
  - apply lt_IZR in L. symmetry. now apply Z.ltb_lt.
  - apply eq_IZR in L. now subst.
  - apply lt_IZR in L. symmetry. apply Z.ltb_ge. lia.
Qed.

Lemma fmt_uint_text n : 0 <= n -> exists ds, fmt_uint n = map char ds /\ Forall digit ds /\ ds <> [] /\ value ds = n.
Proof.
  intros H. unfold fmt_uint. destruct (Z.eqb_spec n 0) as [->|N].
  - exists [0]. split; [reflexivity|]. split; [constructor; [unfold digit; lia|constructor]|]. split; [discriminate|reflexivity].
  - destruct (digits_spec n) as (V & D & _ & L); [lia|]. exists (digits n). split; [reflexivity|]. split; [assumption|].
    split; [|assumption]. intros E. rewrite E in L. cbn in L. lia.
Qed.

Lemma parse_uint_fmt n : 0 <= n < 2 ^ 64 -> parse_uint (fmt_uint n) = Some n.
Proof.
  intros [H1 H2]. destruct (fmt_uint_text n H1) as (ds & -> & D & N & V).
  unfold parse_uint. rewrite <- (app_nil_r (map char ds)), span_spec by (auto; exact I).
  destruct ds as [|d ds]; [easy|]. rewrite V. destruct (Z.ltb_spec n (2 ^ 64)); [reflexivity|lia].
Qed.

Lemma parse_uint_float (neg : bool) n : 0 <= n <= 2 ^ 64 ->
  parse_float ((if neg then [45] else []) ++ fmt_uint n) = Some (if neg then f64_neg (nearest n 0) else nearest n 0).
Proof.
  intros H. destruct (fmt_uint_text n) as (ds & -> & D & N & V); [lia|].
  pose proof (parse_text2 neg ds [] D (Forall_nil _) N) as P. cbn zeta in P.
  unfold text2 in P. rewrite !app_nil_r in P. cbn [List.length Z.of_nat Z.opp] in P. rewrite V in P. rewrite P.
  destruct (nearest_correct n 0) as (_ & F & _); [lia| |].
  { replace (ten 0) with 1%R by reflexivity. rewrite Rmult_1_r. now apply rnd_two64. }
  now rewrite finite_inf.
Qed.

Theorem parse_int_fmt z : - 2 ^ 63 <= z < 2 ^ 64 -> parse_float (fmt_int z) = Some (f64_ofZ z).
Proof.
  intros H. unfold fmt_int.
  assert (C : forall n, 0 <= n <= 2 ^ 64 -> f64_wf (nearest n 0) = true /\ f64_finite (nearest n 0) = true /\
     f64_R (nearest n 0) = rnd (IZR n) /\ f64_sign (nearest n 0) = false).
  { intros n Hn. pose proof (nearest_correct n 0 (proj1 Hn)) as C. replace (ten 0) with 1%R in C by reflexivity.
    rewrite Rmult_1_r in C. apply C. now apply rnd_two64. }
  assert (B : Z.abs z <= 2 ^ 64) by lia.
  destruct (ofZ_big z B) as (O1 & O2 & O3 & O4).
  destruct (Z.ltb_spec z 0) as [L|L].
  - assert (B' : 0 <= - z <= 2 ^ 64) by lia.
    change (45 :: fmt_uint (- z)) with ((if true then [45] else []) ++ fmt_uint (- z)).
    rewrite parse_uint_float by assumption. f_equal.
    destruct (C (- z) B') as (C1 & C2 & C3 & C4).
    destruct (signed_spec true (nearest (- z) 0) C1 C2 C4) as (D1 & D2 & D3 & D4). cbn [signed] in *.
    apply word_inj; auto.
    + rewrite D4, C3, O3, opp_IZR, rnd_opp. ring.
    + rewrite D3, O4. reflexivity.
  - assert (B' : 0 <= z <= 2 ^ 64) by lia.
    change (fmt_uint z) with ((if false then [45] else []) ++ fmt_uint z).
    rewrite parse_uint_float by assumption. f_equal.
    destruct (C z B') as (C1 & C2 & C3 & C4).
    apply word_inj; auto; [rewrite C3, O3; reflexivity|]. rewrite C4, O4. reflexivity.
Qed.
