(** * Small coordinates: insertion cannot panic *)
From Coq Require Import ZArith Bool List Permutation Lia ZifyBool ZifyNat Reals Lra.
From Coq Require Import Floats.SpecFloat.
From Flocq Require Import Core.Core IEEE754.BinarySingleNaN IEEE754.Binary IEEE754.Bits.
From Verif Require Import Base_F64 Base_F64Arith Base_Res P_F64 P_F64Flocq P_F64Round P_F64Sqrt M_Rtree S_Rtree P_Rtree.
Import ListNotations.
Local Notation prec := 53%Z.
Local Notation emax := 1024%Z.

Definition bnd (k : Z) (w : f64) : Prop :=
  f64_wf w = true /\ f64_finite w = true /\ (Rabs (f64_R w) <= bpow radix2 k)%R.

Lemma rnd_bpow k : (-1074 <= k)%Z -> rnd (bpow radix2 k) = bpow radix2 k.
Proof.
  intros H. apply round_generic; [apply valid_rnd_N|]. rewrite fexp_flt.
  apply generic_format_bpow. unfold FLT_exp. lia.
Qed.

Lemma round_bnd k r w : (0 <= k <= 1023)%Z -> is_round r w -> (Rabs r <= bpow radix2 k)%R -> bnd k w.
Proof.
  intros Hk [Hw H] Hr.
  assert (B : (Rabs (rnd r) <= bpow radix2 k)%R).
  { rewrite <- rnd_abs, <- (rnd_bpow k) by lia. now apply rnd_le. }
  assert (Hh : (bpow radix2 k < huge)%R) by (apply bpow_lt; lia).
  destruct H as [(F & E & _)|[(_ & E)|(_ & E)]].
  - split; [exact Hw|]. split; [exact F|]. now rewrite E.
  - apply Rabs_le_inv in B. lra.
  - apply Rabs_le_inv in B. lra.
Qed.

Lemma sub_bnd k a b : (0 <= k <= 1022)%Z -> bnd k a -> bnd k b -> bnd (k + 1) (f64_sub a b).
Proof.
  intros Hk (Wa & Fa & Ba) (Wb & Fb & Bb).
  apply (round_bnd _ (f64_R a - f64_R b)); [lia| |].
  - now apply sub_round.
  - rewrite bpow_plus. change (bpow radix2 1) with 2%R. apply Rabs_le. apply Rabs_le_inv in Ba, Bb. lra.
Qed.

Lemma mul_bnd k l a b : (0 <= k)%Z -> (0 <= l)%Z -> (k + l <= 1023)%Z -> bnd k a -> bnd l b -> bnd (k + l) (f64_mul a b).
Proof.
  intros Hk Hl Hs (Wa & Fa & Ba) (Wb & Fb & Bb).
  apply (round_bnd _ (f64_R a * f64_R b)); [lia| |].
  - now apply mul_round.
  - rewrite bpow_plus, Rabs_mult. apply Rmult_le_compat; auto; apply Rabs_pos.
Qed.

Lemma bnd_mono k l w : (k <= l)%Z -> bnd k w -> bnd l w.
Proof.
  intros H (W & F & B). split; [exact W|]. split; [exact F|]. eapply Rle_trans; [exact B|]. now apply bpow_le.
Qed.

Lemma R_one : f64_R f64_one = 1%R.
Proof.
  unfold f64_R. rewrite <- (FF2R_B2FF prec emax).
  replace (B2FF prec emax (b64_of_bits f64_one)) with (F754_finite false 4503599627370496 (-52)) by (vm_compute; reflexivity).
  unfold FF2R, F2R. cbn [cond_Zopp Fnum Fexp]. change (bpow radix2 (-52)) with (/ 4503599627370496)%R. field.
Qed.
Lemma R_max : (bpow radix2 1023 < f64_R f64_max)%R.
Proof.
  unfold f64_R. rewrite <- (FF2R_B2FF prec emax).
  replace (B2FF prec emax (b64_of_bits f64_max)) with (F754_finite false 9007199254740991 971) by (vm_compute; reflexivity).
  unfold FF2R, F2R. cbn [cond_Zopp Fnum Fexp]. change 1023%Z with (52 + 971)%Z. rewrite bpow_plus.
  apply Rmult_lt_compat_r; [apply bpow_gt_0|]. change (bpow radix2 52) with 4503599627370496%R. lra.
Qed.

Section Small.
  Variable m : Z.
  Hypothesis Hm : (0 <= m)%Z.

  Lemma small_bnd c : small_coord m c -> bnd m c.
  Proof.
    intros (W & F & B). split; [exact W|]. split; [exact F|]. rewrite <- IZR_Zpower by exact Hm. exact B.
  Qed.

  Lemma size_fold r : forall k s, (0 <= k)%Z -> bnd k s -> Forall (fun i => small_coord m (fst i) /\ small_coord m (snd i)) r ->
    (k + Z.of_nat (length r) * (m + 1) <= 1023)%Z ->
    bnd (k + Z.of_nat (length r) * (m + 1)) (fold_left (fun s ab => f64_mul s (f64_sub (snd ab) (fst ab))) r s).
  Proof.
    induction r as [|[a b] r IH]; intros k s Hk Hs H B; cbn [fold_left length].
    - now replace (k + Z.of_nat 0 * (m + 1))%Z with k by lia.
    - inversion H as [|? ? [Ha Hb] Hr]; subst. cbn [fst snd] in *. cbn [length] in B.
      replace (k + Z.of_nat (S (length r)) * (m + 1))%Z with ((k + (m + 1)) + Z.of_nat (length r) * (m + 1))%Z by lia.
      apply IH; [lia| |exact Hr|lia].
      apply mul_bnd; [lia|lia|nia|exact Hs|]. apply sub_bnd; [nia| |]; now apply small_bnd.
  Qed.

  Lemma bnd_one : bnd 0 f64_one.
  Proof.
    split; [reflexivity|]. split; [reflexivity|]. replace (f64_R f64_one) with 1%R; [rewrite Rabs_R1; cbn; lra|].
    rewrite R_one. reflexivity.
  Qed.

  Lemma size_bnd d r : small_rect d m r -> (Z.of_nat d * (m + 1) <= 1023)%Z -> bnd (Z.of_nat d * (m + 1)) (size r).
  Proof.
    intros [L H] B. subst d. unfold size.
    replace (Z.of_nat (length r) * (m + 1))%Z with (0 + Z.of_nat (length r) * (m + 1))%Z by lia.
    apply size_fold; [lia|exact bnd_one|exact H|lia].
  Qed.

  Lemma small_ok d r : small_rect d m r -> rect_ok d r.
  Proof.
    intros [L H]. split; [exact L|]. eapply Forall_impl; [|exact H]. intros i [(_ & F1 & _) (_ & F2 & _)].
    split; now apply finite_nn.
  Qed.

  Lemma small_bb d r1 r2 : small_rect d m r1 -> small_rect d m r2 -> small_rect d m (bounding_box r1 r2).
  Proof.
    intros [L1 H1] [L2 H2]. split.
    - unfold bounding_box. rewrite map_length, combine_length. lia.
    - unfold bounding_box. apply Forall_map, Forall_forall. intros [i j] Hij.
      pose proof (in_combine_l _ _ _ _ Hij) as Hi. pose proof (in_combine_r _ _ _ _ Hij) as Hj.
      rewrite Forall_forall in H1, H2. destruct (H1 _ Hi), (H2 _ Hj). cbn [fst snd].
      split; destruct (f64_le _ _); assumption.
  Qed.

  Lemma small_choose d r e : (Z.of_nat d * (m + 1) <= 1022)%Z -> small_rect d m r -> small_rect d m e ->
    f64_lt (f64_sub (size (bounding_box r e)) (size r)) f64_max = true.
  Proof.
    intros B Hr He.
    pose proof (size_bnd d _ (small_bb _ _ _ Hr He) ltac:(lia)) as B1.
    pose proof (size_bnd d _ Hr ltac:(lia)) as B2.
    assert (Hk : (0 <= Z.of_nat d * (m + 1) <= 1022)%Z) by nia.
    destruct (sub_bnd _ _ _ Hk B1 B2) as (W & F & R).
    apply lt_R; [exact W|reflexivity|exact F|reflexivity|].
    apply Rabs_le_inv in R. eapply Rle_lt_trans; [apply R|].
    eapply Rle_lt_trans; [apply (bpow_le radix2 _ 1023); lia|]. exact R_max.
  Qed.
End Small.
