(** * Proofs about RoundToPrec *)
From Coq Require Import ZArith Bool List Lia Reals Lra.
From Flocq Require Import Core.Core.
From Verif Require P_Cmp.
From Verif Require Import Base_F64 Base_F64Arith Base_Geom P_F64 P_F64Flocq P_F64Round P_F64Grid P_F64Err P_Strconv4 P_Rtree3 M_Extent M_Triangle M_Cmp M_Coord P_Coord3 M_Constraint M_Round.
Import ListNotations.
Open Scope Z_scope.

Lemma half_R : f64_R half = (/ 2)%R.
Proof.
  assert (N := normal_R half 1022 ltac:(unfold half, two63; lia) eq_refl ltac:(lia)). destruct N as (_ & _ & N). rewrite N.
  change (half mod 2 ^ 52 + 2 ^ 52) with (2 ^ 52). change (1022 - 1075) with (-53). change (bpow radix2 (-53)) with (/ IZR (2 ^ 53))%R.
  change (2 ^ 53) with (2 ^ 52 * 2). rewrite mult_IZR. field. apply not_0_IZR. lia.
Qed.
Lemma modf_pos v : f64_wf v = true -> f64_finite v = true -> (0 < f64_R v)%R -> (f64_R v <= bpow radix2 51)%R ->
  exists n, 0 <= n <= 2 ^ 51 /\ repr 0 n (fst (modf v)) /\ f64_wf (snd (modf v)) = true /\ f64_finite (snd (modf v)) = true
  /\ f64_R (snd (modf v)) = (f64_R v - IZR n)%R /\ (0 <= f64_R v - IZR n < 1)%R.
Proof.
  intros W F P B. unfold modf. pose proof (lt_R v f64_one W eq_refl F eq_refl) as L1. rewrite R_one in L1.
  destruct (f64_lt v f64_one) eqn:E1.
  - assert (V1 : (f64_R v < 1)%R) by (apply L1; reflexivity).
    destruct (f64_lt v f64_zero) eqn:E2; [apply (lt_R v f64_zero W eq_refl F eq_refl) in E2; rewrite R_0 in E2; lra|].
    destruct (f64_eq v f64_zero) eqn:E3; [apply (eq_R v f64_zero W eq_refl F eq_refl) in E3; rewrite R_0 in E3; lra|].
    exists 0. cbn [fst snd]. split; [lia|]. split; [apply repr_zero|]. split; [exact W|]. split; [exact F|]. split; lra.
  - assert (V1 : (1 <= f64_R v)%R) by (apply Rnot_lt_le; intros X; apply L1 in X; discriminate).
    destruct (modf_big_ok v W F V1) as (n & N0 & Wi & Fi & Ri & Wf & Ff & Rf & Bn). exists n.
    split; [split; [exact N0|]; apply le_IZR; change (bpow radix2 51) with (IZR (2 ^ 51)) in B; lra|].
    split; [split; [exact Wi|]; split; [exact Fi|]; rewrite Ri; change (bpow radix2 0) with 1%R; ring|]. auto.
Qed.
Lemma repr_neg n w : repr 0 n w -> repr 0 (- n) (f64_neg w).
Proof.
  intros (W & F & V). destruct (neg_word w W) as (Wn & _ & _). split; [exact Wn|]. split; [rewrite neg_finite by exact W; exact F|].
  rewrite neg_R by exact W. rewrite V, opp_IZR. ring.
Qed.
Lemma round_pos v : f64_wf v = true -> f64_finite v = true -> (0 < f64_R v)%R -> (f64_R v <= bpow radix2 51)%R ->
  exists k, 0 <= k <= 2 ^ 51 + 1 /\ repr 0 k (let '(d, fr) := modf v in if f64_ge fr half then f64_add d f64_one else d) /\ (Rabs (f64_R v - IZR k) <= / 2)%R.
Proof.
  intros W F P B. destruct (modf_pos v W F P B) as (n & N & Rd & Wf & Ff & Rf & Bn). destruct (modf v) as [d fr]. cbn [fst snd] in *.
  assert (G := le_R half fr eq_refl Wf eq_refl Ff). rewrite half_R, Rf in G. unfold f64_ge. destruct (f64_le half fr) eqn:E.
  - assert (X : (/ 2 <= f64_R v - IZR n)%R) by (apply G; reflexivity). exists (n + 1). split; [lia|]. split.
    + apply repr_add; [lia|unfold two53; lia|exact Rd|]. change f64_one with (f64_ofZ 1). apply repr_ofZ. unfold two53. lia.
    + rewrite plus_IZR. apply Rabs_le. lra.
  - assert (X : (f64_R v - IZR n < / 2)%R) by (apply Rnot_le_lt; intros X; apply G in X; discriminate). exists n. split; [lia|]. split; [exact Rd|]. apply Rabs_le. lra.
Qed.
(** math.Round: an integer at a distance of at most one half. *)
Lemma round_ok w : f64_wf w = true -> f64_finite w = true -> (Rabs (f64_R w) <= bpow radix2 51)%R ->
  exists k, Z.abs k <= 2 ^ 51 + 1 /\ repr 0 k (f64_round w) /\ (Rabs (f64_R w - IZR k) <= / 2)%R.
Proof.
  intros W F B. unfold f64_round. destruct (f64_eq w f64_zero) eqn:E0; cbn [orb].
  { apply (eq_R w f64_zero W eq_refl F eq_refl) in E0. rewrite R_0 in E0. exists 0. split; [lia|]. split; [split; [exact W|]; split; [exact F|]; rewrite E0; ring|].
    rewrite E0, Rminus_0_r, Rabs_R0. lra. }
  assert (N0 : f64_R w <> 0%R) by (intros X; assert (f64_eq w f64_zero = true) by (apply (eq_R w f64_zero W eq_refl F eq_refl); rewrite R_0; exact X); congruence).
  destruct (f64_isnan w || f64_isinf w) eqn:E1.
  { exfalso. rewrite (P_Cmp.finite_not_inf w W F), orb_false_r in E1. unfold f64_finite in F. apply Z.ltb_lt in F. unfold f64_isnan in E1. apply Z.ltb_lt in E1. lia. }
  assert (L := lt_R w f64_zero W eq_refl F eq_refl). rewrite R_0 in L. destruct (f64_lt w f64_zero) eqn:E2.
  - assert (X : (f64_R w < 0)%R) by (apply L; reflexivity). destruct (neg_word w W) as (Wn & _ & _). pose proof (neg_finite w W) as Fn. rewrite F in Fn. pose proof (neg_R w W) as Rn.
    rewrite Rabs_left in B by exact X. destruct (round_pos (f64_neg w) Wn Fn) as (k & K & Rk & Bk); [lra|lra|]. destruct (modf (f64_neg w)) as [d fr].
    exists (- k). split; [lia|]. split; [apply repr_neg, Rk|]. rewrite opp_IZR. rewrite Rn in Bk. replace (f64_R w - - IZR k)%R with (- (- f64_R w - IZR k))%R by ring. rewrite Rabs_Ropp. exact Bk.
  - assert (X : (0 < f64_R w)%R) by (destruct (Rlt_le_dec (f64_R w) 0) as [C|C]; [apply L in C; discriminate|lra]).
    rewrite Rabs_pos_eq in B by lra. destruct (round_pos w W F X B) as (k & K & Rk & Bk). destruct (modf w) as [d fr]. exists k. split; [lia|]. auto.
Qed.

(** Rounding with a factor. *)
Definition scaled (v factor : f64) : f64 := f64_div (f64_round (f64_mul v factor)) factor.
Lemma scaled_def v fa : scaled v fa = f64_div (f64_round (f64_mul v fa)) fa. Proof. reflexivity. Qed.
Section Factor.
  Variable N : Z.
  Variable fa : f64.
  Hypothesis Npos : 1 <= N.
  Hypothesis Rfa : repr 0 N fa.
  Lemma fa_R : f64_R fa = IZR N. Proof. destruct Rfa as (_ & _ & V). rewrite V. change (bpow radix2 0) with 1%R. ring. Qed.
  Lemma N_R : (1 <= IZR N)%R. Proof. apply IZR_le. exact Npos. Qed.
  Lemma log_N : (bpow radix2 (Z.log2 N) <= IZR N < bpow radix2 (Z.log2 N + 1))%R.
  Proof.
    pose proof (Z.log2_spec N ltac:(lia)) as [A B]. pose proof (Z.log2_nonneg N) as C. split.
    - change (bpow radix2 (Z.log2 N)) with (bpow radix2 (Z.log2 N)). rewrite <- IZR_Zpower by exact C. apply IZR_le. exact A.
    - rewrite <- IZR_Zpower by lia. apply IZR_lt. exact B.
  Qed.
  (** The quotient of an integer is right up to 2^-12, after multiplication. *)
  Lemma quotient k w : Z.abs k <= 2 ^ 40 + 1 -> N <= 2 ^ 50 -> repr 0 k w ->
    is_round (IZR k / IZR N) (f64_div w fa) /\ f64_wf (f64_div w fa) = true /\ f64_finite (f64_div w fa) = true /\ (Rabs (f64_R (f64_div w fa) * IZR N - IZR k) <= / 2048)%R.
  Proof.
    intros K Nb (W & F & V). change (bpow radix2 0) with 1%R in V. rewrite Rmult_1_r in V. destruct Rfa as (Wf & Ff & _).
    pose proof N_R as N1. pose proof log_N as [L1 L2]. set (l := Z.log2 N) in *.
    assert (Hl : 0 <= l <= 50) by (split; [apply Z.log2_nonneg|]; unfold l; apply (Z.le_trans _ (Z.log2 (2 ^ 50))); [apply Z.log2_le_mono, Nb|rewrite Z.log2_pow2; lia]).
    pose proof (div_round w fa W Wf F Ff ltac:(rewrite fa_R; lra)) as R. rewrite V, fa_R in R. split; [exact R|].
    assert (P : (0 < bpow radix2 l)%R) by apply bpow_gt_0.
    assert (Pow : (bpow radix2 (41 - l) * bpow radix2 l = bpow radix2 41)%R) by (rewrite <- bpow_plus; f_equal; lia).
    assert (P2 : (0 < bpow radix2 (41 - l))%R) by apply bpow_gt_0.
    assert (Ka : (Rabs (IZR k) <= bpow radix2 41)%R) by (rewrite <- abs_IZR; change (bpow radix2 41) with (IZR (2 ^ 41)); apply IZR_le; lia).
    assert (Qa : (Rabs (IZR k / IZR N) <= bpow radix2 (41 - l))%R).
    { unfold Rdiv. rewrite Rabs_mult, Rabs_inv, (Rabs_pos_eq (IZR N)) by lra. apply (Rmult_le_reg_r (IZR N)); [lra|]. rewrite Rmult_assoc, Rinv_l, Rmult_1_r by lra.
      apply (Rle_trans _ _ _ Ka). rewrite <- Pow. apply Rmult_le_compat_l; lra. }
    pose proof (is_round_ap (41 - l) _ (IZR k / IZR N) 0 _ ltac:(lia) R) as (Wd & Fd & Ed); [rewrite Rminus_eq_0, Rabs_R0; lra|lra|].
    split; [exact Wd|]. split; [exact Fd|]. rewrite Rplus_0_l in Ed.
    replace (f64_R (f64_div w fa) * IZR N - IZR k)%R with ((f64_R (f64_div w fa) - IZR k / IZR N) * IZR N)%R by (field; lra).
    rewrite Rabs_mult, (Rabs_pos_eq (IZR N)) by lra.
    apply (Rle_trans _ (bpow radix2 (41 - l - 53) * bpow radix2 (l + 1))).
    - apply Rmult_le_compat; [apply Rabs_pos|lra|exact Ed|lra].
    - rewrite <- bpow_plus. replace (41 - l - 53 + (l + 1)) with (-11) by lia. change (bpow radix2 (-11)) with (/ IZR 2048)%R. lra.
  Qed.
  (** The product and its nearest integer. *)
  Lemma product v : f64_wf v = true -> f64_finite v = true -> (Rabs (f64_R v * IZR N) <= bpow radix2 41)%R ->
    exists k, Z.abs k <= 2 ^ 51 + 1 /\ repr 0 k (f64_round (f64_mul v fa)) /\ (Rabs (f64_R v * IZR N - IZR k) <= / 2 + / 4096)%R.
  Proof.
    intros W F B. destruct Rfa as (Wf & Ff & _). pose proof (mul_round v fa W Wf F Ff) as R. rewrite fa_R in R.
    pose proof (is_round_ap 41 _ (f64_R v * IZR N) 0 _ ltac:(lia) R) as (Wm & Fm & Em); [rewrite Rminus_eq_0, Rabs_R0; lra|lra|].
    rewrite Rplus_0_l in Em. change (bpow radix2 (41 - 53)) with (/ IZR 4096)%R in Em.
    destruct (round_ok (f64_mul v fa) Wm Fm) as (k & K & Rk & Bk).
    { change (bpow radix2 51) with (IZR (2 ^ 51)). change (bpow radix2 41) with (IZR (2 ^ 41)) in B. apply Rabs_le. apply Rabs_le_inv in B, Em. lra. }
    exists k. split; [exact K|]. split; [exact Rk|]. apply Rabs_le_inv in Bk, Em. apply Rabs_le. lra.
  Qed.
  Lemma scaled_ok v : f64_wf v = true -> f64_finite v = true -> N <= 2 ^ 50 -> (Rabs (f64_R v * IZR N) <= bpow radix2 40)%R ->
    f64_wf (scaled v fa) = true /\ f64_finite (scaled v fa) = true /\ (Rabs (f64_R (scaled v fa) - f64_R v) * IZR N <= / 2 + / 1024)%R
    /\ f64_eq (scaled (scaled v fa) fa) (scaled v fa) = true
    /\ exists k, is_round (IZR k / IZR N) (scaled v fa) /\ (Rabs (f64_R v * IZR N - IZR k) <= / 2 + / 4096)%R.
  Proof.
    intros W F Nb B. pose proof N_R as N1. change (bpow radix2 40) with (IZR (2 ^ 40)) in B.
    destruct (product v W F) as (k & _ & Rk & Bk); [change (bpow radix2 41) with (IZR (2 ^ 41)); lra|].
    assert (K : Z.abs k <= 2 ^ 40 + 1).
    { apply le_IZR. rewrite abs_IZR. rewrite plus_IZR. apply Rabs_le. apply Rabs_le_inv in B, Bk. lra. }
    destruct (quotient k _ K Nb Rk) as (Qr & Wq & Fq & Eq). rewrite <- scaled_def in Qr, Wq, Fq, Eq.
    split; [exact Wq|]. split; [exact Fq|]. split.
    { rewrite <- (Rabs_pos_eq (IZR N)) at 1 by lra. rewrite <- Rabs_mult. apply Rabs_le. apply Rabs_le_inv in Bk, Eq. lra. }
    split; [|exists k; auto].
    destruct (product (scaled v fa) Wq Fq) as (k' & _ & Rk' & Bk').
    { change (bpow radix2 41) with (IZR (2 ^ 41)). apply IZR_le in K. rewrite abs_IZR, plus_IZR in K. apply Rabs_le. apply Rabs_le_inv in Eq, K. lra. }
    assert (E : k' = k).
    { assert (A : (-1 < IZR (k' - k) < 1)%R) by (rewrite minus_IZR; apply Rabs_le_inv in Bk', Eq; lra). destruct A as [A1 A2].
      apply lt_IZR in A1. apply lt_IZR in A2. lia. }
    subst k'. destruct (quotient k _ K Nb Rk') as ([_ Qr'] & Wq' & Fq' & _). rewrite <- scaled_def in Qr', Wq', Fq'.
    apply (eq_R _ _ Wq' Wq Fq' Fq).
    destruct Qr as [_ Qr]. destruct Qr as [(_ & V & _)|[(X & _)|(X & _)]]; [|rewrite X in Fq; discriminate|rewrite X in Fq; discriminate].
    destruct Qr' as [(_ & V' & _)|[(X & _)|(X & _)]]; [|rewrite X in Fq'; discriminate|rewrite X in Fq'; discriminate]. congruence.
  Qed.
End Factor.

Lemma rounded_val r w : is_round r w -> f64_finite w = true -> f64_R w = rnd r.
Proof. intros [_ [(_ & V & _)|[(X & _)|(X & _)]]] F; [exact V|rewrite X in F; discriminate|rewrite X in F; discriminate]. Qed.
Lemma prec_ok v p : 0 <= p <= 15 -> f64_wf v = true -> f64_finite v = true -> (Rabs (f64_R v * IZR (10 ^ p)) <= IZR (2 ^ 40))%R ->
  exists r, round_to_prec v p = Some r /\ f64_wf r = true /\ f64_finite r = true
  /\ (Rabs (f64_R r - f64_R v) * IZR (10 ^ p) <= / 2 + / 1024)%R
  /\ (exists k, f64_R r = rnd (IZR k / IZR (10 ^ p)))
  /\ exists r', round_to_prec r p = Some r' /\ f64_eq r' r = true.
Proof.
  intros P W F B. unfold round_to_prec.
  replace ((p <? 0) || (22 <? p)) with false by (symmetry; apply orb_false_iff; rewrite !Z.ltb_ge; lia).
  assert (N1 : 1 <= 10 ^ p) by (pose proof (Z.pow_pos_nonneg 10 p ltac:(lia) ltac:(lia)); lia).
  assert (N2 : 10 ^ p <= 10 ^ 15) by (apply Z.pow_le_mono_r; lia).
  pose proof (N_R (10 ^ p) N1) as Nr.
  destruct (f64_eq v f64_zero) eqn:E0.
  { apply (eq_R v f64_zero W eq_refl F eq_refl) in E0. rewrite R_0 in E0. exists f64_zero. split; [reflexivity|]. split; [reflexivity|]. split; [reflexivity|].
    split; [rewrite E0, R_0, Rminus_0_r, Rabs_R0; lra|]. split; [exists 0; rewrite R_0; unfold Rdiv; rewrite Rmult_0_l, rnd_0; reflexivity|].
    exists f64_zero. split; reflexivity. }
  destruct (Z.eqb_spec p 0) as [->|P0].
  - change (10 ^ 0) with 1 in *. rewrite Rmult_1_r in B.
    destruct (round_ok v W F) as (k & K & (Wr & Fr & Vr) & Bk); [change (bpow radix2 51) with (IZR (2 ^ 51)); lra|].
    change (bpow radix2 0) with 1%R in Vr. rewrite Rmult_1_r in Vr.
    assert (Kb : Z.abs k <= 2 ^ 40 + 1) by (apply le_IZR; rewrite abs_IZR, plus_IZR; apply Rabs_le; apply Rabs_le_inv in B, Bk; lra).
    exists (f64_round v). split; [reflexivity|]. split; [exact Wr|]. split; [exact Fr|].
    split; [rewrite Vr, Rmult_1_r; rewrite Rabs_minus_sym; lra|].
    split; [exists k; rewrite Vr; replace (IZR k / 1)%R with (IZR k * bpow radix2 0)%R by (change (bpow radix2 0) with 1%R; field); rewrite grid_rnd by (unfold two53; lia); change (bpow radix2 0) with 1%R; ring|].
    destruct (f64_eq (f64_round v) f64_zero) eqn:E1; [exists f64_zero; split; [reflexivity|rewrite f64_eq_sym; exact E1]|].
    exists (f64_round (f64_round v)). split; [reflexivity|].
    destruct (round_ok (f64_round v) Wr Fr) as (k' & K' & (Wr' & Fr' & Vr') & Bk').
    { rewrite Vr. rewrite <- abs_IZR. change (bpow radix2 51) with (IZR (2 ^ 51)). apply IZR_le. lia. }
    change (bpow radix2 0) with 1%R in Vr'. rewrite Rmult_1_r in Vr'. apply (eq_R _ _ Wr' Wr Fr' Fr). rewrite Vr', Vr. f_equal.
    rewrite Vr, <- minus_IZR, <- abs_IZR in Bk'. assert (X : Z.abs (k - k') < 1) by (apply lt_IZR; lra). lia.
  - assert (Rf : repr 0 (10 ^ p) (f64_ofZ (10 ^ p))) by (apply repr_ofZ; unfold two53; lia).
    set (fa := f64_ofZ (10 ^ p)) in *.
    destruct (scaled_ok (10 ^ p) fa N1 Rf v W F ltac:(lia)) as (Ws & Fs & Es & Id & k & Rk & _); [exact B|].
    exists (scaled v fa). split; [reflexivity|]. split; [exact Ws|]. split; [exact Fs|]. split; [exact Es|]. split; [exists k; exact (rounded_val _ _ Rk Fs)|].
    destruct (f64_eq (scaled v fa) f64_zero) eqn:E1; [exists f64_zero; split; [reflexivity|rewrite f64_eq_sym; exact E1]|].
    exists (scaled (scaled v fa) fa). split; [cbv zeta; rewrite <- scaled_def; reflexivity|exact Id].
Qed.
Lemma thousand : repr 0 1000 rounding_factor.
Proof. change rounding_factor with (f64_ofZ 1000). apply repr_ofZ. unfold two53. lia. Qed.
Lemma round_pt_def p : round_pt p = (scaled (fst p) rounding_factor, scaled (snd p) rounding_factor).
Proof. reflexivity. Qed.
Lemma round_pt_again p : f64_wf (fst p) = true -> f64_finite (fst p) = true -> f64_wf (snd p) = true -> f64_finite (snd p) = true ->
  (Rabs (f64_R (fst p)) <= 1000000000)%R -> (Rabs (f64_R (snd p)) <= 1000000000)%R -> M_Walker.go_eq (round_pt (round_pt p)) (round_pt p) = true.
Proof.
  intros W1 F1 W2 F2 B1 B2.
  assert (S : forall v, f64_wf v = true -> f64_finite v = true -> (Rabs (f64_R v) <= 1000000000)%R -> f64_eq (scaled (scaled v rounding_factor) rounding_factor) (scaled v rounding_factor) = true).
  { intros v W F B. apply (scaled_ok 1000 rounding_factor ltac:(lia) thousand v W F ltac:(lia)). change (bpow radix2 40) with (IZR (2 ^ 40)). rewrite Rabs_mult, (Rabs_pos_eq 1000) by lra. lra. }
  unfold M_Walker.go_eq. rewrite !round_pt_def. cbn [fst snd]. apply andb_true_iff. split; [exact (S (fst p) W1 F1 B1)|exact (S (snd p) W2 F2 B2)].
Qed.
