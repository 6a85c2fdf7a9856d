(** * Absolute rounding errors *)
From Coq Require Import ZArith Bool List Lia Reals Lra Psatz.
From Flocq Require Import Core.Core IEEE754.BinarySingleNaN IEEE754.Binary IEEE754.Bits.
From Verif Require Import Base_F64 Base_F64Arith P_F64 P_F64Flocq P_F64Round P_F64Grid.
Open Scope Z_scope.

Lemma rnd_err k r : -1021 <= k -> (Rabs r <= bpow radix2 k)%R -> (Rabs (rnd r - r) <= bpow radix2 (k - 53))%R.
Proof.
  intros Hk H.
  assert (V : Valid_exp (SpecFloat.fexp 53 1024)) by (apply FLT.FLT_exp_valid; reflexivity).
  assert (M : Monotone_exp (SpecFloat.fexp 53 1024)) by (apply FLT.FLT_exp_monotone).
  pose proof (error_le_half_ulp radix2 (SpecFloat.fexp 53 1024) (fun x => negb (Z.even x)) r) as E.
  fold ZnearestE in E. fold (rnd r) in E. eapply Rle_trans; [exact E|].
  assert (U : (ulp radix2 (SpecFloat.fexp 53 1024) r <= bpow radix2 (k - 52))%R).
  { rewrite <- ulp_abs. eapply Rle_trans.
    - apply ulp_le_pos; [exact V|exact M|apply Rabs_pos|exact H].
    - rewrite ulp_bpow. apply bpow_le. unfold SpecFloat.fexp, SpecFloat.emin. lia. }
  replace (k - 53) with ((k - 52) + -1) by lia. rewrite bpow_plus. change (bpow radix2 (-1)) with (/ 2)%R. lra.
Qed.

Lemma rnd_bound k r : -1021 <= k -> (Rabs r <= bpow radix2 k)%R -> (Rabs (rnd r) <= bpow radix2 k)%R.
Proof.
  intros Hk H.
  assert (V : Valid_exp (SpecFloat.fexp 53 1024)) by (apply FLT.FLT_exp_valid; reflexivity).
  unfold rnd. apply abs_round_le_generic; [exact V|typeclasses eauto| |exact H].
  apply generic_format_bpow. unfold SpecFloat.fexp, SpecFloat.emin. lia.
Qed.

(** The word [w] stands for [r] with an error of at most [d]. *)
Definition ap (r d : R) (w : f64) : Prop :=
  f64_wf w = true /\ f64_finite w = true /\ (Rabs (f64_R w - r) <= d)%R.

Lemma ap_exact w : f64_wf w = true -> f64_finite w = true -> ap (f64_R w) 0 w.
Proof. intros A B. split; [exact A|]. split; [exact B|]. rewrite Rminus_eq_0, Rabs_R0. lra. Qed.
Lemma ap_weaken r d d' w : ap r d w -> (d <= d')%R -> ap r d' w.
Proof. intros (A & B & C) H. split; [exact A|]. split; [exact B|]. lra. Qed.

Lemma is_round_ap k s r d w : -1021 <= k <= 1023 -> is_round s w ->
  (Rabs (s - r) <= d)%R -> (Rabs r + d <= bpow radix2 k)%R ->
  ap r (d + bpow radix2 (k - 53)) w.
Proof.
  intros Hk [W H] S B.
  assert (Bs : (Rabs s <= bpow radix2 k)%R).
  { replace s with ((s - r) + r)%R by ring. pose proof (Rabs_triang (s - r) r). lra. }
  pose proof (rnd_err k s ltac:(lia) Bs) as E. pose proof (rnd_bound k s ltac:(lia) Bs) as E2.
  assert (Hb : (bpow radix2 k < huge)%R) by (apply bpow_lt; lia).
  apply Rabs_le_inv in E2.
  destruct H as [(F & V & _)|[(_ & V)|(_ & V)]]; [|lra|lra].
  split; [exact W|]. split; [exact F|]. rewrite V.
  replace (rnd s - r)%R with ((rnd s - s) + (s - r))%R by ring.
  pose proof (Rabs_triang (rnd s - s) (s - r)). lra.
Qed.

Lemma ap_add k a da x b db y : -1021 <= k <= 1023 -> ap a da x -> ap b db y ->
  (Rabs (a + b) + (da + db) <= bpow radix2 k)%R -> ap (a + b) (da + db + bpow radix2 (k - 53)) (f64_add x y).
Proof.
  intros Hk (Wx & Fx & Ex) (Wy & Fy & Ey) B.
  apply (is_round_ap k (f64_R x + f64_R y)); [lia|now apply add_round| |exact B].
  replace (f64_R x + f64_R y - (a + b))%R with ((f64_R x - a) + (f64_R y - b))%R by ring.
  pose proof (Rabs_triang (f64_R x - a) (f64_R y - b)). lra.
Qed.
Lemma ap_sub k a da x b db y : -1021 <= k <= 1023 -> ap a da x -> ap b db y ->
  (Rabs (a - b) + (da + db) <= bpow radix2 k)%R -> ap (a - b) (da + db + bpow radix2 (k - 53)) (f64_sub x y).
Proof.
  intros Hk (Wx & Fx & Ex) (Wy & Fy & Ey) B.
  apply (is_round_ap k (f64_R x - f64_R y)); [lia|now apply sub_round| |exact B].
  replace (f64_R x - f64_R y - (a - b))%R with ((f64_R x - a) + - (f64_R y - b))%R by ring.
  pose proof (Rabs_triang (f64_R x - a) (- (f64_R y - b))). rewrite Rabs_Ropp in H. lra.
Qed.
(** Multiplication and division by an exact number. *)
Lemma ap_mul k a da x y : -1021 <= k <= 1023 -> ap a da x -> f64_wf y = true -> f64_finite y = true ->
  (Rabs (a * f64_R y) + da * Rabs (f64_R y) <= bpow radix2 k)%R ->
  ap (a * f64_R y) (da * Rabs (f64_R y) + bpow radix2 (k - 53)) (f64_mul x y).
Proof.
  intros Hk (Wx & Fx & Ex) Wy Fy B.
  apply (is_round_ap k (f64_R x * f64_R y)); [lia|now apply mul_round| |exact B].
  replace (f64_R x * f64_R y - a * f64_R y)%R with ((f64_R x - a) * f64_R y)%R by ring.
  rewrite Rabs_mult. apply Rmult_le_compat_r; [apply Rabs_pos|exact Ex].
Qed.
Lemma ap_div k a da x y : -1021 <= k <= 1023 -> ap a da x -> f64_wf y = true -> f64_finite y = true -> f64_R y <> 0%R ->
  (Rabs (a / f64_R y) + da / Rabs (f64_R y) <= bpow radix2 k)%R ->
  ap (a / f64_R y) (da / Rabs (f64_R y) + bpow radix2 (k - 53)) (f64_div x y).
Proof.
  intros Hk (Wx & Fx & Ex) Wy Fy N B.
  apply (is_round_ap k (f64_R x / f64_R y)); [lia|now apply div_round| |exact B].
  replace (f64_R x / f64_R y - a / f64_R y)%R with ((f64_R x - a) / f64_R y)%R by (field; exact N).
  unfold Rdiv. rewrite Rabs_mult, Rabs_inv.
  apply Rmult_le_compat_r; [|exact Ex]. left. apply Rinv_0_lt_compat. now apply Rabs_pos_lt.
Qed.

(** The same with literal bounds. *)
Lemma b42 : bpow radix2 42 = 4398046511104%R. Proof. reflexivity. Qed.
Lemma u42 : bpow radix2 (42 - 53) = (/ 2048)%R. Proof. reflexivity. Qed.
Lemma b43 : bpow radix2 43 = 8796093022208%R. Proof. reflexivity. Qed.
Lemma u43 : bpow radix2 (43 - 53) = (/ 1024)%R. Proof. reflexivity. Qed.
Lemma b46 : bpow radix2 46 = 70368744177664%R. Proof. reflexivity. Qed.
Lemma u46 : bpow radix2 (46 - 53) = (/ 128)%R. Proof. reflexivity. Qed.

Section Literal.
  Variables (k : Z) (B U : R).
  Hypothesis Hk : -1021 <= k <= 1023.
  Hypothesis HB : bpow radix2 k = B.
  Hypothesis HU : bpow radix2 (k - 53) = U.
  Lemma ap_add_l d a da x b db y : ap a da x -> ap b db y ->
    (- B <= a + b - (da + db))%R -> (a + b + (da + db) <= B)%R -> (da + db + U <= d)%R -> ap (a + b) d (f64_add x y).
  Proof.
    intros X Y L1 L2 L3. eapply ap_weaken; [eapply (ap_add k); try eassumption|]; rewrite ?HB, ?HU; [|exact L3].
    assert (Rabs (a + b) <= B - (da + db))%R by (apply Rabs_le; lra). lra.
  Qed.
  Lemma ap_sub_l d a da x b db y : ap a da x -> ap b db y ->
    (- B <= a - b - (da + db))%R -> (a - b + (da + db) <= B)%R -> (da + db + U <= d)%R -> ap (a - b) d (f64_sub x y).
  Proof.
    intros X Y L1 L2 L3. eapply ap_weaken; [eapply (ap_sub k); try eassumption|]; rewrite ?HB, ?HU; [|exact L3].
    assert (Rabs (a - b) <= B - (da + db))%R by (apply Rabs_le; lra). lra.
  Qed.
  Lemma ap_mul_l d v a da x y : ap a da x -> f64_wf y = true -> f64_finite y = true -> f64_R y = v -> (0 < v)%R ->
    (- B <= a * v - da * v)%R -> (a * v + da * v <= B)%R -> (da * v + U <= d)%R -> ap (a * v) d (f64_mul x y).
  Proof.
    intros X Wy Fy <- P L1 L2 L3. eapply ap_weaken; [eapply (ap_mul k); try eassumption|]; rewrite ?HB, ?HU;
      rewrite (Rabs_pos_eq (f64_R y)) by lra; [|exact L3].
    assert (Rabs (a * f64_R y) <= B - da * f64_R y)%R by (apply Rabs_le; lra). lra.
  Qed.
  Lemma ap_lmul_l d v a da x y : ap a da x -> f64_wf y = true -> f64_finite y = true -> f64_R y = v -> (0 < v)%R ->
    (- B <= v * a - v * da)%R -> (v * a + v * da <= B)%R -> (v * da + U <= d)%R -> ap (v * a) d (f64_mul y x).
  Proof.
    intros (Wx & Fx & Ex) Wy Fy <- P L1 L2 L3. eapply ap_weaken; [|rewrite <- HU in L3; exact L3].
    apply (is_round_ap k (f64_R y * f64_R x)); [exact Hk|now apply mul_round| |].
    - replace (f64_R y * f64_R x - f64_R y * a)%R with (f64_R y * (f64_R x - a))%R by ring.
      rewrite Rabs_mult, (Rabs_pos_eq (f64_R y)) by lra. apply Rmult_le_compat_l; [lra|exact Ex].
    - rewrite HB. assert (Rabs (f64_R y * a) <= B - f64_R y * da)%R by (apply Rabs_le; lra). lra.
  Qed.
  Lemma ap_div_l d v a da x y : ap a da x -> f64_wf y = true -> f64_finite y = true -> f64_R y = v -> (0 < v)%R ->
    (- B <= a / v - da / v)%R -> (a / v + da / v <= B)%R -> (da / v + U <= d)%R -> ap (a / v) d (f64_div x y).
  Proof.
    intros X Wy Fy <- P L1 L2 L3. eapply ap_weaken; [eapply (ap_div k); try eassumption|]; rewrite ?HB, ?HU; try lra;
      rewrite (Rabs_pos_eq (f64_R y)) by lra; [|exact L3].
    assert (Rabs (a / f64_R y) <= B - da / f64_R y)%R by (apply Rabs_le; lra). lra.
  Qed.
End Literal.
