(** Proofs about PrepareGeo: pixels *)
From Coq Require Import ZArith Bool List Lia Reals Lra.
From Flocq Require Import Core.Core Relative.
From Verif Require Import Base_Res Base_F64 Base_F64Arith Base_Geom P_F64 P_F64Flocq P_F64Round M_Extent M_Cmp M_MvtPrepare S_MvtPrepare.
Import ListNotations.
Open Scope R_scope.

Local Notation u := (bpow radix2 (-53)).
Lemma u_pos : 0 < u. Proof. apply bpow_gt_0. Qed.
Lemma u_small : u <= / 1024.
Proof. apply Rle_trans with (bpow radix2 (-10)); [apply bpow_le; lia|]. cbn. lra. Qed.

Lemma round_rel r w : is_round r w -> bpow radix2 (-1021) <= Rabs r <= bpow radix2 1000 ->
  f64_wf w = true /\ f64_finite w = true /\ exists d, Rabs d <= u /\ f64_R w = r * (1 + d).
Proof.
  intros H [Lo Hi].
  destruct (relative_error_N_FLT_ex radix2 (-1074) 53 eq_refl (fun n => negb (Z.even n)) r) as (d & Hd & Er).
  { apply Rle_trans with (bpow radix2 (-1021)); [apply bpow_le; lia|assumption]. }
  change (round radix2 (FLT_exp (-1074) 53) ZnearestE r) with (rnd r) in Er.
  replace (/ 2 * bpow radix2 (- (53) + 1)) with u in Hd
    by (change (- (53) + 1)%Z with (-52)%Z; change (-53)%Z with (-1 + -52)%Z; rewrite bpow_plus; cbn [bpow]; f_equal).
  assert (B : Rabs (rnd r) < huge).
  { rewrite Er, Rabs_mult. pose proof u_small. pose proof u_pos.
    assert (Rabs (1 + d) <= 2) by (apply Rabs_le; apply Rabs_le_inv in Hd; lra).
    apply Rle_lt_trans with (bpow radix2 1000 * 2); [apply Rmult_le_compat; try apply Rabs_pos; assumption|].
    change 2 with (bpow radix2 1). rewrite <- bpow_plus. apply bpow_lt. lia. }
  destruct H as [W [(F & E & _)|[(-> & C)|(-> & C)]]].
  - split; [exact W|]. split; [exact F|]. exists d. split; [exact Hd|]. now rewrite E.
  - apply Rabs_lt_inv in B. lra.
  - apply Rabs_lt_inv in B. lra.
Qed.
Lemma round_zero w : is_round 0 w -> f64_wf w = true /\ f64_finite w = true /\ f64_R w = 0.
Proof.
  intros [W [(F & E & _)|[(-> & C)|(-> & C)]]]; rewrite rnd_0 in *; auto;
    pose proof (bpow_gt_0 radix2 1024) as G; change (bpow radix2 1024) with huge in G; lra.
Qed.

Lemma rel_step x y m : Rabs x <= m -> Rabs y <= u -> 0 <= m <= 8 * u ->
  Rabs ((1 + x) * (1 + y) - 1) <= m + u + u / 64.
Proof.
  intros Hx Hy Hm. replace ((1 + x) * (1 + y) - 1) with (x + y + x * y) by ring.
  pose proof u_small. pose proof u_pos.
  assert (Rabs (x * y) <= u / 64).
  { rewrite Rabs_mult. apply Rle_trans with (8 * u * u); [apply Rmult_le_compat; try apply Rabs_pos; lra|].
    replace (8 * u * u) with (u * (8 * u)) by ring. unfold Rdiv. apply Rmult_le_compat_l; lra. }
  eapply Rle_trans; [apply Rabs_triang|]. eapply Rle_trans; [apply Rplus_le_compat_r, Rabs_triang|]. lra.
Qed.
Lemma rel_inv d : Rabs d <= u -> 1 + d <> 0 /\ Rabs (/ (1 + d) - 1) <= 2 * u.
Proof.
  intros H. pose proof u_small. pose proof u_pos. apply Rabs_le_inv in H.
  assert (P : 0 < 1 + d) by lra. split; [lra|].
  replace (/ (1 + d) - 1) with (- d * / (1 + d)) by (field; lra).
  rewrite Rabs_mult. apply Rle_trans with (u * 2); [|lra].
  apply Rmult_le_compat; try apply Rabs_pos; [rewrite Rabs_Ropp; apply Rabs_le; lra|].
  rewrite Rabs_pos_eq by (left; now apply Rinv_0_lt_compat).
  replace 2 with (/ (/ 2)) by field. apply Rinv_le; lra.
Qed.
Lemma four_errors a b c d : Rabs a <= u -> Rabs b <= u -> Rabs c <= u -> Rabs d <= u ->
  Rabs ((1 + a) * / (1 + b) * (1 + c) * (1 + d) - 1) <= bpow radix2 (-50).
Proof.
  intros A B C D. destruct (rel_inv b B) as [N I]. pose proof u_pos as P. pose proof u_small as Q.
  set (i := / (1 + b)) in *.
  assert (E1 : Rabs ((1 + (i - 1)) * (1 + a) - 1) <= 2 * u + u + u / 64) by (apply rel_step; lra).
  set (x := (1 + (i - 1)) * (1 + a) - 1) in *.
  assert (E2 : Rabs ((1 + x) * (1 + c) - 1) <= (2 * u + u + u / 64) + u + u / 64) by (apply rel_step; lra).
  set (y := (1 + x) * (1 + c) - 1) in *.
  assert (E3 : Rabs ((1 + y) * (1 + d) - 1) <= ((2 * u + u + u / 64) + u + u / 64) + u + u / 64) by (apply rel_step; lra).
  replace ((1 + a) * i * (1 + c) * (1 + d) - 1) with ((1 + y) * (1 + d) - 1) by (unfold y, x; ring).
  change (-50)%Z with (3 + -53)%Z. rewrite bpow_plus. change (bpow radix2 3) with 8. lra.
Qed.

Lemma bpow_mul_le x y i j : Rabs x <= bpow radix2 i -> Rabs y <= bpow radix2 j -> Rabs (x * y) <= bpow radix2 (i + j).
Proof. intros. rewrite Rabs_mult, bpow_plus. apply Rmult_le_compat; auto using Rabs_pos. Qed.
Lemma bpow_mul_ge x y i j : bpow radix2 i <= Rabs x -> bpow radix2 j <= Rabs y -> bpow radix2 (i + j) <= Rabs (x * y).
Proof. intros. rewrite Rabs_mult, bpow_plus. apply Rmult_le_compat; auto using bpow_ge_0. Qed.
Lemma bpow_inv_le x j : bpow radix2 j <= Rabs x -> Rabs (/ x) <= bpow radix2 (- j).
Proof.
  intros H. assert (x <> 0) by (intros ->; rewrite Rabs_R0 in H; pose proof (bpow_gt_0 radix2 j); lra).
  rewrite Rabs_inv, bpow_opp by assumption. apply Rinv_le; [apply bpow_gt_0|assumption].
Qed.
Lemma bpow_inv_ge x j : x <> 0 -> Rabs x <= bpow radix2 j -> bpow radix2 (- j) <= Rabs (/ x).
Proof.
  intros N H. rewrite Rabs_inv, bpow_opp by assumption. apply Rinv_le; [now apply Rabs_pos_lt|assumption].
Qed.
Lemma diff_le x y : Rabs x <= bpow radix2 400 -> Rabs y <= bpow radix2 400 -> Rabs (x - y) <= bpow radix2 401.
Proof.
  intros A B. change 401%Z with (1 + 400)%Z. rewrite bpow_plus. change (bpow radix2 1) with 2.
  unfold Rminus. eapply Rle_trans; [apply Rabs_triang|]. rewrite Rabs_Ropp. lra.
Qed.
Lemma near_bounds x d i j : Rabs d <= u -> bpow radix2 i <= Rabs x <= bpow radix2 j ->
  bpow radix2 (i - 1) <= Rabs (x * (1 + d)) <= bpow radix2 (j + 1).
Proof.
  intros Hd [A B]. pose proof u_small. pose proof u_pos. apply Rabs_le_inv in Hd. split.
  - unfold Z.sub. apply bpow_mul_ge; [assumption|]. rewrite Rabs_pos_eq by lra. cbn. lra.
  - apply bpow_mul_le; [assumption|]. rewrite Rabs_pos_eq by lra. cbn. lra.
Qed.

Lemma widen x i j : (-1021 <= i)%Z -> (j <= 1000)%Z -> bpow radix2 i <= x -> x <= bpow radix2 j ->
  bpow radix2 (-1021) <= x <= bpow radix2 1000.
Proof. intros A B C D. split; [eapply Rle_trans; [|exact C]|eapply Rle_trans; [exact D|]]; apply bpow_le; assumption. Qed.
Ltac zle := clear; vm_compute; discriminate.

(** One coordinate: [n] over [s] times [p], where [n] and [s] are rounded differences. *)
Lemma coordinate_near v w a b p n s :
  plain v -> plain w -> plain a -> plain b -> far_apart b a -> plain_pixels p ->
  f64_R v = f64_R w \/ far_apart v w ->
  n = f64_sub v w -> s = f64_sub b a ->
  let q := f64_mul (f64_div n s) p in
  let exact := (f64_R v - f64_R w) / (f64_R b - f64_R a) * f64_R p in
  f64_wf q = true /\ f64_finite q = true /\ Rabs (f64_R q - exact) <= bpow radix2 (-50) * Rabs exact.
Proof.
  intros (Wv & Fv & Bv) (Ww & Fw & Bw) (Wa & Fa & Ba) (Wb & Fb & Bb) S (Wp & Fp & Bp) D En Es. cbn zeta.
  pose proof (sub_round v w Wv Ww Fv Fw) as Rn. rewrite <- En in Rn.
  pose proof (sub_round b a Wb Wa Fb Fa) as Rs. rewrite <- Es in Rs.
  unfold far_apart in S.
  pose proof (diff_le _ _ Bb Ba) as Sb.
  destruct (round_rel _ _ Rs) as (Ws & Fs & d2 & D2 & E2).
  { apply (widen _ (-400) 401); [zle|zle|exact S|exact Sb]. }
  destruct (near_bounds _ _ (-400) 401 D2 (conj S Sb)) as [Sl Sh].
  assert (S0 : f64_R b - f64_R a <> 0).
  { intros H. rewrite H, Rabs_R0 in S. pose proof (bpow_gt_0 radix2 (-400)). lra. }
  assert (Ns : f64_R s <> 0).
  { intros H. rewrite E2 in H. rewrite H, Rabs_R0 in Sl. pose proof (bpow_gt_0 radix2 (-400 - 1)). lra. }
  assert (Pb : bpow radix2 0 <= Rabs (f64_R p) <= bpow radix2 64) by (rewrite Rabs_pos_eq by lra; change (bpow radix2 0) with 1; lra).
  destruct D as [Z|D].
  - rewrite Z, Rminus_diag_eq in Rn by reflexivity. destruct (round_zero _ Rn) as (Wn & Fn & Zn).
    pose proof (div_round n s Wn Ws Fn Fs Ns) as Rd. rewrite Zn in Rd. unfold Rdiv in Rd. rewrite Rmult_0_l in Rd.
    destruct (round_zero _ Rd) as (Wd & Fd & Zd).
    pose proof (mul_round _ p Wd Wp Fd Fp) as Rm. rewrite Zd, Rmult_0_l in Rm.
    destruct (round_zero _ Rm) as (Wm & Fm & Zm). split; [exact Wm|]. split; [exact Fm|].
    rewrite Zm. replace ((f64_R v - f64_R w) / (f64_R b - f64_R a) * f64_R p) with 0 by (rewrite Z; unfold Rdiv; ring).
    rewrite Rminus_0_r, Rabs_R0. lra.
  - unfold far_apart in D. pose proof (diff_le _ _ Bv Bw) as Db.
    destruct (round_rel _ _ Rn) as (Wn & Fn & d1 & D1 & E1).
    { apply (widen _ (-400) 401); [zle|zle|exact D|exact Db]. }
    destruct (near_bounds _ _ (-400) 401 D1 (conj D Db)) as [Nl Nh].
    pose proof (div_round n s Wn Ws Fn Fs Ns) as Rd.
    assert (Bd : bpow radix2 (-803) <= Rabs (f64_R n / f64_R s) <= bpow radix2 803).
    { rewrite E1. unfold Rdiv. rewrite E2 in Ns. rewrite E2. split.
      - change (-803)%Z with (-400 - 1 + - (401 + 1))%Z. apply bpow_mul_ge; [exact Nl|]. now apply bpow_inv_ge.
      - change (803)%Z with (401 + 1 + - (-400 - 1))%Z. apply bpow_mul_le; [exact Nh|]. now apply bpow_inv_le. }
    destruct (round_rel _ _ Rd) as (Wd & Fd & d3 & D3 & E3).
    { apply (widen _ (-803) 803); [zle|zle|exact (proj1 Bd)|exact (proj2 Bd)]. }
    destruct (near_bounds _ _ _ _ D3 Bd) as [Ql Qh]. rewrite <- E3 in Ql, Qh.
    pose proof (mul_round _ p Wd Wp Fd Fp) as Rm.
    destruct (round_rel _ _ Rm) as (Wm & Fm & d4 & D4 & E4).
    { apply (widen _ (-803 - 1 + 0) (803 + 1 + 64)); [zle|zle|apply bpow_mul_ge; [exact Ql|exact (proj1 Pb)]|apply bpow_mul_le; [exact Qh|exact (proj2 Pb)]]. }
    split; [exact Wm|]. split; [exact Fm|].
    rewrite E4, E3, E1, E2.
    pose proof (four_errors d1 d2 d3 d4 D1 D2 D3 D4) as X. destruct (rel_inv d2 D2) as [N2 _].
    set (ex := (f64_R v - f64_R w) / (f64_R b - f64_R a) * f64_R p).
    replace ((f64_R v - f64_R w) * (1 + d1) / ((f64_R b - f64_R a) * (1 + d2)) * (1 + d3) * f64_R p * (1 + d4) - ex)
      with (((1 + d1) * / (1 + d2) * (1 + d3) * (1 + d4) - 1) * ex) by (unfold ex; field; split; assumption).
    rewrite Rabs_mult. apply Rmult_le_compat_r; [apply Rabs_pos|exact X].
Qed.


Lemma pixels_near e p q : plain_tile e -> far_apart (e2 e) (e0 e) -> far_apart (e3 e) (e1 e) -> plain_pixels p ->
  plain (fst q) -> plain (snd q) ->
  f64_R (fst q) = f64_R (e0 e) \/ far_apart (fst q) (e0 e) ->
  f64_R (snd q) = f64_R (e3 e) \/ far_apart (snd q) (e3 e) ->
  let r := prepare_pt (Some e) p q in
  let x := pixel (f64_R (e0 e)) (f64_R (e2 e)) (f64_R p) (f64_R (fst q)) in
  let y := pixel (f64_R (e3 e)) (f64_R (e1 e)) (f64_R p) (f64_R (snd q)) in
  f64_finite (fst r) = true /\ f64_finite (snd r) = true /\
  Rabs (f64_R (fst r) - x) <= bpow radix2 (-50) * Rabs x /\ Rabs (f64_R (snd r) - y) <= bpow radix2 (-50) * Rabs y.
Proof.
  intros (P0 & P1 & P2 & P3) Sx Sy Pp Px Py Ax Ay. cbn zeta. unfold prepare_pt, minX, maxY, xspan, yspan. cbn [fst snd].
  destruct (coordinate_near _ _ _ _ p _ _ Px P0 P0 P2 Sx Pp Ax eq_refl eq_refl) as (_ & F1 & B1).
  assert (Ay' : f64_R (e3 e) = f64_R (snd q) \/ far_apart (e3 e) (snd q)).
  { destruct Ay as [A|A]; [now left|right]. unfold far_apart. now rewrite Rabs_minus_sym. }
  destruct (coordinate_near _ _ _ _ p _ _ P3 Py P1 P3 Sy Pp Ay' eq_refl eq_refl) as (_ & F2 & B2).
  split; [exact F1|]. split; [exact F2|]. split; [exact B1|]. unfold pixel.
  assert (f64_R (e3 e) - f64_R (e1 e) <> 0).
  { intros H. unfold far_apart in Sy. rewrite H, Rabs_R0 in Sy. pose proof (bpow_gt_0 radix2 (-400)). lra. }
  replace ((f64_R (snd q) - f64_R (e3 e)) / (f64_R (e1 e) - f64_R (e3 e)) * f64_R p)
    with ((f64_R (e3 e) - f64_R (snd q)) / (f64_R (e3 e) - f64_R (e1 e)) * f64_R p) by (field; lra).
  exact B2.
Qed.
