(** Proofs about planar/coord: longitudes, letters of the military grid *)
From Coq Require Import ZArith Bool List Lia Reals Lra Ascii.
From Flocq Require Import Core.Core IEEE754.BinarySingleNaN IEEE754.Binary IEEE754.Bits.
From Verif Require Import Base_Bytes Base_F64 Base_F64Arith Base_Res
  P_F64 P_F64Flocq P_F64Round P_F64Grid P_F64Err P_F64Sqrt P_Rtree3 P_Strconv4 P_Slippy P_SlippyR P_Ring
  M_Coord S_Coord P_Coord P_Coord2 P_Coord3.
Import ListNotations.
Open Scope Z_scope.
Local Notation prec := 53.
Local Notation emax := 1024.

Lemma trunc_abs w : f64_wf w = true -> f64_finite w = true ->
  exists z, f64_trunc w = Some z /\ (IZR (Z.abs z) <= Rabs (f64_R w))%R.
Proof.
  intros W F. unfold f64_trunc, f64_R. rewrite <- is_finite_word in F by exact W.
  destruct (b64_of_bits w) as [s|s|s pl e|s m e B]; cbn [Binary.is_finite] in F; try discriminate.
  - exists 0. split; [reflexivity|]. cbn [Binary.B2R]. rewrite Rabs_R0. simpl. lra.
  - cbn [Binary.B2R]. unfold F2R. cbn [Fnum Fexp].
    assert (Ab : Rabs (IZR (cond_Zopp s (Z.pos m)) * bpow radix2 e) = (IZR (Z.pos m) * bpow radix2 e)%R).
    { rewrite Rabs_mult, (Rabs_pos_eq (bpow _ _)) by apply bpow_ge_0. f_equal. rewrite <- abs_IZR. destruct s; reflexivity. }
    rewrite Ab. eexists. split; [reflexivity|].
    set (a := match e with Z0 => Z.pos m | Z.pos p => Z.pos m * 2 ^ Z.pos p | Z.neg p => Z.pos m / 2 ^ Z.pos p end).
    assert (Ha : 0 <= a).
    { unfold a. destruct e; [lia| |apply Z.div_pos; [lia|apply Z.pow_pos_nonneg; lia]].
      apply Z.mul_nonneg_nonneg; [lia|apply Z.pow_nonneg; lia]. }
    replace (Z.abs (if s then - a else a)) with a by (destruct s; lia).
    unfold a. destruct e as [|p|p].
    + change (bpow radix2 0) with 1%R. lra.
    + rewrite mult_IZR. change (IZR (2 ^ Z.pos p)) with (bpow radix2 (Z.pos p)). lra.
    + pose proof (Z.mul_div_le (Z.pos m) (2 ^ Z.pos p) ltac:(apply Z.pow_pos_nonneg; lia)) as D.
      apply IZR_le in D. rewrite mult_IZR in D.
      assert (Eb : (bpow radix2 (Z.pos p) * bpow radix2 (Z.neg p) = 1)%R).
      { rewrite <- bpow_plus. change (Z.neg p) with (- Z.pos p). replace (Z.pos p + - Z.pos p) with 0 by lia. reflexivity. }
      change (IZR (2 ^ Z.pos p)) with (bpow radix2 (Z.pos p)) in D.
      apply (Rmult_le_compat_r (bpow radix2 (Z.neg p))) in D; [|apply bpow_ge_0].
      rewrite (Rmult_comm (bpow radix2 (Z.pos p))), Rmult_assoc, Eb, Rmult_1_r in D. exact D.
Qed.

Lemma to_i64_abs w n : f64_wf w = true -> f64_finite w = true -> 0 <= n < 2 ^ 62 -> (Rabs (f64_R w) < IZR n + 1)%R ->
  Z.abs (f64_to_i64 w) <= n.
Proof.
  intros W F Hn H. destruct (trunc_abs w W F) as (z & E & L).
  assert (Z.abs z < n + 1) by (apply lt_IZR; rewrite plus_IZR; lra).
  unfold f64_to_i64. rewrite E. destruct (_ && _) eqn:Q; [lia|]. unfold two63 in Q. lia.
Qed.

(** ** NormalizeLng *)

(** A float64 of at least 128 is a multiple of 2^-45. *)
Lemma big_grid x : f64_wf x = true -> f64_finite x = true -> (128 <= f64_R x)%R ->
  exists n, f64_R x = (IZR n * bpow radix2 (-45))%R.
Proof.
  intros W F H.
  assert (G : generic_format radix2 (SpecFloat.fexp prec emax) (f64_R x)) by (unfold f64_R; apply Binary.generic_format_B2R).
  pose proof G as G'. unfold generic_format in G'. rewrite G'. unfold F2R. cbn [Fnum Fexp].
  set (M := Ztrunc _). set (c := cexp _ _ _).
  assert (Hc : -45 <= c).
  { unfold c, cexp.
    assert (8 <= mag radix2 (f64_R x)).
    { apply mag_ge_bpow. change (bpow radix2 (8 - 1)) with 128%R. rewrite Rabs_pos_eq; lra. }
    unfold SpecFloat.fexp, SpecFloat.emin. lia. }
  exists (M * 2 ^ (c + 45)). rewrite mult_IZR, Rmult_assoc. f_equal.
  replace (IZR (2 ^ (c + 45))) with (bpow radix2 (c + 45)) by (rewrite <- IZR_Zpower by lia; reflexivity).
  rewrite <- bpow_plus. f_equal. lia.
Qed.

Section Normalize.
  Variable g : f64.
  Hypotheses (W : f64_wf g = true) (F : f64_finite g = true).
  Local Notation x := (f64_R g + 180)%R.
  Hypothesis (B : (0 <= x <= 2 ^ 20 + 180)%R).

  Lemma norm_quo : exists q, f64_div (f64_add g c180) c360 = q /\ f64_wf q = true /\ f64_finite q = true /\
    f64_R q = rnd (rnd x / 360) /\ (0 <= rnd x <= 2 ^ 20 + 180)%R.
  Proof.
    destruct (ofZ_all 180 ltac:(lia)) as (A1 & A2 & A3). destruct (ofZ_all 360 ltac:(lia)) as (B1 & B2 & B3).
    replace c180 with (f64_ofZ 180) by (vm_compute; reflexivity). replace c360 with (f64_ofZ 360) by (vm_compute; reflexivity).
    pose proof (add_round g (f64_ofZ 180) W A1 F A2) as R1. rewrite A3 in R1.
    destruct (round_val 21 _ _ ltac:(lia) R1) as (W1 & F1 & E1).
    { change (bpow radix2 21) with 2097152%R. rewrite Rabs_pos_eq; lra. }
    assert (S : (0 <= rnd x <= 2 ^ 20 + 180)%R).
    { split; [rewrite <- rnd_0; apply rnd_le; lra|].
      replace (2 ^ 20 + 180)%R with (IZR (2 ^ 20 + 180)) by (rewrite plus_IZR; simpl; lra).
      rewrite <- (rnd_int (2 ^ 20 + 180)) by (unfold two53; lia). apply rnd_le. rewrite plus_IZR. simpl (IZR (2 ^ 20)). lra. }
    pose proof (div_round _ (f64_ofZ 360) W1 B1 F1 B2) as R2. rewrite B3 in R2. specialize (R2 ltac:(lra)). rewrite E1 in R2.
    destruct (round_val 21 _ _ ltac:(lia) R2) as (W2 & F2 & E2).
    { change (bpow radix2 21) with 2097152%R. rewrite Rabs_pos_eq; lra. }
    eexists. split; [reflexivity|]. auto.
  Qed.

  Lemma norm_number : exists k, f64_to_i64 (f64_div (f64_add g c180) c360) = k /\ 0 <= k <= 4096 /\
    (IZR (360 * k) - bpow radix2 (-30) <= x < IZR (360 * (k + 1)))%R /\
    ((x <= 360 - bpow radix2 (-44))%R -> k = 0).
  Proof.
    destruct norm_quo as (q & E & Wq & Fq & Rq & S). rewrite E.
    assert (Q : (0 <= rnd (rnd x / 360) <= 4096)%R).
    { split; [rewrite <- rnd_0; apply rnd_le; lra|].
      rewrite <- (rnd_int 4096) by (unfold two53; lia). apply rnd_le. lra. }
    destruct (trunc_floor q Wq Fq) as (n & T & N0 & Hn); [rewrite Rq; lra|]. rewrite Rq in Hn.
    assert (n <= 4096) by (apply le_IZR; lra).
    exists n. assert (En : f64_to_i64 q = n).
    { unfold f64_to_i64. rewrite T. unfold two63. destruct (_ && _) eqn:V; [reflexivity|]. exfalso. lia. }
    split; [exact En|]. split; [lia|].
    assert (Er1 : (Rabs (rnd x - x) <= bpow radix2 (-32))%R).
    { apply (rnd_err 21 x); [lia|]. change (bpow radix2 21) with 2097152%R. rewrite Rabs_pos_eq; lra. }
    assert (Er2 : (Rabs (rnd (rnd x / 360) - rnd x / 360) <= bpow radix2 (-41))%R).
    { apply (rnd_err 12); [lia|]. change (bpow radix2 12) with 4096%R. rewrite Rabs_pos_eq; lra. }
    apply Rabs_le_inv in Er1. apply Rabs_le_inv in Er2.
    split; [split|].
    - rewrite mult_IZR. change (-32) with (9 + -41) in Er1. change (-30) with (11 + -41). rewrite bpow_plus in Er1 |- *.
      change (bpow radix2 9) with 512%R in Er1. change (bpow radix2 11) with 2048%R.
      pose proof (bpow_gt_0 radix2 (-41)). lra.
    - apply Rnot_le_lt. intros C.
      assert (IZR (360 * (n + 1)) <= rnd x)%R.
      { rewrite <- (rnd_int (360 * (n + 1))) by (unfold two53; lia). now apply rnd_le. }
      assert (IZR (n + 1) <= rnd (rnd x / 360))%R.
      { rewrite <- (rnd_int (n + 1)) by (unfold two53; lia). apply rnd_le. rewrite mult_IZR in H0. lra. }
      rewrite plus_IZR in H1. lra.
    - intros U. set (u := bpow radix2 (-44)) in *.
      assert (V : (rnd (360 - u) = 360 - u)%R).
      { replace (360 - u)%R with (IZR (360 * 2 ^ 44 - 1) * bpow radix2 (-44))%R.
        - apply grid_rnd; [lia|]. unfold two53. lia.
        - rewrite minus_IZR, mult_IZR. fold u. rewrite Rmult_minus_distr_r, Rmult_assoc.
          change (IZR (2 ^ 44)) with (bpow radix2 44). unfold u at 1. rewrite <- bpow_plus. simpl. ring. }
      assert (S' : (rnd x <= 360 - u)%R) by (rewrite <- V; now apply rnd_le).
      set (b := bpow radix2 (-53)).
      assert (Vb : (rnd (1 - b) = 1 - b)%R).
      { replace (1 - b)%R with (IZR (2 ^ 53 - 1) * bpow radix2 (-53))%R.
        - apply grid_rnd; [lia|]. unfold two53. lia.
        - rewrite minus_IZR. fold b. rewrite Rmult_minus_distr_r.
          change (IZR (2 ^ 53)) with (bpow radix2 53). unfold b at 1. rewrite <- bpow_plus. simpl. ring. }
      assert (u = 512 * b)%R by (unfold u, b; change (-44) with (9 + -53); rewrite bpow_plus; reflexivity).
      assert (0 < b)%R by apply bpow_gt_0.
      assert (rnd (rnd x / 360) <= 1 - b)%R by (rewrite <- Vb; apply rnd_le; lra).
      assert (n < 1) by (apply lt_IZR; lra). lia.
  Qed.

  Lemma norm_res : exists k, 0 <= k /\
    let r := f64_sub g (f64_ofZ (i64 (f64_to_i64 (f64_div (f64_add g c180) c360) * 360))) in
    f64_wf r = true /\ f64_finite r = true /\ f64_R r = (f64_R g - IZR (360 * k))%R /\
    (- 180 - bpow radix2 (-30) <= f64_R r < 180)%R /\
    ((x <= 360 - bpow radix2 (-44))%R -> k = 0).
  Proof.
    destruct norm_number as (k & E & Hk & H & U). exists k. split; [lia|]. cbv zeta. rewrite E.
    rewrite i64_id by lia. replace (k * 360) with (360 * k) by lia.
    destruct (repr_ofZ (360 * k)) as (A1 & A2 & A3); [unfold two53; lia|]. change (bpow radix2 0) with 1%R in A3. rewrite Rmult_1_r in A3.
    pose proof (sub_round g (f64_ofZ (360 * k)) W A1 F A2) as R1. rewrite A3 in R1.
    assert (Bd : (- 180 - bpow radix2 (-30) <= f64_R g - IZR (360 * k) < 180)%R).
    { rewrite (mult_IZR 360 (k + 1)), plus_IZR in H. rewrite (mult_IZR 360 k) in H |- *. lra. }
    assert (Su : (bpow radix2 (-30) <= 1)%R) by (change 1%R with (bpow radix2 0); apply bpow_le; lia).
    destruct (round_val 8 _ _ ltac:(lia) R1) as (W1 & F1 & E1).
    { change (bpow radix2 8) with 256%R. apply Rabs_le. lra. }
    assert (Ex : rnd (f64_R g - IZR (360 * k)) = (f64_R g - IZR (360 * k))%R).
    { destruct (Z.eq_dec k 0) as [->|Nk].
      - change (360 * 0) with 0. rewrite Rminus_0_r. now apply rnd_id.
      - assert (K : 360 <= 360 * k) by lia. apply IZR_le in K.
        destruct (big_grid g W F ltac:(lra)) as (n & En).
        assert (P45 : (IZR (360 * k) = IZR (360 * k * 2 ^ 45) * bpow radix2 (-45))%R).
        { rewrite (mult_IZR (360 * k)), Rmult_assoc. change (IZR (2 ^ 45)) with (bpow radix2 45). rewrite <- bpow_plus. simpl (bpow radix2 (45 + -45)). ring. }
        rewrite En, P45, <- Rmult_minus_distr_r, <- minus_IZR. apply grid_rnd; [lia|].
        apply le_IZR. apply (Rmult_le_reg_r (bpow radix2 (-45))); [apply bpow_gt_0|].
        rewrite abs_IZR. rewrite <- (Rabs_pos_eq (bpow radix2 (-45))) at 1 by apply bpow_ge_0. rewrite <- Rabs_mult.
        rewrite minus_IZR, Rmult_minus_distr_r, <- En, <- P45.
        change (IZR two53) with (bpow radix2 53). rewrite <- bpow_plus. change (bpow radix2 (53 + -45)) with 256%R.
        apply Rabs_le. lra. }
    rewrite Ex in E1. split; [exact W1|]. split; [exact F1|]. split; [exact E1|]. split; [rewrite E1; exact Bd|exact U].
  Qed.
End Normalize.

Theorem normalize_spec l : f64_wf (lng l) = true -> f64_finite (lng l) = true -> (-180 <= lngR l <= 2 ^ 20)%R ->
  exists k, 0 <= k /\ lat (normalize_lng l) = lat l /\
    f64_wf (lng (normalize_lng l)) = true /\ f64_finite (lng (normalize_lng l)) = true /\
    lngR (normalize_lng l) = (lngR l - 360 * IZR k)%R /\ (- 180 - bpow radix2 (-30) <= lngR (normalize_lng l) < 180)%R /\
    ((lngR l <= 180 - bpow radix2 (-44))%R -> k = 0).
Proof.
  intros W F B. unfold lngR in *. destruct (norm_res (lng l) W F) as (k & K & A1 & A2 & A3 & A4 & A5); [lra|].
  exists k. unfold normalize_lng. cbn [lng lat]. split; [exact K|]. split; [reflexivity|]. split; [exact A1|]. split; [exact A2|].
  rewrite mult_IZR in A3. split; [exact A3|]. split; [exact A4|]. intros H. apply A5. lra.
Qed.
