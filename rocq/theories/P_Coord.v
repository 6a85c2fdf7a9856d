(** Proofs about planar/coord: zones *)
From Coq Require Import ZArith Bool List Lia Reals Lra Ascii.
From Flocq Require Import Core.Core.
From Verif Require Import Base_Bytes Base_F64 Base_F64Arith Base_Res
  P_F64 P_F64Flocq P_F64Round P_F64Grid P_F64Err P_Rtree3 P_Slippy P_SlippyR M_Coord S_Coord.
Import ListNotations.
Open Scope Z_scope.

Lemma ofZ_all n : Z.abs n <= 1000 -> f64_wf (f64_ofZ n) = true /\ f64_finite (f64_ofZ n) = true /\ f64_R (f64_ofZ n) = IZR n.
Proof.
  intros H. assert (H' : Z.abs n <= two53) by (unfold two53; lia).
  pose proof (repr_ofZ n H') as Q. pose proof (repr0 _ _ Q) as E. destruct Q as (A & B & _). auto.
Qed.
Lemma ge_Z n t : Z.abs n <= 1000 -> f64_wf t = true -> f64_finite t = true ->
  f64_ge t (f64_ofZ n) = Rle_bool (IZR n) (f64_R t).
Proof.
  intros H W F. destruct (ofZ_all n H) as (A & B & E). unfold f64_ge.
  pose proof (le_R (f64_ofZ n) t A W B F) as Q. rewrite E in Q.
  case Rle_bool_spec; intros D.
  - now apply Q.
  - destruct (f64_le _ _); [|reflexivity]. pose proof (proj1 Q eq_refl). lra.
Qed.
Lemma lt_Z n t : Z.abs n <= 1000 -> f64_wf t = true -> f64_finite t = true ->
  f64_lt t (f64_ofZ n) = Rlt_bool (f64_R t) (IZR n).
Proof.
  intros H W F. destruct (ofZ_all n H) as (A & B & E).
  pose proof (lt_R t (f64_ofZ n) W A F B) as Q. rewrite E in Q.
  case Rlt_bool_spec; intros D.
  - now apply Q.
  - destruct (f64_lt _ _); [|reflexivity]. pose proof (proj1 Q eq_refl). lra.
Qed.
Lemma Zle n t : Z.abs n <= 1000 -> f64_wf t = true -> f64_finite t = true ->
  f64_ge (f64_ofZ n) t = Rle_bool (f64_R t) (IZR n).
Proof.
  intros H W F. destruct (ofZ_all n H) as (A & B & E). unfold f64_ge.
  pose proof (le_R t (f64_ofZ n) W A F B) as Q. rewrite E in Q.
  case Rle_bool_spec; intros D.
  - now apply Q.
  - destruct (f64_le _ _); [|reflexivity]. pose proof (proj1 Q eq_refl). lra.
Qed.
Lemma gt_Z n t : Z.abs n <= 1000 -> f64_wf t = true -> f64_finite t = true ->
  f64_gt t (f64_ofZ n) = Rlt_bool (IZR n) (f64_R t).
Proof.
  intros H W F. destruct (ofZ_all n H) as (A & B & E). unfold f64_gt.
  pose proof (lt_R (f64_ofZ n) t A W B F) as Q. rewrite E in Q.
  case Rlt_bool_spec; intros D.
  - now apply Q.
  - destruct (f64_lt _ _); [|reflexivity]. pose proof (proj1 Q eq_refl). lra.
Qed.

(** ** Letters *)

Lemma band_steps hi lo t (X Y : option Z) (P : option Z -> Prop) : Z.abs hi <= 1000 -> Z.abs lo <= 1000 -> f64_wf t = true -> f64_finite t = true ->
  ((IZR lo <= f64_R t < IZR hi)%R -> P X) -> (~ (IZR lo <= f64_R t < IZR hi)%R -> P Y) ->
  P (if f64_gt (f64_ofZ hi) t && f64_ge t (f64_ofZ lo) then X else Y).
Proof.
  intros Hh Hl W F HX HY. change (f64_gt (f64_ofZ hi) t) with (f64_lt t (f64_ofZ hi)).
  rewrite lt_Z, ge_Z by assumption.
  case Rlt_bool_spec; intros A; [case Rle_bool_spec; intros B|]; cbn [andb]; [apply HX|apply HY|apply HY]; lra.
Qed.
Lemma top_step t (X Y : option Z) (P : option Z -> Prop) : f64_wf t = true -> f64_finite t = true ->
  ((72 <= f64_R t <= 84)%R -> P X) -> (~ (72 <= f64_R t <= 84)%R -> P Y) ->
  P (if f64_ge (f64_ofZ 84) t && f64_ge t (f64_ofZ 72) then X else Y).
Proof.
  intros W F HX HY. rewrite Zle, ge_Z by (assumption || lia).
  case Rle_bool_spec; intros A; [case Rle_bool_spec; intros B|]; cbn [andb]; [apply HX|apply HY|apply HY]; lra.
Qed.

Definition letter_ok (r : R) (o : option Z) : Prop :=
  match o with Some c => in_band c r | None => ~ (-80 <= r <= 84)%R end.

Lemma letter_spec t : f64_wf t = true -> f64_finite t = true -> letter_ok (f64_R t) (zone_letter t).
Proof.
  intros W F. unfold zone_letter. cbv zeta beta.
  apply (top_step t); [exact W|exact F| |].
  { intros H. exists 19%nat. split; [reflexivity|]. cbn [Nat.eqb]. simpl INR. lra. }
  intros H0.
  let st k := (apply (band_steps _ _ t); [lia|lia|exact W|exact F
    |intros ?; cbn [letter_ok]; exists k; split; [reflexivity|]; cbn [Nat.eqb]; simpl INR; lra|intros ?]) in
  st 18%nat; st 17%nat; st 16%nat; st 15%nat; st 14%nat; st 13%nat; st 12%nat; st 11%nat; st 10%nat; st 9%nat;
  st 8%nat; st 7%nat; st 6%nat; st 5%nat; st 4%nat; st 3%nat; st 2%nat; st 1%nat; st 0%nat.
  cbn [letter_ok]. lra.
Qed.

Lemma band_range c r : in_band c r -> (-80 <= r <= 84)%R.
Proof.
  intros (i & E & L & U). assert (i < 20)%nat by (apply (nth_error_Some (map code band_letters) i); congruence).
  pose proof (pos_INR i). split; [lra|]. destruct (Nat.eqb_spec i 19) as [->|N]; [exact U|].
  assert (i <= 18)%nat by lia. apply le_INR in H1. simpl (INR 18) in H1. lra.
Qed.

Lemma band_one c c' r : in_band c r -> in_band c' r -> c = c'.
Proof.
  intros (i & E & L & U) (j & E' & L' & U').
  enough (i = j) by congruence.
  assert (HI : (i <= 19)%nat) by (assert (i < 20)%nat by (apply (nth_error_Some (map code band_letters) i); congruence); lia).
  assert (HJ : (j <= 19)%nat) by (assert (j < 20)%nat by (apply (nth_error_Some (map code band_letters) j); congruence); lia).
  assert (A : forall i j, (i <= 19)%nat -> (j <= 19)%nat -> (i < j)%nat ->
     (if Nat.eqb i 19 then (r <= 84)%R else (r < -72 + 8 * INR i)%R) -> (-80 + 8 * INR j <= r)%R -> False).
  { intros a b Ha Hb Hab Hu Hl. destruct (Nat.eqb_spec a 19); [lia|].
    assert (a + 1 <= b)%nat by lia. apply le_INR in H. rewrite plus_INR in H. simpl (INR 1) in H. lra. }
  destruct (Nat.lt_trichotomy i j) as [Q|[Q|Q]]; [exfalso|exact Q|exfalso].
  - exact (A i j HI HJ Q U L').
  - exact (A j i HJ HI Q U' L).
Qed.

Theorem letter_iff t c : f64_wf t = true -> f64_finite t = true ->
  zone_letter t = Some c <-> in_band c (f64_R t).
Proof.
  intros W F. pose proof (letter_spec t W F) as H. split; intros E.
  - now rewrite E in H.
  - destruct (zone_letter t) as [c'|]; cbn [letter_ok] in H.
    + now rewrite (band_one c c' (f64_R t)).
    + exfalso. apply H. now apply band_range in E.
Qed.

(** ** Numbers *)

Section Strip.
  Variable g : f64.
  Hypotheses (W : f64_wf g = true) (F : f64_finite g = true).
  Local Open Scope R_scope.
  Local Notation x := (f64_R g + 180).
  Hypothesis (B : 0 <= x <= 360).

  Lemma strip_words : exists q, f64_div (f64_add g c180) c6 = q /\ f64_wf q = true /\ f64_finite q = true /\
    f64_R q = rnd (rnd x / 6).
  Proof.
    destruct (ofZ_all 180 ltac:(lia)) as (A1 & A2 & A3). destruct (ofZ_all 6 ltac:(lia)) as (B1 & B2 & B3).
    replace c180 with (f64_ofZ 180) by (vm_compute; reflexivity). replace c6 with (f64_ofZ 6) by (vm_compute; reflexivity).
    pose proof (add_round g (f64_ofZ 180) W A1 F A2) as R1. rewrite A3 in R1.
    destruct (round_val 9 _ _ ltac:(lia) R1) as (W1 & F1 & E1).
    { change (bpow radix2 9) with 512. rewrite Rabs_pos_eq; lra. }
    assert (S : 0 <= rnd x <= 360).
    { split; [rewrite <- rnd_0; apply rnd_le; lra|].
      rewrite <- (rnd_int 360) by (unfold two53; lia). apply rnd_le. lra. }
    pose proof (div_round _ (f64_ofZ 6) W1 B1 F1 B2) as R2. rewrite B3 in R2. specialize (R2 ltac:(lra)). rewrite E1 in R2.
    destruct (round_val 9 _ _ ltac:(lia) R2) as (W2 & F2 & E2).
    { change (bpow radix2 9) with 512. rewrite Rabs_pos_eq; lra. }
    eexists. split; [reflexivity|]. auto.
  Qed.

  Lemma sum_err : Rabs (rnd x - x) <= bpow radix2 (-44).
  Proof. apply (rnd_err 9 x); [lia|]. change (bpow radix2 9) with 512. rewrite Rabs_pos_eq; lra. Qed.
  Lemma sum_rng : 0 <= rnd x <= 360.
  Proof.
    split; [rewrite <- rnd_0; apply rnd_le; lra|].
    rewrite <- (rnd_int 360) by (unfold two53; lia). apply rnd_le. lra.
  Qed.
  Lemma quo_err : Rabs (rnd (rnd x / 6) - rnd x / 6) <= bpow radix2 (-47).
  Proof.
    apply (rnd_err 6); [lia|]. change (bpow radix2 6) with 64. pose proof sum_rng. rewrite Rabs_pos_eq; lra.
  Qed.
  Lemma quo_rng : 0 <= rnd (rnd x / 6) <= 60.
  Proof.
    pose proof sum_rng. split; [rewrite <- rnd_0; apply rnd_le; lra|].
    rewrite <- (rnd_int 60) by (unfold two53; lia). apply rnd_le. lra.
  Qed.

  Lemma strip_number : exists m, f64_to_i64 (f64_div (f64_add g c180) c6) = m /\ (0 <= m <= 60)%Z /\
    IZR m <= rnd (rnd x / 6) < IZR m + 1.
  Proof.
    destruct strip_words as (q & E & Wq & Fq & Rq). rewrite E.
    pose proof quo_rng as Q.
    destruct (trunc_floor q Wq Fq) as (n & T & N0 & Hn); [rewrite Rq; lra|]. rewrite Rq in Hn.
    assert (n <= 60)%Z by (apply le_IZR; lra).
    exists n. unfold f64_to_i64. rewrite T. unfold two63.
    destruct (_ && _) eqn:V; [auto|]. exfalso. lia.
  Qed.

  (** The strip to the east is never missed. *)
  Lemma strip_east m : (0 <= m <= 60)%Z -> rnd (rnd x / 6) < IZR m + 1 -> x < IZR (6 * (m + 1)).
  Proof.
    intros Hm H. apply Rnot_le_lt. intros C.
    assert (IZR (6 * (m + 1)) <= rnd x).
    { rewrite <- (rnd_int (6 * (m + 1))) by (unfold two53; lia). now apply rnd_le. }
    assert (IZR (m + 1) <= rnd (rnd x / 6)).
    { rewrite <- (rnd_int (m + 1)) by (unfold two53; lia). apply rnd_le. rewrite mult_IZR in H0. lra. }
    rewrite plus_IZR in H1. lra.
  Qed.

  Lemma strip_west d m : (0 <= m)%Z -> Rabs (rnd x - x) <= d -> IZR m <= rnd (rnd x / 6) ->
    IZR (6 * m) - (d + 6 * bpow radix2 (-47)) <= x.
  Proof.
    intros Hm D H. pose proof quo_err as Q. rewrite mult_IZR.
    apply Rabs_le_inv in D. apply Rabs_le_inv in Q. lra.
  Qed.

  Lemma strip_res : exists n, f64_to_i64 (f64_div (f64_add g c180) c6) = (n - 1)%Z /\ (1 <= n <= 61)%Z /\
     strip (bpow radix2 (-43)) n (f64_R g) /\
     ((exists k, f64_R g = IZR k * bpow radix2 (-44)) -> strip 0 n (f64_R g)) /\
     (x <= 360 - bpow radix2 (-44) -> (n <= 60)%Z).
  Proof.
    destruct strip_number as (m & E & Hm & L & U). exists (m + 1)%Z. split; [rewrite E; lia|]. split; [lia|].
    pose proof (strip_east m Hm U) as Ea.
    split; [|split].
    - unfold strip. replace (6 * (m + 1) - 186)%Z with (6 * m - 180)%Z by lia. rewrite !minus_IZR. split; [|lra].
      pose proof (strip_west _ m ltac:(lia) sum_err L) as We.
      enough (bpow radix2 (-44) + 6 * bpow radix2 (-47) <= bpow radix2 (-43)) by lra.
      change (-43)%Z with (4 + -47)%Z. change (-44)%Z with (3 + -47)%Z. rewrite !bpow_plus.
      change (bpow radix2 4) with 16. change (bpow radix2 3) with 8. pose proof (bpow_gt_0 radix2 (-47)). lra.
    - intros (k & Ek). unfold strip. replace (6 * (m + 1) - 186)%Z with (6 * m - 180)%Z by lia. rewrite !minus_IZR. split; [|lra].
      set (u := bpow radix2 (-44)) in *.
      assert (u1 : 180 = IZR (180 * 2 ^ 44) * u).
      { rewrite mult_IZR, Rmult_assoc. change (IZR (2 ^ 44)) with (bpow radix2 44). unfold u. rewrite <- bpow_plus. simpl. ring. }
      assert (Ex : rnd x = x).
      { replace x with (IZR (k + 180 * 2 ^ 44) * bpow radix2 (-44)) by (rewrite plus_IZR; fold u; rewrite Ek; lra).
        apply grid_rnd; [lia|]. apply le_IZR. unfold two53.
        assert (P : 0 < u) by apply bpow_gt_0.
        apply (Rmult_le_reg_r u); [exact P|].
        rewrite abs_IZR, plus_IZR. rewrite <- (Rabs_pos_eq u) at 1 by lra. rewrite <- Rabs_mult.
        replace ((IZR k + IZR (180 * 2 ^ 44)) * u) with x by (rewrite Ek; lra).
        rewrite Rabs_pos_eq by lra. change (IZR (2 ^ 53)) with (bpow radix2 53). unfold u. rewrite <- bpow_plus.
        change (bpow radix2 (53 + -44)) with 512. lra. }
      apply Rnot_lt_le. intros C.
      assert (D : x <= IZR (6 * m) - u).
      { assert (IZR (k + 180 * 2 ^ 44) * u < IZR (6 * m * 2 ^ 44) * u).
        { replace (IZR (6 * m * 2 ^ 44) * u) with (IZR (6 * m)).
          - rewrite plus_IZR. lra.
          - rewrite (mult_IZR (6 * m)), Rmult_assoc. change (IZR (2 ^ 44)) with (bpow radix2 44). unfold u. rewrite <- bpow_plus. simpl. ring. }
        apply Rmult_lt_reg_r in H; [|apply bpow_gt_0]. apply lt_IZR in H.
        assert (k + 180 * 2 ^ 44 <= 6 * m * 2 ^ 44 - 1)%Z by (clear - H; lia).
        apply IZR_le in H0. rewrite minus_IZR in H0.
        apply (Rmult_le_compat_r u) in H0; [|left; apply bpow_gt_0].
        replace (IZR (k + 180 * 2 ^ 44) * u) with x in H0 by (rewrite plus_IZR; lra).
        replace ((IZR (6 * m * 2 ^ 44) - 1) * u) with (IZR (6 * m) - u) in H0; [exact H0|].
        rewrite (mult_IZR (6 * m)), Rmult_minus_distr_r, Rmult_assoc.
        change (IZR (2 ^ 44)) with (bpow radix2 44). unfold u. rewrite <- bpow_plus. simpl. ring. }
      assert (Z0 : Rabs (rnd x - x) <= 0) by (rewrite Ex, Rminus_eq_0, Rabs_R0; lra).
      pose proof (strip_west 0 m ltac:(lia) Z0 L) as We.
      assert (6 * bpow radix2 (-47) < u).
      { unfold u. change (-44)%Z with (3 + -47)%Z. rewrite bpow_plus. change (bpow radix2 3) with 8.
        pose proof (bpow_gt_0 radix2 (-47)). lra. }
      lra.
    - intros Hx. apply Z.le_ngt. intros C. assert (Hm60 : (m = 60)%Z) by lia. rewrite Hm60 in L.
      set (u := bpow radix2 (-44)) in *.
      assert (V : rnd (360 - u) = 360 - u).
      { replace (360 - u) with (IZR (360 * 2 ^ 44 - 1) * bpow radix2 (-44)).
        - apply grid_rnd; [lia|]. unfold two53. lia.
        - rewrite minus_IZR, mult_IZR. fold u. rewrite Rmult_minus_distr_r, Rmult_assoc.
          change (IZR (2 ^ 44)) with (bpow radix2 44). unfold u at 1. rewrite <- bpow_plus. simpl. ring. }
      assert (S : rnd x <= 360 - u) by (rewrite <- V; now apply rnd_le).
      pose proof quo_err as Q. apply Rabs_le_inv in Q.
      assert (6 * bpow radix2 (-47) < u).
      { unfold u. change (-44)%Z with (3 + -47)%Z. rewrite bpow_plus. change (bpow radix2 3) with 8.
        pose proof (bpow_gt_0 radix2 (-47)). lra. }
      lra.
  Qed.
End Strip.
