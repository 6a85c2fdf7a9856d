(** Proofs about planar/coord: integer parts, degrees, minutes and seconds *)
From Coq Require Import ZArith Bool List Lia Reals Lra Ascii.
From Flocq Require Import Core.Core IEEE754.BinarySingleNaN IEEE754.Binary IEEE754.Bits.
From Verif Require Import Base_Bytes Base_F64 Base_F64Arith Base_Res
  P_F64 P_F64Flocq P_F64Round P_F64Grid P_F64Err P_F64Sqrt P_Rtree3 P_Strconv4 P_Slippy P_SlippyR P_Ring M_Coord S_Coord P_Coord.
Import ListNotations.
Open Scope Z_scope.
Local Notation prec := 53.
Local Notation emax := 1024.

Lemma R_SF w : f64_wf w = true -> f64_R w = SF2R radix2 (sf_of (f64_sign w) (f64_mag w)).
Proof.
  intros W. unfold f64_R. rewrite <- (B2SF_word w W). destruct (b64_of_bits w); reflexivity.
Qed.

(** A positive word with an exponent field [x] of a normal number. *)
Lemma normal_R w x : 0 <= w < two63 -> w / 2 ^ 52 = x -> 1 <= x <= 2046 ->
  f64_wf w = true /\ f64_finite w = true /\ f64_R w = (IZR (w mod 2 ^ 52 + 2 ^ 52) * bpow radix2 (x - 1075))%R.
Proof.
  intros B X Hx.
  assert (W : f64_wf w = true) by (unfold f64_wf, two64, two63 in *; apply andb_true_intro; split; [apply Z.leb_le|apply Z.ltb_lt]; lia).
  assert (M : f64_mag w = w) by (apply Z.mod_small; exact B).
  assert (S : f64_sign w = false) by (apply Z.leb_gt; apply B).
  pose proof (Z.div_mod w (2 ^ 52) ltac:(lia)) as D. pose proof (Z.mod_pos_bound w (2 ^ 52) ltac:(lia)) as Q.
  split; [exact W|]. split.
  - unfold f64_finite. rewrite M. apply Z.ltb_lt. unfold f64_pinf. lia.
  - rewrite (R_SF w W), M, S. unfold sf_of. rewrite X.
    destruct (Z.eqb_spec x 0); [lia|]. destruct (Z.eqb_spec x 2047); [lia|].
    destruct (w mod 2 ^ 52 + 2 ^ 52) as [|p|p] eqn:E; [lia| |lia].
    unfold SF2R, F2R. cbn [cond_Zopp Fnum Fexp]. reflexivity.
Qed.

Lemma big_word w : f64_wf w = true -> f64_finite w = true -> (1 <= f64_R w)%R -> f64_one <= w < f64_pinf.
Proof.
  intros W F H.
  assert (L : f64_le f64_one w = true).
  { apply le_R; [reflexivity|exact W|reflexivity|exact F|]. replace (f64_R f64_one) with 1%R; [exact H|].
    change f64_one with (f64_ofZ 1). symmetry. apply (ofZ_all 1). lia. }
  apply le_inv in L. destruct L as (_ & _ & K). rewrite !key_sign in K. change (f64_sign f64_one) with false in K.
  change (f64_mag f64_one) with f64_one in K.
  pose proof (mag_bounds w) as Mb. pose proof (wf_word w W) as E.
  destruct (f64_sign w); [unfold f64_one in K; lia|].
  unfold f64_finite in F. apply Z.ltb_lt in F. lia.
Qed.

Lemma modf_big_ok w : f64_wf w = true -> f64_finite w = true -> (1 <= f64_R w)%R ->
  exists n, 0 <= n /\ f64_wf (fst (modf_big w)) = true /\ f64_finite (fst (modf_big w)) = true /\ f64_R (fst (modf_big w)) = IZR n /\
    f64_wf (snd (modf_big w)) = true /\ f64_finite (snd (modf_big w)) = true /\
    f64_R (snd (modf_big w)) = (f64_R w - IZR n)%R /\ (0 <= f64_R w - IZR n < 1)%R.
Proof.
  intros W F H. pose proof (big_word w W F H) as B. unfold modf_big. cbv zeta. cbn [fst snd].
  set (x := w / 2 ^ 52).
  assert (Hx : 1023 <= x <= 2046).
  { unfold x, f64_one, f64_pinf in *. split.
    - change 1023 with (0x3FF0000000000000 / 2 ^ 52). apply Z.div_le_mono; lia.
    - assert (w / 2 ^ 52 < 2047); [|lia]. apply Z.div_lt_upper_bound; lia. }
  assert (Bw : 0 <= w < two63) by (unfold f64_one, f64_pinf, two63 in *; lia).
  destruct (normal_R w x Bw eq_refl ltac:(lia)) as (_ & _ & Rw).
  pose proof (Z.div_mod w (2 ^ 52) ltac:(lia)) as D. pose proof (Z.mod_pos_bound w (2 ^ 52) ltac:(lia)) as Q. fold x in D.
  destruct (Z.ltb_spec (x - 1023) 52) as [E|E].
  - set (k := 52 - (x - 1023)). assert (Hk : 1 <= k <= 52) by (unfold k; lia).
    pose proof (Z.mod_pos_bound w (2 ^ k) ltac:(apply Z.pow_pos_nonneg; lia)) as Qk.
    pose proof (Z.div_mod w (2 ^ k) ltac:(apply Z.pow_nonzero; lia)) as Dk.
    set (r := w mod 2 ^ k) in *. set (a := w / 2 ^ k) in *.
    assert (P52 : 2 ^ 52 = 2 ^ k * 2 ^ (52 - k)) by (rewrite <- Z.pow_add_r by lia; f_equal; lia).
    assert (Pk : 0 < 2 ^ k) by (apply Z.pow_pos_nonneg; lia).
    assert (Rm : (w mod 2 ^ 52) mod 2 ^ k = r).
    { assert (D' : w = 2 ^ k * 2 ^ (52 - k) * x + w mod 2 ^ 52) by (rewrite <- P52; exact D).
      unfold r. generalize dependent (w mod 2 ^ 52). intros v _ _ _ D'.
      rewrite D'. replace (2 ^ k * 2 ^ (52 - k) * x + v) with (v + 2 ^ (52 - k) * x * 2 ^ k) by ring.
      symmetry. apply Z_mod_plus_full. }
    assert (Rle : r <= w mod 2 ^ 52) by (rewrite <- Rm; apply Z.mod_le; lia).
    assert (Im : (w - r) mod 2 ^ 52 = w mod 2 ^ 52 - r) by (symmetry; apply (Z.mod_unique_pos _ _ x); lia).
    assert (Id : (w - r) / 2 ^ 52 = x) by (symmetry; apply (Z.div_unique_pos _ _ x (w mod 2 ^ 52 - r)); lia).
    destruct (normal_R (w - r) x ltac:(lia) Id ltac:(lia)) as (Wi & Fi & Ri).
    rewrite Im in Ri.
    set (n := a - 2 ^ (52 - k) * (x - 1)).
    assert (En : w mod 2 ^ 52 - r + 2 ^ 52 = n * 2 ^ k).
    { unfold n. replace ((a - 2 ^ (52 - k) * (x - 1)) * 2 ^ k) with (2 ^ k * a - 2 ^ k * 2 ^ (52 - k) * (x - 1)) by ring.
      rewrite <- P52. clear - D Dk. lia. }
    assert (Eb : (bpow radix2 k * bpow radix2 (x - 1075) = 1)%R).
    { rewrite <- bpow_plus. replace (k + (x - 1075)) with 0 by (unfold k; lia). reflexivity. }
    assert (Ep : IZR (2 ^ k) = bpow radix2 k) by (rewrite <- IZR_Zpower by lia; reflexivity).
    assert (Rn : f64_R (w - r) = IZR n) by (rewrite Ri, En, mult_IZR, Ep, Rmult_assoc, Eb; ring).
    assert (Fr : (f64_R w - IZR n = IZR r * bpow radix2 (x - 1075))%R).
    { rewrite <- Rn, Ri, Rw. replace (w mod 2 ^ 52 - r + 2 ^ 52) with (w mod 2 ^ 52 + 2 ^ 52 - r) by lia. rewrite minus_IZR. ring. }
    assert (Rs : repr (x - 1075) r (f64_sub w (w - r))).
    { replace r with ((w mod 2 ^ 52 + 2 ^ 52) - (w mod 2 ^ 52 - r + 2 ^ 52)) at 1 by lia. apply repr_sub; [lia| | |].
      - unfold two53. assert (2 ^ k <= 2 ^ 52) by (apply Z.pow_le_mono_r; lia). lia.
      - split; [exact W|]. split; [exact F|exact Rw].
      - split; [exact Wi|]. split; [exact Fi|exact Ri]. }
    destruct Rs as (Ws & Fs & Es).
    exists n. split; [|split; [exact Wi|split; [exact Fi|split; [exact Rn|split; [exact Ws|split; [exact Fs|split]]]]]].
    + assert (0 < n * 2 ^ k) by lia. apply Z.lt_le_incl. apply (Zmult_gt_0_lt_0_reg_r (2 ^ k)); lia.
    + rewrite Es, Fr. reflexivity.
    + rewrite Fr. pose proof (bpow_gt_0 radix2 (x - 1075)) as Pb. split.
      * apply Rmult_le_pos; [apply IZR_le; lia|lra].
      * rewrite <- Eb. apply Rmult_lt_compat_r; [exact Pb|]. rewrite <- Ep. apply IZR_lt. lia.
  - set (n := (w mod 2 ^ 52 + 2 ^ 52) * 2 ^ (x - 1075)).
    assert (Rn : f64_R w = IZR n).
    { rewrite Rw. unfold n. rewrite mult_IZR. f_equal. rewrite <- IZR_Zpower by lia. reflexivity. }
    exists n. split; [unfold n; apply Z.mul_nonneg_nonneg; [lia|apply Z.pow_nonneg; lia]|].
    split; [exact W|]. split; [exact F|]. split; [exact Rn|].
    pose proof (sub_round w w W W F F) as R0. rewrite Rminus_eq_0 in R0.
    destruct (round_val 1 _ _ ltac:(lia) R0) as (W0 & F0 & E0); [rewrite Rabs_R0; apply bpow_ge_0|].
    rewrite rnd_0 in E0. split; [exact W0|]. split; [exact F0|]. rewrite E0, Rn. split; lra.
Qed.

Lemma R_one : f64_R f64_one = 1%R.
Proof. change f64_one with (f64_ofZ 1). apply (ofZ_all 1). lia. Qed.
Lemma R_0 : f64_R f64_zero = 0%R. Proof. reflexivity. Qed.

(** math.Modf: the integer part and the fraction have the sign of the number. *)
Lemma modf_ok w : f64_wf w = true -> f64_finite w = true ->
  exists n, 0 <= n /\ f64_wf (fst (modf w)) = true /\ f64_finite (fst (modf w)) = true /\ Rabs (f64_R (fst (modf w))) = IZR n /\
    f64_wf (snd (modf w)) = true /\ f64_finite (snd (modf w)) = true /\
    Rabs (f64_R (snd (modf w))) = (Rabs (f64_R w) - IZR n)%R /\ (0 <= Rabs (f64_R w) - IZR n < 1)%R.
Proof.
  intros W F. unfold modf.
  pose proof (lt_R w f64_one W eq_refl F eq_refl) as L1. rewrite R_one in L1.
  destruct (f64_lt w f64_one) eqn:E1.
  - pose proof (proj1 L1 eq_refl) as H1.
    pose proof (lt_R w f64_zero W eq_refl F eq_refl) as L0. rewrite R_0 in L0.
    destruct (f64_lt w f64_zero) eqn:E0.
    + pose proof (proj1 L0 eq_refl) as H0. cbv zeta.
      destruct (neg_word w W) as (Wv & _ & _). pose proof (neg_finite w W) as Fv. rewrite F in Fv. pose proof (neg_R w W) as Rv.
      pose proof (lt_R (f64_neg w) f64_one Wv eq_refl Fv eq_refl) as Lv. rewrite R_one, Rv in Lv.
      destruct (f64_lt (f64_neg w) f64_one) eqn:Ev; cbn [fst snd].
      * pose proof (proj1 Lv eq_refl) as Hv. exists 0. split; [lia|]. split; [reflexivity|]. split; [reflexivity|].
        split; [rewrite neg_R by reflexivity; rewrite R_0, Ropp_0, Rabs_R0; reflexivity|].
        destruct (neg_word _ Wv) as (Wn & _ & _). split; [exact Wn|]. split; [rewrite neg_finite by exact Wv; exact Fv|].
        rewrite (neg_R _ Wv), Rv, Ropp_involutive. split; [lra|]. rewrite Rabs_left by exact H0. lra.
      * assert (Hv : (1 <= - f64_R w)%R) by (apply Rnot_lt_le; intros C; apply Lv in C; discriminate C).
        rewrite <- Rv in Hv. destruct (modf_big_ok _ Wv Fv Hv) as (n & N0 & Wi & Fi & Ri & Wf & Ff & Rf & B).
        destruct (modf_big (f64_neg w)) as [i f]. cbn [fst snd] in *.
        destruct (neg_word _ Wi) as (Wi' & _ & _). destruct (neg_word _ Wf) as (Wf' & _ & _).
        exists n. split; [exact N0|]. split; [exact Wi'|]. split; [now rewrite neg_finite|].
        split; [rewrite neg_R, Rabs_Ropp, Ri by exact Wi; apply Rabs_pos_eq, IZR_le, N0|].
        split; [exact Wf'|]. split; [now rewrite neg_finite|].
        rewrite Rv in *. rewrite (Rabs_left (f64_R w)) by exact H0.
        split; [|exact B]. rewrite neg_R, Rabs_Ropp, Rf by exact Wf. apply Rabs_pos_eq, B.
    + assert (H0 : (0 <= f64_R w)%R) by (apply Rnot_lt_le; intros C; apply L0 in C; discriminate C).
      pose proof (eq_R w f64_zero W eq_refl F eq_refl) as Q. rewrite R_0 in Q.
      destruct (f64_eq w f64_zero); cbn [fst snd].
      * pose proof (proj1 Q eq_refl) as Z0. exists 0. split; [lia|]. split; [exact W|]. split; [exact F|].
        rewrite Z0, Rabs_R0. split; [reflexivity|]. split; [exact W|]. split; [exact F|]. split; lra.
      * exists 0. split; [lia|]. split; [reflexivity|]. split; [reflexivity|]. rewrite R_0, Rabs_R0. split; [reflexivity|].
        split; [exact W|]. split; [exact F|]. rewrite (Rabs_pos_eq _ H0). split; lra.
  - assert (H1 : (1 <= f64_R w)%R) by (apply Rnot_lt_le; intros C; apply L1 in C; discriminate C).
    destruct (modf_big_ok w W F H1) as (n & N0 & Wi & Fi & Ri & Wf & Ff & Rf & B).
    exists n. split; [exact N0|]. split; [exact Wi|]. split; [exact Fi|].
    split; [rewrite Ri; apply Rabs_pos_eq, IZR_le, N0|]. split; [exact Wf|]. split; [exact Ff|].
    rewrite (Rabs_pos_eq (f64_R w)) by lra. split; [rewrite Rf; apply Rabs_pos_eq, B|exact B].
Qed.

Lemma to_i64_int w n : f64_wf w = true -> f64_finite w = true -> f64_R w = IZR n -> 0 <= n < two63 -> f64_to_i64 w = n.
Proof.
  intros W F E H. pose proof (to_i64_between w n n W F ltac:(lia) ltac:(lia)) as Q. rewrite E in Q.
  specialize (Q ltac:(lra) ltac:(lra)). lia.
Qed.

(** The largest float64 below 1. *)
Definition below_one : f64 := 0x3FEFFFFFFFFFFFFF.
Lemma below_one_le f : f64_wf f = true -> f64_finite f = true -> (0 <= f64_R f < 1)%R -> (f64_R f <= f64_R below_one)%R.
Proof.
  intros W F H.
  assert (L : f64_lt f f64_one = true) by (apply lt_R; auto; rewrite R_one; lra).
  apply le_R; [exact W|reflexivity|exact F|reflexivity|].
  apply lt_inv in L. destruct L as (N & _ & K). rewrite le_key by (exact N || reflexivity).
  apply Z.leb_le. change (f64_key f64_one) with f64_one in K. change (f64_key below_one) with below_one.
  unfold f64_one, below_one in *. lia.
Qed.

(** 60 times a fraction stays below 60, and the error. *)
Lemma sixty f : f64_wf f = true -> f64_finite f = true -> (Rabs (f64_R f) < 1)%R ->
  f64_wf (f64_mul c60 f) = true /\ f64_finite (f64_mul c60 f) = true /\
  (Rabs (f64_R (f64_mul c60 f)) < 60)%R /\
  (Rabs (Rabs (f64_R (f64_mul c60 f)) - 60 * Rabs (f64_R f)) <= bpow radix2 (-47))%R.
Proof.
  intros W F H. destruct (ofZ_all 60 ltac:(lia)) as (A1 & A2 & A3).
  replace c60 with (f64_ofZ 60) by (vm_compute; reflexivity).
  pose proof (mul_round (f64_ofZ 60) f A1 W A2 F) as R1. rewrite A3 in R1.
  assert (B60 : (Rabs (60 * f64_R f) <= 60)%R) by (rewrite Rabs_mult, (Rabs_pos_eq 60) by lra; lra).
  destruct (round_val 6 _ _ ltac:(lia) R1) as (W1 & F1 & E1); [change (bpow radix2 6) with 64%R; lra|].
  split; [exact W1|]. split; [exact F1|]. rewrite E1, <- rnd_abs, Rabs_mult, (Rabs_pos_eq 60) by lra.
  set (a := Rabs (f64_R f)) in *.
  assert (Ha : (0 <= a)%R) by apply Rabs_pos. split.
  - destruct (abs_R f W F) as (Wa & Fa & Ra). fold a in Ra.
    pose proof (below_one_le _ Wa Fa) as L. rewrite Ra in L. specialize (L ltac:(lra)).
    apply (Rle_lt_trans _ (rnd (60 * f64_R below_one))); [apply rnd_le; lra|].
    pose proof (mul_round (f64_ofZ 60) below_one A1 eq_refl A2 eq_refl) as R2. rewrite A3 in R2.
    assert (Bb : (0 <= f64_R below_one < 1)%R).
    { split; [lra|]. rewrite <- R_one. apply lt_R; reflexivity. }
    destruct (round_val 6 _ _ ltac:(lia) R2) as (W2 & F2 & E2).
    { change (bpow radix2 6) with 64%R. rewrite Rabs_pos_eq; lra. }
    rewrite <- E2, <- A3. apply lt_R; [exact W2|exact A1|exact F2|exact A2|]. vm_compute. reflexivity.
  - rewrite Rabs_mult, (Rabs_pos_eq 60) in B60 by lra. fold a in B60.
    apply (rnd_err 6); [lia|]. change (bpow radix2 6) with 64%R. rewrite Rabs_pos_eq; lra.
Qed.

Theorem dms_spec v : f64_wf v = true -> f64_finite v = true -> (Rabs (f64_R v) < IZR two63)%R ->
  let '(d, m, s) := to_dms v in
  0 <= d /\ (IZR d <= Rabs (f64_R v) < IZR d + 1)%R /\ 0 <= m < 60 /\ f64_wf s = true /\ f64_finite s = true /\ (0 <= f64_R s < 60)%R /\
  (Rabs (dms_value d m (f64_R s) - Rabs (f64_R v)) <= bpow radix2 (-52))%R.
Proof.
  intros W F B. unfold to_dms.
  destruct (modf_ok v W F) as (n & N0 & Wi & Fi & Ri & Wf & Ff & Rf & Bf).
  destruct (modf v) as [df fr]. cbn [fst snd] in *. rewrite <- Rf in Bf.
  destruct (sixty fr Wf Ff (proj2 Bf)) as (Wm & Fm & Bm & Em).
  destruct (modf_ok _ Wm Fm) as (k & K0 & Wj & Fj & Rj & Wg & Fg & Rg & Bg).
  destruct (modf (f64_mul c60 fr)) as [mf gr]. cbn [fst snd] in *. rewrite <- Rg in Bg.
  destruct (sixty gr Wg Fg (proj2 Bg)) as (Ws & Fs & Bs & Es).
  destruct (abs_R df Wi Fi) as (Wa & Fa & Ra). destruct (abs_R mf Wj Fj) as (Wb & Fb & Rb). destruct (abs_R _ Ws Fs) as (Wc & Fc & Rc).
  assert (n < two63) by (apply lt_IZR; lra).
  assert (k < 60) by (apply lt_IZR; lra).
  assert (Td : f64_to_i64 (f64_abs df) = n).
  { apply (to_i64_int _ n Wa Fa); [rewrite Ra; exact Ri|]. clear - N0 H. lia. }
  assert (Tm : f64_to_i64 (f64_abs mf) = k).
  { apply (to_i64_int _ k Wb Fb); [rewrite Rb; exact Rj|]. clear - K0 H0. unfold two63. lia. }
  rewrite Td, Tm.
  split; [exact N0|]. split; [clear - Rf Bf; lra|]. split; [clear - K0 H0; lia|]. split; [exact Wc|]. split; [exact Fc|]. rewrite Rc.
  split; [split; [apply Rabs_pos|exact Bs]|].
  unfold dms_value.
  set (s := Rabs (f64_R (f64_mul c60 gr))) in *. set (y := Rabs (f64_R (f64_mul c60 fr))) in *.
  set (f := Rabs (f64_R fr)) in *. set (g := Rabs (f64_R gr)) in *. set (a := Rabs (f64_R v)) in *.
  apply Rabs_le_inv in Em. apply Rabs_le_inv in Es.
  change (-47) with (5 + -52) in *. rewrite bpow_plus in *. change (bpow radix2 5) with 32%R in *.
  clear - Em Es Rg Rf. apply Rabs_le. set (u := bpow radix2 (-52)) in *. clearbody u s y f g a. lra.
Qed.
