(** Proofs about the decimal conversions: error, exactness, stability. *)
From Coq Require Import String ZArith Bool List Lia Reals Lra.
From Coq Require Import ZifyBool ZifyNat.
From Coq Require Import Floats.SpecFloat.
From Flocq Require Import Core.Core IEEE754.BinarySingleNaN IEEE754.Binary IEEE754.Bits.
From Flocq Require Import Relative.
From Verif Require Import Base_F64 Base_F64Arith M_Wkt M_Strconv S_Wkt S_Strconv
  P_F64 P_F64Flocq P_F64Round P_F64Grid P_Wkt P_Strconv P_Strconv2 P_Strconv3.
Import ListNotations.
Open Scope Z_scope.

Local Notation prec := 53.
Local Notation emax := 1024.

(** ** Unary minus *)

Lemma neg_word w : f64_wf w = true ->
  f64_wf (f64_neg w) = true /\ f64_sign (f64_neg w) = negb (f64_sign w) /\ f64_mag (f64_neg w) = f64_mag w.
Proof.
  intros W. assert (T : two64 = 2 * two63) by reflexivity. assert (P : 0 < two63) by reflexivity.
  unfold f64_wf, f64_sign, f64_mag, f64_neg, f64_sign in *. generalize dependent two64. generalize dependent two63. intros t P t2 T W.
  assert (0 <= w < 2 * t) by lia.
  destruct (Z.leb_spec t w).
  - split; [lia|]. split; [lia|]. rewrite (Z.mod_small (w - t) t) by lia.
    apply (Z.mod_unique w t 1 (w - t)); lia.
  - split; [lia|]. split; [lia|]. replace (w + t) with (w + 1 * t) by lia. apply Z.mod_add. lia.
Qed.
Lemma neg_finite w : f64_wf w = true -> f64_finite (f64_neg w) = f64_finite w.
Proof. intros W. unfold f64_finite. now rewrite (proj2 (proj2 (neg_word w W))). Qed.
Lemma R_sf w : f64_wf w = true -> f64_R w = SF2R radix2 (sf_of (f64_sign w) (f64_mag w)).
Proof. intros W. rewrite <- B2SF_word by assumption. unfold f64_R. now destruct (b64_of_bits w). Qed.
Lemma neg_R w : f64_wf w = true -> f64_R (f64_neg w) = (- f64_R w)%R.
Proof.
  intros W. destruct (neg_word w W) as (W' & S & M). rewrite !R_sf by assumption. rewrite S, M.
  assert (K : forall s m e, SF2R radix2 (S754_finite (negb s) m e) = (- SF2R radix2 (S754_finite s m e))%R).
  { intros s m e. cbn [SF2R]. destruct s; cbn [negb cond_Zopp]; [change (Z.pos m) with (- Z.neg m)|change (Z.neg m) with (- Z.pos m)]; now rewrite F2R_Zopp. }
  unfold sf_of. destruct (f64_mag w / 2 ^ 52 =? 0); [destruct (f64_mag w mod 2 ^ 52); try (cbn [SF2R]; lra); apply K|].
  destruct (f64_mag w / 2 ^ 52 =? 2047); [destruct (f64_mag w mod 2 ^ 52); cbn [SF2R]; lra|].
  destruct (f64_mag w mod 2 ^ 52 + 2 ^ 52); try (cbn [SF2R]; lra); apply K.
Qed.

Lemma signed_spec s w : f64_wf w = true -> f64_finite w = true -> f64_sign w = false ->
  f64_wf (signed s w) = true /\ f64_finite (signed s w) = true /\ f64_sign (signed s w) = s /\
  f64_R (signed s w) = (if s then - f64_R w else f64_R w)%R.
Proof.
  intros W F S. destruct s; cbn [signed]; [|auto]. destruct (neg_word w W) as (W' & S' & _).
  split; [assumption|]. split; [now rewrite neg_finite|]. split; [now rewrite S', S|]. now apply neg_R.
Qed.

Lemma sign_R' w : f64_wf w = true -> f64_finite w = true -> f64_R w = (if f64_sign w then - Rabs (f64_R w) else Rabs (f64_R w))%R.
Proof.
  intros W F. rewrite sign_word by assumption.
  assert (Fx : Binary.is_finite prec emax (b64_of_bits w) = true) by now rewrite is_finite_word.
  pose proof (sign_R _ Fx) as S. fold (f64_R w) in S.
  destruct (Binary.Bsign prec emax (b64_of_bits w)); [rewrite Rabs_left1|rewrite Rabs_pos_eq]; lra.
Qed.

(** ** Relative errors *)

Local Notation u := (bpow radix2 (-53)).
Lemma rnd_rel x : (ten (-4) <= x)%R -> (Rabs (rnd x - x) <= u * x)%R.
Proof.
  intros H. destruct (relative_error_N_FLT_ex radix2 (-1074) 53 eq_refl (fun n => negb (Z.even n)) x) as (d & Hd & Er).
  { rewrite Rabs_pos_eq by (pose proof (ten_pos (-4)); lra). apply Rle_trans with (ten (-4)); [|assumption].
    change (-1074 + 53 - 1) with (-1022). apply Rle_trans with (bpow radix2 (-14)); [apply bpow_le; lia|].
    change (-14) with (- (14)). change (-4) with (- (4)). rewrite !bpow_opp. apply Rinv_le; [apply ten_pos|].
    rewrite <- (ten_IZR 4), <- (bpow_IZR 14) by lia. apply IZR_le. vm_compute. discriminate. }
  change (round radix2 (FLT_exp (-1074) 53) ZnearestE x) with (rnd x) in Er.
  replace (/ 2 * bpow radix2 (- (53) + 1))%R with u in Hd
    by (change (- (53) + 1) with (-52); change (-53) with (-1 + -52); rewrite bpow_plus; cbn [bpow]; f_equal).
  rewrite Er. replace (x * (1 + d) - x)%R with (d * x)%R by ring. rewrite Rabs_mult.
  rewrite (Rabs_pos_eq x) by (pose proof (ten_pos (-4)); lra). apply Rmult_le_compat_r; [pose proof (ten_pos (-4)); lra|assumption].
Qed.
Lemma u_small p : p <= 15 -> (u * ten p <= / 4)%R.
Proof.
  intros H. apply Rle_trans with (u * ten 15)%R; [apply Rmult_le_compat_l; [apply bpow_ge_0|now apply bpow_le]|].
  change (-53) with (- (53)). rewrite bpow_opp, <- ten_IZR, <- bpow_IZR by lia.
  apply (Rmult_le_reg_l (IZR (2 ^ 53))); [apply IZR_lt; reflexivity|]. rewrite <- Rmult_assoc, Rinv_r, Rmult_1_l by (apply not_0_IZR; discriminate).
  apply (Rmult_le_reg_r 4); [lra|]. rewrite Rmult_assoc, Rinv_l, Rmult_1_r by lra. rewrite <- mult_IZR. apply IZR_le. vm_compute. discriminate.
Qed.
Lemma u_lt1 : (0 < u <= / 4)%R.
Proof. split; [apply bpow_gt_0|]. replace (/ 4)%R with (bpow radix2 (-2)) by (cbn; lra). apply bpow_le. lia. Qed.

(** ** Decimals of at most [p] digits survive *)

Lemma exact_digits p m k x : 1 <= p <= 15 -> 0 <= k -> 1 <= m < 10 ^ p -> x = (IZR m * ten (- k))%R -> (ten (-4) <= x)%R ->
  forall t, 0 <= t -> (ten (p - 1) <= rnd x * ten t < ten p)%R ->
  (IZR (ZnearestE (rnd x * ten t)) * ten (- t) = x)%R.
Proof.
  intros Hp Hk Hm Ex Hx t T0 B. pose proof (rnd_rel x Hx) as RE. pose proof u_lt1 as U.
  pose proof (ten_pos t) as Pt. pose proof (ten_pos (-4)) as P4. set (W := rnd x) in *. clearbody W.
  apply Rabs_le_inv in RE.
  assert (XT : (x * ten t * (1 - u) <= W * ten t)%R) by nra.
  assert (XT2 : (W * ten t <= x * ten t * (1 + u))%R) by nra.
  assert (Pp : (ten (p - 1) * 10 = ten p)%R) by (replace (ten p) with (ten (p - 1 + 1)) by (f_equal; lia); rewrite bpow_plus; reflexivity).
  pose proof (u_small p ltac:(lia)) as US. pose proof (ten_pos (p - 1)) as Pq.
  (* the scaled decimal is an integer *)
  assert (KT : k <= t).
  { apply Z.le_ngt. intros C.
    assert (E : (IZR m * ten (t - k) = x * ten t)%R).
    { rewrite Ex, Rmult_assoc, <- bpow_plus. do 2 f_equal. lia. }
    assert (T1 : (ten (t - k) <= / 10)%R) by (apply Rle_trans with (ten (-1)); [apply bpow_le; lia|cbn; lra]).
    pose proof (ten_pos (t - k)).
    assert (M1 : (IZR m <= ten p - 1)%R).
    { rewrite <- ten_IZR by lia. rewrite <- minus_IZR. apply IZR_le. lia. }
    assert (M0 : (1 <= IZR m)%R) by (apply IZR_le; lia).
    assert (L : (ten (p - 1) <= IZR m * / 10 * (1 + u))%R).
    { eapply Rle_trans; [apply B|]. eapply Rle_trans; [exact XT2|]. apply Rmult_le_compat_r; [lra|]. rewrite <- E. apply Rmult_le_compat_l; lra. }
    assert (ten p <= (ten p - 1) * (1 + u))%R by nra. lra. }
  assert (N : (W * ten t - IZR (m * 10 ^ (t - k)) <= u * (x * ten t) /\ - (u * (x * ten t)) <= W * ten t - IZR (m * 10 ^ (t - k)))%R).
  { rewrite mult_IZR, ten_IZR by lia. replace (IZR m * ten (t - k))%R with (x * ten t)%R.
    - nra.
    - rewrite Ex, Rmult_assoc, <- bpow_plus. do 2 f_equal. lia. }
  assert (XB : (x * ten t < 4 / 3 * ten p)%R) by nra.
  rewrite (ZnE_near (m * 10 ^ (t - k))).
  - rewrite mult_IZR, ten_IZR by lia. rewrite Ex, Rmult_assoc, <- bpow_plus. do 2 f_equal. lia.
  - apply Rabs_lt. assert (u * (x * ten t) < / 2)%R by nra. lra.
Qed.

Lemma pos_sign w : f64_wf w = true -> f64_finite w = true -> f64_sign w = false -> Rabs (f64_R w) = f64_R w.
Proof. intros W F S. pose proof (sign_R' w W F) as H. rewrite S in H. auto. Qed.

Lemma rnd_low x : (ten (-4) <= x)%R -> (ten (-4) <= rnd x)%R.
Proof.
  intros H. apply Rle_trans with (rnd (ten (-4))); [|now apply rnd_le].
  assert (G : rnd (IZR 1 * ten (-4)) = f64_R (nearest 1 (-4))).
  { symmetry. apply nearest_correct; [lia|]. rewrite Rmult_1_l. apply small_rnd. split; [apply Rlt_le, ten_pos|apply bpow_le; lia]. }
  rewrite Rmult_1_l in G. rewrite G. set (wd := nearest 1 (-4)). vm_compute in wd. subst wd.
  unfold f64_R. match goal with |- context [b64_of_bits ?w] => let v := eval vm_compute in (b64_of_bits w) in change (b64_of_bits w) with v end.
  cbn [Binary.B2R]. unfold F2R. cbn [Fnum Fexp cond_Zopp].
  change (-4) with (- (4)). match goal with |- (_ <= _ * bpow radix2 (Z.neg ?q))%R => change (Z.neg q) with (- Z.pos q) end.
  rewrite !bpow_opp, <- ten_IZR, <- bpow_IZR by lia.
  match goal with |- (/ IZR ?a <= IZR ?b * / IZR ?c)%R =>
    apply (Rmult_le_reg_l (IZR a)); [apply IZR_lt; reflexivity|]; rewrite Rinv_r by (apply not_0_IZR; discriminate);
    apply (Rmult_le_reg_r (IZR c)); [apply IZR_lt; reflexivity|];
    rewrite !Rmult_assoc, Rinv_l, Rmult_1_r, Rmult_1_l by (apply not_0_IZR; discriminate); rewrite <- mult_IZR; apply IZR_le; vm_compute; discriminate
  end.
Qed.

Theorem short_exact p w : 1 <= p <= 15 -> short p w -> ordinary p w /\ prints (format_g p) parse_float w w.
Proof.
  intros Hp (m & k & Hk & Hm & Hl & Hw).
  destruct (Z.eq_dec m 0) as [->|N].
  { assert (E : nearest 0 (- k) = f64_zero) by reflexivity. rewrite E in Hw.
    assert (R0 : f64_R f64_zero = 0%R) by reflexivity.
    destruct Hw as [-> | ->].
    - split; [split; [reflexivity|split; [reflexivity|left; exact R0]]|]. split; [discriminate|]. split; [|reflexivity].
      apply Forall_cons; [unfold number_byte; cbn; tauto|constructor].
    - split; [split; [reflexivity|split; [reflexivity|left; rewrite neg_R by reflexivity; rewrite R0; lra]]|]. split; [discriminate|]. split; [|reflexivity].
      apply Forall_cons; [unfold number_byte; cbn; tauto|]. apply Forall_cons; [unfold number_byte; cbn; tauto|constructor]. }
  specialize (Hl N).
  set (x := (IZR m * ten (- k))%R).
  assert (X1 : (ten (-4) <= x)%R).
  { unfold x. apply (Rmult_le_reg_r (ten k)); [apply ten_pos|]. rewrite Rmult_assoc, <- !bpow_plus.
    replace (- k + k) with 0 by lia. change (ten 0) with 1%R. rewrite Rmult_1_r.
    apply (Rmult_le_reg_r (ten 4)); [apply ten_pos|]. rewrite <- bpow_plus. replace (-4 + k + 4) with k by lia.
    rewrite <- !ten_IZR by lia. rewrite <- mult_IZR. apply IZR_le. assumption. }
  assert (M1 : (IZR m <= ten p - 1)%R).
  { rewrite <- ten_IZR by lia. rewrite <- minus_IZR. apply IZR_le. lia. }
  assert (X2 : (x <= ten p - 1)%R).
  { unfold x. apply Rle_trans with (IZR m * 1)%R; [|lra]. apply Rmult_le_compat_l; [apply IZR_le; lia|].
    change 1%R with (ten 0). apply bpow_le. lia. }
  assert (X0 : (0 <= x)%R) by (pose proof (ten_pos (-4)); lra).
  assert (Sm : (0 <= rnd x < huge)%R).
  { apply small_rnd. split; [assumption|]. apply Rle_trans with (ten p); [lra|]. apply bpow_le; lia. }
  destruct (nearest_correct m (- k) ltac:(lia) (proj2 Sm)) as (W & F & E & S). fold x in E.
  set (v := nearest m (- k)) in *.
  assert (exists s, w = signed s v) as [s Es] by (destruct Hw as [->| ->]; [exists false|exists true]; reflexivity).
  destruct (signed_spec s v W F S) as (W' & F' & S' & R'). rewrite <- Es in *. clear Hw.
  assert (A : Rabs (f64_R w) = rnd x).
  { rewrite R'. destruct s; [rewrite Rabs_Ropp|]; rewrite E; apply Rabs_pos_eq; tauto. }
  pose proof (rnd_rel x X1) as RE. apply Rabs_le_inv in RE. pose proof (u_small p ltac:(lia)) as US. pose proof u_lt1 as U.
  assert (Rg : (ten (-4) <= Rabs (f64_R w) < ten p - / 2)%R).
  { rewrite A. split; [now apply rnd_low|]. assert (u * x <= u * ten p)%R by (apply Rmult_le_compat_l; lra). lra. }
  split.
  - split; [assumption|]. split; [assumption|]. right. rewrite ten_IZR by lia. replace (/ 10000)%R with (ten (-4)) by (cbn; lra). exact Rg.
  - destruct (print_read p w Hp W' F' Rg) as (D & t & T0 & HD & ED & B & VB & NE & NB & PR).
    split; [assumption|]. split; [assumption|]. rewrite PR. f_equal. rewrite Es at 2. rewrite S'. f_equal. unfold v.
    rewrite A in *. assert (EX : (IZR D * ten (- t) = x)%R).
    { rewrite ED. apply (exact_digits p m k x Hp Hk ltac:(lia) eq_refl X1 t T0 B). }
    apply nearest_same; [lia|lia|rewrite EX; reflexivity|rewrite EX; tauto].
Qed.

(** ** Every number in the range is read back, as a decimal of [p] digits near it *)

Theorem ordinary_prints p w : 1 <= p <= 15 -> ordinary p w ->
  prints (format_g p) parse_float w (reread p w) /\ short p (reread p w) /\
  (Rabs (f64_R (reread p w) - f64_R w) <= Rabs (f64_R w) * ten (1 - p))%R.
Proof.
  intros Hp (W & F & [Z0|Rg]).
  - assert (H : w = f64_zero \/ w = f64_neg f64_zero).
    { assert (R0 : f64_R f64_zero = 0%R) by reflexivity.
      destruct (f64_sign w) eqn:S; [right|left].
      - apply word_inj; [assumption|reflexivity|assumption|reflexivity|rewrite neg_R by reflexivity; lra|rewrite S; reflexivity].
      - apply word_inj; [assumption|reflexivity|assumption|reflexivity|lra|rewrite S; reflexivity]. }
    assert (Sh : short p w).
    { exists 0, 0. split; [lia|]. split; [pose proof (pow10_pos p); lia|]. split; [contradiction|]. exact H. }
    destruct (short_exact p w Hp Sh) as (_ & P). assert (E : reread p w = w) by (unfold reread; destruct P as (_ & _ & ->); reflexivity).
    rewrite E. split; [assumption|]. split; [assumption|]. rewrite Rminus_diag_eq, Rabs_R0 by reflexivity.
    apply Rmult_le_pos; [apply Rabs_pos|apply Rlt_le, ten_pos].
  - rewrite ten_IZR in Rg by lia. replace (/ 10000)%R with (ten (-4)) in Rg by (cbn; lra).
    destruct (print_read p w Hp W F Rg) as (D & t & T0 & HD & ED & B & VB & NE & NB & PR).
    assert (Er : reread p w = signed (f64_sign w) (nearest D (- t))) by (unfold reread; now rewrite PR).
    rewrite Er. set (y := (IZR D * ten (- t))%R) in *.
    assert (Y0 : (0 <= y)%R) by (pose proof (ten_pos (-4)); lra).
    assert (Sm : (0 <= rnd y < huge)%R).
    { apply small_rnd. split; [assumption|]. apply Rle_trans with (ten p); [lra|]. apply bpow_le; lia. }
    destruct (nearest_correct D (- t) ltac:(lia) (proj2 Sm)) as (Wv & Fv & Ev & Sv). fold y in Ev.
    destruct (signed_spec (f64_sign w) _ Wv Fv Sv) as (W' & F' & S' & R').
    split; [split; [assumption|split; assumption]|]. split.
    + (* short *)
      destruct (Z.eq_dec D (10 ^ p)) as [DE|DN].
      * assert (TP : 0 < t).
        { destruct (Z.eq_dec t 0) as [T|]; [|lia]. exfalso. unfold y in VB. rewrite DE, T, ten_IZR in VB by lia. change (ten (- 0)) with 1%R in VB. lra. }
        assert (Y : y = ten (p - t)) by (unfold y; rewrite DE, ten_IZR, <- bpow_plus by lia; f_equal; lia).
        assert (PT : -4 <= p - t) by (rewrite Y in VB; destruct VB as [V1 _]; apply le_bpow in V1; lia).
        exists (10 ^ Z.max 0 (p - t)), (Z.max 0 (t - p)).
        split; [lia|]. split; [split; [apply Z.lt_le_incl, pow10_pos; lia|apply Z.pow_lt_mono_r; lia]|].
        split.
        { intros _. rewrite <- Z.pow_add_r by lia. apply Z.pow_le_mono_r; lia. }
        assert (NS : nearest D (- t) = nearest (10 ^ Z.max 0 (p - t)) (- Z.max 0 (t - p))).
        { apply nearest_same; [lia|apply Z.lt_le_incl, pow10_pos; lia| |fold y; tauto].
          fold y. rewrite Y, ten_IZR, <- bpow_plus by lia. f_equal. lia. }
        rewrite NS. destruct (f64_sign w); [right|left]; reflexivity.
      * exists D, t. split; [assumption|]. split; [lia|]. split; [|destruct (f64_sign w); [right|left]; reflexivity].
        intros _. apply le_IZR. rewrite mult_IZR, !ten_IZR by lia.
        assert (V1 : (ten (-4) * ten t <= IZR D)%R).
        { replace (IZR D) with (y * ten t)%R; [apply Rmult_le_compat_r; [apply Rlt_le, ten_pos|tauto]|].
          unfold y. rewrite Rmult_assoc, <- bpow_plus. replace (- t + t) with 0 by lia. change (ten 0) with 1%R. ring. }
        replace (ten t) with (ten (-4) * ten t * ten 4)%R; [apply Rmult_le_compat_r; [apply Rlt_le, ten_pos|assumption]|].
        rewrite <- !bpow_plus. f_equal. lia.
    + (* error *)
      set (x := Rabs (f64_R w)) in *.
      assert (Dx : (Rabs (f64_R (signed (f64_sign w) (nearest D (- t))) - f64_R w) = Rabs (rnd y - x))%R).
      { assert (SR := sign_R' w W F). fold x in SR. rewrite R', Ev. clear - SR. destruct (f64_sign w); rewrite SR.
        - replace (- rnd y - - x)%R with (- (rnd y - x))%R by ring. apply Rabs_Ropp.
        - reflexivity. }
      rewrite Dx. pose proof (rnd_rel y (proj1 VB)) as RE. pose proof (ZnE_half (x * ten t)) as H. rewrite <- ED in H.
      pose proof (ten_pos t) as Pt. pose proof (ten_pos (- t)) as Pt'.
      assert (TT : (ten t * ten (- t) = 1)%R) by (rewrite <- bpow_plus; replace (t + - t) with 0 by lia; reflexivity).
      assert (XY : (Rabs (x - y) <= / 2 * ten (- t))%R).
      { replace (x - y)%R with ((x * ten t - IZR D) * ten (- t))%R by (unfold y; rewrite Rmult_minus_distr_r, Rmult_assoc, TT; ring).
        rewrite Rabs_mult, (Rabs_pos_eq (ten (- t))) by lra. apply Rmult_le_compat_r; lra. }
      assert (XL : (ten (- t) <= x * ten (1 - p))%R).
      { apply (Rmult_le_reg_r (ten t)); [assumption|]. rewrite (Rmult_comm (ten (- t))), TT.
        replace (x * ten (1 - p) * ten t)%R with ((x * ten t) * ten (1 - p))%R by ring.
        replace 1%R with (ten (p - 1) * ten (1 - p))%R by (rewrite <- bpow_plus; replace (p - 1 + (1 - p)) with 0 by lia; reflexivity).
        apply Rmult_le_compat_r; [apply Rlt_le, ten_pos|tauto]. }
      assert (UP : (u <= / 40 * ten (1 - p))%R).
      { pose proof (u_small p ltac:(lia)) as US. apply (Rmult_le_reg_r (ten p)); [apply ten_pos|].
        rewrite Rmult_assoc, <- bpow_plus. replace (1 - p + p) with 1 by lia. change (ten 1) with 10%R. lra. }
      assert (QP : (ten (1 - p) <= 1)%R) by (change 1%R with (ten 0); apply bpow_le; lia).
      pose proof (ten_pos (1 - p)) as P1. pose proof u_lt1 as U.
      assert (X0 : (0 <= x)%R) by apply Rabs_pos.
      apply Rabs_le_inv in RE. apply Rabs_le_inv in XY.
      assert (Y2 : (y <= 2 * x)%R) by nra.
      assert (u * y <= / 20 * (x * ten (1 - p)))%R by nra.
      apply Rabs_le. lra.
Qed.

Theorem reread_stable p w : 1 <= p <= 15 -> ordinary p w -> reread p (reread p w) = reread p w.
Proof.
  intros Hp H. destruct (ordinary_prints p w Hp H) as (_ & Sh & _). destruct (short_exact p _ Hp Sh) as (_ & _ & _ & E).
  unfold reread at 1. now rewrite E.
Qed.

Lemma ten_powerRZ x : ten x = powerRZ 10 x.
Proof. apply (bpow_powerRZ r10). Qed.
Theorem reread_error p w : 1 <= p <= 15 -> ordinary p w ->
  (Rabs (f64_R (reread p w) - f64_R w) <= Rabs (f64_R w) * powerRZ 10 (1 - p))%R /\
  ordinary p (reread p w) /\ reread p (reread p w) = reread p w.
Proof.
  intros Hp H. destruct (ordinary_prints p w Hp H) as (_ & Sh & E). rewrite <- ten_powerRZ. split; [assumption|].
  split; [now apply short_exact|now apply reread_stable].
Qed.
