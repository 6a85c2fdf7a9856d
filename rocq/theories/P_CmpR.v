(** cmp.Float against the difference of the real values: distance in units in
    the last place against relative difference. *)
From Coq Require Import ZArith Bool List Lia Reals Lra.
From Coq Require Import ZifyBool.
From Coq Require Import Floats.SpecFloat.
From Flocq Require Import Core.Core IEEE754.BinarySingleNaN IEEE754.Binary IEEE754.Bits.
From Verif Require Import Base_F64 Base_F64Arith Base_Geom M_Cmp S_Cmp P_F64 P_F64Flocq P_Cmp.
Open Scope Z_scope.

Local Notation prec := 53.
Local Notation emax := 1024.

(** The value of a magnitude, in units of 2^-1074, and the gap after it. *)
Definition val (m : Z) : Z := if m <? 2 ^ 52 then m else (2 ^ 52 + m mod 2 ^ 52) * 2 ^ (m / 2 ^ 52 - 1).
Definition gap (m : Z) : Z := 2 ^ (Z.max 1 (m / 2 ^ 52) - 1).

Lemma val_step m : 0 <= m -> val (m + 1) - val m = gap m.
Proof.
  intros H. unfold val, gap.
  pose proof (Z.mod_pos_bound m (2 ^ 52) ltac:(lia)) as Hr.
  pose proof (Z.div_mod m (2 ^ 52) ltac:(lia)) as Hd.
  set (q := m / 2 ^ 52) in *. set (r := m mod 2 ^ 52) in *.
  assert (Hq : 0 <= q) by (apply Z.div_pos; lia). 
  destruct (Z.eq_dec r (2 ^ 52 - 1)) as [E|E].
  - assert (D : (m + 1) / 2 ^ 52 = q + 1) by (symmetry; apply (Z.div_unique _ _ _ 0); lia).
    assert (M : (m + 1) mod 2 ^ 52 = 0) by (symmetry; apply (Z.mod_unique _ _ (q + 1)); lia).
    rewrite D, M. clearbody q r.
    destruct (Z.ltb_spec m (2 ^ 52)); destruct (Z.ltb_spec (m + 1) (2 ^ 52)); try lia.
    + assert (Q0 : q = 0) by nia. clear D. subst q. change (0 + 1 - 1) with 0. change (Z.max 1 0 - 1) with 0. change (2 ^ 0) with 1. lia.
    + assert (1 <= q) by nia. rewrite Z.max_r by lia.
      replace (q + 1 - 1) with ((q - 1) + 1) by ring. rewrite Z.pow_add_r by lia. rewrite E.
      change (2 ^ 1) with 2. ring.
  - assert (D : (m + 1) / 2 ^ 52 = q) by (symmetry; apply (Z.div_unique _ _ _ (r + 1)); lia).
    assert (M : (m + 1) mod 2 ^ 52 = r + 1) by (symmetry; apply (Z.mod_unique _ _ q); lia).
    rewrite D, M. clearbody q r.
    destruct (Z.ltb_spec m (2 ^ 52)); destruct (Z.ltb_spec (m + 1) (2 ^ 52)); try lia.
    + assert (Q0 : q = 0) by nia. clear D. subst q. change (0 + 1 - 1) with 0. change (Z.max 1 0 - 1) with 0. change (2 ^ 0) with 1. lia.
    + assert (1 <= q) by nia. rewrite Z.max_r by lia. ring.
Qed.

Lemma gap_pos m : 1 <= gap m.
Proof. unfold gap. pose proof (Z.pow_pos_nonneg 2 (Z.max 1 (m / 2 ^ 52) - 1)). lia. Qed.

Lemma gap_mono m m' : m <= m' -> gap m <= gap m'.
Proof.
  intros H. unfold gap. apply Z.pow_le_mono_r; [lia|].
  pose proof (Z.div_le_mono m m' (2 ^ 52)). lia.
Qed.

Lemma val_range k : 0 <= k -> forall m, 0 <= m ->
  k * gap m <= val (m + k) - val m <= k * gap (m + k).
Proof.
  intros Hk. pattern k. apply natlike_ind; [| |exact Hk].
  - intros m Hm. rewrite Z.add_0_r. lia.
  - intros x Hx IH m Hm. specialize (IH m Hm).
    pose proof (val_step (m + x) ltac:(lia)) as St.
    replace (m + Z.succ x) with (m + x + 1) by lia.
    pose proof (gap_mono m (m + x) ltac:(lia)). pose proof (gap_mono (m + x) (m + x + 1) ltac:(lia)).
    nia.
Qed.

Lemma gap_val_upper m : 2 ^ 52 <= m -> gap m * 2 ^ 52 <= val m.
Proof.
  intros H. unfold gap, val. destruct (Z.ltb_spec m (2 ^ 52)); [lia|].
  pose proof (Z.mod_pos_bound m (2 ^ 52) ltac:(lia)).
  assert (1 <= m / 2 ^ 52) by (apply Z.div_le_lower_bound; lia).
  rewrite Z.max_r by lia. pose proof (Z.pow_pos_nonneg 2 (m / 2 ^ 52 - 1)). nia.
Qed.

Lemma gap_val_lower m : 0 <= m -> val m < gap m * 2 ^ 53.
Proof.
  intros H. unfold gap, val. pose proof (Z.mod_pos_bound m (2 ^ 52) ltac:(lia)).
  change (2 ^ 53) with (2 * 2 ^ 52).
  destruct (Z.ltb_spec m (2 ^ 52)).
  - rewrite Z.div_small by lia. change (Z.max 1 0 - 1) with 0. change (2 ^ 0) with 1. lia.
  - assert (1 <= m / 2 ^ 52) by (apply Z.div_le_lower_bound; lia).
    rewrite Z.max_r by lia. pose proof (Z.pow_pos_nonneg 2 (m / 2 ^ 52 - 1)). nia.
Qed.

Lemma gap_small m : m < 2 ^ 53 -> gap m = 1.
Proof.
  intros H. unfold gap. assert (m / 2 ^ 52 < 2) by (apply Z.div_lt_upper_bound; lia).
  rewrite Z.max_l by lia. reflexivity.
Qed.

Definition tiny : R := bpow radix2 (-1074).

Lemma R_val w : f64_wf w = true -> f64_finite w = true ->
  f64_R w = ((if f64_sign w then -1 else 1) * IZR (val (f64_mag w)) * tiny)%R.
Proof.
  intros W F. unfold f64_R.
  assert (E : Binary.B2R prec emax (b64_of_bits w) = SF2R radix2 (sf_of (f64_sign w) (f64_mag w))).
  { rewrite <- B2SF_word by exact W. now destruct (b64_of_bits w). }
  rewrite E. unfold f64_finite in F. pose proof (mag_bounds w).
  pose proof (sf_shape (f64_sign w) (f64_mag w) ltac:(lia)) as S.
  destruct S as [M|M|p e M L P Q M'].
  - rewrite M. cbn. lra.
  - lia.
  - assert (V : val (f64_mag w) = Zpos p * 2 ^ (e + 1074)).
    { unfold val. destruct Q as [-> | Q].
      - assert (Em : f64_mag w = Zpos p) by lia. rewrite Em. change (-1074 + 1074) with 0.
        destruct (Z.ltb_spec (Zpos p) (2 ^ 52)); [lia|].
        rewrite <- (Z.mod_unique (Zpos p) (2 ^ 52) 1 (Zpos p - 2 ^ 52)) by lia.
        rewrite <- (Z.div_unique (Zpos p) (2 ^ 52) 1 (Zpos p - 2 ^ 52)) by lia.
        change (1 - 1) with 0. lia.
      - destruct (Z.ltb_spec (f64_mag w) (2 ^ 52)); [nia|].
        rewrite <- (Z.mod_unique (f64_mag w) (2 ^ 52) (e + 1075) (Zpos p - 2 ^ 52)) by lia.
        rewrite <- (Z.div_unique (f64_mag w) (2 ^ 52) (e + 1075) (Zpos p - 2 ^ 52)) by lia.
        replace (e + 1075 - 1) with (e + 1074) by ring. ring. }
    rewrite V. unfold SF2R, F2R. cbn [Defs.Fnum Defs.Fexp].
    rewrite mult_IZR, (IZR_Zpower radix2) by lia. unfold tiny.
    rewrite bpow_plus. replace (bpow radix2 1074) with (/ bpow radix2 (-1074))%R by (rewrite <- bpow_opp; reflexivity).
    assert (bpow radix2 (-1074) <> 0)%R by (apply Rgt_not_eq, bpow_gt_0).
    destruct (f64_sign w); unfold cond_Zopp.
    + rewrite opp_IZR. field. assumption.
    + field. assumption.
Qed.

Lemma abs_sub_val s a b : (0 < tiny)%R ->
  Rabs ((if s : bool then -1 else 1) * IZR a * tiny - (if s then -1 else 1) * IZR b * tiny)
  = (IZR (Z.abs (a - b)) * tiny)%R.
Proof.
  intros T. rewrite abs_IZR, minus_IZR.
  replace (Rabs (IZR a - IZR b) * tiny)%R with (Rabs ((IZR a - IZR b) * tiny)) by (rewrite Rabs_mult, (Rabs_pos_eq tiny); lra).
  destruct s.
  - rewrite <- Rabs_Ropp. f_equal. ring.
  - f_equal. ring.
Qed.

Lemma abs_val s a : (0 < tiny)%R -> 0 <= a ->
  Rabs ((if s : bool then -1 else 1) * IZR a * tiny) = (IZR a * tiny)%R.
Proof.
  intros T Ha. assert (0 <= IZR a)%R by now apply IZR_le.
  rewrite !Rabs_mult. rewrite (Rabs_pos_eq tiny), (Rabs_pos_eq (IZR a)) by lra.
  destruct s.
  - rewrite Rabs_left by lra. ring.
  - rewrite Rabs_pos_eq by lra. ring.
Qed.

Lemma Rmax_tiny a b t : (0 <= t)%R -> Rmax (a * t) (b * t) = (Rmax a b * t)%R.
Proof. intros T. rewrite !(Rmult_comm _ t). apply RmaxRmult. lra. Qed.
Lemma Rmin_tiny a b t : (0 <= t)%R -> Rmin (a * t) (b * t) = (Rmin a b * t)%R.
Proof.
  intros T. destruct (Rle_dec a b).
  - rewrite !Rmin_left; [reflexivity|assumption|]. now apply Rmult_le_compat_r.
  - rewrite !Rmin_right; [reflexivity|lra|]. apply Rmult_le_compat_r; lra.
Qed.

Lemma val_nonneg m : 0 <= m -> 0 <= val m.
Proof.
  intros H. unfold val. destruct (Z.ltb_spec m (2 ^ 52)); [lia|].
  pose proof (Z.mod_pos_bound m (2 ^ 52) ltac:(lia)).
  pose proof (Z.pow_nonneg 2 (m / 2 ^ 52 - 1)). nia.
Qed.

Lemma key_abs a b : f64_sign a = f64_sign b ->
  Z.abs (f64_key b - f64_key a) = Z.abs (f64_mag b - f64_mag a).
Proof. intros S. unfold f64_key. rewrite S. destruct (f64_sign b); lia. Qed.

(** Integers: close words have close values and conversely. *)
Lemma val_close m m' n : 0 <= m -> 0 <= m' -> Z.abs (m' - m) < n ->
  Z.abs (val m' - val m) * 2 ^ 52 <= n * Z.max (val m) (val m') \/ Z.abs (val m' - val m) < n.
Proof.
  intros Hm Hm' Hn.
  assert (G : forall m m', 0 <= m <= m' -> m' - m < n ->
    Z.abs (val m' - val m) * 2 ^ 52 <= n * Z.max (val m) (val m') \/ Z.abs (val m' - val m) < n).
  { clear m m' Hm Hm' Hn. intros m m' H Hn.
    pose proof (val_range (m' - m) ltac:(lia) m ltac:(lia)) as R.
    replace (m + (m' - m)) with m' in R by ring.
    pose proof (gap_pos m).
    assert (val m <= val m') by nia. rewrite Z.max_r by lia. rewrite Z.abs_eq by lia.
    destruct (Z.ltb_spec m' (2 ^ 52)).
    - right. rewrite (gap_small m') in R by lia. lia.
    - left. pose proof (gap_val_upper m' ltac:(lia)). pose proof (gap_pos m'). nia. }
  destruct (Z.leb_spec m m').
  - apply G; lia.
  - rewrite Z.max_comm, <- Z.abs_opp. replace (- (val m' - val m)) with (val m - val m') by ring.
    apply G; lia.
Qed.

Lemma val_far m m' n : 0 <= m -> 0 <= m' ->
  Z.abs (val m' - val m) * 2 ^ 53 <= (n - 1) * Z.min (val m) (val m') ->
  n <= 1 \/ Z.abs (m' - m) < n.
Proof.
  intros Hm Hm' Hn. destruct (Z.leb_spec n 1) as [|N]; [auto|right].
  assert (G : forall m m', 0 <= m <= m' -> Z.abs (val m' - val m) * 2 ^ 53 <= (n - 1) * Z.min (val m) (val m') ->
    Z.abs (m' - m) < n).
  { clear m m' Hm Hm' Hn. intros m m' H Hn.
    pose proof (val_range (m' - m) ltac:(lia) m ltac:(lia)) as R.
    replace (m + (m' - m)) with m' in R by ring.
    pose proof (gap_pos m). assert (val m <= val m') by nia.
    rewrite Z.min_l in Hn by lia. rewrite Z.abs_eq in Hn by lia.
    pose proof (gap_val_lower m ltac:(lia)). pose proof (val_nonneg m ltac:(lia)).
    rewrite Z.abs_eq by lia.
    assert ((m' - m) * gap m * 2 ^ 53 <= (n - 1) * (gap m * 2 ^ 53)) by nia.
    nia. }
  destruct (Z.leb_spec m m').
  - apply G; [lia|assumption].
  - rewrite <- Z.abs_opp. replace (- (m' - m)) with (m - m') by ring. apply G; [lia|].
    rewrite Z.min_comm, <- Z.abs_opp. now replace (- (val m - val m')) with (val m' - val m) by ring.
Qed.

(** Floats that compare equal are close. *)
Theorem float_equal_close c a b : 0 < bit_tol c <= 2 ^ 52 ->
  finite_nonzero a -> finite_nonzero b -> cmp_float c a b = true ->
  (Rabs (f64_R a - f64_R b) <= IZR (bit_tol c) * / 2 ^ 52 * Rmax (Rabs (f64_R a)) (Rabs (f64_R b)) \/
   Rabs (f64_R a - f64_R b) < IZR (bit_tol c) * / 2 ^ 1074)%R.
Proof.
  intros B Fa Fb E.
  destruct (Bool.bool_dec (f64_sign a) (f64_sign b)) as [S|S];
    [| rewrite float_opposite_sign in E by assumption; discriminate].
  rewrite float_same_sign in E by (assumption || lia).
  rewrite key_abs in E by exact S.
  pose proof (mag_bounds a). pose proof (mag_bounds b).
  pose proof (val_close (f64_mag b) (f64_mag a) (bit_tol c) ltac:(lia) ltac:(lia) ltac:(lia)) as V.
  assert (T : (0 < tiny)%R) by apply bpow_gt_0.
  pose proof (finite_nonzero_finite a Fa). pose proof (finite_nonzero_finite b Fb).
  rewrite !R_val by (apply Fa || apply Fb || assumption). rewrite S.
  rewrite abs_sub_val, !abs_val by (exact T || apply val_nonneg; lia).
  assert (Et : tiny = (/ 2 ^ 1074)%R).
  { unfold tiny. change (-1074) with (Z.opp 1074). rewrite bpow_opp. f_equal. rewrite <- (IZR_Zpower radix2) by lia.
    change (radix_val radix2) with 2. rewrite pow_IZR. f_equal. }
  rewrite <- Et.
  destruct V as [V|V].
  - left. apply IZR_le in V. rewrite !mult_IZR in V.
    rewrite Rmax_tiny by lra.
    assert (Em : Rmax (IZR (val (f64_mag a))) (IZR (val (f64_mag b))) = IZR (Z.max (val (f64_mag b)) (val (f64_mag a)))).
    { destruct (Z.max_spec (val (f64_mag b)) (val (f64_mag a))) as [[L ->]|[L ->]].
      - apply Rmax_left. apply IZR_le. lia.
      - apply Rmax_right. apply IZR_le. lia. }
    rewrite Em. replace (IZR (2 ^ 52)) with (2 ^ 52)%R in V by (rewrite pow_IZR; reflexivity).
    assert (P : (0 < 2 ^ 52)%R) by (apply pow_lt; lra).
    apply (Rmult_le_reg_r (2 ^ 52)); [exact P|].
    replace (IZR (bit_tol c) * / 2 ^ 52 * (IZR (Z.max (val (f64_mag b)) (val (f64_mag a))) * tiny) * 2 ^ 52)%R
      with (IZR (bit_tol c) * IZR (Z.max (val (f64_mag b)) (val (f64_mag a))) * tiny)%R by (field; lra).
    replace (IZR (Z.abs (val (f64_mag a) - val (f64_mag b))) * tiny * 2 ^ 52)%R
      with (IZR (Z.abs (val (f64_mag a) - val (f64_mag b))) * 2 ^ 52 * tiny)%R by ring.
    apply Rmult_le_compat_r; lra.
  - right. apply IZR_lt in V. now apply Rmult_lt_compat_r.
Qed.

(** Floats of the same sign that are close enough compare equal. *)
Theorem float_close_equal c a b : 1 < bit_tol c < 2 ^ 63 ->
  finite_nonzero a -> finite_nonzero b -> f64_sign a = f64_sign b ->
  (Rabs (f64_R a - f64_R b) * 2 ^ 53 <= IZR (bit_tol c - 1) * Rmin (Rabs (f64_R a)) (Rabs (f64_R b)))%R ->
  cmp_float c a b = true.
Proof.
  intros B Fa Fb S E.
  rewrite float_same_sign by (assumption || lia). rewrite key_abs by exact S.
  pose proof (mag_bounds a). pose proof (mag_bounds b).
  assert (T : (0 < tiny)%R) by apply bpow_gt_0.
  pose proof (finite_nonzero_finite a Fa). pose proof (finite_nonzero_finite b Fb).
  rewrite !R_val in E by (apply Fa || apply Fb || assumption). rewrite S in E.
  rewrite abs_sub_val, !abs_val in E by (exact T || apply val_nonneg; lia).
  enough (V : Z.abs (val (f64_mag a) - val (f64_mag b)) * 2 ^ 53 <= (bit_tol c - 1) * Z.min (val (f64_mag b)) (val (f64_mag a))).
  { apply val_far in V; lia. }
  apply le_IZR. rewrite !mult_IZR.
  replace (IZR (2 ^ 53)) with (2 ^ 53)%R by (rewrite pow_IZR; reflexivity).
  apply (Rmult_le_reg_r tiny); [exact T|].
  rewrite Rmin_tiny in E by lra.
  assert (Em : Rmin (IZR (val (f64_mag a))) (IZR (val (f64_mag b))) = IZR (Z.min (val (f64_mag b)) (val (f64_mag a)))).
  { destruct (Z.min_spec (val (f64_mag b)) (val (f64_mag a))) as [[L ->]|[L ->]].
    - apply Rmin_right. apply IZR_le. lia.
    - apply Rmin_left. apply IZR_le. lia. }
  rewrite Em in E. lra.
Qed.
