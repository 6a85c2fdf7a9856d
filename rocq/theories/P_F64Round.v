(** float64 arithmetic is correctly rounded real arithmetic (from Flocq), and
    consequences: monotonicity. *)
From Coq Require Import ZArith Bool List Lia Reals Lra.
From Coq Require Import ZifyBool.
From Coq Require Import Floats.SpecFloat.
From Flocq Require Import Core.Core IEEE754.BinarySingleNaN IEEE754.Binary IEEE754.Bits.
From Verif Require Import Base_F64 Base_F64Arith P_F64 P_F64Flocq.
Open Scope Z_scope.

Local Notation prec := 53.
Local Notation emax := 1024.

(** Rounding to nearest, ties to even, in binary64 without upper bound. *)
Definition rnd (r : R) : R := round radix2 (SpecFloat.fexp prec emax) ZnearestE r.
Definition huge : R := bpow radix2 emax.

(** [w] is the float64 result of an operation whose exact result is [r]. *)
Definition is_round (r : R) (w : f64) : Prop :=
  f64_wf w = true /\
  (f64_finite w = true /\ f64_R w = rnd r /\ (Rabs (rnd r) < huge)%R \/
   w = f64_pinf /\ (huge <= rnd r)%R \/
   w = f64_ninf /\ (rnd r <= - huge)%R).

Lemma rnd_le r1 r2 : (r1 <= r2)%R -> (rnd r1 <= rnd r2)%R.
Proof. intros H. apply round_le; [apply fexp_correct; reflexivity | apply valid_rnd_N | exact H]. Qed.

Lemma rnd_0 : rnd 0 = 0%R.
Proof. apply round_0. apply valid_rnd_N. Qed.

Lemma finite_bound w : f64_wf w = true -> f64_finite w = true -> (Rabs (f64_R w) < huge)%R.
Proof. intros _ _. apply abs_B2R_lt_emax. Qed.

Lemma rnd_id w : f64_wf w = true -> f64_finite w = true -> rnd (f64_R w) = f64_R w.
Proof.
  intros _ _. apply round_generic; [apply valid_rnd_N|]. apply generic_format_B2R.
Qed.

Lemma is_round_self w : f64_wf w = true -> f64_finite w = true -> is_round (f64_R w) w.
Proof.
  intros Hw Hf. split; [exact Hw|]. left. split; [exact Hf|].
  rewrite rnd_id by assumption. split; [reflexivity | now apply finite_bound].
Qed.

Lemma pinf_ge w : f64_wf w = true -> nn w -> f64_le w f64_pinf = true.
Proof. intros _ H. rewrite le_key by (auto; reflexivity). apply Z.leb_le. now apply pinf_greatest. Qed.
Lemma ninf_le w : f64_wf w = true -> nn w -> f64_le f64_ninf w = true.
Proof. intros _ H. rewrite le_key by (auto; reflexivity). apply Z.leb_le. now apply ninf_least. Qed.

Lemma is_round_num r w : is_round r w -> num w.
Proof.
  intros [Hw [(F & _)|[(-> & _)|(-> & _)]]]; split; auto; try reflexivity. now apply finite_nn.
Qed.

Theorem is_round_mono r1 r2 w1 w2 :
  is_round r1 w1 -> is_round r2 w2 -> (r1 <= r2)%R -> f64_le w1 w2 = true.
Proof.
  intros H1 H2 Hr. pose proof (is_round_num _ _ H1) as [_ N1]. pose proof (is_round_num _ _ H2) as [_ N2].
  pose proof (rnd_le _ _ Hr) as Hm.
  destruct H1 as [W1 C1], H2 as [W2 C2].
  assert (0 < huge)%R by apply bpow_gt_0.
  destruct C1 as [(F1 & E1 & B1)|[(-> & B1)|(-> & B1)]].
  - destruct C2 as [(F2 & E2 & B2)|[(-> & B2)|(-> & B2)]].
    + apply le_R; auto. now rewrite E1, E2.
    + now apply pinf_ge.
    + apply Rabs_lt_inv in B1. lra.
  - destruct C2 as [(F2 & E2 & B2)|[(-> & B2)|(-> & B2)]].
    + apply Rabs_lt_inv in B2. lra.
    + reflexivity.
    + lra.
  - now apply ninf_le.
Qed.

Lemma B2FF_inf (x : binary64) s : B2FF prec emax x = F754_infinity s -> x = Binary.B754_infinity _ _ s.
Proof. destruct x; cbn; intros H; inversion H; reflexivity. Qed.

Lemma inf_word s : bits_of_b64 (Binary.B754_infinity _ _ s) = if s then f64_ninf else f64_pinf.
Proof. now destruct s. Qed.

Lemma finite_of_bits (x : binary64) :
  f64_finite (bits_of_b64 x) = Binary.is_finite prec emax x.
Proof. rewrite <- is_finite_word by apply bits_wf. now rewrite of_bits_bits. Qed.

Lemma R_of_bits (x : binary64) : f64_R (bits_of_b64 x) = Binary.B2R prec emax x.
Proof. unfold f64_R. now rewrite of_bits_bits. Qed.

Lemma sign_R (x : binary64) : Binary.is_finite prec emax x = true ->
  if Binary.Bsign prec emax x then (Binary.B2R prec emax x <= 0)%R else (0 <= Binary.B2R prec emax x)%R.
Proof.
  destruct x as [s|s|s pl e|s m e H]; cbn [Binary.Bsign Binary.B2R Binary.is_finite]; try discriminate; intros _.
  - destruct s; lra.
  - destruct s; unfold cond_Zopp.
    + apply F2R_le_0. cbn. lia.
    + apply F2R_ge_0. cbn. lia.
Qed.

(** From the two branches of Flocq's theorems to [is_round]. *)
Lemma is_round_intro r (x : binary64) (s : bool) :
  (if Rlt_bool (Rabs (rnd r)) huge then Binary.B2R prec emax x = rnd r /\ Binary.is_finite prec emax x = true
   else B2FF prec emax x = F754_infinity s /\ (if s then r <= 0 else 0 <= r)%R) ->
  is_round r (bits_of_b64 x).
Proof.
  intros H. split; [apply bits_wf|]. destruct (Rlt_bool_spec (Rabs (rnd r)) huge) as [B|B].
  - destruct H as [E F]. left. rewrite finite_of_bits, R_of_bits. auto.
  - destruct H as [E S]. apply B2FF_inf in E. subst x. rewrite inf_word. right.
    destruct s.
    + right. split; [reflexivity|]. apply rnd_le in S. rewrite rnd_0 in S.
      rewrite Rabs_left1 in B by exact S. lra.
    + left. split; [reflexivity|]. apply rnd_le in S. rewrite rnd_0 in S.
      rewrite Rabs_pos_eq in B by exact S. lra.
Qed.

Section Ops.
  Variables a b : f64.
  Hypothesis Wa : f64_wf a = true.
  Hypothesis Wb : f64_wf b = true.
  Hypothesis Fa : f64_finite a = true.
  Hypothesis Fb : f64_finite b = true.
  Let x := b64_of_bits a.
  Let y := b64_of_bits b.
  Let Fx : Binary.is_finite prec emax x = true.
  Proof. unfold x. now rewrite is_finite_word. Qed.
  Let Fy : Binary.is_finite prec emax y = true.
  Proof. unfold y. now rewrite is_finite_word. Qed.

  Theorem add_round : is_round (f64_R a + f64_R b) (f64_add a b).
  Proof.
    pose proof (Binary.Bplus_correct prec emax eq_refl eq_refl binop_nan_pl64 mode_NE x y Fx Fy) as H.
    apply (is_round_intro _ _ (Binary.Bsign prec emax x)).
    change (round radix2 (SpecFloat.fexp prec emax) (round_mode mode_NE) (Binary.B2R prec emax x + Binary.B2R prec emax y))
      with (rnd (f64_R a + f64_R b)) in H. fold huge in H.
    destruct (Rlt_bool (Rabs (rnd (f64_R a + f64_R b))) huge).
    - destruct H as (E & F & _). split; assumption.
    - destruct H as (E & S). split; [exact E|].
      pose proof (sign_R x Fx) as Sx. pose proof (sign_R y Fy) as Sy. rewrite <- S in Sy.
      unfold f64_R. fold x y. destruct (Binary.Bsign prec emax x); lra.
  Qed.

  Theorem sub_round : is_round (f64_R a - f64_R b) (f64_sub a b).
  Proof.
    pose proof (Binary.Bminus_correct prec emax eq_refl eq_refl binop_nan_pl64 mode_NE x y Fx Fy) as H.
    apply (is_round_intro _ _ (Binary.Bsign prec emax x)).
    change (round radix2 (SpecFloat.fexp prec emax) (round_mode mode_NE) (Binary.B2R prec emax x - Binary.B2R prec emax y))
      with (rnd (f64_R a - f64_R b)) in H. fold huge in H.
    destruct (Rlt_bool (Rabs (rnd (f64_R a - f64_R b))) huge).
    - destruct H as (E & F & _). split; assumption.
    - destruct H as (E & S). split; [exact E|].
      pose proof (sign_R x Fx) as Sx. pose proof (sign_R y Fy) as Sy.
      unfold f64_R. fold x y. destruct (Binary.Bsign prec emax x), (Binary.Bsign prec emax y); try discriminate; lra.
  Qed.

  Lemma sign_mult (u v : R) (su sv : bool) :
    (if su then u <= 0 else 0 <= u)%R -> (if sv then v <= 0 else 0 <= v)%R ->
    (if xorb su sv then u * v <= 0 else 0 <= u * v)%R.
  Proof. destruct su, sv; cbn; intros; nra. Qed.

  Theorem mul_round : is_round (f64_R a * f64_R b) (f64_mul a b).
  Proof.
    pose proof (Binary.Bmult_correct prec emax eq_refl eq_refl binop_nan_pl64 mode_NE x y) as H.
    apply (is_round_intro _ _ (xorb (Binary.Bsign prec emax x) (Binary.Bsign prec emax y))).
    change (round radix2 (SpecFloat.fexp prec emax) (round_mode mode_NE) (Binary.B2R prec emax x * Binary.B2R prec emax y))
      with (rnd (f64_R a * f64_R b)) in H. fold huge in H.
    destruct (Rlt_bool (Rabs (rnd (f64_R a * f64_R b))) huge).
    - destruct H as (E & F & _). rewrite Fx, Fy in F. split; assumption.
    - split; [exact H|]. apply sign_mult; [exact (sign_R x Fx) | exact (sign_R y Fy)].
  Qed.

  Theorem div_round : f64_R b <> 0%R -> is_round (f64_R a / f64_R b) (f64_div a b).
  Proof.
    intros Nz.
    pose proof (Binary.Bdiv_correct prec emax eq_refl eq_refl binop_nan_pl64 mode_NE x y Nz) as H.
    apply (is_round_intro _ _ (xorb (Binary.Bsign prec emax x) (Binary.Bsign prec emax y))).
    change (round radix2 (SpecFloat.fexp prec emax) (round_mode mode_NE) (Binary.B2R prec emax x / Binary.B2R prec emax y))
      with (rnd (f64_R a / f64_R b)) in H. fold huge in H.
    destruct (Rlt_bool (Rabs (rnd (f64_R a / f64_R b))) huge).
    - destruct H as (E & F & _). rewrite Fx in F. split; assumption.
    - split; [exact H|]. unfold Rdiv. apply sign_mult; [exact (sign_R x Fx)|].
      pose proof (sign_R y Fy) as S. unfold f64_R in *. fold y in Nz |- *.
      destruct (Binary.Bsign prec emax y).
      + left. apply Rinv_lt_0_compat. lra.
      + left. apply Rinv_0_lt_compat. lra.
  Qed.
End Ops.
