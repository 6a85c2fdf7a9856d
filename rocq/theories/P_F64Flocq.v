(** The word-level comparisons are IEEE-754 comparisons: agreement with Flocq. *)
From Coq Require Import ZArith Bool List Lia Reals Lra.
From Coq Require Import ZifyBool.
From Coq Require Import Floats.SpecFloat.
From Flocq Require Import Core.Core IEEE754.BinarySingleNaN IEEE754.Binary IEEE754.Bits.
From Verif Require Import Base_F64 Base_F64Arith P_F64.
Open Scope Z_scope.

Local Notation prec := 53.
Local Notation emax := 1024.

Lemma B2SF_bits w :
  Binary.B2SF prec emax (b64_of_bits w) = FF2SF (binary_float_of_bits_aux 52 11 w).
Proof. unfold b64_of_bits, binary_float_of_bits. apply B2SF_FF2B. Qed.

(** The three fields of a word. *)
Lemma split_word w : f64_wf w = true ->
  split_bits 52 11 w = (f64_sign w, f64_mag w mod 2 ^ 52, f64_mag w / 2 ^ 52).
Proof.
  intros Hw. unfold split_bits. change (2 ^ 52 * 2 ^ 11) with two63.
  unfold f64_sign. f_equal; [f_equal|].
  - unfold f64_mag. change two63 with (2 ^ 52 * 2 ^ 11).
    rewrite Z.rem_mul_r by lia. rewrite Z.mul_comm, Z.mod_add by lia.
    now rewrite Z.mod_mod by lia.
  - unfold f64_mag. change two63 with (2 ^ 52 * 2 ^ 11).
    rewrite Z.rem_mul_r by lia.
    rewrite Z.mul_comm, Z.div_add by lia.
    rewrite (Z.div_small (w mod 2 ^ 52)) by (apply Z.mod_pos_bound; lia). lia.
Qed.

(** The [spec_float] of a magnitude and a sign. *)
Definition sf_of (s : bool) (m : Z) : spec_float :=
  let mx := m mod 2 ^ 52 in
  let ex := m / 2 ^ 52 in
  if ex =? 0 then
    match mx with Zpos p => S754_finite s p (-1074) | _ => S754_zero s end
  else if ex =? 2047 then
    match mx with Zpos _ => S754_nan | _ => S754_infinity s end
  else match mx + 2 ^ 52 with Zpos p => S754_finite s p (ex - 1075) | _ => S754_nan end.

Lemma Zeq_bool_eqb x y : Zeq_bool x y = (x =? y).
Proof.
  destruct (x =? y) eqn:E.
  - apply Z.eqb_eq in E. subst. now rewrite <- Zeq_is_eq_bool.
  - destruct (Zeq_bool x y) eqn:E'; [|reflexivity]. apply Zeq_bool_eq in E'. lia.
Qed.

Lemma B2SF_word w : f64_wf w = true ->
  Binary.B2SF prec emax (b64_of_bits w) = sf_of (f64_sign w) (f64_mag w).
Proof.
  intros Hw. rewrite B2SF_bits. unfold binary_float_of_bits_aux. rewrite split_word by exact Hw.
  unfold sf_of. rewrite !Zeq_bool_eqb. change (2 ^ 11 - 1) with 2047.
  pose proof (Z.mod_pos_bound (f64_mag w) (2 ^ 52) ltac:(lia)) as Hm.
  destruct (f64_mag w / 2 ^ 52 =? 0).
  - destruct (f64_mag w mod 2 ^ 52); try reflexivity. lia.
  - destruct (f64_mag w / 2 ^ 52 =? 2047).
    + destruct (f64_mag w mod 2 ^ 52); try reflexivity. lia.
    + destruct (f64_mag w mod 2 ^ 52 + 2 ^ 52); try reflexivity.
      unfold FF2SF. f_equal. change (SpecFloat.emin (52 + 1) (2 ^ (11 - 1))) with (-1074). lia.
Qed.

Definition skey (s : bool) (m : Z) : Z := if s then - m else m.

Inductive shape (s : bool) (m : Z) : spec_float -> Prop :=
| sh_zero : m = 0 -> shape s m (S754_zero s)
| sh_inf : m = f64_pinf -> shape s m (S754_infinity s)
| sh_fin p e : 0 < m < f64_pinf -> -1074 <= e -> Zpos p < 2 ^ 53 ->
    (e = -1074 \/ 2 ^ 52 <= Zpos p) -> m = (e + 1074) * 2 ^ 52 + Zpos p ->
    shape s m (S754_finite s p e).

Lemma sf_shape s m : 0 <= m <= f64_pinf -> shape s m (sf_of s m).
Proof.
  intros Hm. unfold f64_pinf in *. unfold sf_of.
  pose proof (Z.mod_pos_bound m (2 ^ 52) ltac:(lia)) as Hr.
  pose proof (Z.div_mod m (2 ^ 52) ltac:(lia)) as Hd.
  set (q := m / 2 ^ 52) in *. set (r := m mod 2 ^ 52) in *. clearbody q r.
  change (2 ^ 52) with 4503599627370496 in *.
  destruct (q =? 0) eqn:E0.
  - destruct r eqn:Er; [constructor; lia | | lia].
    constructor; unfold f64_pinf; lia.
  - destruct (q =? 2047) eqn:E1.
    + destruct r eqn:Er; [constructor; unfold f64_pinf; lia | lia | lia].
    + destruct (r + 4503599627370496) eqn:Er; [lia | | lia].
      constructor; unfold f64_pinf; lia.
Qed.

Lemma sf_compare s1 m1 s2 m2 :
  0 <= m1 <= f64_pinf -> 0 <= m2 <= f64_pinf ->
  SFcompare (sf_of s1 m1) (sf_of s2 m2) = Some (skey s1 m1 ?= skey s2 m2).
Proof.
  intros H1 H2. pose proof (sf_shape s1 m1 H1) as S1. pose proof (sf_shape s2 m2 H2) as S2.
  revert S1 S2. generalize (sf_of s1 m1) (sf_of s2 m2). unfold skey, f64_pinf in *.
  intros f1 f2 S1 S2.
  assert (Hgt : forall a b, b < a -> (a ?= b) = Gt) by (intros; apply Z.compare_gt_iff; lia).
  assert (Hlt : forall a b, a < b -> (a ?= b) = Lt) by (intros; apply Z.compare_lt_iff; lia).
  assert (Heq : forall a b, a = b -> (a ?= b) = Eq) by (intros; apply Z.compare_eq_iff; lia).
  destruct S1 as [E1|E1|p1 e1 M1 L1 P1 Q1 E1]; destruct S2 as [E2|E2|p2 e2 M2 L2 P2 Q2 E2];
    unfold f64_pinf in *; cbn [SFcompare]; f_equal; symmetry.
  1-8: destruct s1, s2; (apply Hgt; lia) || (apply Hlt; lia) || (apply Heq; lia).
  assert (Hc : (m1 ?= m2) = match e1 ?= e2 with Lt => Lt | Gt => Gt | Eq => Pos.compare p1 p2 end).
  { change (2 ^ 52) with 4503599627370496 in *. change (2 ^ 53) with 9007199254740992 in *.
    destruct (Z.compare_spec e1 e2) as [E|E|E].
    - change (Pos.compare p1 p2) with (Zpos p1 ?= Zpos p2).
      subst e2. destruct (Z.compare_spec (Zpos p1) (Zpos p2)); [apply Heq | apply Hlt | apply Hgt]; lia.
    - apply Hlt. lia.
    - apply Hgt. lia. }
  destruct s1, s2.
  - replace (- m1 ?= - m2) with (m2 ?= m1)
      by (rewrite (Z.compare_antisym (- m2)), <- Z.compare_opp; reflexivity || apply Z.compare_antisym).
    rewrite Z.compare_antisym, Hc. destruct (e1 ?= e2); reflexivity.
  - apply Hlt; lia.
  - apply Hgt; lia.
  - exact Hc.
Qed.

Lemma is_nan_word w : f64_wf w = true ->
  Binary.is_nan prec emax (b64_of_bits w) = f64_isnan w.
Proof.
  intros Hw. unfold b64_of_bits, binary_float_of_bits. rewrite is_nan_FF2B.
  unfold binary_float_of_bits_aux. rewrite split_word by exact Hw.
  rewrite !Zeq_bool_eqb. change (2 ^ 11 - 1) with 2047.
  unfold f64_isnan, f64_pinf. pose proof (mag_bounds w) as Hm. unfold two63 in Hm.
  pose proof (Z.mod_pos_bound (f64_mag w) (2 ^ 52) ltac:(lia)) as Hr.
  pose proof (Z.div_mod (f64_mag w) (2 ^ 52) ltac:(lia)) as Hd.
  set (q := f64_mag w / 2 ^ 52) in *. set (r := f64_mag w mod 2 ^ 52) in *. clearbody q r.
  change (2 ^ 52) with 4503599627370496 in *. change (2 ^ 63) with 9223372036854775808 in *.
  destruct (q =? 0) eqn:E0.
  - destruct r eqn:Er; cbn [is_nan_FF]; lia.
  - destruct (q =? 2047) eqn:E1.
    + destruct r eqn:Er; cbn [is_nan_FF]; lia.
    + destruct (r + 4503599627370496) eqn:Er; cbn [is_nan_FF]; lia.
Qed.

Lemma Bcompare_SF x y :
  Binary.Bcompare prec emax x y =
  SFcompare (Binary.B2SF prec emax x) (Binary.B2SF prec emax y).
Proof. destruct x as [?|?|? ? ?|? ? ? ?], y as [?|?|? ? ?|? ? ? ?]; reflexivity. Qed.

Theorem compare_word a b : f64_wf a = true -> f64_wf b = true ->
  b64_compare (b64_of_bits a) (b64_of_bits b) =
  if f64_isnan a || f64_isnan b then None else Some (f64_key a ?= f64_key b).
Proof.
  intros Ha Hb. unfold b64_compare.
  destruct (f64_isnan a) eqn:Na; cbn [orb].
  { rewrite Bcompare_SF. rewrite <- (is_nan_word a Ha) in Na.
    destruct (b64_of_bits a); try discriminate. reflexivity. }
  destruct (f64_isnan b) eqn:Nb.
  { rewrite Bcompare_SF. rewrite <- (is_nan_word b Hb) in Nb.
    destruct (b64_of_bits b); try discriminate. now destruct (b64_of_bits a). }
  rewrite Bcompare_SF, !B2SF_word by assumption.
  unfold f64_isnan in *. pose proof (mag_bounds a). pose proof (mag_bounds b).
  apply sf_compare; lia.
Qed.

(** ** Finite words as real numbers *)

Definition f64_finite (w : f64) : bool := f64_mag w <? f64_pinf.
Definition f64_R (w : f64) : R := Binary.B2R prec emax (b64_of_bits w).

Lemma finite_nn w : f64_finite w = true -> nn w.
Proof. unfold f64_finite, nn, f64_isnan. lia. Qed.

Lemma is_finite_SF x : Binary.is_finite prec emax x = is_finite_SF (Binary.B2SF prec emax x).
Proof. now destruct x. Qed.

Lemma is_finite_word w : f64_wf w = true ->
  Binary.is_finite prec emax (b64_of_bits w) = f64_finite w.
Proof.
  intros Hw. destruct (f64_isnan w) eqn:N.
  - replace (f64_finite w) with false by (unfold f64_finite, f64_isnan in *; lia).
    rewrite <- (is_nan_word w Hw) in N. now destruct (b64_of_bits w).
  - rewrite is_finite_SF, B2SF_word by exact Hw.
    pose proof (mag_bounds w). unfold f64_isnan in N.
    pose proof (sf_shape (f64_sign w) (f64_mag w) ltac:(lia)) as S.
    unfold f64_finite. destruct S; cbn; unfold f64_pinf in *; lia.
Qed.

Lemma compare_R a b : f64_wf a = true -> f64_wf b = true ->
  f64_finite a = true -> f64_finite b = true ->
  (f64_key a ?= f64_key b) = Rcompare (f64_R a) (f64_R b).
Proof.
  intros Wa Wb Fa Fb. pose proof (compare_word a b Wa Wb) as H.
  rewrite (finite_nn a Fa), (finite_nn b Fb) in H. cbn [orb] in H.
  unfold b64_compare in H.
  rewrite Binary.Bcompare_correct in H by (now rewrite is_finite_word).
  injection H as H. symmetry. exact H.
Qed.

Lemma lt_R a b : f64_wf a = true -> f64_wf b = true ->
  f64_finite a = true -> f64_finite b = true ->
  f64_lt a b = true <-> (f64_R a < f64_R b)%R.
Proof.
  intros Wa Wb Fa Fb. rewrite lt_key by now apply finite_nn.
  unfold Z.ltb. rewrite compare_R by assumption.
  destruct (Rcompare_spec (f64_R a) (f64_R b)); split; intros; try discriminate; try lra; auto.
Qed.
Lemma le_R a b : f64_wf a = true -> f64_wf b = true ->
  f64_finite a = true -> f64_finite b = true ->
  f64_le a b = true <-> (f64_R a <= f64_R b)%R.
Proof.
  intros Wa Wb Fa Fb. rewrite le_key by now apply finite_nn.
  unfold Z.leb. rewrite compare_R by assumption.
  destruct (Rcompare_spec (f64_R a) (f64_R b)); split; intros; try discriminate; try lra; auto.
Qed.
Lemma eq_R a b : f64_wf a = true -> f64_wf b = true ->
  f64_finite a = true -> f64_finite b = true ->
  f64_eq a b = true <-> f64_R a = f64_R b.
Proof.
  intros Wa Wb Fa Fb. rewrite eq_key by now apply finite_nn.
  rewrite Z.eqb_compare. rewrite compare_R by assumption.
  destruct (Rcompare_spec (f64_R a) (f64_R b)); split; intros; try discriminate; try lra; auto.
Qed.

(** ** Arithmetic *)

Lemma bits_wf x : f64_wf (bits_of_b64 x) = true.
Proof.
  pose proof (bits_of_binary_float_range 52 11 ltac:(lia) ltac:(lia) x) as H.
  unfold f64_wf, two64. unfold bits_of_b64. change (2 ^ (52 + 11 + 1)) with (2 ^ 64) in H. lia.
Qed.

Lemma of_bits_bits x : b64_of_bits (bits_of_b64 x) = x.
Proof. exact (binary_float_of_bits_of_binary_float 52 11 eq_refl eq_refl eq_refl x). Qed.

Lemma bits_of_bits w : f64_wf w = true -> bits_of_b64 (b64_of_bits w) = w.
Proof.
  intros Hw. apply (bits_of_binary_float_of_bits 52 11 eq_refl eq_refl eq_refl). unfold f64_wf, two64 in Hw.
  change (2 ^ (52 + 11 + 1)) with (2 ^ 64). lia.
Qed.

Lemma add_wf a b : f64_wf (f64_add a b) = true. Proof. apply bits_wf. Qed.
Lemma sub_wf a b : f64_wf (f64_sub a b) = true. Proof. apply bits_wf. Qed.
Lemma mul_wf a b : f64_wf (f64_mul a b) = true. Proof. apply bits_wf. Qed.
Lemma div_wf a b : f64_wf (f64_div a b) = true. Proof. apply bits_wf. Qed.
