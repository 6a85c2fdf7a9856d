(** * float64 operations on extended reals

    The value of a word is a real, an infinity or NaN ([xr]); the sign of zero
    and the payload of NaN are forgotten.  Subtraction, multiplication and
    division by a number which is not zero are functions of the values. *)
From Coq Require Import ZArith Bool List Lia Reals Lra.
From Flocq Require Import Core.Core IEEE754.BinarySingleNaN IEEE754.Binary IEEE754.Bits.
From Verif Require Import Base_F64 Base_F64Arith P_F64 P_F64Flocq P_F64Round P_F64Grid P_Extent2 P_Strconv4 P_GeojsonNum.
Open Scope Z_scope.
Local Notation prec := 53.
Local Notation emax := 1024.

Inductive xr := XN | XI (neg : bool) | XR (r : R).

Definition negb_R (r : R) : bool := Rlt_bool r 0.
Definition zero_R (r : R) : bool := Req_bool r 0.

(** A real rounded to float64. *)
Definition xof (r : R) : xr := if Rlt_bool (Rabs (rnd r)) huge then XR (rnd r) else XI (negb_R r).
Definition xopp (a : xr) : xr := match a with XN => XN | XI s => XI (negb s) | XR r => XR (- r) end.
Definition xsub (a b : xr) : xr :=
  match a, b with
  | XR a, XR b => xof (a - b)
  | XI s, XI s' => if Bool.eqb s s' then XN else XI s
  | XI s, XR _ => XI s
  | XR _, XI s => XI (negb s)
  | _, _ => XN
  end.
Definition xmul (a b : xr) : xr :=
  match a, b with
  | XR a, XR b => xof (a * b)
  | XI s, XI s' => XI (xorb s s')
  | XI s, XR b => if zero_R b then XN else XI (xorb s (negb_R b))
  | XR a, XI s => if zero_R a then XN else XI (xorb (negb_R a) s)
  | _, _ => XN
  end.
(** [b] is not zero. *)
Definition xdiv (a b : xr) : xr :=
  match a, b with
  | XR a, XR b => xof (a / b)
  | XI s, XR b => XI (xorb s (negb_R b))
  | XR a, XI s => XR 0
  | _, _ => XN
  end.
Definition xle (a b : xr) : bool :=
  match a, b with
  | XR a, XR b => Rle_bool a b
  | XI s, XI s' => s || negb s'
  | XI s, XR _ => s
  | XR _, XI s => negb s
  | _, _ => false
  end.
Definition xzero (a : xr) : bool := match a with XR r => zero_R r | _ => false end.

(** The value of a word. *)
Definition xval_b (x : binary64) : xr :=
  match x with
  | Binary.B754_nan _ _ _ _ _ => XN
  | Binary.B754_infinity _ _ s => XI s
  | x => XR (Binary.B2R prec emax x)
  end.
Definition xval (w : f64) : xr := xval_b (b64_of_bits w).

Lemma xval_bits x : xval (bits_of_b64 x) = xval_b x.
Proof. unfold xval. now rewrite of_bits_bits. Qed.

Lemma xval_finite w : f64_wf w = true -> f64_finite w = true -> xval w = XR (f64_R w).
Proof.
  intros W F. rewrite <- is_finite_word in F by exact W. unfold xval, xval_b, f64_R.
  destruct (b64_of_bits w) as [s|s|s pl e|s m e H]; cbn in F; try discriminate; reflexivity.
Qed.
Lemma xval_pinf : xval f64_pinf = XI false. Proof. reflexivity. Qed.
Lemma xval_ninf : xval f64_ninf = XI true. Proof. reflexivity. Qed.
Lemma xval_zero : xval f64_zero = XR 0. Proof. reflexivity. Qed.
Lemma xval_one : xval f64_one = XR 1.
Proof.
  rewrite xval_finite by reflexivity. f_equal.
  destruct (repr_ofZ 1 ltac:(vm_compute; discriminate)) as (_ & _ & H).
  change f64_one with (f64_ofZ 1). rewrite H. cbn. lra.
Qed.

Lemma xval_nan w : f64_wf w = true -> (xval w = XN <-> f64_isnan w = true).
Proof.
  intros W. rewrite <- is_nan_word by exact W. unfold xval, xval_b.
  destruct (b64_of_bits w) as [s|s|s pl e|s m e H]; cbn; split; intros; try discriminate; reflexivity.
Qed.

Lemma xof_round r w : is_round r w -> xval w = xof r.
Proof.
  intros [W H]. unfold xof, negb_R. destruct H as [(F & E & B)|[(-> & B)|(-> & B)]].
  - rewrite Rlt_bool_true by exact B. rewrite xval_finite by assumption. now rewrite E.
  - assert (0 < huge)%R by apply bpow_gt_0.
    rewrite Rlt_bool_false; [| apply Rle_trans with (1 := B), Rle_abs].
    rewrite Rlt_bool_false; [reflexivity|].
    destruct (Rle_or_lt 0 r) as [P|P]; [exact P|]. assert (rnd r <= rnd 0)%R by (apply rnd_le; lra). rewrite rnd_0 in *. lra.
  - assert (0 < huge)%R by apply bpow_gt_0.
    rewrite Rlt_bool_false; [| rewrite Rabs_left1 by lra; lra].
    rewrite Rlt_bool_true; [reflexivity|].
    destruct (Rle_or_lt 0 r) as [P|P]; [|exact P]. assert (rnd 0 <= rnd r)%R by (apply rnd_le; lra). rewrite rnd_0 in *. lra.
Qed.

(** ** Words by value *)
Inductive word_case (w : f64) : Prop :=
| wc_nan : xval w = XN -> f64_isnan w = true -> word_case w
| wc_inf s : w = (if s : bool then f64_ninf else f64_pinf) -> word_case w
| wc_fin : f64_finite w = true -> xval w = XR (f64_R w) -> word_case w.
Lemma word_cases w : f64_wf w = true -> word_case w.
Proof.
  intros W. destruct (f64_isnan w) eqn:N.
  - apply wc_nan; [now apply xval_nan | exact N].
  - destruct (finite_or_inf w (conj W N)) as [F|[E|E]].
    + apply wc_fin; [exact F | now apply xval_finite].
    + now apply (wc_inf w false).
    + now apply (wc_inf w true).
Qed.

Lemma inf_b (s : bool) : b64_of_bits (if s then f64_ninf else f64_pinf) = Binary.B754_infinity prec emax s.
Proof. rewrite <- (of_bits_bits (Binary.B754_infinity prec emax s)). f_equal. now destruct s. Qed.
Lemma xval_inf (s : bool) : xval (if s then f64_ninf else f64_pinf) = XI s.
Proof. unfold xval. now rewrite inf_b. Qed.

(** ** The operations.  A NaN or infinite operand is computed. *)
Lemma sub_xr a b : f64_wf a = true -> f64_wf b = true -> xval (f64_sub a b) = xsub (xval a) (xval b).
Proof.
  intros Wa Wb. destruct (word_cases a Wa) as [Xa Na|sa Ea|Fa Xa], (word_cases b Wb) as [Xb Nb|sb Eb|Fb Xb].
  9: { rewrite Xa, Xb. apply xof_round. now apply sub_round. }
  all: unfold f64_sub; rewrite xval_bits; subst; unfold xval in *; rewrite ?inf_b in *.
  all: repeat match goal with
       | H : f64_finite _ = true |- _ => rewrite <- is_finite_word in H by assumption
       | H : f64_isnan _ = true |- _ => clear H
       end.
  all: try (destruct (b64_of_bits a) as [s1|s1|s1 p1 e1|s1 m1 e1 H1]; try discriminate).
  all: try (destruct (b64_of_bits b) as [s2|s2|s2 p2 e2|s2 m2 e2 H2]; try discriminate).
  all: try destruct sa; try destruct sb; reflexivity.
Qed.
Lemma finite_nonzero s m e H : zero_R (Binary.B2R prec emax (Binary.B754_finite prec emax s m e H)) = false
  /\ negb_R (Binary.B2R prec emax (Binary.B754_finite prec emax s m e H)) = s.
Proof.
  cbn [Binary.B2R]. unfold zero_R, negb_R, F2R. cbn [Fnum Fexp]. pose proof (bpow_gt_0 radix2 e) as P.
  destruct s; cbn [cond_Zopp Z.opp].
  - assert (IZR (Z.neg m) < 0)%R by (apply IZR_lt; lia).
    split; [apply Req_bool_false; nra | apply Rlt_bool_true; nra].
  - assert (0 < IZR (Z.pos m))%R by (apply IZR_lt; lia).
    split; [apply Req_bool_false; nra | apply Rlt_bool_false; nra].
Qed.
Lemma zero_R_0 : zero_R 0 = true. Proof. now apply Req_bool_true. Qed.

Lemma mul_xr a b : f64_wf a = true -> f64_wf b = true -> xval (f64_mul a b) = xmul (xval a) (xval b).
Proof.
  intros Wa Wb. destruct (word_cases a Wa) as [Xa Na|sa Ea|Fa Xa], (word_cases b Wb) as [Xb Nb|sb Eb|Fb Xb].
  9: { rewrite Xa, Xb. apply xof_round. now apply mul_round. }
  all: unfold f64_mul; rewrite xval_bits; subst; unfold xval in *; rewrite ?inf_b in *.
  all: repeat match goal with
       | H : f64_finite _ = true |- _ => rewrite <- is_finite_word in H by assumption
       | H : f64_isnan _ = true |- _ => clear H
       end.
  all: try (destruct (b64_of_bits a) as [s1|s1|s1 p1 e1|s1 m1 e1 H1]; try discriminate).
  all: try (destruct (b64_of_bits b) as [s2|s2|s2 p2 e2|s2 m2 e2 H2]; try discriminate).
  all: try reflexivity.
  all: cbn [xval_b]; unfold xmul; try (cbn [Binary.B2R]; rewrite zero_R_0; reflexivity).
  all: match goal with |- context [zero_R (Binary.B2R _ _ (Binary.B754_finite _ _ ?s ?m ?e ?H))] =>
         destruct (finite_nonzero s m e H) as [Z1 Z2]; rewrite Z1, Z2 end.
  all: reflexivity.
Qed.

Lemma div_xr a b : f64_wf a = true -> f64_wf b = true -> xzero (xval b) = false ->
  xval (f64_div a b) = xdiv (xval a) (xval b).
Proof.
  intros Wa Wb Nz. destruct (word_cases a Wa) as [Xa Na|sa Ea|Fa Xa], (word_cases b Wb) as [Xb Nb|sb Eb|Fb Xb].
  9: { rewrite Xa, Xb. apply xof_round. apply div_round; auto.
       rewrite Xb in Nz. cbn in Nz. unfold zero_R in Nz. intros E. rewrite E, Req_bool_true in Nz by reflexivity. discriminate. }
  all: unfold f64_div; rewrite xval_bits; subst; unfold xval in *; rewrite ?inf_b in *.
  all: repeat match goal with
       | H : f64_finite _ = true |- _ => rewrite <- is_finite_word in H by assumption
       | H : f64_isnan _ = true |- _ => clear H
       end.
  all: try (destruct (b64_of_bits a) as [s1|s1|s1 p1 e1|s1 m1 e1 H1]; try discriminate).
  all: try (destruct (b64_of_bits b) as [s2|s2|s2 p2 e2|s2 m2 e2 H2]; try discriminate).
  all: try reflexivity.
  all: try (cbn [xval_b xzero Binary.B2R] in Nz; rewrite zero_R_0 in Nz; discriminate).
  all: cbn [xval_b]; unfold xdiv.
  all: match goal with |- context [negb_R (Binary.B2R _ _ (Binary.B754_finite _ _ ?s ?m ?e ?H))] =>
         destruct (finite_nonzero s m e H) as [Z1 Z2]; rewrite Z2 end.
  all: reflexivity.
Qed.

Lemma neg_xr a : f64_wf a = true -> xval (f64_neg a) = xopp (xval a).
Proof.
  intros Wa. destruct (neg_word a Wa) as (W & S & M). destruct (word_cases a Wa) as [Xa Na|sa Ea|Fa Xa].
  - rewrite Xa. cbn. apply xval_nan; [exact W|]. unfold f64_isnan in *. now rewrite M.
  - subst a. rewrite xval_inf. now destruct sa.
  - rewrite Xa. rewrite xval_finite by (auto; now rewrite neg_finite). rewrite neg_R by exact Wa. reflexivity.
Qed.

(** ** Comparisons *)
Lemma le_xr a b : f64_wf a = true -> f64_wf b = true -> f64_le a b = xle (xval a) (xval b).
Proof.
  intros Wa Wb. destruct (word_cases a Wa) as [Xa Na|sa Ea|Fa Xa], (word_cases b Wb) as [Xb Nb|sb Eb|Fb Xb].
  9: { rewrite Xa, Xb. cbn [xle]. destruct (f64_le a b) eqn:E; symmetry.
       - apply Rle_bool_true. now apply le_R.
       - apply Rle_bool_false. destruct (Rlt_or_le (f64_R b) (f64_R a)) as [L|L]; [exact L|].
         apply le_R in L; auto. congruence. }
  all: try (unfold f64_le; rewrite Na; rewrite Xa; destruct (xval b); reflexivity).
  all: try (unfold f64_le; rewrite Nb; rewrite andb_false_r, Xb; destruct (xval a); reflexivity).
  all: subst; rewrite ?xval_inf.
  - now destruct sa, sb.
  - rewrite Xb. cbn [xle]. pose proof (finite_key b Fb) as K. destruct sa; rewrite le_key by (reflexivity || now apply finite_nn).
    + apply Z.leb_le. rewrite key_ninf. lia.
    + apply Z.leb_gt. rewrite key_pinf. lia.
  - rewrite Xa. cbn [xle]. pose proof (finite_key a Fa) as K. destruct sb; rewrite le_key by (reflexivity || now apply finite_nn).
    + apply Z.leb_gt. rewrite key_ninf. lia.
    + apply Z.leb_le. rewrite key_pinf. lia.
Qed.
Lemma eq_zero_xr a : f64_wf a = true -> f64_eq a f64_zero = xzero (xval a).
Proof.
  intros Wa. destruct (word_cases a Wa) as [Xa Na|sa Ea|Fa Xa].
  - unfold f64_eq. rewrite Na, Xa. reflexivity.
  - subst. rewrite xval_inf. now destruct sa.
  - rewrite Xa. cbn. unfold zero_R. pose proof (eq_R a f64_zero Wa eq_refl Fa eq_refl) as H.
    assert (Z : f64_R f64_zero = 0%R) by (pose proof (xval_finite f64_zero eq_refl eq_refl) as Q; rewrite xval_zero in Q; congruence).
    rewrite Z in H. destruct (f64_eq a f64_zero) eqn:E; symmetry.
    + apply Req_bool_true. now apply H.
    + apply Req_bool_false. intros Q. apply H in Q. discriminate.
Qed.

(** Words with one value which is neither NaN nor zero are equal. *)
Lemma xval_inj a b : f64_wf a = true -> f64_wf b = true -> xval a = xval b -> xval a <> XN -> xzero (xval a) = false -> a = b.
Proof.
  intros Wa Wb E N Z. destruct (word_cases a Wa) as [Xa Na|sa Ea|Fa Xa], (word_cases b Wb) as [Xb Nb|sb Eb|Fb Xb].
  all: try congruence.
  - subst. rewrite !xval_inf in E. injection E as ->. reflexivity.
  - subst. rewrite xval_inf, Xb in E. discriminate.
  - subst. rewrite xval_inf, Xa in E. discriminate.
  - rewrite Xa, Xb in E. injection E as E. apply word_inj; auto.
    rewrite !sign_word by assumption. rewrite Xa in Z. cbn in Z. unfold zero_R in Z.
    assert (Nz : f64_R a <> 0%R) by (intros Q; rewrite Q, Req_bool_true in Z by reflexivity; discriminate).
    pose proof (sign_R (b64_of_bits a) ltac:(now rewrite is_finite_word)) as Sa.
    pose proof (sign_R (b64_of_bits b) ltac:(now rewrite is_finite_word)) as Sb.
    fold (f64_R a) in Sa. fold (f64_R b) in Sb. rewrite <- E in Sb.
    destruct (Binary.Bsign prec emax (b64_of_bits a)), (Binary.Bsign prec emax (b64_of_bits b)); auto; exfalso; lra.
Qed.

(** ** Signs *)
Lemma negb_R_opp r : zero_R r = false -> negb_R (- r) = negb (negb_R r).
Proof.
  unfold zero_R, negb_R. intros H. assert (r <> 0)%R by (intros ->; rewrite Req_bool_true in H by reflexivity; discriminate).
  destruct (Rlt_bool_spec r 0); cbn; [apply Rlt_bool_false | apply Rlt_bool_true]; lra.
Qed.
Lemma zero_R_opp r : zero_R (- r) = zero_R r.
Proof. unfold zero_R. destruct (Req_bool_spec r 0) as [->|N]; [rewrite Ropp_0; now apply Req_bool_true | apply Req_bool_false; lra]. Qed.
Lemma xof_opp r : xof (- r) = xopp (xof r).
Proof.
  unfold xof. rewrite rnd_opp, Rabs_Ropp. destruct (Rlt_bool_spec (Rabs (rnd r)) huge) as [L|L]; [reflexivity|].
  cbn [xopp]. rewrite negb_R_opp; [reflexivity|].
  unfold zero_R. apply Req_bool_false. intros ->. rewrite rnd_0, Rabs_R0 in L.
  assert (0 < huge)%R by apply bpow_gt_0. lra.
Qed.
Lemma xopp_opp a : xopp (xopp a) = a.
Proof. destruct a; cbn; [reflexivity | now rewrite negb_involutive | now rewrite Ropp_involutive]. Qed.
Lemma xsub_anti a b : xsub b a = xopp (xsub a b).
Proof.
  destruct a as [|s|x], b as [|s'|y]; cbn; try reflexivity.
  - now destruct s, s'.
  - now rewrite negb_involutive.
  - rewrite <- xof_opp. f_equal. ring.
Qed.
Lemma xmul_comm a b : xmul a b = xmul b a.
Proof.
  destruct a as [|s|x], b as [|s'|y]; cbn; try reflexivity.
  - now rewrite xorb_comm.
  - now rewrite xorb_comm.
  - now rewrite xorb_comm.
  - now rewrite Rmult_comm.
Qed.
Lemma xmul_opp_l a b : xmul (xopp a) b = xopp (xmul a b).
Proof.
  destruct a as [|s|x], b as [|s'|y]; cbn; try reflexivity.
  - now destruct s, s'.
  - destruct (zero_R y); cbn; [reflexivity|]. now destruct s, (negb_R y).
  - rewrite zero_R_opp. destruct (zero_R x) eqn:Z; cbn; [reflexivity|]. rewrite negb_R_opp by exact Z. now destruct s', (negb_R x).
  - rewrite <- xof_opp. f_equal. ring.
Qed.
Lemma xmul_opp_r a b : xmul a (xopp b) = xopp (xmul a b).
Proof. rewrite xmul_comm, xmul_opp_l, xmul_comm. reflexivity. Qed.
Lemma xsub_opp a b : xsub (xopp a) (xopp b) = xopp (xsub a b).
Proof.
  destruct a as [|s|x], b as [|s'|y]; cbn; try reflexivity.
  - now destruct s, s'.
  - rewrite <- xof_opp. f_equal. ring.
Qed.
Lemma xdiv_opp_r a b : xzero b = false -> xdiv a (xopp b) = xopp (xdiv a b).
Proof.
  destruct a as [|s|x], b as [|s'|y]; cbn; try reflexivity; intros Z.
  - rewrite negb_R_opp by exact Z. now destruct s, (negb_R y).
  - now rewrite Ropp_0.
  - rewrite <- xof_opp. f_equal. field. intros ->. rewrite zero_R_0 in Z. discriminate.
Qed.
Lemma xdiv_opp_l a b : xzero b = false -> xdiv (xopp a) b = xopp (xdiv a b).
Proof.
  destruct a as [|s|x], b as [|s'|y]; cbn; try reflexivity; intros Z.
  - now destruct s, (negb_R y).
  - now rewrite Ropp_0.
  - rewrite <- xof_opp. f_equal. field. intros ->. rewrite zero_R_0 in Z. discriminate.
Qed.
Lemma xzero_opp a : xzero (xopp a) = xzero a.
Proof. destruct a; cbn; auto. apply zero_R_opp. Qed.
