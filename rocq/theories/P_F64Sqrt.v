(** Square roots, sums of non-negative numbers and squares on float64:
    monotonicity, and sqrt(x*x) is not below x unless the square underflows. *)
From Coq Require Import ZArith Bool List Lia Reals Lra.
From Coq Require Import ZifyBool.
From Coq Require Import Floats.SpecFloat.
From Flocq Require Import Core.Core Relative IEEE754.BinarySingleNaN IEEE754.Binary IEEE754.Bits.
From Verif Require Import Base_F64 Base_F64Arith P_F64 P_F64Flocq P_F64Round P_Extent2.
Open Scope Z_scope.
Local Notation prec := 53.
Local Notation emax := 1024.

Definition pos (w : f64) : Prop := num w /\ f64_le f64_zero w = true.

Lemma R_zero : f64_R f64_zero = 0%R.
Proof. reflexivity. Qed.

Lemma pos_cases w : pos w -> w = f64_pinf \/ f64_wf w = true /\ f64_finite w = true /\ (0 <= f64_R w)%R.
Proof.
  intros [[W N] L]. destruct (f64_finite w) eqn:F.
  - right. split; [exact W|]. split; [reflexivity|]. apply (proj1 (le_R f64_zero w eq_refl W eq_refl F)) in L. rewrite R_zero in L. exact L.
  - destruct (finite_or_inf w (conj W N)) as [H|[H|H]]; [congruence|auto|]. subst w. discriminate.
Qed.

Lemma pos_round r w : is_round r w -> (0 <= r)%R -> pos w.
Proof.
  intros H Hr. split; [eapply is_round_num; eauto|].
  apply (is_round_mono (f64_R f64_zero) r f64_zero w); [now apply is_round_self|exact H|]. rewrite R_zero. exact Hr.
Qed.

Lemma finite_pos w : f64_wf w = true -> f64_finite w = true -> (0 <= f64_R w)%R -> pos w.
Proof. intros W F H. apply (pos_round (f64_R w)); auto. now apply is_round_self. Qed.

(** ** sqrt *)
Lemma sqrt_finite w : f64_wf w = true -> f64_finite w = true -> (0 <= f64_R w)%R ->
  is_round (sqrt (f64_R w)) (f64_sqrt w).
Proof.
  intros W F H. set (x := b64_of_bits w).
  assert (Fx : Binary.is_finite prec emax x = true) by (unfold x; now rewrite is_finite_word).
  destruct (Binary.Bsqrt_correct prec emax eq_refl eq_refl unop_nan_pl64 mode_NE x) as (E & Fi & _).
  change (round radix2 (SpecFloat.fexp prec emax) (round_mode mode_NE) (sqrt (Binary.B2R prec emax x)))
    with (rnd (sqrt (f64_R w))) in E.
  assert (Fs : Binary.is_finite prec emax (b64_sqrt mode_NE x) = true).
  { unfold b64_sqrt. rewrite Fi. clear E Fi. unfold f64_R in H. fold x in H.
    destruct x as [s|s|s pl e|s m e B]; try discriminate; auto.
    destruct s; auto. exfalso. cbn in H. unfold F2R in H. cbn in H.
    assert (0 < bpow radix2 e)%R by apply bpow_gt_0. 
    assert (IZR (Z.neg m) < 0)%R by (apply IZR_lt; lia). nra. }
  unfold f64_sqrt. split; [apply bits_wf|]. left.
  rewrite finite_of_bits, R_of_bits. split; [exact Fs|]. split; [exact E|].
  fold x in E. unfold b64_sqrt in *. rewrite <- E. apply abs_B2R_lt_emax.
Qed.

Lemma sqrt_pinf : f64_sqrt f64_pinf = f64_pinf.
Proof. vm_compute. reflexivity. Qed.

Lemma fsqrt_pos w : pos w -> pos (f64_sqrt w).
Proof.
  intros P. destruct (pos_cases w P) as [->|(W & F & H)]; [now rewrite sqrt_pinf|].
  eapply pos_round; [now apply sqrt_finite|apply sqrt_pos].
Qed.

Lemma le_pinf_l w : num w -> f64_le f64_pinf w = true -> w = f64_pinf.
Proof.
  intros [W N] L. assert (P : pos w).
  { split; [split; assumption|]. eapply f64_le_trans; [|exact L]. reflexivity. }
  destruct (pos_cases w P) as [->|(_ & F & _)]; [reflexivity|].
  exfalso. apply le_inv in L. destruct L as (_ & _ & L). rewrite key_pinf in L.
  apply finite_key in F. lia.
Qed.

Lemma sqrt_le a b : pos a -> pos b -> f64_le a b = true -> f64_le (f64_sqrt a) (f64_sqrt b) = true.
Proof.
  intros Pa Pb L. destruct (pos_cases b Pb) as [->|(Wb & Fb & Hb)].
  - rewrite sqrt_pinf. destruct (fsqrt_pos a Pa) as [[W N] _]. now apply pinf_ge.
  - destruct (pos_cases a Pa) as [->|(Wa & Fa & Ha)].
    + apply le_pinf_l in L; [|apply Pb]. subst b. discriminate.
    + eapply is_round_mono; [now apply sqrt_finite|now apply sqrt_finite|].
      apply sqrt_le_1_alt. apply le_R; auto.
Qed.

(** ** sums *)
Lemma add_pinf_l w : pos w -> f64_add f64_pinf w = f64_pinf.
Proof.
  intros P. destruct (pos_cases w P) as [->|(W & F & H)]; [vm_compute; reflexivity|].
  unfold f64_add. assert (Fx : Binary.is_finite prec emax (b64_of_bits w) = true) by now rewrite is_finite_word.
  change (b64_of_bits f64_pinf) with (Binary.B754_infinity prec emax false).
  destruct (b64_of_bits w); try discriminate; reflexivity.
Qed.

Lemma add_pinf_r w : pos w -> f64_add w f64_pinf = f64_pinf.
Proof.
  intros P. destruct (pos_cases w P) as [->|(W & F & H)]; [vm_compute; reflexivity|].
  unfold f64_add. assert (Fx : Binary.is_finite prec emax (b64_of_bits w) = true) by now rewrite is_finite_word.
  change (b64_of_bits f64_pinf) with (Binary.B754_infinity prec emax false).
  destruct (b64_of_bits w); try discriminate; reflexivity.
Qed.

Lemma pos_pinf : pos f64_pinf.
Proof. now repeat split. Qed.

Lemma add_pos a b : pos a -> pos b -> pos (f64_add a b).
Proof.
  intros Pa Pb. destruct (pos_cases a Pa) as [->|(Wa & Fa & Ha)]; [rewrite add_pinf_l; auto using pos_pinf|].
  destruct (pos_cases b Pb) as [->|(Wb & Fb & Hb)]; [rewrite add_pinf_r; auto using pos_pinf|].
  eapply pos_round; [now apply add_round|lra].
Qed.

Lemma add_le a b c d : pos a -> pos b -> pos c -> pos d -> f64_le a c = true -> f64_le b d = true ->
  f64_le (f64_add a b) (f64_add c d) = true.
Proof.
  intros Pa Pb Pc Pd L1 L2. pose proof (add_pos a b Pa Pb) as [[W N] _].
  destruct (pos_cases c Pc) as [->|(Wc & Fc & Hc)]; [rewrite add_pinf_l; auto using pinf_ge|].
  destruct (pos_cases d Pd) as [->|(Wd & Fd & Hd)]; [rewrite add_pinf_r; auto using pinf_ge|].
  destruct (pos_cases a Pa) as [->|(Wa & Fa & Ha)].
  { apply le_pinf_l in L1; [|apply Pc]. subst c. discriminate. }
  destruct (pos_cases b Pb) as [->|(Wb & Fb & Hb)].
  { apply le_pinf_l in L2; [|apply Pd]. subst d. discriminate. }
  eapply is_round_mono; [now apply add_round|now apply add_round|].
  apply le_R in L1, L2; auto. lra.
Qed.

Lemma add_ge_l a b : pos a -> pos b -> f64_le a (f64_add a b) = true.
Proof.
  intros Pa Pb. pose proof (add_pos a b Pa Pb) as [[W N] _].
  destruct (pos_cases a Pa) as [->|(Wa & Fa & Ha)].
  { rewrite add_pinf_l by assumption. reflexivity. }
  destruct (pos_cases b Pb) as [->|(Wb & Fb & Hb)].
  { rewrite add_pinf_r by assumption. apply pinf_ge; [assumption|apply Pa]. }
  apply (is_round_mono (f64_R a) (f64_R a + f64_R b)); [now apply is_round_self|now apply add_round|lra].
Qed.

Lemma add_comm_f a b : pos a -> pos b -> f64_le b (f64_add a b) = true.
Proof.
  intros Pa Pb. pose proof (add_pos a b Pa Pb) as [[W N] _].
  destruct (pos_cases a Pa) as [->|(Wa & Fa & Ha)].
  { rewrite add_pinf_l by assumption. apply pinf_ge; apply Pb. }
  destruct (pos_cases b Pb) as [->|(Wb & Fb & Hb)].
  { rewrite add_pinf_r by assumption. reflexivity. }
  apply (is_round_mono (f64_R b) (f64_R a + f64_R b)); [now apply is_round_self|now apply add_round|lra].
Qed.

(** ** squares *)
Lemma rnd_opp r : rnd (- r) = (- rnd r)%R.
Proof. apply round_NE_opp. Qed.

Lemma rnd_abs r : rnd (Rabs r) = Rabs (rnd r).
Proof.
  unfold Rabs at 1. destruct (Rcase_abs r).
  - rewrite rnd_opp. rewrite Rabs_left1; [reflexivity|]. rewrite <- rnd_0. apply rnd_le. lra.
  - rewrite Rabs_pos_eq; [reflexivity|]. rewrite <- rnd_0. apply rnd_le. lra.
Qed.

Lemma sq_pinf : f64_mul f64_pinf f64_pinf = f64_pinf.
Proof. vm_compute. reflexivity. Qed.
Lemma sq_ninf : f64_mul f64_ninf f64_ninf = f64_pinf.
Proof. vm_compute. reflexivity. Qed.

Lemma sq_pos r a : is_round r a -> pos (f64_mul a a).
Proof.
  intros [W [(F & E & B)|[(-> & B)|(-> & B)]]].
  - eapply pos_round; [now apply mul_round|nra].
  - rewrite sq_pinf. apply pos_pinf.
  - rewrite sq_ninf. apply pos_pinf.
Qed.

Lemma sq_le r s a b : is_round r a -> is_round s b -> (Rabs r <= Rabs s)%R ->
  f64_le (f64_mul a a) (f64_mul b b) = true.
Proof.
  intros Ha Hb L. destruct (sq_pos r a Ha) as [[Ws Ns] _].
  assert (Lr : (Rabs (rnd r) <= Rabs (rnd s))%R).
  { rewrite <- !rnd_abs. now apply rnd_le. }
  destruct Hb as [Wb [(Fb & Eb & Bb)|[(-> & Bb)|(-> & Bb)]]].
  - assert (H0 : (0 < huge)%R) by apply bpow_gt_0.
    destruct Ha as [Wa [(Fa & Ea & Ba)|[(-> & Ba)|(-> & Ba)]]].
    + eapply is_round_mono; [now apply mul_round|now apply mul_round|].
      rewrite Ea, Eb. rewrite <- (Rabs_pos_eq (rnd r * rnd r)), <- (Rabs_pos_eq (rnd s * rnd s)) by nra.
      rewrite !Rabs_mult. pose proof (Rabs_pos (rnd r)). nra.
    + rewrite (Rabs_pos_eq (rnd r)) in Lr by lra. lra.
    + rewrite (Rabs_left1 (rnd r)) in Lr by lra. lra.
  - rewrite sq_pinf. now apply pinf_ge.
  - rewrite sq_ninf. now apply pinf_ge.
Qed.

(** ** sqrt (x * x) *)
Local Notation fexp := (SpecFloat.fexp prec emax).
Local Notation u := (bpow radix2 (-53)).

Lemma fexp_flt : fexp = FLT_exp (-1074) 53.
Proof. reflexivity. Qed.

Lemma u_small : (0 < u /\ u < 1 / 2)%R.
Proof.
  split; [apply bpow_gt_0|]. change (1 / 2)%R with (1 / 2)%R.
  replace (1 / 2)%R with (bpow radix2 (-1)) by (cbn; lra). apply bpow_lt. lia.
Qed.

Lemma sqrt_square_round x : generic_format radix2 fexp x -> (bpow radix2 (-511) <= x)%R ->
  (x <= rnd (sqrt (rnd (x * x))))%R.
Proof.
  intros Fx Lx.
  assert (X0 : (0 < x)%R) by (pose proof (bpow_gt_0 radix2 (-511)); lra).
  pose proof u_small as [U0 U1].
  destruct (Req_dec x (bpow radix2 (mag radix2 x - 1))) as [Ex|Nx].
  - (* a power of two *)
    set (k := mag radix2 x - 1) in *. clearbody k. subst x.
    assert (Gk : -511 <= k) by (apply (le_bpow radix2); exact Lx).
    assert (G : forall j, -1022 <= j -> generic_format radix2 fexp (bpow radix2 j)).
    { intros j Hj. apply generic_format_bpow. unfold SpecFloat.fexp, SpecFloat.emin. lia. }
    rewrite <- bpow_plus. unfold rnd at 2. rewrite round_generic; [|apply valid_rnd_N|apply G; lia].
    replace (bpow radix2 (k + k)) with (bpow radix2 k * bpow radix2 k)%R by now rewrite bpow_plus.
    rewrite sqrt_square by apply bpow_ge_0.
    unfold rnd. rewrite round_generic; [lra|apply valid_rnd_N|apply G; lia].
  - assert (Nz : x <> 0%R) by lra.
    set (m := mag radix2 x) in *. pose proof (bpow_mag_gt radix2 x) as Bg. pose proof (bpow_mag_le radix2 x Nz) as Bl.
    fold m in Bg, Bl. rewrite Rabs_pos_eq in Bg, Bl by lra.
    assert (Gm : -511 < m).
    { apply (lt_bpow radix2). lra. }
    set (U := bpow radix2 (m - 53)).
    assert (Ulp : ulp radix2 fexp x = U).
    { rewrite ulp_neq_0 by exact Nz. unfold cexp. fold m. unfold U. f_equal.
      unfold SpecFloat.fexp, SpecFloat.emin. lia. }
    assert (XU : (x + U <= bpow radix2 m)%R).
    { rewrite <- Ulp. apply id_p_ulp_le_bpow; auto. }
    assert (UM : (bpow radix2 m * u = U)%R) by (unfold U; rewrite <- bpow_plus; reflexivity).
    assert (UU : (u * x + u * U <= U)%R) by nra.
    assert (Pu : (0 < U)%R) by apply bpow_gt_0.
    assert (UG : (u * (1 + u) * x < U)%R).
    { assert ((1 - u) * U >= u * x)%R by nra. 
      assert (P1 : (0 < u * u)%R) by nra. assert (P2 : (0 < u * x)%R) by nra.
      assert (P3 : (0 < (u * x) * (u * u))%R) by (apply Rmult_lt_0_compat; assumption).
      apply (Rmult_lt_reg_r (1 - u)); [lra|].
      replace (u * (1 + u) * x * (1 - u))%R with (u * x - (u * x) * (u * u))%R by ring. lra. }
    (* the rounded square *)
    destruct (relative_error_N_FLT_ex radix2 (-1074) 53 eq_refl (fun n => negb (Z.even n)) (x * x)) as (d & Hd & Er).
    { rewrite Rabs_pos_eq by nra. change (-1074 + 53 - 1) with (-511 + -511). rewrite bpow_plus.
      pose proof (bpow_gt_0 radix2 (-511)). nra. }
    change (round radix2 (FLT_exp (-1074) 53) ZnearestE (x * x)) with (rnd (x * x)) in Er.
    replace (/ 2 * bpow radix2 (- (53) + 1))%R with u in Hd
      by (change (- (53) + 1) with (-52); change (-53) with (-1 + -52); rewrite bpow_plus; cbn [bpow]; f_equal).
    apply Rabs_le_inv in Hd. destruct Hd as [Hd _].
    set (z := rnd (x * x)) in *. clearbody z.
    assert (Xx : (0 < x * x)%R) by (apply Rmult_lt_0_compat; exact X0).
    assert (Zg : (x * x * (1 - u) <= z)%R) by (rewrite Er; apply Rmult_le_compat_l; lra).
    set (c := (1 - u / 2 - u * u / 2)%R).
    assert (C0 : (0 < c)%R) by (unfold c; nra).
    assert (Cc : (c * c <= 1 - u)%R).
    { assert (P1 : (0 < u * u)%R) by (apply Rmult_lt_0_compat; lra).
      assert (P2 : (u * u <= u * (1 / 2))%R) by (apply Rmult_le_compat_l; lra).
      assert (P3 : (0 < u * u * u)%R) by (apply Rmult_lt_0_compat; lra).
      assert (P4 : (u * u * u <= u * u * (1 / 2))%R) by (apply Rmult_le_compat_l; lra).
      assert (P5 : (u * u * u * u <= u * u * u * (1 / 2))%R) by (apply Rmult_le_compat_l; lra).
      unfold c. replace ((1 - u / 2 - u * u / 2) * (1 - u / 2 - u * u / 2))%R
        with (1 - u - 3 / 4 * (u * u) + 1 / 2 * (u * u * u) + 1 / 4 * (u * u * u * u))%R by field. lra. }
    assert (Y : (x * c <= sqrt z)%R).
    { rewrite <- (sqrt_square (x * c)) by nra. apply sqrt_le_1_alt.
      apply Rle_trans with (x * x * (1 - u))%R; [|exact Zg].
      replace (x * c * (x * c))%R with (x * x * (c * c))%R by ring. apply Rmult_le_compat_l; lra. }
    assert (Yg : (x - U / 2 < sqrt z)%R) by (unfold c in Y; lra).
    unfold rnd. apply round_N_ge_midp; [apply fexp_correct; reflexivity|exact Fx|].
    rewrite pred_eq_pos by lra. unfold pred_pos. fold m.
    rewrite Req_bool_false by exact Nx. rewrite Ulp. lra.
Qed.

(** The length of a leg is never above the computed hypotenuse. *)
Lemma sqrt_sq_ge r v : is_round r v -> (bpow radix2 (-511) <= r)%R ->
  f64_le v (f64_sqrt (f64_mul v v)) = true.
Proof.
  intros H Lr. pose proof (sq_pos r v H) as Ps. pose proof (is_round_num _ _ H) as [Wv Nv].
  destruct H as [W [(F & E & B)|[(-> & B)|(-> & B)]]].
  - pose proof (mul_round v v W W F F) as M.
    assert (Lx : (bpow radix2 (-511) <= f64_R v)%R).
    { rewrite E. apply rnd_le in Lr. unfold rnd in Lr at 1. rewrite round_generic in Lr; [exact Lr|apply valid_rnd_N|].
      apply generic_format_bpow. unfold SpecFloat.fexp, SpecFloat.emin. lia. }
    destruct M as [Wm [(Fm & Em & Bm)|[(Em & Bm)|(Em & Bm)]]].
    + assert (Hm : (0 <= f64_R (f64_mul v v))%R).
      { rewrite Em. rewrite <- rnd_0. apply rnd_le. nra. }
      pose proof (sqrt_finite _ Wm Fm Hm) as S.
      destruct S as [Ws [(Fs & Es & Bs)|[(Es & Bs)|(Es & Bs)]]].
      * apply le_R; auto. rewrite Es, Em. apply sqrt_square_round; [|exact Lx].
        apply generic_format_B2R.
      * rewrite Es. now apply pinf_ge.
      * exfalso. assert (H0 : (0 < huge)%R) by apply bpow_gt_0.
        assert (0 <= rnd (sqrt (f64_R (f64_mul v v))))%R by (rewrite <- rnd_0; apply rnd_le, sqrt_pos). lra.
    + rewrite Em, sqrt_pinf. now apply pinf_ge.
    + exfalso. assert (H0 : (0 < huge)%R) by apply bpow_gt_0.
      assert (0 <= rnd (f64_R v * f64_R v))%R by (rewrite <- rnd_0; apply rnd_le; nra). lra.
  - rewrite sq_pinf, sqrt_pinf. reflexivity.
  - exfalso. assert (H0 : (0 < huge)%R) by apply bpow_gt_0.
    assert (0 <= rnd r)%R.
    { rewrite <- rnd_0. apply rnd_le. pose proof (bpow_gt_0 radix2 (-511)). lra. }
    lra.
Qed.
