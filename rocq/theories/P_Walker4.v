(** Proofs about planar/makevalid/walker: on small integers the comparisons are exact *)
From Coq Require Import ZArith Bool List Lia Reals Lra Psatz.
From Flocq Require Import Core.Core.
From Verif Require Import Base_Res Base_F64 Base_F64Arith Base_Geom M_Geom M_Extent M_Cmp M_Planar M_Triangle M_Winding M_Walker
  P_F64 P_F64Flocq P_F64Round P_F64Grid P_F64Err P_F64Sqrt S_Intersect S_Walker S_Cmp P_Cmp P_CmpR P_Cmp2 P_Cmp3 P_Intersect P_Intersect3 P_Intersect4 P_Ring.
Import ListNotations.
Local Open Scope R_scope.

Lemma hi_tol : tol hi_cmp = nano. Proof. reflexivity. Qed.
Lemma hi_bits : bit_tol hi_cmp = 4503600%Z. Proof. vm_compute. reflexivity. Qed.
Lemma hi_is : hi_cmp = nano_compare. Proof. vm_compute. reflexivity. Qed.
Lemma nano_R : f64_R nano < / 100000000.
Proof. vm_compute. lra. Qed.

(** Equal within the tolerance means close, whatever the size of the second. *)
Lemma hi_gap u v : f64_wf u = true -> f64_finite u = true -> f64_wf v = true -> f64_finite v = true ->
  Rabs (f64_R u) <= 4096 -> Rabs (f64_R v) <= bpow radix2 40 -> cmp_float hi_cmp u v = true -> Rabs (f64_R u - f64_R v) < / 100000.
Proof.
  intros Wu Fu Wv Fv Bu Bv E. assert (Hu : Rabs (f64_R u) <= bpow radix2 40) by (change (bpow radix2 40) with 1099511627776; lra).
  destruct (f64_eq u f64_zero || f64_eq v f64_zero) eqn:Z0.
  - unfold cmp_float in E. rewrite !finite_not_inf in E by assumption. cbn [orb] in E. rewrite Z0 in E.
    pose proof (sub_round v u Wv Wu Fv Fu) as S.
    assert (X : f64_R v - f64_R u = f64_R v \/ f64_R v - f64_R u = - f64_R u).
    { apply orb_true_iff in Z0 as [K|K]; apply zero_R in K; auto; rewrite K; [left|right]; ring. }
    destruct S as [Ws [(Fs & Rs & _)|S]].
    + destruct (abs_R _ Ws Fs) as (Wa & Fa & Ra). rewrite hi_tol in E.
      apply lt_R in E; [|assumption|reflexivity|assumption|reflexivity]. rewrite Ra, Rs in E. pose proof nano_R.
      assert (Q : rnd (f64_R v - f64_R u) = f64_R v - f64_R u).
      { destruct X as [X|X]; rewrite X; [now apply rnd_id|]. rewrite rnd_opp. f_equal. now apply rnd_id. }
      rewrite Q, Rabs_minus_sym in E. clear - E H. lra.
    + exfalso. assert (Hb : Rabs (rnd (f64_R v - f64_R u)) <= bpow radix2 40).
      { apply rnd_bound; [lia|]. destruct X as [X|X]; rewrite X, ?Rabs_Ropp; assumption. }
      assert (Hh : huge > bpow radix2 40) by (apply bpow_lt; reflexivity).
      apply Rabs_le_inv in Hb. clear - Hb Hh S. destruct S as [(_ & S)|(_ & S)]; lra.
  - apply orb_false_iff in Z0 as [Zu Zv].
    assert (Nu : finite_nonzero u) by (repeat split; auto; [now apply finite_nn|now apply finite_not_inf]).
    assert (Nv : finite_nonzero v) by (repeat split; auto; [now apply finite_nn|now apply finite_not_inf]).
    destruct (float_equal_close hi_cmp u v) as [H|H]; try assumption.
    + rewrite hi_bits. lia.
    + rewrite hi_bits in H. assert (K : 0 <= IZR 4503600 * / 2 ^ 52 <= / 900000000) by lra.
      revert H K. generalize (IZR 4503600 * / 2 ^ 52). intros d H K. clear - Bu H K.
      assert (D : Rabs (f64_R v) <= Rabs (f64_R u) + Rabs (f64_R u - f64_R v)).
      { replace (f64_R v) with (f64_R u - (f64_R u - f64_R v)) at 1 by ring. eapply Rle_trans; [apply Rabs_triang|rewrite Rabs_Ropp; lra]. }
      revert D H. generalize (Rabs_pos (f64_R u)) (Rabs_pos (f64_R u - f64_R v)). revert Bu.
      generalize (Rabs (f64_R u)) (Rabs (f64_R v)) (Rabs (f64_R u - f64_R v)). intros a b c Ba Pa Pc D H.
      assert (M : Rmax a b <= a + c) by (apply Rmax_lub; lra).
      assert (M2 : d * Rmax a b <= / 900000000 * (a + c)).
      { apply Rmult_le_compat; try lra. apply Rle_trans with a; [exact Pa|apply Rmax_l]. }
      lra.
    + rewrite hi_bits in H. assert (K : / 2 ^ 1074 <= / 2 ^ 52).
      { apply Rinv_le_contravar; [apply pow_lt; lra|]. apply Rle_pow; [lra|]. apply Nat.leb_le. reflexivity. }
      assert (L : IZR 4503600 * / 2 ^ 1074 <= IZR 4503600 * / 2 ^ 52) by (apply Rmult_le_compat_l; lra).
      clear K. revert H L. generalize (/ 2 ^ 1074). intros t H L. lra.
Qed.

Lemma hi_int n m u v : repr 0 n u -> repr 0 m v -> (Z.abs n <= 4096)%Z -> (Z.abs m <= 4096)%Z -> cmp_float hi_cmp u v = true -> n = m.
Proof.
  intros U V Bn Bm E. destruct (repr_int _ _ U) as (Wu & Fu & Ru), (repr_int _ _ V) as (Wv & Fv & Rv).
  apply hi_gap in E; try assumption.
  - rewrite Ru, Rv, <- minus_IZR, <- abs_IZR in E. destruct (Z.eq_dec n m) as [H|H]; [exact H|exfalso].
    assert (K : (1 <= Z.abs (n - m))%Z) by lia. apply IZR_le in K. lra.
  - rewrite Ru, <- abs_IZR. apply IZR_le. lia.
  - rewrite Rv, <- abs_IZR. change (bpow radix2 40) with (IZR (2 ^ 40)). apply IZR_le. lia.
Qed.

(** The value of the line at [x] is right to 2^-24. *)
Lemma line_value x1 y1 x y m dx dy : ap (dy / dx) (bpow radix2 (-40)) m ->
  f64_wf x1 = true -> f64_finite x1 = true -> f64_wf y1 = true -> f64_finite y1 = true -> f64_wf x = true -> f64_finite x = true ->
  Rabs (f64_R x1) <= 4096 -> Rabs (f64_R y1) <= 4096 -> Rabs (f64_R x) <= 4096 -> Rabs (dy / dx) <= 8192 ->
  y = f64_add (f64_mul m x) (f64_sub y1 (f64_mul m x1)) ->
  ap (dy / dx * f64_R x + (f64_R y1 - dy / dx * f64_R x1)) (/ 1000000) y.
Proof.
  intros M Wx1 Fx1 Wy1 Fy1 Wx Fx B1 By B Bm ->.
  assert (P40 : bpow radix2 (-40) = / 1099511627776) by reflexivity. rewrite P40 in M.
  assert (Mb : forall r, Rabs r <= 4096 -> Rabs (dy / dx * r) <= 33554432).
  { intros r Hr. rewrite Rabs_mult. replace 33554432 with (8192 * 4096) by lra. apply Rmult_le_compat; auto using Rabs_pos. }
  assert (Db : forall r, Rabs r <= 4096 -> / 1099511627776 * Rabs r <= / 268435456).
  { intros r Hr. apply Rle_trans with (/ 1099511627776 * 4096); [apply Rmult_le_compat_l; lra|lra]. }
  assert (Q26 : bpow radix2 26 = 67108864) by reflexivity. assert (Q27 : bpow radix2 27 = 134217728) by reflexivity. 
  assert (U26 : bpow radix2 (26 - 53) = / 134217728) by reflexivity. assert (U27 : bpow radix2 (27 - 53) = / 67108864) by reflexivity.
  assert (M1 : ap (dy / dx * f64_R x1) (/ 50000000) (f64_mul m x1)).
  { eapply ap_weaken; [apply (ap_mul 26 _ _ _ _ ltac:(lia) M Wx1 Fx1)|].
    - rewrite Q26. pose proof (Mb _ B1). pose proof (Db _ B1). lra.
    - rewrite U26. pose proof (Db _ B1). lra. }
  assert (M2 : ap (dy / dx * f64_R x) (/ 50000000) (f64_mul m x)).
  { eapply ap_weaken; [apply (ap_mul 26 _ _ _ _ ltac:(lia) M Wx Fx)|].
    - rewrite Q26. pose proof (Mb _ B). pose proof (Db _ B). lra.
    - rewrite U26. pose proof (Db _ B). lra. }
  assert (S1 : ap (f64_R y1 - dy / dx * f64_R x1) (/ 20000000) (f64_sub y1 (f64_mul m x1))).
  { eapply ap_weaken; [apply (ap_sub 26 _ _ _ _ _ _ ltac:(lia) (ap_exact y1 Wy1 Fy1) M1)|].
    - rewrite Q26. pose proof (Mb _ B1). pose proof (Rabs_triang (f64_R y1) (- (dy / dx * f64_R x1))) as T. rewrite Rabs_Ropp in T. unfold Rminus. lra.
    - rewrite U26. lra. }
  eapply ap_weaken; [apply (ap_add 27 _ _ _ _ _ _ ltac:(lia) M2 S1)|].
  - rewrite Q27. pose proof (Mb _ B1). pose proof (Mb _ B). pose proof (Rabs_triang (f64_R y1) (- (dy / dx * f64_R x1))) as T. rewrite Rabs_Ropp in T.
    pose proof (Rabs_triang (dy / dx * f64_R x) (f64_R y1 - dy / dx * f64_R x1)). unfold Rminus in *. lra.
  - rewrite U27. lra.
Qed.

Lemma collinear_gap (a1 b1 a2 b2 a b : Z) : a1 <> a2 -> (Z.abs a1 <= 4096)%Z -> (Z.abs a2 <= 4096)%Z ->
  Rabs (IZR b - ((IZR b2 - IZR b1) / (IZR a2 - IZR a1) * IZR a + (IZR b1 - (IZR b2 - IZR b1) / (IZR a2 - IZR a1) * IZR a1))) < / 10000 ->
  ((b - b1) * (a2 - a1) = (b2 - b1) * (a - a1))%Z.
Proof.
  intros N B1 B2 H. assert (Nr : IZR a2 - IZR a1 <> 0) by (rewrite <- minus_IZR; apply IZR_neq; lia).
  set (D := IZR a2 - IZR a1) in *.
  replace (IZR b - ((IZR b2 - IZR b1) / D * IZR a + (IZR b1 - (IZR b2 - IZR b1) / D * IZR a1))) with
    (((IZR b - IZR b1) * D - (IZR b2 - IZR b1) * (IZR a - IZR a1)) / D) in H by (field; exact Nr).
  unfold Rdiv in H. rewrite Rabs_mult, Rabs_inv in H.
  assert (Dp : 0 < Rabs D <= 8192).
  { split; [now apply Rabs_pos_lt|]. unfold D. rewrite <- minus_IZR, <- abs_IZR. apply IZR_le. lia. }
  assert (K : Rabs ((IZR b - IZR b1) * D - (IZR b2 - IZR b1) * (IZR a - IZR a1)) < 1).
  { apply Rmult_lt_compat_r with (r := Rabs D) in H; [|apply Dp]. rewrite Rmult_assoc, Rinv_l, Rmult_1_r in H by lra. lra. }
  unfold D in K. rewrite <- !minus_IZR, <- !mult_IZR, <- minus_IZR, <- abs_IZR in K. apply lt_IZR in K. lia.
Qed.

Lemma r0 : (-1074 <= 0 <= 970)%Z. Proof. lia. Qed.
Lemma r13 : (-1021 <= 13 <= 1023)%Z. Proof. lia. Qed.
Lemma line_int p a b : small_int p -> small_int a -> small_int b -> is_point_on_line hi_cmp p a b = true ->
  areaR [rpt a; rpt p; rpt b] = 0.
Proof.
  destruct p as [x y], a as [x1 y1], b as [x2 y2].
  intros (n & m & X & Y & Bn & Bm) (n1 & m1 & X1 & Y1 & Bn1 & Bm1) (n2 & m2 & X2 & Y2 & Bn2 & Bm2) H.
  cbn [fst snd] in *. unfold rpt. cbn [fst snd].
  assert (L1 : (Z.abs (n2 - n1) <= two53)%Z) by (clear - Bn1 Bn2; unfold two53; lia). assert (L2 : (Z.abs (m2 - m1) <= two53)%Z) by (clear - Bm1 Bm2; unfold two53; lia).
  pose proof (repr_sub 0 n2 n1 _ _ r0 L1 X2 X1) as DX. pose proof (repr_sub 0 m2 m1 _ _ r0 L2 Y2 Y1) as DY.
  pose proof (repr_eq_zero _ _ _ DX) as ZX. pose proof (repr_eq_zero _ _ _ DY) as ZY.
  destruct (repr_int _ _ X) as (Wx & Fx & Rx), (repr_int _ _ Y) as (Wy & Fy & Ry).
  destruct (repr_int _ _ X1) as (Wx1 & Fx1 & Rx1), (repr_int _ _ Y1) as (Wy1 & Fy1 & Ry1).
  destruct (repr_int _ _ X2) as (Wx2 & Fx2 & Rx2), (repr_int _ _ Y2) as (Wy2 & Fy2 & Ry2).
  unfold is_point_on_line, slope in H. cbn [fst snd] in H. rewrite ZX, ZY in H. unfold f64_ne in H. rewrite ZX in H.
  assert (Goal1 : ((m - m1) * (n2 - n1) = (m2 - m1) * (n - n1))%Z -> areaR [(f64_R x1, f64_R y1); (f64_R x, f64_R y); (f64_R x2, f64_R y2)] = 0).
  { intros C. rewrite Rx, Ry, Rx1, Ry1, Rx2, Ry2. cbn. unfold crossR. cbn [fst snd]. apply (f_equal IZR) in C.
    rewrite !mult_IZR, !minus_IZR in C. clear - C. lra. }
  destruct (Z.eqb_spec (n2 - n1) 0) as [Dn|Dn].
  - cbn [orb negb] in H. apply Goal1. rewrite (hi_int n n1 x x1) by assumption. rewrite Dn. ring.
  - destruct (Z.eqb_spec (m2 - m1) 0) as [Dm|Dm].
    + cbn [orb negb] in H. change (f64_eq f64_zero f64_zero) with true in H. cbv iota in H.
      apply Goal1. rewrite (hi_int m m1 y y1) by assumption. rewrite Dm. ring.
    + cbn [orb negb] in H. 
      destruct (repr_int _ _ DX) as (Wd & Fd & Rd), (repr_int _ _ DY) as (We & Fe & Re).
      assert (Nd : f64_R (f64_sub x2 x1) <> 0) by (rewrite Rd; apply IZR_neq; exact Dn).
      assert (Dq : 1 <= Rabs (f64_R (f64_sub x2 x1))) by (rewrite Rd, <- abs_IZR; apply IZR_le; clear - Dn; lia).
      assert (Eq1 : 1 <= Rabs (f64_R (f64_sub y2 y1)) <= 8192) by (rewrite Re, <- abs_IZR; split; apply IZR_le; clear - Dm Bm1 Bm2; lia).
      assert (Dq2 : Rabs (f64_R (f64_sub x2 x1)) <= 8192) by (rewrite Rd, <- abs_IZR; apply IZR_le; clear - Bn1 Bn2; lia).
      assert (Bq : Rabs (f64_R (f64_sub y2 y1) / f64_R (f64_sub x2 x1)) <= 8192).
      { clear - Dq Eq1. unfold Rdiv. rewrite Rabs_mult, Rabs_inv. apply Rle_trans with (8192 * 1); [|lra]. apply Rmult_le_compat; [apply Rabs_pos|left; apply Rinv_0_lt_compat; lra|lra|].
        rewrite <- Rinv_1. apply Rinv_le_contravar; lra. }
      assert (Lq : / 8192 <= Rabs (f64_R (f64_sub y2 y1) / f64_R (f64_sub x2 x1))).
      { clear - Dq Dq2 Eq1. unfold Rdiv. rewrite Rabs_mult, Rabs_inv. apply Rle_trans with (1 * / 8192); [lra|]. apply Rmult_le_compat; [lra|lra|lra|].
        apply Rinv_le_contravar; lra. }
      assert (M : ap (f64_R (f64_sub y2 y1) / f64_R (f64_sub x2 x1)) (bpow radix2 (-40)) (f64_div (f64_sub y2 y1) (f64_sub x2 x1))).
      { eapply ap_weaken; [apply (ap_div 13 _ _ _ _ r13 (ap_exact _ We Fe) Wd Fd Nd)|].
        - unfold Rdiv at 2. rewrite Rmult_0_l, Rplus_0_r. change (bpow radix2 13) with 8192. exact Bq.
        - unfold Rdiv. rewrite Rmult_0_l, Rplus_0_l. apply Rle_refl. }
      destruct (f64_eq (f64_div (f64_sub y2 y1) (f64_sub x2 x1)) f64_zero) eqn:Zm.
      * exfalso. destruct M as (Wm & Fm & Em). apply zero_R in Zm; [|assumption|assumption]. rewrite Zm in Em.
        change (bpow radix2 (-40)) with (/ 1099511627776) in Em. unfold Rminus in Em. rewrite Rplus_0_l, Rabs_Ropp in Em. clear - Em Lq. lra.
      * assert (A1 : Rabs (f64_R x1) <= 4096) by (rewrite Rx1, <- abs_IZR; apply IZR_le; exact Bn1).
        assert (A2 : Rabs (f64_R y1) <= 4096) by (rewrite Ry1, <- abs_IZR; apply IZR_le; exact Bm1).
        assert (A3 : Rabs (f64_R x) <= 4096) by (rewrite Rx, <- abs_IZR; apply IZR_le; exact Bn).
        assert (A4 : Rabs (f64_R y) <= 4096) by (rewrite Ry, <- abs_IZR; apply IZR_le; exact Bm).
        pose proof (line_value x1 y1 x _ _ _ _ M Wx1 Fx1 Wy1 Fy1 Wx Fx A1 A2 A3 Bq eq_refl) as (Wv & Fv & Ev).
        apply Goal1. apply collinear_gap; [clear - Dn; lia|assumption|assumption|].
        apply hi_gap in H; try assumption.
        -- rewrite Rd, Re, Rx, Rx1, Ry1, !minus_IZR in Ev. rewrite Ry in H.
           revert Ev H. match goal with |- context [Rabs (f64_R ?w - ?t)] => generalize (f64_R w) t end. intros w t Ev H. clear - Ev H.
           replace (IZR m - t) with ((IZR m - w) + (w - t)) by ring. eapply Rle_lt_trans; [apply Rabs_triang|]. lra.
        -- revert Ev. match goal with |- context [Rabs (f64_R ?w - ?t)] => generalize (f64_R w) end. intros w Ev.
           assert (Bt : Rabs (f64_R (f64_sub y2 y1) / f64_R (f64_sub x2 x1) * f64_R x + (f64_R y1 - f64_R (f64_sub y2 y1) / f64_R (f64_sub x2 x1) * f64_R x1)) <= 67120000).
           { assert (Mb : forall r, Rabs r <= 4096 -> Rabs (f64_R (f64_sub y2 y1) / f64_R (f64_sub x2 x1) * r) <= 33554432).
             { intros r Hr. rewrite Rabs_mult. clear - Bq Hr. replace 33554432 with (8192 * 4096) by lra. apply Rmult_le_compat; auto using Rabs_pos. }
             pose proof (Mb _ A3) as Q1. pose proof (Mb _ A1) as Q2. revert Q1 Q2. generalize (f64_R (f64_sub y2 y1) / f64_R (f64_sub x2 x1)). intros q Q1 Q2.
             pose proof (Rabs_triang (f64_R y1) (- (q * f64_R x1))) as T. rewrite Rabs_Ropp in T.
             pose proof (Rabs_triang (q * f64_R x) (f64_R y1 - q * f64_R x1)). unfold Rminus in *. clear - T H0 Q1 Q2 A2. lra. }
           revert Ev Bt. match goal with |- Rabs (w - ?t) <= _ -> _ => generalize t end. intros t Ev Bt.
           change (bpow radix2 40) with 1099511627776. replace w with ((w - t) + t) by ring. eapply Rle_trans; [apply Rabs_triang|]. clear - Ev Bt. lra.
Qed.

Theorem small_int_exact r : Forall small_int r -> exact_on hi_cmp r.
Proof.
  intros F. rewrite Forall_forall in F. split.
  - intros p q Ip Iq H. destruct (F p Ip) as (n & m & X & Y & Bn & Bm), (F q Iq) as (n' & m' & X' & Y' & Bn' & Bm').
    unfold point_equal in H. apply andb_prop in H. destruct H as [H1 H2].
    apply (hi_int n n') in H1; try assumption. apply (hi_int m m') in H2; try assumption. subst n' m'. unfold rpt.
    destruct X as (_ & _ & X), X' as (_ & _ & X'), Y as (_ & _ & Y), Y' as (_ & _ & Y'). congruence.
  - intros p a b Ip Ia Ib. apply line_int; auto.
Qed.
Lemma small_int_finite r : Forall small_int r -> Forall finite_pt r.
Proof. apply Forall_impl. intros p (n & m & (A & B & _) & (C & D & _) & _). repeat split; assumption. Qed.
