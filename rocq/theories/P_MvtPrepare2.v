(** Proofs about PrepareGeo: the sides of the tile, order, exact pixels *)
From Coq Require Import ZArith Bool List Lia Reals Lra.
From Flocq Require Import Core.Core Plus_error IEEE754.BinarySingleNaN.
From Verif Require Import Base_Res Base_F64 Base_F64Arith Base_Geom P_F64 P_F64Flocq P_F64Round P_F64Grid M_Extent M_Cmp M_MvtPrepare S_MvtPrepare P_MvtPrepare.
Import ListNotations.
Open Scope R_scope.

(** A value between rounded values. *)
Lemma round_within lo hi r w : is_round r w -> rnd lo <= rnd r <= rnd hi -> Rabs (rnd lo) < huge -> Rabs (rnd hi) < huge ->
  f64_wf w = true /\ f64_finite w = true /\ f64_R w = rnd r.
Proof.
  intros [W [(F & E & _)|[(-> & C)|(-> & C)]]] [A B] L H; [auto| |]; apply Rabs_lt_inv in L; apply Rabs_lt_inv in H; lra.
Qed.
Lemma huge_pos : 0 < huge. Proof. apply bpow_gt_0. Qed.
Lemma rnd_1 : rnd 1 = 1.
Proof.
  assert (E : f64_R (f64_ofZ 1) = 1) by (destruct (repr_ofZ 1) as (_ & _ & ->); [vm_compute; discriminate|cbn; lra]).
  rewrite <- E. apply rnd_id; reflexivity.
Qed.

(** What the two coordinates have in common: [n] is the rounded difference, [s] the span *)
Section Coordinate.
  Variables (s p : f64).
  Hypotheses (Ws : f64_wf s = true) (Fs : f64_finite s = true) (Ps : 0 < f64_R s).
  Hypotheses (Wp : f64_wf p = true) (Fp : f64_finite p = true) (Pp : 0 <= f64_R p).
  Let q (n : f64) : f64 := f64_mul (f64_div n s) p.
  Lemma q_value n : f64_wf n = true -> f64_finite n = true -> 0 <= f64_R n <= f64_R s ->
    f64_wf (q n) = true /\ f64_finite (q n) = true /\ f64_R (q n) = rnd (rnd (f64_R n / f64_R s) * f64_R p) /\
    0 <= f64_R (q n) <= f64_R p.
  Proof.
    intros Wn Fn [L H]. unfold q.
    assert (D : 0 <= f64_R n / f64_R s <= 1).
    { split; [apply Rmult_le_pos; [assumption|left; now apply Rinv_0_lt_compat]|].
      apply (Rmult_le_reg_r (f64_R s)); [assumption|]. unfold Rdiv. rewrite Rmult_assoc, Rinv_l, Rmult_1_r, Rmult_1_l by lra. assumption. }
    assert (D' : 0 <= rnd (f64_R n / f64_R s) <= 1).
    { split; [rewrite <- rnd_0|rewrite <- rnd_1]; apply rnd_le; lra. }
    destruct (round_within 0 1 _ _ (div_round n s Wn Ws Fn Fs ltac:(lra)) ltac:(split; apply rnd_le; lra)
                ltac:(rewrite rnd_0, Rabs_R0; apply huge_pos)
                ltac:(rewrite rnd_1, Rabs_R1; apply (bpow_lt radix2 0 1024); reflexivity)) as (Wd & Fd & Ed).
    pose proof (finite_bound p Wp Fp) as Bp.
    assert (M : 0 <= rnd (f64_R n / f64_R s) * f64_R p <= f64_R p).
    { split; [apply Rmult_le_pos; tauto|]. rewrite <- (Rmult_1_l (f64_R p)) at 2. apply Rmult_le_compat_r; tauto. }
    pose proof (mul_round _ p Wd Wp Fd Fp) as Rm. rewrite Ed in Rm.
    destruct (round_within 0 (f64_R p) _ _ Rm ltac:(split; apply rnd_le; tauto)
                ltac:(rewrite rnd_0, Rabs_R0; apply huge_pos)
                ltac:(rewrite rnd_id by assumption; assumption)) as (Wm & Fm & Em).
    split; [exact Wm|]. split; [exact Fm|]. split; [exact Em|]. rewrite Em. split.
    - rewrite <- rnd_0. apply rnd_le. tauto.
    - pose proof (rnd_le _ _ (proj2 M)) as X. now rewrite (rnd_id p) in X by assumption.
  Qed.
  Lemma q_mono n m : f64_wf n = true -> f64_finite n = true -> f64_wf m = true -> f64_finite m = true ->
    0 <= f64_R n -> f64_R n <= f64_R m -> f64_R m <= f64_R s -> f64_R (q n) <= f64_R (q m).
  Proof.
    intros Wn Fn Wm Fm A B C.
    destruct (q_value n Wn Fn ltac:(lra)) as (_ & _ & -> & _). destruct (q_value m Wm Fm ltac:(lra)) as (_ & _ & -> & _).
    apply rnd_le, Rmult_le_compat_r; [assumption|]. apply rnd_le. unfold Rdiv. apply Rmult_le_compat_r; [|assumption].
    left. now apply Rinv_0_lt_compat.
  Qed.
  Lemma q_zero n : f64_wf n = true -> f64_finite n = true -> f64_R n = 0 -> f64_R (q n) = 0.
  Proof.
    intros Wn Fn Z. destruct (q_value n Wn Fn ltac:(lra)) as (_ & _ & -> & _). rewrite Z. unfold Rdiv. now rewrite Rmult_0_l, rnd_0, Rmult_0_l, rnd_0.
  Qed.
  Lemma q_one : f64_R (q s) = f64_R p.
  Proof.
    destruct (q_value s Ws Fs ltac:(lra)) as (_ & _ & -> & _). unfold Rdiv. rewrite Rinv_r, rnd_1, Rmult_1_l by lra. now apply rnd_id.
  Qed.
End Coordinate.

(** The difference to the side, for a value between the sides *)
Lemma side_diff a b v w s : f64_wf a = true -> f64_finite a = true -> f64_wf b = true -> f64_finite b = true ->
  f64_wf v = true -> f64_finite v = true -> f64_wf w = true -> f64_finite w = true ->
  s = f64_sub b a -> f64_finite s = true -> 0 <= f64_R v - f64_R w <= f64_R b - f64_R a ->
  let n := f64_sub v w in f64_wf n = true /\ f64_finite n = true /\ f64_R n = rnd (f64_R v - f64_R w) /\ 0 <= f64_R n <= f64_R s.
Proof.
  intros Wa Fa Wb Fb Wv Fv Ww Fw Es Fs H. cbn zeta.
  pose proof (sub_round b a Wb Wa Fb Fa) as Rs. rewrite <- Es in Rs.
  destruct Rs as [Ws [(_ & Er & Br)|[(-> & _)|(-> & _)]]]; [|discriminate Fs|discriminate Fs].
  destruct (round_within 0 (f64_R b - f64_R a) _ _ (sub_round v w Wv Ww Fv Fw) ltac:(split; apply rnd_le; lra)
              ltac:(rewrite rnd_0, Rabs_R0; apply huge_pos) Br) as (Wn & Fn & En).
  split; [exact Wn|]. split; [exact Fn|]. split; [exact En|]. rewrite En, Er. split; [rewrite <- rnd_0|]; apply rnd_le; lra.
Qed.

Lemma span_pos a b s : f64_wf a = true -> f64_finite a = true -> f64_wf b = true -> f64_finite b = true ->
  s = f64_sub b a -> f64_finite s = true -> f64_R a < f64_R b -> f64_wf s = true /\ 0 < f64_R s.
Proof.
  intros Wa Fa Wb Fb Es Fs L. pose proof (sub_round b a Wb Wa Fb Fa) as Rs. rewrite <- Es in Rs.
  destruct Rs as [Ws [(_ & Er & Br)|[(-> & _)|(-> & _)]]]; [|discriminate Fs|discriminate Fs].
  split; [exact Ws|]. rewrite Er.
  assert (Q : 0 <= rnd (f64_R b - f64_R a)) by (rewrite <- rnd_0; apply rnd_le; lra).
  destruct Q as [Q|Q]; [exact Q|exfalso].
  assert (G : forall w, generic_format radix2 (FLT_exp (-1074) 53) (f64_R w)) by (intros w; apply Binary.generic_format_B2R).
  assert (P53 : Prec_gt_0 53) by reflexivity.
  refine (round_plus_neq_0 radix2 (FLT_exp (-1074) 53) ZnearestE (f64_R b) (- f64_R a) (G b) _ _ _).
  - apply generic_format_opp, G.
  - lra.
  - symmetry. exact Q.
Qed.

Section InTile.
  Variables (e : extent) (p : f64).
  Hypotheses (Ft : finite_tile e) (Rt : real_spans e).
  Hypotheses (Wp : f64_wf p = true) (Fp : f64_finite p = true) (Pp : 0 <= f64_R p).

  Lemma corner_pixels :
    let tl := prepare_pt (Some e) p (e0 e, e3 e) in let br := prepare_pt (Some e) p (e2 e, e1 e) in
    f64_R (fst tl) = 0 /\ f64_R (snd tl) = 0 /\ f64_R (fst br) = f64_R p /\ f64_R (snd br) = f64_R p.
  Proof.
    destruct Ft as ((W0 & F0) & (W1 & F1) & (W2 & F2) & (W3 & F3)). destruct Rt as (Sx & Sy & Lx & Ly).
    destruct (span_pos _ _ _ W0 F0 W2 F2 eq_refl Sx Lx) as [Wx Px]. destruct (span_pos _ _ _ W1 F1 W3 F3 eq_refl Sy Ly) as [Wy Py].
    cbn zeta. unfold prepare_pt, minX, maxY. cbn [fst snd].
    pose proof (sub_round (e0 e) (e0 e) W0 W0 F0 F0) as R0. rewrite Rminus_diag_eq in R0 by reflexivity.
    pose proof (sub_round (e3 e) (e3 e) W3 W3 F3 F3) as R3. rewrite Rminus_diag_eq in R3 by reflexivity.
    destruct (round_zero _ R0) as (Wa & Fa & Za), (round_zero _ R3) as (Wb & Fb & Zb).
    repeat split; [apply q_zero|apply q_zero|apply q_one|apply q_one]; assumption.
  Qed.

  Lemma inside_pixels q : finite_pt q -> in_tile e q ->
    let r := prepare_pt (Some e) p q in
    f64_finite (fst r) = true /\ f64_finite (snd r) = true /\ 0 <= f64_R (fst r) <= f64_R p /\ 0 <= f64_R (snd r) <= f64_R p.
  Proof.
    destruct Ft as ((W0 & F0) & (W1 & F1) & (W2 & F2) & (W3 & F3)). destruct Rt as (Sx & Sy & Lx & Ly).
    intros ((Wa & Fa) & (Wb & Fb)) (Ix & Iy).
    destruct (span_pos _ _ _ W0 F0 W2 F2 eq_refl Sx Lx) as [Wx Px]. destruct (span_pos _ _ _ W1 F1 W3 F3 eq_refl Sy Ly) as [Wy Py].
    cbn zeta. unfold prepare_pt, minX, maxY. cbn [fst snd].
    destruct (side_diff (e0 e) (e2 e) (fst q) (e0 e) _ W0 F0 W2 F2 Wa Fa W0 F0 eq_refl Sx ltac:(lra)) as (Wn & Fn & _ & Bn).
    destruct (side_diff (e1 e) (e3 e) (e3 e) (snd q) _ W1 F1 W3 F3 W3 F3 Wb Fb eq_refl Sy ltac:(lra)) as (Wm & Fm & _ & Bm).
    destruct (q_value _ p Wx Sx Px Wp Fp Pp _ Wn Fn Bn) as (_ & A & _ & B).
    destruct (q_value _ p Wy Sy Py Wp Fp Pp _ Wm Fm Bm) as (_ & C & _ & D). auto.
  Qed.

  Lemma order_pixels q q' : finite_pt q -> finite_pt q' -> in_tile e q -> in_tile e q' ->
    let r := prepare_pt (Some e) p q in let r' := prepare_pt (Some e) p q' in
    (f64_R (fst q) <= f64_R (fst q') -> f64_R (fst r) <= f64_R (fst r')) /\
    (f64_R (snd q) <= f64_R (snd q') -> f64_R (snd r') <= f64_R (snd r)).
  Proof.
    destruct Ft as ((W0 & F0) & (W1 & F1) & (W2 & F2) & (W3 & F3)). destruct Rt as (Sx & Sy & Lx & Ly).
    intros ((Wa & Fa) & (Wb & Fb)) ((Wa' & Fa') & (Wb' & Fb')) (Ix & Iy) (Ix' & Iy').
    destruct (span_pos _ _ _ W0 F0 W2 F2 eq_refl Sx Lx) as [Wx Px]. destruct (span_pos _ _ _ W1 F1 W3 F3 eq_refl Sy Ly) as [Wy Py].
    cbn zeta. unfold prepare_pt, minX, maxY. cbn [fst snd].
    destruct (side_diff (e0 e) (e2 e) (fst q) (e0 e) _ W0 F0 W2 F2 Wa Fa W0 F0 eq_refl Sx ltac:(lra)) as (Wn & Fn & En & Bn).
    destruct (side_diff (e1 e) (e3 e) (e3 e) (snd q) _ W1 F1 W3 F3 W3 F3 Wb Fb eq_refl Sy ltac:(lra)) as (Wm & Fm & Em & Bm).
    destruct (side_diff (e0 e) (e2 e) (fst q') (e0 e) _ W0 F0 W2 F2 Wa' Fa' W0 F0 eq_refl Sx ltac:(lra)) as (Wn' & Fn' & En' & Bn').
    destruct (side_diff (e1 e) (e3 e) (e3 e) (snd q') _ W1 F1 W3 F3 W3 F3 Wb' Fb' eq_refl Sy ltac:(lra)) as (Wm' & Fm' & Em' & Bm').
    split; intros L; apply q_mono; try assumption; try tauto.
    - rewrite En, En'. apply rnd_le. lra.
    - rewrite Em, Em'. apply rnd_le. lra.
  Qed.
End InTile.

(** ** Integer tiles whose side is a power of two *)
Lemma exact_coordinate a b v w n s p : (0 <= a <= 53)%Z -> (0 <= b <= 53)%Z -> repr 0 v n -> (Z.abs v <= two53)%Z ->
  repr 0 (2 ^ a) s -> repr 0 (2 ^ b) p -> w = f64_mul (f64_div n s) p -> repr (b - a) v w.
Proof.
  intros Ha Hb (Wn & Fn & En) Bv (Ws & Fs & Es) (Wp & Fp & Ep) ->.
  assert (P : forall c, (0 <= c)%Z -> IZR (2 ^ c) = bpow radix2 c) by (intros c Hc; exact (IZR_Zpower radix2 c Hc)).
  rewrite P in Es, Ep by lia. change (bpow radix2 0) with 1 in En, Es, Ep. rewrite Rmult_1_r in En, Es, Ep.
  pose proof (bpow_gt_0 radix2 a).
  assert (D : repr (- a) v (f64_div n s)).
  { apply (is_round_repr (- a) v _ _ ltac:(lia) Bv (div_round n s Wn Ws Fn Fs ltac:(lra))). rewrite En, Es, bpow_opp. reflexivity. }
  destruct D as (Wd & Fd & Ed).
  apply (is_round_repr (b - a) v _ _ ltac:(lia) Bv (mul_round _ p Wd Wp Fd Fp)). rewrite Ed, Ep.
  rewrite Rmult_assoc, <- bpow_plus. do 2 f_equal. ring.
Qed.

Lemma exact_pixels a b e p q x0 y0 m n :
  (0 <= a <= 53)%Z -> (0 <= b <= 53)%Z -> repr 0 x0 (e0 e) -> repr 0 (y0 - 2 ^ a) (e1 e) -> repr 0 (x0 + 2 ^ a) (e2 e) -> repr 0 y0 (e3 e) ->
  repr 0 (2 ^ b) p -> repr 0 m (fst q) -> repr 0 n (snd q) -> (Z.abs (m - x0) <= 2 ^ 53)%Z -> (Z.abs (y0 - n) <= 2 ^ 53)%Z ->
  repr (b - a) (m - x0) (fst (prepare_pt (Some e) p q)) /\ repr (b - a) (y0 - n) (snd (prepare_pt (Some e) p q)).
Proof.
  intros Ha Hb R0 R1 R2 R3 Rp Rx Ry Bx By. fold two53 in Bx, By. unfold prepare_pt, minX, maxY, xspan, yspan. cbn [fst snd].
  assert (A : (Z.abs (2 ^ a) <= two53)%Z).
  { rewrite Z.abs_eq by (apply Z.pow_nonneg; lia). unfold two53. apply Z.pow_le_mono_r; lia. }
  split; (eapply (exact_coordinate a b); [exact Ha|exact Hb| | | |exact Rp|reflexivity]).
  - apply repr_sub; try assumption; lia.
  - assumption.
  - assert (Q : (x0 + 2 ^ a - x0 = 2 ^ a)%Z) by ring. rewrite <- Q. apply repr_sub; try assumption; try lia; now rewrite Q.
  - apply repr_sub; try assumption; lia.
  - assumption.
  - assert (Q : (y0 - (y0 - 2 ^ a) = 2 ^ a)%Z) by ring. rewrite <- Q at 1. apply repr_sub; try assumption; try lia; now rewrite Q.
Qed.
