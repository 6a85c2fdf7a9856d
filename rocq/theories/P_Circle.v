(** * Circles *)
From Coq Require Import ZArith Bool List Lia Reals Lra Psatz.
From Flocq Require Import Core.Core IEEE754.Binary Plus_error.
From Verif Require Import Base_Res Base_F64 Base_F64Arith Base_Geom M_Geom M_Extent M_Cmp M_Triangle
  S_Cmp S_Extent S_Intersect S_Winding S_Triangle
  P_F64 P_F64Flocq P_F64Round P_F64Grid P_F64Err P_F64X P_Cmp2 P_Extent P_Intersect4 P_Triangle.
Import ListNotations.
Open Scope Z_scope.

(** ** AsSegments *)
Lemma skipn_tail {A} (l : list A) : forall i p tl, skipn i l = p :: tl -> skipn (S i) l = tl.
Proof. induction l as [|x l IH]; intros [|i] p tl H; cbn in H; try discriminate; [now inversion H|]. apply (IH i p tl H). Qed.

Section Chain.
  Variable pos : nat -> nat -> pt.

  Lemma segments_ok k pts : forall rest i, length pts = k -> skipn i pts = rest ->
    (0 < k)%nat ->
    exists ls, segments_from k pts i rest = Ok ls /\ length ls = length rest /\
      forall j p, nth_error rest j = Some p ->
        exists q, nth_error pts ((i + j + k - 1) mod k) = Some q /\ nth_error ls j = Some (q, p).
  Proof.
    induction rest as [|p tl IH]; intros i L S K.
    - exists []. repeat split. intros [|j] p; discriminate.
    - assert (Hi : (i < k)%nat).
      { destruct (Nat.lt_ge_cases i k) as [H|H]; [exact H|]. rewrite <- L in H. apply skipn_all2 in H. congruence. }
      assert (S' : skipn (Datatypes.S i) pts = tl).
      { eapply skipn_tail, S. }
      destruct (IH (Datatypes.S i) L S' K) as (ls & E & Ll & H). cbn [segments_from].
      set (j0 := if (i =? 0)%nat then Z.of_nat k - 1 else Z.of_nat i - 1).
      assert (J : Z.to_nat j0 = ((i + 0 + k - 1) mod k)%nat /\ 0 <= j0).
      { unfold j0. destruct i as [|i'].
        - cbn [Nat.eqb]. split; [|lia]. rewrite Nat.mod_small by lia. lia.
        - cbn [Nat.eqb]. split; [|lia]. replace (Datatypes.S i' + 0 + k - 1)%nat with (i' + 1 * k)%nat by lia.
          rewrite Nat.mod_add by lia. rewrite Nat.mod_small by lia. lia. }
      destruct J as [J1 J2]. assert (Nj : (j0 <? 0) = false) by (apply Z.ltb_ge; exact J2). rewrite Nj, J1.
      destruct (nth_error pts ((i + 0 + k - 1) mod k)) as [q|] eqn:Q.
      + rewrite E. cbn [bind]. exists ((q, p) :: ls). split; [reflexivity|]. split; [cbn; now rewrite Ll|].
        intros [|j] p' N; cbn in N.
        * inversion N; subst. exists q. split; [exact Q|reflexivity].
        * destruct (H j p' N) as (q' & Q' & N'). exists q'. split; [|exact N'].
          rewrite <- Q'. f_equal. f_equal. lia.
      + exfalso. apply nth_error_None in Q. rewrite L in Q. pose proof (Nat.mod_upper_bound (i + 0 + k - 1) k). lia.
  Qed.

  Theorem segments_chain k : (3 <= k)%nat ->
    length (as_points pos k) = k /\ exists ls, as_segments pos k = Ok ls /\ closed_chain (as_points pos k) ls.
  Proof.
    intros K. assert (C : points_count k = k) by (unfold points_count; destruct (Nat.ltb_spec k 3); lia).
    assert (L : length (as_points pos k) = k) by (unfold as_points; now rewrite map_length, seq_length, C).
    split; [exact L|].
    destruct (segments_ok k (as_points pos k) (as_points pos k) 0 L eq_refl ltac:(lia)) as (ls & E & Ll & H).
    exists ls. split; [exact E|]. split; [exact Ll|]. intros i p N. rewrite L. apply (H i p N).
  Qed.

  Theorem segments_zero : as_segments pos 0 = Panic.
  Proof. reflexivity. Qed.

  Theorem segments_small k : (1 <= k < 3)%nat -> pos 30%nat (k - 1)%nat <> pos 30%nat 29%nat ->
    exists ls, as_segments pos k = Ok ls /\ length ls = 30%nat /\ ~ closed_chain (as_points pos k) ls.
  Proof.
    intros K N. assert (C : points_count k = 30%nat) by (unfold points_count; destruct (Nat.ltb_spec k 3); lia).
    destruct k as [|[|[|k]]]; try lia.
    - eexists. split; [reflexivity|]. split; [reflexivity|]. intros [_ H].
      destruct (H 0%nat _ eq_refl) as (q & Q & E). cbn in Q, E, N. congruence.
    - eexists. split; [reflexivity|]. split; [reflexivity|]. intros [_ H].
      destruct (H 0%nat _ eq_refl) as (q & Q & E). cbn in Q, E, N. congruence.
  Qed.

  Lemma points_default k : (k < 3)%nat -> as_points pos k = as_points pos 30.
  Proof. intros K. unfold as_points, points_count. destruct (Nat.ltb_spec k 3); [reflexivity|lia]. Qed.
End Chain.

(** ** The loop of CircleFromPoints *)
Lemma format_R w : f64_wf w = true -> f64_finite w = true -> generic_format radix2 (SpecFloat.fexp 53 1024) (f64_R w).
Proof. intros W F. apply Binary.generic_format_B2R. Qed.
Lemma rnd_sub_zero a b : f64_wf a = true -> f64_wf b = true -> f64_finite a = true -> f64_finite b = true ->
  rnd (f64_R a - f64_R b) = 0%R -> f64_R a = f64_R b.
Proof.
  intros Wa Wb Fa Fb H.
  destruct (Req_dec (f64_R a - f64_R b) 0) as [E|N]; [lra|exfalso].
  assert (V : Valid_exp (SpecFloat.fexp 53 1024)) by (apply FLT.FLT_exp_valid; reflexivity).
  assert (M : Exp_not_FTZ (SpecFloat.fexp 53 1024)) by (apply monotone_exp_not_FTZ; [exact V|apply FLT.FLT_exp_monotone]).
  apply (round_plus_neq_0 radix2 (SpecFloat.fexp 53 1024) ZnearestE (f64_R a) (- f64_R b)%R); [now apply format_R| |exact N|exact H].
  apply generic_format_opp. now apply format_R.
Qed.
Lemma sub_zero a b : f64_wf a = true -> f64_wf b = true -> f64_finite a = true -> f64_finite b = true ->
  f64_is0 (f64_sub a b) = true <-> f64_R a = f64_R b.
Proof.
  intros Wa Wb Fa Fb. unfold f64_is0. split; intros H.
  - rewrite eq_zero_xr in H by apply sub_wf. rewrite sub_xr, !xval_finite in H by assumption. cbn [xsub] in H.
    unfold xof in H. destruct (Rlt_bool_spec (Rabs (rnd (f64_R a - f64_R b))) huge); [|discriminate].
    cbn [xzero] in H. unfold zero_R in H. destruct (Req_bool_spec (rnd (f64_R a - f64_R b)) 0); [|discriminate]. now apply rnd_sub_zero.
  - rewrite eq_zero_xr by apply sub_wf. rewrite sub_xr, !xval_finite by assumption. cbn [xsub].
    rewrite H. unfold xof. rewrite Rminus_eq_0, rnd_0, Rabs_R0.
    destruct (Rlt_bool_spec 0 huge) as [K|K]; [apply zero_R_0|]. pose proof (bpow_gt_0 radix2 1024). unfold huge in K. lra.
Qed.

Lemma mul_zero_r a b : f64_wf a = true -> f64_wf b = true -> f64_finite a = true -> f64_finite b = true ->
  f64_R b = 0%R -> xval (f64_mul a b) = XR 0.
Proof.
  intros Wa Wb Fa Fb H. rewrite mul_xr, !xval_finite by assumption. cbn [xmul]. rewrite H.
  unfold xof. rewrite Rmult_0_r, rnd_0, Rabs_R0.
  destruct (Rlt_bool_spec 0 huge) as [K|K]; [reflexivity|]. pose proof (bpow_gt_0 radix2 1024). unfold huge in K. lra.
Qed.
Lemma zero_word w : f64_wf w = true -> xval w = XR 0 -> f64_eq w f64_zero = true.
Proof. intros W H. rewrite eq_zero_xr, H by exact W. apply zero_R_0. Qed.
Lemma eq_zeros a b : f64_eq a f64_zero = true -> f64_eq b f64_zero = true -> f64_eq a b = true.
Proof.
  unfold f64_eq. intros A B. apply andb_true_iff in A as [A1 A2], B as [B1 B2].
  apply andb_true_iff in A1 as [A0 A1], B1 as [B0 B1]. apply Z.eqb_eq in A2, B2.
  rewrite A0, B0. cbn. apply Z.eqb_eq. congruence.
Qed.

Section Loop.
  Context {T : Type} (sub : T -> T -> T) (isz : T -> bool).
  Notation rot := (rotate_points T sub isz).
  Lemma rotate_more n : forall a b c r m, rot n a b c = Some r -> (n <= m)%nat -> rot m a b c = Some r.
  Proof.
    induction n as [|n IH]; intros a b c r m H L; destruct m as [|m]; try lia; cbn in *;
      destruct (isz (sub (fst b) (fst a)) || isz (sub (fst c) (fst b))); try discriminate; auto.
    apply IH; [exact H|lia].
  Qed.
  Definition apart_x (a b : T * T) : Prop := isz (sub (fst b) (fst a)) = false.
  (** Two rotations are enough if equality of first coordinates is an equivalence
      and they are not all the same. *)
  Lemma rotate_two a b c :
    (forall p q, In p [a; b; c] -> In q [a; b; c] -> isz (sub (fst q) (fst p)) = isz (sub (fst p) (fst q))) ->
    (forall p q r, In p [a; b; c] -> In q [a; b; c] -> In r [a; b; c] ->
       isz (sub (fst q) (fst p)) = true -> isz (sub (fst r) (fst q)) = true -> isz (sub (fst r) (fst p)) = true) ->
    ~ (isz (sub (fst b) (fst a)) = true /\ isz (sub (fst c) (fst b)) = true) ->
    exists a' b' c', rot 2 a b c = Some (a', b', c') /\
      ((a', b', c') = (a, b, c) \/ (a', b', c') = (b, c, a) \/ (a', b', c') = (c, a, b)) /\
      apart_x a' b' /\ apart_x b' c'.
  Proof.
    intros S Tr N. unfold apart_x.
    assert (Sca := S a c ltac:(cbn; tauto) ltac:(cbn; tauto)).
    assert (Scb := S b c ltac:(cbn; tauto) ltac:(cbn; tauto)).
    assert (Sab := S a b ltac:(cbn; tauto) ltac:(cbn; tauto)).
    assert (T1 := Tr c a b ltac:(cbn; tauto) ltac:(cbn; tauto) ltac:(cbn; tauto)).
    assert (T2 := Tr b c a ltac:(cbn; tauto) ltac:(cbn; tauto) ltac:(cbn; tauto)).
    cbn [rotate_points].
    destruct (isz (sub (fst b) (fst a))) eqn:E1; destruct (isz (sub (fst c) (fst b))) eqn:E2; cbn [orb].
    - exfalso. auto.
    - destruct (isz (sub (fst a) (fst c))) eqn:E3; cbn [orb].
      + exfalso. assert (K : isz (sub (fst b) (fst c)) = true) by auto. congruence.
      + exists b, c, a. repeat split; auto.
    - destruct (isz (sub (fst a) (fst c))) eqn:E3; cbn [orb].
      + exfalso. assert (K : isz (sub (fst a) (fst b)) = true) by auto. congruence.
      + exists c, a, b. repeat split; auto.
    - exists a, b, c. repeat split; auto.
  Qed.
End Loop.

Theorem circle_terminates a b c : finite_pt a -> finite_pt b -> finite_pt c ->
  f64_finite (f64_sub (snd b) (snd a)) = true -> f64_finite (f64_sub (snd c) (snd b)) = true ->
  exists r, forall fuel, (2 <= fuel)%nat -> circle_from_points fuel a b c = Some r.
Proof.
  intros (Wa & Wa' & Fa & Fa') (Wb & Wb' & Fb & Fb') (Wc & Wc' & Fc & Fc') D1 D2.
  unfold circle_from_points. destruct (is_colinear a b c) eqn:C; [exists (Err tt); auto|].
  assert (Z : forall p q, In p [a; b; c] -> In q [a; b; c] ->
            (f64_is0 (f64_sub (fst q) (fst p)) = true <-> f64_R (fst q) = f64_R (fst p))).
  { intros p q Ip Iq. cbn in Ip, Iq.
    destruct Ip as [<-|[<-|[<-|[]]]], Iq as [<-|[<-|[<-|[]]]]; apply sub_zero; assumption. }
  destruct (rotate_two f64_sub f64_is0 a b c) as (a' & b' & c' & E & _).
  - intros p q Ip Iq. pose proof (Z p q Ip Iq) as Z1. pose proof (Z q p Iq Ip) as Z2.
    destruct (f64_is0 (f64_sub (fst q) (fst p))), (f64_is0 (f64_sub (fst p) (fst q))); try reflexivity.
    + symmetry. apply Z2. symmetry. now apply Z1.
    + apply Z1. symmetry. now apply Z2.
  - intros p q r Ip Iq Ir E1 E2. apply Z in E1; [|assumption|assumption]. apply Z in E2; [|assumption|assumption].
    apply Z; [assumption|assumption|congruence].
  - intros [E1 E2]. apply Z in E1; [|cbn; tauto|cbn; tauto]. apply Z in E2; [|cbn; tauto|cbn; tauto].
    revert C. unfold is_colinear, colinear_of.
    assert (Q : forall x y, f64_wf x = true -> f64_finite x = true -> f64_wf y = true -> f64_finite y = true ->
                 f64_R x = f64_R y -> xval (f64_sub x y) = XR 0).
    { intros x y W1 F1 W2 F2 H. rewrite sub_xr, !xval_finite by assumption. cbn [xsub]. rewrite H.
      unfold xof. rewrite Rminus_eq_0, rnd_0, Rabs_R0.
      destruct (Rlt_bool_spec 0 huge) as [K|K]; [reflexivity|]. pose proof (bpow_gt_0 radix2 1024). unfold huge in K. lra. }
    assert (M : forall x y, f64_finite x = true -> f64_wf x = true -> f64_wf y = true -> xval y = XR 0 -> xval (f64_mul x y) = XR 0).
    { intros x y F1 W1 W2 H. rewrite mul_xr, H, xval_finite by assumption. cbn [xmul]. rewrite Rmult_0_r.
      unfold xof. rewrite rnd_0, Rabs_R0.
      destruct (Rlt_bool_spec 0 huge) as [K|K]; [reflexivity|]. pose proof (bpow_gt_0 radix2 1024). unfold huge in K. lra. }
    intros K. rewrite (eq_zeros _ _ (zero_word _ (mul_wf _ _) (M _ _ D1 (sub_wf _ _) (sub_wf _ _) (Q _ _ Wc Fc Wb Fb E2)))
      (zero_word _ (mul_wf _ _) (M _ _ D2 (sub_wf _ _) (sub_wf _ _) (Q _ _ Wb Fb Wa Fa E1)))) in K. discriminate.
  - exists (Ok (Circle (circumcentre a' b' c') (point_dist (circumcentre a' b' c') a'))).
    intros fuel L. unfold rotate_f64. now rewrite (rotate_more _ _ 2 a b c _ fuel E L).
Qed.

(** Differences of second coordinates which overflow: the loop never ends. *)
Definition loop_a : pt := (f64_zero, f64_nmax).
Definition loop_b : pt := (f64_zero, f64_max).
Definition loop_c : pt := (f64_zero, f64_zero).
Lemma loop_rotates n : forall a b c, fst a = f64_zero -> fst b = f64_zero -> fst c = f64_zero -> rotate_f64 n a b c = None.
Proof.
  unfold rotate_f64. induction n as [|n IH]; intros a b c A B C; cbn [rotate_points]; rewrite A, B, C;
    change (f64_is0 (f64_sub f64_zero f64_zero)) with true; cbn [orb]; auto.
Qed.
Theorem circle_loops : finite_pt loop_a /\ finite_pt loop_b /\ finite_pt loop_c /\
  forall fuel, circle_from_points fuel loop_a loop_b loop_c = None.
Proof.
  repeat (split; [repeat split; vm_compute; reflexivity|]).
  intros fuel. unfold circle_from_points.
  replace (is_colinear loop_a loop_b loop_c) with false by (vm_compute; reflexivity).
  now rewrite loop_rotates.
Qed.

(** ** The centre, over the reals *)
Lemma colinear_testR_spec a b c : colinear_testR a b c = true <-> colinearR a b c.
Proof.
  unfold colinear_testR, colinear_of, colinearR. destruct a as [ax ay], b as [bx by_], c as [cx cy]. cbn [fst snd].
  match goal with |- Req_bool ?u ?v = true <-> _ => destruct (Req_bool_spec u v) end; split; intros; try reflexivity; try discriminate; nra.
Qed.

Lemma isz_true r : isz_R r = true <-> r = 0%R.
Proof. unfold isz_R. destruct (Req_bool_spec r 0); split; intros; try reflexivity; try discriminate; try assumption; contradiction. Qed.
Lemma isz_false r : isz_R r = false <-> r <> 0%R.
Proof. rewrite <- isz_true. destruct (isz_R r); split; intros; try reflexivity; try discriminate; congruence. Qed.

Lemma centre_equidistant a b c : ~ colinearR a b c -> fst b <> fst a -> fst c <> fst b ->
  let o := centreR a b c in dist2R o a = dist2R o b /\ dist2R o b = dist2R o c.
Proof.
  destruct a as [xa ya], b as [xb yb], c as [xc yc]. unfold colinearR. cbn [fst snd]. intros N Nab Nbc.
  unfold centreR, centre_of.
  assert (E1 : isz_R (xb - xa) = false) by (apply isz_false; lra).
  assert (E2 : isz_R (xc - xb) = false) by (apply isz_false; lra).
  assert (D1 : (xb - xa <> 0)%R) by lra. assert (D2 : (xc - xb <> 0)%R) by lra.
  rewrite E1, E2, !andb_false_r. cbn [negb]. rewrite !andb_true_r.
  destruct (isz_R (yb - ya)) eqn:E3; [|destruct (isz_R (yc - yb)) eqn:E4].
  - apply isz_true in E3. assert (Eya : yb = ya) by lra. subst yb.
    assert (D3 : (yc - ya <> 0)%R) by (intros K; apply N; nra).
    unfold dist2R. cbn [fst snd]. split; field; auto.
  - apply isz_true in E4. apply isz_false in E3. assert (Eya : yc = yb) by lra. subst yc.
    unfold dist2R. cbn [fst snd]. split; field; auto.
  - apply isz_false in E3. apply isz_false in E4.
    assert (D5 : ((yc - yb) * (xb - xa) - (yb - ya) * (xc - xb) <> 0)%R) by (intros K; apply N; nra).
    assert (D6 : ((yc - yb) / (xc - xb) - (yb - ya) / (xb - xa) <> 0)%R).
    { intros K. apply D5. replace ((yc - yb) * (xb - xa) - (yb - ya) * (xc - xb))%R
        with (((yc - yb) / (xc - xb) - (yb - ya) / (xb - xa)) * ((xc - xb) * (xb - xa)))%R by (field; auto). rewrite K. ring. }
    unfold dist2R. cbn [fst snd]. split; field; repeat split; auto.
Qed.

Theorem circle_real a b c : ~ colinearR a b c ->
  exists o, (forall fuel, (2 <= fuel)%nat -> circle_centreR fuel a b c = Some (Some o)) /\
    dist2R o a = dist2R o b /\ dist2R o b = dist2R o c.
Proof.
  intros N.
  assert (Ct : colinear_testR a b c = false).
  { destruct (colinear_testR a b c) eqn:E; [|reflexivity]. apply colinear_testR_spec in E. contradiction. }
  destruct (rotate_two Rminus isz_R a b c) as (a' & b' & c' & E & O & A1 & A2).
  - intros p q _ _. destruct (isz_R (fst q - fst p)) eqn:K1, (isz_R (fst p - fst q)) eqn:K2; try reflexivity;
      rewrite ?isz_true, ?isz_false in *; lra.
  - intros p q r _ _ _. rewrite !isz_true. lra.
  - rewrite !isz_true. intros [K1 K2]. apply N. unfold colinearR. replace (fst b) with (fst a) by lra. replace (fst c) with (fst a) by lra. ring.
  - exists (centreR a' b' c'). split.
    + intros fuel L. unfold circle_centreR, rotateR. rewrite Ct, (rotate_more _ _ 2 a b c _ fuel E L). reflexivity.
    + unfold apart_x in A1, A2. apply isz_false in A1, A2.
      assert (N' : ~ colinearR a' b' c').
      { intros K. apply N. unfold colinearR in *. destruct O as [O|[O|O]]; inversion O; subst; nra. }
      destruct (centre_equidistant a' b' c' N' ltac:(lra) ltac:(lra)) as [Q1 Q2].
      destruct O as [O|[O|O]]; inversion O; subst; lra.
Qed.

Theorem circle_real_colinear fuel a b c : colinearR a b c -> circle_centreR fuel a b c = Some None.
Proof. intros H. apply colinear_testR_spec in H. unfold circle_centreR. now rewrite H. Qed.

(** A circle which does not contain one of the points it was made from. *)
Definition own_a := zpt (1000012, 1000010).
Definition own_b := zpt (1000005, 1000009).
Definition own_c := zpt (1000006, 1000014).
Lemma circle_misses : exists o, circle_from_points 2 own_a own_b own_c = Some (Ok o) /\ circle_contains o own_c = false.
Proof. eexists. split; [vm_compute; reflexivity|vm_compute; reflexivity]. Qed.

(** Points which are not colinear, but the slopes between them round to one number. *)
Definition thin_a := zpt (0, 0).
Definition thin_b := zpt (98500826, 77317043).
Definition thin_c := zpt (194360539, 152560976).
Lemma circle_infinite : exists o, circle_from_points 2 thin_a thin_b thin_c = Some (Ok o) /\ f64_finite (fst (c_center o)) = false.
Proof. eexists. split; [vm_compute; reflexivity|vm_compute; reflexivity]. Qed.

(** A right-angled triangle. *)
Lemma circle_example : exists o, circle_from_points 2 (zpt (0, 0)) (zpt (6, 0)) (zpt (0, 8)) = Some (Ok o) /\
  c_center o = zpt (3, 4) /\ c_radius o = f64_ofZ 5 /\
  circle_contains o (zpt (6, 8)) = true /\ circle_contains o (zpt (9, 4)) = false.
Proof. eexists. split; [vm_compute; reflexivity|]. repeat split; vm_compute; reflexivity. Qed.
