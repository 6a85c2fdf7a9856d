(** * Proofs about the hull on a sphere and collinear points *)
From Coq Require Import ZArith Bool List Lia Reals Lra.
From Flocq Require Import Core.Core.
From Verif Require P_Cmp.
From Verif Require Import Base_F64 Base_F64Arith Base_Geom P_F64 P_F64Flocq P_F64Round P_F64Grid P_Strconv4 P_Rtree3 S_Winding S_ResolveEdge M_Extent M_Cmp M_Coord P_Coord3 M_Insert M_Constraint M_Round S_Round P_Round.
Import ListNotations.
Open Scope Z_scope.

Lemma grid_lt e n m w v : repr e n w -> repr e m v -> f64_lt w v = (n <? m).
Proof.
  intros (W1 & F1 & V1) (W2 & F2 & V2). apply eq_true_iff_eq. rewrite (lt_R _ _ W1 W2 F1 F2), V1, V2, Z.ltb_lt.
  pose proof (bpow_gt_0 radix2 e). split; [intros L; apply lt_IZR; nra|intros L; apply IZR_lt in L; nra].
Qed.
Lemma abs_repr e n w : repr e n w -> repr e (Z.abs n) (f64_abs w).
Proof.
  intros R. pose proof R as (W & F & V). pose proof (wf_word w W) as E. unfold f64_abs.
  destruct (neg_word w W) as (Wn & _ & _). pose proof (neg_finite w W) as Fn. rewrite F in Fn. pose proof (neg_R w W) as Rn. unfold f64_neg in Wn, Fn, Rn.
  destruct (Z.eq_dec n 0) as [->|N].
  - destruct (f64_sign w).
    + replace (f64_mag w) with (w - two63) by lia. split; [exact Wn|]. split; [exact Fn|]. rewrite Rn, V. cbn [Z.abs]. ring.
    + replace (f64_mag w) with w by lia. exact R.
  - rewrite (repr_sign e n w R N) in *. destruct (Z.ltb_spec n 0) as [L|L].
    + replace (f64_mag w) with (w - two63) by lia. split; [exact Wn|]. split; [exact Fn|]. rewrite Rn, V, (Z.abs_neq n) by lia. rewrite opp_IZR. ring.
    + replace (f64_mag w) with w by lia. rewrite Z.abs_eq by lia. exact R.
Qed.

(** ** ThreePointsAreColinear *)
Lemma half_repr : repr (-1) 1 0x3FE0000000000000.
Proof. split; [reflexivity|]. split; [reflexivity|]. change 0x3FE0000000000000 with M_Triangle.half. rewrite half_R. change (bpow radix2 (-1)) with (/ 2)%R. ring. Qed.
Lemma three_exact c p q r : moderate p -> moderate q -> moderate r -> f64_wf (tol c) = true -> f64_finite (tol c) = true -> (0 < f64_R (tol c) <= / 2)%R ->
  three_colinear c (fpt p) (fpt q) (fpt r) = (twice_area p q r =? 0).
Proof.
  intros [P1 P2] [Q1 Q2] [R1 R2] Wt Ft T. unfold three_colinear. cbv zeta. unfold fpt. cbn [fst snd].
  assert (Su : forall n m, Z.abs n <= 2 ^ 20 -> Z.abs m <= 2 ^ 20 -> repr 0 (n - m) (f64_sub (f64_ofZ n) (f64_ofZ m)) /\ Z.abs (n - m) <= 2 ^ 21).
  { intros n m A B. split; [apply repr_sub; [lia|unfold two53; lia| |]; apply repr_ofZ; unfold two53; lia|lia]. }
  destruct (Su _ _ P1 Q1) as [A Ba]. destruct (Su _ _ Q1 R1) as [B Bb]. destruct (Su _ _ P2 Q2) as [C Bc]. destruct (Su _ _ Q2 R2) as [D Bd].
  unfold twice_area. set (a := fst p - fst q) in *. set (b := fst q - fst r) in *. set (h := snd p - snd q) in *. set (d := snd q - snd r) in *.
  revert A B C D. generalize (f64_sub (f64_ofZ (fst p)) (f64_ofZ (fst q))) (f64_sub (f64_ofZ (fst q)) (f64_ofZ (fst r)))
    (f64_sub (f64_ofZ (snd p)) (f64_ofZ (snd q))) (f64_sub (f64_ofZ (snd q)) (f64_ofZ (snd r))). intros wa wb wh wd A B C D.
  clearbody a b h d. clear Su P1 P2 Q1 Q2 R1 R2.
  assert (Pr : forall n m, Z.abs n <= 2 ^ 21 -> Z.abs m <= 2 ^ 21 -> Z.abs (n * m) <= 2 ^ 42) by (intros; nia).
  pose proof (Pr a d Ba Bd) as Pad. pose proof (Pr b h Bb Bc) as Pbh.
  assert (Ar : repr 0 (a * d - b * h) (f64_sub (f64_mul wa wd) (f64_mul wb wh))).
  { apply repr_sub; [lia|unfold two53; lia|apply (repr_mul 0 0); try assumption; unfold two53; lia|apply (repr_mul 0 0); try assumption; unfold two53; lia]. }
  assert (Bn : Z.abs (a * d - b * h) <= 2 ^ 43) by lia. revert Ar Bn. generalize (a * d - b * h) (f64_sub (f64_mul wa wd) (f64_mul wb wh)). intros n w Ar Bn.
  assert (Hr : repr (-1) (1 * n) (f64_mul 0x3FE0000000000000 w)) by (apply (repr_mul (-1) 0); [lia|unfold two53; lia|exact half_repr|exact Ar]).
  rewrite Z.mul_1_l in Hr. revert Hr. generalize (f64_mul 0x3FE0000000000000 w). intros v Hr. clear Ar w A B C D.
  pose proof Hr as (Wv & Fv & Vv). unfold cmp_float. rewrite (P_Cmp.finite_not_inf v Wv Fv). change (f64_isinf f64_zero) with false. cbn [orb].
  change (f64_eq f64_zero f64_zero) with true. rewrite orb_true_r.
  assert (Sz : repr (-1) (0 - n) (f64_sub f64_zero v)) by (apply repr_sub; [lia|unfold two53; lia|apply repr_zero|exact Hr]).
  apply abs_repr in Sz. destruct Sz as (Ws & Fs & Vs). apply eq_true_iff_eq. rewrite (lt_R _ _ Ws Wt Fs Ft), Vs, Z.eqb_eq. change (bpow radix2 (-1)) with (/ 2)%R.
  split; [|intros ->; cbn; lra]. intros L. destruct (Z.eq_dec n 0) as [X|X]; [exact X|]. exfalso. assert (K : 1 <= Z.abs (0 - n)) by lia. apply IZR_le in K. lra.
Qed.

(** ** Hull *)
Lemma arc n m : longitude n -> longitude m ->
  (180 * 2 ^ 40 < Z.abs (n - m) -> n < m -> eastward m n <= 180 * 2 ^ 40) /\ (Z.abs (n - m) <= 180 * 2 ^ 40 -> n <= m -> eastward n m <= 180 * 2 ^ 40).
Proof.
  unfold longitude, eastward, turn. intros A B. split; intros C D.
  - replace ((n - m) mod (360 * 2 ^ 40)) with (n - m + 360 * 2 ^ 40); [lia|]. apply Z.mod_unique with (q := -1); lia.
  - rewrite Z.mod_small; lia.
Qed.
Lemma extent_lat s t (x y : f64) : f64_isnan s = false -> f64_isnan t = false ->
  let h := sph_extent (x, s) (y, t) in (e1 h = s /\ e3 h = t \/ e1 h = t /\ e3 h = s) /\ f64_le (e1 h) (e3 h) = true /\ e0 h = x /\ e2 h = y.
Proof.
  intros S T. unfold sph_extent. cbn [fst snd]. destruct (f64_lt s t) eqn:L; cbn [e0 e1 e2 e3].
  - split; [auto|]. split; [|auto]. apply f64_lt_le, L.
  - split; [auto|]. split; [|auto]. destruct (f64_le t s) eqn:Q; [reflexivity|]. exfalso. unfold f64_lt, f64_le in *. rewrite S, T in *. cbn in *. lia.
Qed.
Lemma hull_ok a b n m : repr (-40) n (fst a) -> repr (-40) m (fst b) -> longitude n -> longitude m -> f64_isnan (snd a) = false -> f64_isnan (snd b) = false ->
  let h := sph_hull a b in hull_of n m (snd a) (snd b) (e0 h) (e1 h) (e2 h) (e3 h).
Proof.
  intros A B La Lb Na Nb. cbv zeta. unfold sph_hull. cbv zeta. pose proof La as La'. pose proof Lb as Lb'. unfold longitude in La', Lb'.
  assert (D : repr (-40) (Z.abs (n - m)) (f64_abs (f64_sub (fst a) (fst b)))) by (apply abs_repr, repr_sub; [lia|unfold two53; lia|exact A|exact B]).
  assert (E : repr (-40) (180 * 2 ^ 40) (f64_ofZ 180)).
  { destruct (repr_ofZ 180 ltac:(unfold two53; lia)) as (W & F & V). split; [exact W|]. split; [exact F|]. rewrite V, mult_IZR. change (IZR (2 ^ 40)) with (bpow radix2 40). rewrite Rmult_assoc, <- bpow_plus. reflexivity. }
  unfold f64_gt. rewrite (grid_lt _ _ _ _ _ E D), (grid_lt _ _ _ _ _ A B), (grid_lt _ _ _ _ _ B A).
  destruct (arc n m La Lb) as [Ar1 Ar2]. destruct (arc m n Lb La) as [Ar3 Ar4]. destruct a as [ax ay], b as [bx by_]. cbn [fst snd] in *.
  assert (K1 := extent_lat ay by_ bx ax Na Nb). assert (K2 := extent_lat ay by_ ax bx Na Nb). cbv zeta in K1, K2.
  destruct (Z.ltb_spec (180 * 2 ^ 40) (Z.abs (n - m))) as [G|G].
  - destruct (Z.ltb_spec n m) as [L|L].
    + destruct K1 as (K & Le & -> & ->). split; [exists m, n; auto|]. auto.
    + destruct K2 as (K & Le & -> & ->). split; [exists n, m; split; [auto|]; split; [exact A|]; split; [exact B|]; apply Ar3; lia|]. auto.
  - destruct (Z.ltb_spec m n) as [L|L].
    + destruct K1 as (K & Le & -> & ->). split; [exists m, n; split; [auto|]; split; [exact B|]; split; [exact A|]; apply Ar4; lia|]. auto.
    + destruct K2 as (K & Le & -> & ->). split; [exists n, m; auto|]. auto.
Qed.

Lemma f64_eq_refl' w : f64_isnan w = false -> f64_eq w w = true.
Proof. intros N. unfold f64_eq. rewrite N. cbn. apply Z.eqb_refl. Qed.
Lemma extent_sym s t (x y x' y' : f64) : f64_isnan s = false -> f64_isnan t = false -> f64_eq x x' = true -> f64_eq y y' = true ->
  let h := sph_extent (x, s) (y, t) in let k := sph_extent (x', t) (y', s) in
  f64_eq (e0 h) (e0 k) = true /\ f64_eq (e1 h) (e1 k) = true /\ f64_eq (e2 h) (e2 k) = true /\ f64_eq (e3 h) (e3 k) = true.
Proof.
  intros S T X Y. unfold sph_extent. cbn [fst snd]. pose proof (f64_eq_refl' s S) as Rs. pose proof (f64_eq_refl' t T) as Rt.
  destruct (f64_lt s t) eqn:L, (f64_lt t s) eqn:L'; cbn [e0 e1 e2 e3]; auto.
  - exfalso. unfold f64_lt in *. rewrite S, T in *. cbn in *. lia.
  - assert (Q : f64_eq s t = true /\ f64_eq t s = true) by (unfold f64_lt, f64_eq in *; rewrite S, T in *; cbn in *; lia). tauto.
Qed.
Lemma hull_sym a b n m : repr (-40) n (fst a) -> repr (-40) m (fst b) -> longitude n -> longitude m -> f64_isnan (snd a) = false -> f64_isnan (snd b) = false ->
  let h := sph_hull a b in let k := sph_hull b a in
  f64_eq (e0 h) (e0 k) = true /\ f64_eq (e1 h) (e1 k) = true /\ f64_eq (e2 h) (e2 k) = true /\ f64_eq (e3 h) (e3 k) = true.
Proof.
  intros A B La Lb Na Nb. cbv zeta. unfold sph_hull. cbv zeta. pose proof La as La'. pose proof Lb as Lb'. unfold longitude in La', Lb'.
  assert (D : repr (-40) (Z.abs (n - m)) (f64_abs (f64_sub (fst a) (fst b)))) by (apply abs_repr, repr_sub; [lia|unfold two53; lia|exact A|exact B]).
  assert (D' : repr (-40) (Z.abs (m - n)) (f64_abs (f64_sub (fst b) (fst a)))) by (apply abs_repr, repr_sub; [lia|unfold two53; lia|exact B|exact A]).
  assert (E : repr (-40) (180 * 2 ^ 40) (f64_ofZ 180)).
  { destruct (repr_ofZ 180 ltac:(unfold two53; lia)) as (W & F & V). split; [exact W|]. split; [exact F|]. rewrite V, mult_IZR. change (IZR (2 ^ 40)) with (bpow radix2 40). rewrite Rmult_assoc, <- bpow_plus. reflexivity. }
  assert (Ra : f64_eq (fst a) (fst a) = true) by (destruct A as (W & F & _); apply (eq_R _ _ W W F F); reflexivity).
  assert (Rb : f64_eq (fst b) (fst b) = true) by (destruct B as (W & F & _); apply (eq_R _ _ W W F F); reflexivity).
  assert (Q : n = m -> f64_eq (fst a) (fst b) = true /\ f64_eq (fst b) (fst a) = true).
  { intros <-. destruct A as (Wa & Fa & Va), B as (Wb & Fb & Vb). rewrite (eq_R _ _ Wa Wb Fa Fb), (eq_R _ _ Wb Wa Fb Fa), Va, Vb. auto. }
  unfold f64_gt. rewrite (grid_lt _ _ _ _ _ E D), (grid_lt _ _ _ _ _ E D'), (grid_lt _ _ _ _ _ A B), (grid_lt _ _ _ _ _ B A).
  replace (Z.abs (m - n)) with (Z.abs (n - m)) by lia. destruct a as [ax ay], b as [bx by_]. cbn [fst snd] in *.
  destruct (Z.ltb_spec n m) as [L|L], (Z.ltb_spec m n) as [L'|L']; [lia| | |]; destruct (180 * 2 ^ 40 <? Z.abs (n - m)); try (apply extent_sym; assumption).
  all: destruct (Q ltac:(lia)); apply extent_sym; assumption.
Qed.

(** ** Cases *)
Definition big : f64 := 0x7FE0000000000000.
Definition tiny : f64 := 0xBF1A36E2EB1C432D.
Lemma overflow : f64_finite big = true /\ exists r, round_to_prec big 3 = Some r /\ f64_finite r = false.
Proof. split; [reflexivity|]. eexists. split; [vm_compute; reflexivity|reflexivity]. Qed.
Lemma negative_zero : round_to_prec tiny 3 = Some 0x8000000000000000.
Proof. vm_compute. reflexivity. Qed.

Lemma default_tol : f64_wf (tol default_cmp) = true /\ f64_finite (tol default_cmp) = true /\ (0 < f64_R (tol default_cmp) <= / 2)%R.
Proof.
  assert (W : f64_wf (tol default_cmp) = true) by reflexivity. assert (F : f64_finite (tol default_cmp) = true) by reflexivity. split; [exact W|]. split; [exact F|].
  destruct (repr_zero 0) as (Wz & Fz & Vz). destruct half_repr as (Wh & Fh & Vh). change (bpow radix2 (-1)) with (/ 2)%R in Vh.
  assert (A : f64_lt f64_zero (tol default_cmp) = true) by reflexivity. assert (B : f64_lt (tol default_cmp) 0x3FE0000000000000 = true) by reflexivity.
  apply (lt_R _ _ Wz W Fz F) in A. apply (lt_R _ _ W Wh F Fh) in B. rewrite Vz in A. rewrite Vh in B. lra.
Qed.
Definition kilo : f64 := 0x3F50000000000000.
Lemma kilo_repr : repr (-10) 1 kilo.
Proof.
  destruct (normal_R kilo 1013 ltac:(unfold two63, kilo; lia) eq_refl ltac:(lia)) as (W & F & V). split; [exact W|]. split; [exact F|]. rewrite V.
  change (kilo mod 2 ^ 52 + 2 ^ 52) with (2 ^ 52). change (IZR (2 ^ 52)) with (bpow radix2 52). rewrite <- bpow_plus. rewrite Rmult_1_l. reflexivity.
Qed.
Lemma small_right : repr (-10) 1 kilo /\ three_colinear default_cmp (f64_zero, f64_zero) (kilo, f64_zero) (f64_zero, kilo) = true /\ twice_area (0, 0) (1, 0) (0, 1) = 1.
Proof. split; [exact kilo_repr|]. split; [vm_compute; reflexivity|reflexivity]. Qed.

Lemma shift_repr n : Z.abs n <= 180 -> repr (-40) (n * 2 ^ 40) (f64_ofZ n).
Proof.
  intros B. destruct (repr_ofZ n ltac:(unfold two53; lia)) as (W & F & V). split; [exact W|]. split; [exact F|]. rewrite V, mult_IZR. change (IZR (2 ^ 40)) with (bpow radix2 40). rewrite Rmult_assoc, <- bpow_plus. reflexivity.
Qed.
Lemma hull_case : (repr (-40) (-170 * 2 ^ 40) (f64_ofZ (-170)) /\ repr (-40) (170 * 2 ^ 40) (f64_ofZ 170) /\ longitude (-170 * 2 ^ 40) /\ longitude (170 * 2 ^ 40))
  /\ sph_hull (fpt (-170, 10)) (fpt (170, -10)) = Ext (f64_ofZ 170) (f64_ofZ (-10)) (f64_ofZ (-170)) (f64_ofZ 10).
Proof.
  split; [|vm_compute; reflexivity]. split; [apply shift_repr; lia|]. split; [apply shift_repr; lia|]. unfold longitude. lia.
Qed.
Lemma round_case : (f64_wf kilo = true /\ f64_finite kilo = true /\ (Rabs (f64_R kilo * IZR (10 ^ 3)) <= IZR (2 ^ 40))%R)
  /\ exists r, round_to_prec kilo 3 = Some r /\ r <> kilo /\ r <> 0.
Proof.
  destruct kilo_repr as (W & F & V). split.
  - split; [exact W|]. split; [exact F|]. rewrite V. change (bpow radix2 (-10)) with (/ 1024)%R. change (10 ^ 3) with 1000. change (2 ^ 40) with 1099511627776. rewrite Rabs_pos_eq; lra.
  - eexists. split; [vm_compute; reflexivity|]. unfold kilo. split; lia.
Qed.
