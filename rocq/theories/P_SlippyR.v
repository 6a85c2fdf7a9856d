(** Proofs about slippy tiles: longitudes *)
From Coq Require Import ZArith Bool List Lia Reals Lra.
From Coq Require Import ZifyBool.
From Flocq Require Import Core.Core IEEE754.BinarySingleNaN IEEE754.Binary IEEE754.Bits.
From Verif Require Import Base_Bytes Base_F64 Base_F64Arith Base_Res Base_Geom M_Extent M_Slippy S_Slippy
  P_F64 P_F64Flocq P_F64Round P_F64Grid P_F64Sqrt P_Rtree P_Rtree3 P_Slippy.
Import ListNotations.
Open Scope Z_scope.
Local Notation prec := 53.
Local Notation emax := 1024.

(** Truncation of a non-negative number is its floor. *)
Lemma trunc_floor w : f64_wf w = true -> f64_finite w = true -> (0 <= f64_R w)%R ->
  exists n, f64_trunc w = Some n /\ 0 <= n /\ (IZR n <= f64_R w < IZR n + 1)%R.
Proof.
  intros W F H. unfold f64_trunc. unfold f64_R in *.
  rewrite <- is_finite_word in F by exact W.
  destruct (b64_of_bits w) as [s|s|s pl e|s m e B]; cbn [Binary.is_finite] in F; try discriminate.
  - exists 0. split; [reflexivity|]. cbn [Binary.B2R]. split; [lia|lra].
  - cbn [Binary.B2R] in *. unfold F2R in *. cbn [Fnum Fexp] in *.
    pose proof (bpow_gt_0 radix2 e) as P.
    assert (s = false) as ->.
    { destruct s; [|reflexivity]. exfalso. cbn [cond_Zopp] in H.
      assert (IZR (Z.neg m) < 0)%R by (apply IZR_lt; lia). change (- Z.pos m) with (Z.neg m) in H. nra. }
    cbn [cond_Zopp] in *. destruct e as [|p|p].
    + eexists. split; [reflexivity|]. change (bpow radix2 0) with 1%R. split; [lia|lra].
    + eexists. split; [reflexivity|]. rewrite mult_IZR.
      change (IZR (2 ^ Z.pos p)) with (bpow radix2 (Z.pos p)). split; [lia|lra].
    + eexists. split; [reflexivity|].
      pose proof (Z.div_mod (Z.pos m) (2 ^ Z.pos p) ltac:(lia)) as D.
      pose proof (Z.mod_pos_bound (Z.pos m) (2 ^ Z.pos p) ltac:(lia)) as Q.
      set (q := Z.pos m / 2 ^ Z.pos p) in *. set (r := Z.pos m mod 2 ^ Z.pos p) in *.
      assert (Eb : (bpow radix2 (Z.pos p) * bpow radix2 (Z.neg p) = 1)%R).
      { rewrite <- bpow_plus. change (Z.neg p) with (- Z.pos p). replace (Z.pos p + - Z.pos p) with 0 by lia. reflexivity. }
      assert (Ep : IZR (2 ^ Z.pos p) = bpow radix2 (Z.pos p)) by (rewrite <- IZR_Zpower by lia; reflexivity).
      assert (Em : (IZR (Z.pos m) = bpow radix2 (Z.pos p) * IZR q + IZR r)%R) by (rewrite D, plus_IZR, mult_IZR, Ep; reflexivity).
      assert (Hr : (0 <= IZR r < bpow radix2 (Z.pos p))%R) by (rewrite <- Ep; split; [apply IZR_le|apply IZR_lt]; lia).
      rewrite Em, Rmult_plus_distr_r.
      replace (bpow radix2 (Z.pos p) * IZR q * bpow radix2 (Z.neg p))%R with (IZR q)
        by (rewrite (Rmult_comm (bpow _ _) (IZR q)), Rmult_assoc, Eb; ring).
      split; [unfold q; apply Z.div_pos; lia|]. split; [|]; [nra|].
      apply Rplus_lt_compat_l. rewrite <- Eb. apply Rmult_lt_compat_r; [exact P|]. apply Hr.
Qed.

Lemma to_i64_between w a b : f64_wf w = true -> f64_finite w = true -> 0 <= a -> b < two63 ->
  (IZR a <= f64_R w)%R -> (f64_R w < IZR b + 1)%R -> a <= f64_to_i64 w <= b.
Proof.
  intros W F Ha Hb L U.
  destruct (trunc_floor w W F) as (n & E & N0 & Hn); [apply IZR_le in Ha; lra|].
  assert (a <= n) by (assert (IZR a < IZR (n + 1))%R by (rewrite plus_IZR; lra); apply lt_IZR in H; lia).
  assert (n <= b) by (assert (IZR n < IZR (b + 1))%R by (rewrite plus_IZR; lra); apply lt_IZR in H0; lia).
  unfold f64_to_i64. rewrite E. unfold two63 in *. destruct (_ && _) eqn:Q; lia.
Qed.

Lemma to_i64_mono u v : f64_wf u = true -> f64_finite u = true -> f64_wf v = true -> f64_finite v = true ->
  (0 <= f64_R u <= f64_R v)%R -> (f64_R v < IZR two63)%R -> f64_to_i64 u <= f64_to_i64 v.
Proof.
  intros Wu Fu Wv Fv H B.
  destruct (trunc_floor u Wu Fu) as (n & E & N0 & Hn); [lra|].
  destruct (trunc_floor v Wv Fv) as (m & E' & M0 & Hm); [lra|].
  assert (n < m + 1) by (apply lt_IZR; rewrite plus_IZR; lra).
  assert (m < two63) by (apply lt_IZR; lra).
  unfold f64_to_i64. rewrite E, E'. unfold two63 in *.
  destruct ((- 2 ^ 63 <=? n) && (n <? 2 ^ 63)) eqn:Q, ((- 2 ^ 63 <=? m) && (m <? 2 ^ 63)) eqn:Q'; lia.
Qed.

Lemma zoom_n_ofZ z : 0 <= z <= 22 -> zoom_n z = f64_ofZ (2 ^ z).
Proof.
  intros H.
  assert (A : forallb (fun i => zoom_n (Z.of_nat i) =? f64_ofZ (2 ^ Z.of_nat i)) (seq 0 23) = true)
    by (vm_compute; reflexivity).
  rewrite forallb_forall in A. specialize (A (Z.to_nat z)).
  rewrite Z2Nat.id in A by lia. apply Z.eqb_eq. apply A. apply in_seq. lia.
Qed.

Lemma pow22 z : 0 <= z <= 22 -> 1 <= 2 ^ z <= 2 ^ 22.
Proof. intros. split; [apply (Z.pow_le_mono_r 2 0)|apply Z.pow_le_mono_r]; lia. Qed.

Lemma repr0 n w : repr 0 n w -> f64_R w = IZR n.
Proof. intros (_ & _ & E). rewrite E. change (bpow radix2 0) with 1%R. ring. Qed.

Lemma c180 : repr 0 180 f180. Proof. apply (repr_ofZ 180). unfold two53. lia. Qed.
Lemma cm180 : repr 0 (-180) fm180. Proof. apply (repr_ofZ (-180)). unfold two53. lia. Qed.
Lemma c360 : repr 0 360 f360. Proof. apply (repr_ofZ 360). unfold two53. lia. Qed.

Lemma c_zoom z : 0 <= z <= 22 -> repr 0 (2 ^ z) (zoom_n z).
Proof. intros H. rewrite zoom_n_ofZ by exact H. apply repr_ofZ. pose proof (pow22 z H). unfold two53. lia. Qed.
Lemma R_zoom z : 0 <= z <= 22 -> f64_R (zoom_n z) = IZR (2 ^ z).
Proof. intros H. now apply repr0, c_zoom. Qed.

Lemma R_variance : (0 < f64_R variance <= / IZR (2 ^ 19))%R.
Proof.
  unfold f64_R. rewrite <- (FF2R_B2FF prec emax).
  match goal with |- context [B2FF ?a ?b ?x] => let r := eval vm_compute in (B2FF a b x) in
    replace (B2FF a b x) with r by (vm_compute; reflexivity) end.
  unfold FF2R, F2R. cbn [cond_Zopp Fnum Fexp].
  match goal with |- context [bpow radix2 (Z.neg ?p)] =>
    let d := eval vm_compute in (2 ^ (Z.pos p)) in
    change (bpow radix2 (Z.neg p)) with (/ IZR d)%R end.
  change (2 ^ 19) with 524288. split; [lra|]. lra.
Qed.

Lemma round_val k r w : 0 <= k <= 1023 -> is_round r w -> (Rabs r <= bpow radix2 k)%R ->
  f64_wf w = true /\ f64_finite w = true /\ f64_R w = rnd r.
Proof.
  intros Hk HR B. pose proof (round_bnd k r w Hk HR B) as (W & F & _).
  destruct HR as [_ [(_ & E & _)|[(-> & _)|(-> & _)]]]; [auto|discriminate F|discriminate F].
Qed.

Lemma rnd_int n : Z.abs n <= two53 -> rnd (IZR n) = IZR n.
Proof.
  intros H. pose proof (grid_rnd 0 n ltac:(lia) H) as G. change (bpow radix2 0) with 1%R in G.
  now rewrite Rmult_1_r in G.
Qed.
Lemma rnd_frac n k : 0 <= k <= 1000 -> Z.abs n <= two53 -> rnd (IZR n / IZR (2 ^ k)) = (IZR n / IZR (2 ^ k))%R.
Proof.
  intros Hk H. pose proof (grid_rnd (- k) n ltac:(lia) H) as G.
  rewrite bpow_opp in G. replace (bpow radix2 k) with (IZR (2 ^ k)) in G; [exact G|].
  rewrite <- IZR_Zpower by lia. reflexivity.
Qed.

(** The real number truncated by lon2Num. *)
Definition lon_real (ts z : Z) (l : R) : R :=
  rnd (rnd (rnd (rnd (rnd (180 + l) / 360) * (IZR ts * IZR (2 ^ z))) + f64_R variance) / IZR ts).

Section Chain.
  Variables (ts z : Z).
  Hypothesis Hts : 1 <= ts <= 2 ^ 29.
  Hypothesis Hz : 0 <= z <= 22.
  Local Notation T := (IZR ts).
  Local Notation N := (IZR (2 ^ z)).

  Lemma T_pos : (1 <= T)%R. Proof. apply IZR_le. lia. Qed.
  Lemma N_pos : (1 <= N <= IZR (2 ^ 22))%R.
  Proof. pose proof (pow22 z Hz). split; apply IZR_le; lia. Qed.

  Lemma world : repr 0 (ts * 2 ^ z) (f64_mul (f64_ofZ ts) (zoom_n z)).
  Proof.
    apply (repr_mul 0 0); [lia| | |now apply c_zoom].
    - pose proof (pow22 z Hz). unfold two53. nia.
    - apply repr_ofZ. unfold two53. lia.
  Qed.

  Lemma lon_mono l1 l2 : (l1 <= l2)%R -> (lon_real ts z l1 <= lon_real ts z l2)%R.
  Proof.
    intros H. pose proof T_pos. pose proof N_pos. unfold lon_real.
    apply rnd_le. apply Rmult_le_compat_r; [left; apply Rinv_0_lt_compat; lra|].
    apply rnd_le. apply Rplus_le_compat_r.
    apply rnd_le. apply Rmult_le_compat_r; [nra|].
    apply rnd_le. apply Rmult_le_compat_r; [lra|].
    apply rnd_le. lra.
  Qed.

  Lemma rnd_nonneg r : (0 <= r)%R -> (0 <= rnd r)%R.
  Proof. intros H. rewrite <- rnd_0. now apply rnd_le. Qed.

  (** Bounds used to exclude overflow. *)
  Lemma chain_bounds l : (-180 <= l <= 180)%R ->
    let a := rnd (180 + l) in let b := rnd (a / 360) in let c := rnd (b * (T * N)) in
    let d := rnd (c + f64_R variance) in
    (0 <= a <= 360 /\ 0 <= b <= 1 /\ 0 <= c <= T * N /\ 0 <= d <= T * N + / 2 /\ 0 <= d / T <= N + / 2)%R.
  Proof.
    intros H a b c d. pose proof T_pos as HT. pose proof N_pos as HN. pose proof R_variance as HV.
    pose proof (pow22 z Hz) as Hp.
    assert (HV2 : (f64_R variance <= / 2)%R).
    { eapply Rle_trans; [apply HV|]. change (2 ^ 19) with 524288. lra. }
    assert (A : (0 <= a <= 360)%R).
    { split; [apply rnd_nonneg; lra|]. unfold a. rewrite <- (rnd_int 360) by (unfold two53; lia). apply rnd_le. lra. }
    assert (B : (0 <= b <= 1)%R).
    { split; [apply rnd_nonneg; lra|]. unfold b. rewrite <- (rnd_int 1) by (unfold two53; lia). apply rnd_le. lra. }
    assert (W0 : (1 <= T * N)%R) by nra.
    assert (C : (0 <= c <= T * N)%R).
    { split; [apply rnd_nonneg; nra|]. unfold c. apply Rle_trans with (rnd (IZR (ts * 2 ^ z))).
      - apply rnd_le. rewrite mult_IZR. nra.
      - rewrite rnd_int by (unfold two53; nia). rewrite mult_IZR. lra. }
    assert (D : (0 <= d <= T * N + / 2)%R).
    { split; [apply rnd_nonneg; lra|]. unfold d.
      replace (T * N + / 2)%R with (IZR (2 * (ts * 2 ^ z) + 1) / IZR (2 ^ 1))%R
        by (rewrite plus_IZR, !mult_IZR; change (IZR (2 ^ 1)) with 2%R; field).
      rewrite <- (rnd_frac _ 1); [|lia|unfold two53; nia]. apply rnd_le.
      rewrite plus_IZR, !mult_IZR. change (IZR (2 ^ 1)) with 2%R. lra. }
    split; [exact A|]. split; [exact B|]. split; [exact C|]. split; [exact D|].
    assert (0 < / T)%R by (apply Rinv_0_lt_compat; lra).
    split; [apply Rmult_le_pos; lra|].
    apply Rle_trans with ((T * N + / 2) / T)%R.
    - apply Rmult_le_compat_r; lra.
    - replace ((T * N + / 2) / T)%R with (N + / 2 * / T)%R by (field; lra).
      assert (/ T <= 1)%R by (rewrite <- Rinv_1; apply Rinv_le; lra). lra.
  Qed.

  Lemma lon_real_bound l : (-180 <= l <= 180)%R -> (0 <= lon_real ts z l <= N + / 2)%R.
  Proof.
    intros H. pose proof (chain_bounds l H) as (_ & _ & _ & _ & E). pose proof (pow22 z Hz) as Hp.
    unfold lon_real. split; [apply rnd_nonneg; apply E|].
    replace (N + / 2)%R with (IZR (2 * 2 ^ z + 1) / IZR (2 ^ 1))%R
      by (rewrite plus_IZR, !mult_IZR; change (IZR (2 ^ 1)) with 2%R; field).
    rewrite <- (rnd_frac _ 1); [|lia|unfold two53; lia]. apply rnd_le.
    rewrite plus_IZR, !mult_IZR. change (IZR (2 ^ 1)) with 2%R. lra.
  Qed.

  Lemma lon_word lon : degrees lon -> (-180 <= f64_R lon <= 180)%R ->
    let w := f64_div (f64_add (f64_mul (f64_div (f64_add f180 lon) f360) (f64_mul (f64_ofZ ts) (zoom_n z))) variance)
               (f64_ofZ ts) in
    f64_wf w = true /\ f64_finite w = true /\ f64_R w = lon_real ts z (f64_R lon).
  Proof.
    intros [W F] H w. assert (K60 : 0 <= 60 <= 1023) by lia. pose proof (chain_bounds _ H) as (A & B & C & D & E). cbn zeta in *.
    pose proof T_pos as HT. pose proof N_pos as HN. pose proof R_variance as HV.
    pose proof (repr0 _ _ c180) as R180. pose proof (repr0 _ _ c360) as R360.
    pose proof (repr0 _ _ world) as RW. rewrite mult_IZR in RW.
    assert (RT : f64_R (f64_ofZ ts) = T) by (apply repr0, repr_ofZ; unfold two53; lia).
    assert (Big : (IZR (2 ^ 22) * IZR (2 ^ 29) + 1000 <= bpow radix2 60)%R).
    { change (bpow radix2 60) with (IZR (2 ^ 60)). rewrite <- mult_IZR, <- plus_IZR. apply IZR_le. lia. }
    assert (TN : (T * N <= IZR (2 ^ 22) * IZR (2 ^ 29))%R).
    { rewrite Rmult_comm. apply Rmult_le_compat; try lra. apply IZR_le. lia. }
    assert (N22 : (N <= IZR (2 ^ 22) * IZR (2 ^ 29))%R) by nra.
    destruct c180 as (W1 & F1 & _), c360 as (W2 & F2 & _), world as (W3 & F3 & _).
    assert (Wt : repr 0 ts (f64_ofZ ts)) by (apply repr_ofZ; unfold two53; lia). destruct Wt as (W4 & F4 & _).
    destruct (round_val 60 (180 + f64_R lon) (f64_add f180 lon)) as (Wa & Fa & Ea); [exact K60| | |].
    { rewrite <- R180. apply add_round; assumption. } { rewrite Rabs_pos_eq by lra. lra. }
    destruct (round_val 60 (rnd (180 + f64_R lon) / 360) (f64_div (f64_add f180 lon) f360)) as (Wb & Fb & Eb); [exact K60| | |].
    { rewrite <- Ea, <- R360. apply div_round; [assumption..|]. rewrite R360. lra. } { rewrite Rabs_pos_eq; lra. }
    destruct (round_val 60 (rnd (rnd (180 + f64_R lon) / 360) * (T * N))
       (f64_mul (f64_div (f64_add f180 lon) f360) (f64_mul (f64_ofZ ts) (zoom_n z)))) as (Wc & Fc & Ec); [exact K60| | |].
    { rewrite <- Eb, <- RW. apply mul_round; assumption. }
    { assert (0 <= T * N)%R by (apply Rmult_le_pos; lra).
      rewrite Rabs_pos_eq by (apply Rmult_le_pos; lra).
      apply Rle_trans with (1 * (T * N))%R; [apply Rmult_le_compat_r; lra|lra]. }
    destruct (round_val 60 (rnd (rnd (rnd (180 + f64_R lon) / 360) * (T * N)) + f64_R variance)
       (f64_add (f64_mul (f64_div (f64_add f180 lon) f360) (f64_mul (f64_ofZ ts) (zoom_n z))) variance)) as (Wd & Fd & Ed); [exact K60| | |].
    { rewrite <- Ec. apply add_round; (assumption || reflexivity). }
    { assert (f64_R variance <= 1)%R.
      { eapply Rle_trans; [apply HV|]. change (2 ^ 19) with 524288. lra. }
      rewrite Rabs_pos_eq; lra. }
    apply (round_val 60); [exact K60| |].
    - rewrite <- Ed. rewrite <- RT. apply div_round; [assumption..|]. rewrite RT. lra.
    - rewrite Rabs_pos_eq by apply E. lra.
  Qed.

  (** What lon2Num does between -180 and 180. *)
  Lemma lon2num_mid lon : degrees lon -> (-180 < f64_R lon < 180)%R ->
    exists w, f64_wf w = true /\ f64_finite w = true /\ f64_R w = lon_real ts z (f64_R lon) /\
      lon2num ts z lon = f64_to_i64 w.
  Proof.
    intros Hd H. destruct Hd as [W F].
    pose proof (lon_word lon (conj W F) ltac:(lra)) as (Ww & Fw & Ew). cbn zeta in *.
    eexists. split; [exact Ww|]. split; [exact Fw|]. split; [exact Ew|].
    unfold lon2num, lon2px, tile_size_of.
    replace (ts =? 0) with false by lia. replace (ts =? 0) with false by lia.
    destruct c180 as (W1 & F1 & _), cm180 as (W2 & F2 & _).
    replace (f64_le lon fm180) with false.
    2:{ symmetry. apply not_true_is_false. intros C. apply le_R in C; auto. rewrite (repr0 _ _ cm180) in C. lra. }
    unfold f64_ge. replace (f64_le f180 lon) with false.
    2:{ symmetry. apply not_true_is_false. intros C. apply le_R in C; auto. rewrite (repr0 _ _ c180) in C. lra. }
    reflexivity.
  Qed.

  Lemma lon2num_low lon : degrees lon -> (f64_R lon <= -180)%R -> lon2num ts z lon = 0.
  Proof.
    intros [W F] H. unfold lon2num. destruct cm180 as (W2 & F2 & _).
    replace (f64_le lon fm180) with true; [reflexivity|].
    symmetry. apply le_R; auto. rewrite (repr0 _ _ cm180). exact H.
  Qed.
  Lemma lon2num_high lon : degrees lon -> (180 <= f64_R lon)%R -> lon2num ts z lon = 2 ^ z - 1.
  Proof.
    intros [W F] H. unfold lon2num. destruct cm180 as (W2 & F2 & _), c180 as (W1 & F1 & _).
    replace (f64_le lon fm180) with false.
    2:{ symmetry. apply not_true_is_false. intros C. apply le_R in C; auto. rewrite (repr0 _ _ cm180) in C. lra. }
    unfold f64_ge. replace (f64_le f180 lon) with true.
    2:{ symmetry. apply le_R; auto. rewrite (repr0 _ _ c180). exact H. }
    pose proof (pow22 z Hz) as Hp.
    assert (Q : repr 0 (2 ^ z - 1) (f64_sub (zoom_n z) f64_one)).
    { apply repr_sub; [lia|unfold two53; lia|now apply c_zoom|].
      change f64_one with (f64_ofZ 1). apply repr_ofZ. unfold two53. lia. }
    unfold f64_to_i64. rewrite (trunc_repr _ _ Q). unfold two63. destruct (_ && _) eqn:E; lia.
  Qed.

  Theorem lon2num_bound lon : degrees lon -> 0 <= lon2num ts z lon <= 2 ^ z.
  Proof.
    intros Hd. pose proof (pow22 z Hz) as Hp.
    destruct (Rle_lt_dec (f64_R lon) (-180)); [rewrite lon2num_low; auto; lia|].
    destruct (Rle_lt_dec 180 (f64_R lon)); [rewrite lon2num_high; auto; lia|].
    destruct (lon2num_mid lon Hd ltac:(lra)) as (w & W & F & E & ->).
    pose proof (lon_real_bound (f64_R lon) ltac:(lra)) as B. rewrite <- E in B.
    apply to_i64_between; auto; [lia|unfold two63; lia|apply B|lra].
  Qed.

  Theorem lon2num_mono a b : degrees a -> degrees b -> f64_le a b = true -> f64_lt b f180 = true ->
    lon2num ts z a <= lon2num ts z b.
  Proof.
    intros Ha Hb L U. destruct c180 as (W1 & F1 & _).
    pose proof Ha as [Wa Fa]. pose proof Hb as [Wb Fb].
    apply le_R in L; auto. apply lt_R in U; auto. rewrite (repr0 _ _ c180) in U.
    pose proof (pow22 z Hz) as Hp.
    destruct (Rle_lt_dec (f64_R a) (-180)).
    { rewrite lon2num_low by auto. apply lon2num_bound; auto. }
    destruct (lon2num_mid a Ha ltac:(lra)) as (w & W & F & E & ->).
    destruct (lon2num_mid b Hb ltac:(lra)) as (w' & W' & F' & E' & ->).
    pose proof (lon_real_bound (f64_R a) ltac:(lra)) as B. rewrite <- E in B.
    pose proof (lon_real_bound (f64_R b) ltac:(lra)) as B'. rewrite <- E' in B'.
    apply to_i64_mono; auto.
    - split; [lra|]. rewrite E, E'. now apply lon_mono.
    - eapply Rle_lt_trans; [apply B'|]. pose proof N_pos.
      apply Rlt_trans with (IZR (2 ^ 22 + 1)); [rewrite plus_IZR; lra|]. apply IZR_lt. reflexivity.
  Qed.

  (** The left side of a column. *)
  Lemma lon_real_left x : 0 <= x < 2 ^ z -> (IZR x <= lon_real ts z (left_side z x) <= IZR x + / 2)%R.
  Proof.
    intros Hx. pose proof T_pos as HT. pose proof N_pos as HN. pose proof R_variance as HV.
    pose proof (pow22 z Hz) as Hp.
    assert (HV2 : (f64_R variance <= / 2)%R).
    { eapply Rle_trans; [apply HV|]. change (2 ^ 19) with 524288. lra. }
    unfold lon_real, left_side.
    replace (180 + (360 * (IZR x / N) - 180))%R with (IZR (360 * x) / N)%R by (rewrite mult_IZR; field; lra).
    rewrite rnd_frac; [|lia|unfold two53; lia].
    replace (IZR (360 * x) / N / 360)%R with (IZR x / N)%R by (rewrite mult_IZR; field; lra).
    rewrite rnd_frac; [|lia|unfold two53; lia].
    replace (IZR x / N * (T * N))%R with (IZR (x * ts)) by (rewrite mult_IZR; field; lra).
    rewrite rnd_int by (unfold two53; nia).
    assert (0 < / T)%R by (apply Rinv_0_lt_compat; lra).
    split.
    - rewrite <- (rnd_int x) at 1 by (unfold two53; lia). apply rnd_le.
      replace (IZR x) with (IZR (x * ts) / T)%R by (rewrite mult_IZR; field; lra).
      apply Rmult_le_compat_r; [lra|]. rewrite <- (rnd_int (x * ts)) at 1 by (unfold two53; nia).
      apply rnd_le. lra.
    - replace (IZR x + / 2)%R with (IZR (2 * x + 1) / IZR (2 ^ 1))%R
        by (rewrite plus_IZR, !mult_IZR; change (IZR (2 ^ 1)) with 2%R; field).
      rewrite <- (rnd_frac (2 * x + 1) 1); [|lia|unfold two53; lia]. apply rnd_le.
      apply Rle_trans with ((IZR (2 * (x * ts) + 1) / IZR (2 ^ 1)) / T)%R.
      + apply Rmult_le_compat_r; [lra|].
        rewrite <- (rnd_frac (2 * (x * ts) + 1) 1); [|lia|unfold two53; nia]. apply rnd_le.
        rewrite plus_IZR, !mult_IZR. change (IZR (2 ^ 1)) with 2%R. lra.
      + rewrite !plus_IZR, !mult_IZR. change (IZR (2 ^ 1)) with 2%R.
        replace ((2 * (IZR x * T) + 1) / 2 / T)%R with (IZR x + / 2 * / T)%R by (field; lra).
        replace ((2 * IZR x + 1) / 2)%R with (IZR x + / 2 * 1)%R by field.
        assert (/ T <= 1)%R by (rewrite <- Rinv_1; apply Rinv_le; lra). lra.
  Qed.

  (** x2deg is exact. *)
  Lemma x2deg_exact x : 0 <= x <= 2 ^ z -> degrees (x2deg z x) /\ f64_R (x2deg z x) = left_side z x.
  Proof.
    intros Hx. pose proof N_pos as HN. pose proof (pow22 z Hz) as Hp.
    assert (Q : repr (- z) x (f64_div (f64_ofZ x) (zoom_n z))).
    { destruct (c_zoom z Hz) as (W & F & _).
      assert (O : repr 0 x (f64_ofZ x)) by (apply repr_ofZ; unfold two53; lia).
      pose proof (repr0 _ _ O) as RO. destruct O as (Wo & Fo & _).
      apply (is_round_repr _ _ _ (f64_R (f64_ofZ x) / f64_R (zoom_n z))); [lia|unfold two53; lia| |].
      - apply div_round; auto. rewrite R_zoom by lia. lra.
      - rewrite RO, R_zoom by lia. rewrite bpow_opp. rewrite <- IZR_Zpower by lia. reflexivity. }
    pose proof (repr_mul (-z) 0 x 360 _ _ ltac:(lia) ltac:(unfold two53; lia) Q c360) as Q2.
    rewrite Z.add_0_r in Q2.
    assert (Q3 : repr (- z) (180 * 2 ^ z) f180).
    { destruct c180 as (W & F & E). split; [exact W|]. split; [exact F|]. rewrite E, mult_IZR, bpow_opp.
      rewrite <- (IZR_Zpower radix2 z) by lia. change (IZR (radix2 ^ z)) with N. change (bpow radix2 0) with 1%R. field. lra. }
    assert (B3 : Z.abs (x * 360 - 180 * 2 ^ z) <= two53) by (unfold two53; lia).
    pose proof (repr_sub (- z) _ _ _ _ ltac:(lia) B3 Q2 Q3) as (W & F & E).
    unfold x2deg. split; [now split|]. rewrite E. unfold left_side.
    rewrite minus_IZR, !mult_IZR, bpow_opp. rewrite <- (IZR_Zpower radix2 z) by lia. change (IZR (radix2 ^ z)) with N. field. lra.
  Qed.

  Lemma left_side_range x : 0 <= x < 2 ^ z -> (-180 <= left_side z x < 180)%R.
  Proof.
    intros Hx. pose proof N_pos as HN. unfold left_side.
    assert (0 <= IZR x <= N - 1)%R by (split; [apply IZR_le; lia|rewrite <- minus_IZR; apply IZR_le; lia]).
    assert (0 <= IZR x / N < 1)%R.
    { split; [apply Rmult_le_pos; [lra|left; apply Rinv_0_lt_compat; lra]|].
      apply Rmult_lt_reg_r with N; [lra|]. unfold Rdiv. rewrite Rmult_assoc, Rinv_l by lra. lra. }
    lra.
  Qed.

  Theorem lon2num_roundtrip x : 0 <= x < 2 ^ z -> lon2num ts z (x2deg z x) = x.
  Proof.
    intros Hx. destruct (x2deg_exact x ltac:(lia)) as [Hd E].
    pose proof (left_side_range x Hx) as B. pose proof (pow22 z Hz) as Hp.
    destruct (Z.eq_dec x 0) as [->|Nx].
    - apply lon2num_low; [exact Hd|]. rewrite E. unfold left_side. unfold Rdiv. rewrite Rmult_0_l. lra.
    - assert (-180 < left_side z x)%R.
      { unfold left_side. pose proof N_pos. assert (1 <= IZR x)%R by (apply IZR_le; lia).
        assert (0 < IZR x / N)%R by (apply Rmult_lt_0_compat; [lra|apply Rinv_0_lt_compat; lra]). lra. }
      destruct (lon2num_mid _ Hd ltac:(lra)) as (w & W & F & Ew & ->).
      pose proof (lon_real_left x Hx) as L. rewrite <- E, <- Ew in L.
      assert (x <= f64_to_i64 w <= x); [|lia].
      apply to_i64_between; auto; [lia|unfold two63; lia|apply L|lra].
  Qed.

  Theorem lon2num_left lon x : degrees lon -> 0 <= x < 2 ^ z -> (left_side z x <= f64_R lon)%R ->
    x <= lon2num ts z lon.
  Proof.
    intros Hd Hx L. pose proof (pow22 z Hz) as Hp.
    destruct (Rle_lt_dec 180 (f64_R lon)); [rewrite lon2num_high; auto; lia|].
    destruct (x2deg_exact x ltac:(lia)) as [Hd' E].
    rewrite <- (lon2num_roundtrip x Hx). destruct c180 as (W1 & F1 & _). destruct Hd as [W F], Hd' as [W' F'].
    apply lon2num_mono; try (split; assumption).
    - apply le_R; auto. now rewrite E.
    - apply lt_R; auto. now rewrite (repr0 _ _ c180).
  Qed.

  (** The right side, with a margin of 2^-18 of a column. *)
  Theorem lon2num_right lon x : ts <= 4096 -> degrees lon -> 0 <= x < 2 ^ z ->
    (f64_R lon <= left_side z (x + 1) - 360 / IZR (2 ^ 18) / IZR (2 ^ z))%R ->
    lon2num ts z lon <= x.
  Proof.
    intros H4 Hd Hx U. pose proof (pow22 z Hz) as Hp.
    pose proof T_pos as HT. pose proof N_pos as HN. pose proof R_variance as HV.
    destruct (Rle_lt_dec (f64_R lon) (-180)); [rewrite lon2num_low; auto; lia|].
    assert (N18 : IZR (2 ^ 18) = 262144%R) by reflexivity.
    assert (Nz : IZR (2 ^ (z + 18)) = (N * 262144)%R) by (rewrite Z.pow_add_r, mult_IZR by lia; reflexivity).
    assert (Hb : (left_side z (x + 1) - 360 / IZR (2 ^ 18) / N < 180)%R).
    { unfold left_side. assert (IZR (x + 1) <= N)%R by (apply IZR_le; lia).
      assert (IZR (x + 1) / N <= 1)%R.
      { apply Rmult_le_reg_r with N; [lra|]. unfold Rdiv. rewrite Rmult_assoc, Rinv_l by lra. lra. }
      assert (0 < 360 / IZR (2 ^ 18) / N)%R by (rewrite N18; apply Rmult_lt_0_compat; [lra|apply Rinv_0_lt_compat; lra]).
      lra. }
    destruct (lon2num_mid _ Hd ltac:(lra)) as (w & W & F & Ew & ->).
    pose proof (lon_real_bound (f64_R lon) ltac:(lra)) as LB.
    assert (B : (lon_real ts z (f64_R lon) <= IZR (x + 1) - / IZR (2 ^ 19))%R).
    { eapply Rle_trans; [apply lon_mono, U|]. unfold lon_real.
      replace (180 + (left_side z (x + 1) - 360 / IZR (2 ^ 18) / N))%R
        with (IZR (360 * ((x + 1) * 2 ^ 18 - 1)) / IZR (2 ^ (z + 18)))%R.
      2:{ unfold left_side. rewrite Nz, N18, !mult_IZR, minus_IZR, mult_IZR, N18. field. lra. }
      rewrite rnd_frac; [|lia|unfold two53; lia].
      replace (IZR (360 * ((x + 1) * 2 ^ 18 - 1)) / IZR (2 ^ (z + 18)) / 360)%R
        with (IZR ((x + 1) * 2 ^ 18 - 1) / IZR (2 ^ (z + 18)))%R by (rewrite (mult_IZR 360); field; rewrite Nz; lra).
      rewrite rnd_frac; [|lia|unfold two53; lia].
      replace (IZR ((x + 1) * 2 ^ 18 - 1) / IZR (2 ^ (z + 18)) * (T * N))%R
        with (IZR (((x + 1) * 2 ^ 18 - 1) * ts) / IZR (2 ^ 18))%R by (rewrite mult_IZR, Nz, N18; field; lra).
      rewrite rnd_frac; [|lia|unfold two53; nia].
      assert (0 < / T)%R by (apply Rinv_0_lt_compat; lra).
      replace (IZR (x + 1) - / IZR (2 ^ 19))%R with (IZR ((x + 1) * 2 ^ 19 - 1) / IZR (2 ^ 19))%R
        by (rewrite minus_IZR, mult_IZR; change (IZR (2 ^ 19)) with 524288%R; field).
      rewrite <- (rnd_frac ((x + 1) * 2 ^ 19 - 1) 19); [|lia|unfold two53; lia]. apply rnd_le.
      apply Rle_trans with (IZR (((x + 1) * 2 ^ 19 - 1) * ts) / IZR (2 ^ 19) / T)%R.
      - apply Rmult_le_compat_r; [lra|].
        rewrite <- (rnd_frac (((x + 1) * 2 ^ 19 - 1) * ts) 19); [|lia|unfold two53; nia]. apply rnd_le.
        rewrite !mult_IZR, !minus_IZR, !mult_IZR.
        change (IZR (2 ^ 19)) with 524288%R in *. change (IZR (2 ^ 18)) with 262144%R.
        assert (f64_R variance <= T / 524288)%R by (unfold Rdiv; nra). lra.
      - rewrite mult_IZR. right. field. split; [lra|]. change (IZR (2 ^ 19)) with 524288%R. lra. }
    assert (0 <= f64_to_i64 w <= x); [|lia].
    apply to_i64_between; auto; [lia|unfold two63; lia|rewrite Ew; apply LB|].
    rewrite Ew, <- plus_IZR. eapply Rle_lt_trans; [exact B|].
    change (IZR (2 ^ 19)) with 524288%R. lra.
  Qed.
End Chain.
