(** * Proofs about Classify *)
From Coq Require Import Bool List Arith ZArith Lia Reals Lra.
From Flocq Require Import Core.Core.
From Verif Require Import Base_F64 Base_F64Arith Base_Res Base_Geom P_F64 P_F64Flocq P_F64Round P_F64Grid P_F64Sqrt M_Planar M_Cmp M_Walker M_Winding M_MvtPrepare S_MvtPrepare P_MvtPrepare3 M_Quadedge M_ResolveEdge
  S_Winding S_Quadedge S_ResolveEdge P_Winding P_ResolveEdge P_ResolveEdge2 P_ResolveEdge3 M_Constraint S_Constraint S_Classify.
Import ListNotations.
Open Scope Z_scope.

Lemma repr_lt n m w v : repr 0 n w -> repr 0 m v -> f64_lt w v = (n <? m).
Proof.
  intros (W1 & F1 & V1) (W2 & F2 & V2). apply eq_true_iff_eq. rewrite (lt_R _ _ W1 W2 F1 F2), V1, V2, Z.ltb_lt.
  change (bpow radix2 0) with 1%R. rewrite !Rmult_1_r. split; [apply lt_IZR|apply IZR_lt].
Qed.
Lemma repr_gt0 n w : repr 0 n w -> f64_gt w f64_zero = (0 <? n).
Proof. intros H. unfold f64_gt. apply repr_lt; [apply repr_zero|exact H]. Qed.
Lemma repr_lt0 n w : repr 0 n w -> f64_lt w f64_zero = (n <? 0).
Proof. intros H. apply repr_lt; [exact H|apply repr_zero]. Qed.

(** Square roots of different integers round to different numbers. *)
Lemma sqrt_gap a b : 0 <= a < b -> b <= 2 ^ 43 -> exists x y, Z.abs x <= two53 /\ Z.abs y <= two53 /\ x < y
  /\ (sqrt (IZR a) <= IZR x * bpow radix2 (-30))%R /\ (IZR y * bpow radix2 (-30) <= sqrt (IZR b))%R.
Proof.
  intros AB C. assert (A : 0 <= a) by lia. assert (B : a < b) by lia.
  assert (Rb : (IZR b <= 17592186044416)%R) by (apply IZR_le; lia).
  assert (Ra : (0 <= IZR a)%R) by (apply IZR_le; exact A).
  assert (Rab : (IZR a + 1 <= IZR b)%R) by (rewrite <- plus_IZR; apply IZR_le; lia).
  set (u := sqrt (IZR a)). set (v := sqrt (IZR b)).
  assert (U0 : (0 <= u)%R) by apply sqrt_pos. assert (V0 : (0 <= v)%R) by apply sqrt_pos.
  assert (U2 : (u * u = IZR a)%R) by (apply sqrt_sqrt; lra). assert (V2 : (v * v = IZR b)%R) by (apply sqrt_sqrt; lra).
  assert (V1 : (v <= 4194304)%R) by (apply sqrt_le_1_alt in Rb; fold v in Rb; replace 17592186044416%R with (4194304 * 4194304)%R in Rb by lra; rewrite sqrt_square in Rb by lra; exact Rb).
  assert (UV : (u <= v)%R) by (apply sqrt_le_1_alt; lra).
  assert (D : (1 <= (v - u) * 8388608)%R) by nra.
  assert (P30 : (bpow radix2 (-30) * 1073741824 = 1)%R).
  { change (bpow radix2 (-30)) with (/ IZR (Z.pow_pos 2 30))%R. apply Rinv_l. apply not_0_IZR. lia. }
  assert (Pp : (0 < bpow radix2 (-30))%R) by apply bpow_gt_0.
  exists (Zceil (u * 1073741824)), (Zfloor (v * 1073741824)).
  pose proof (Zceil_ub (u * 1073741824)) as C1. pose proof (Zceil_lb (u * 1073741824)) as C2.
  pose proof (Zfloor_lb (v * 1073741824)) as F1. pose proof (Zfloor_ub (v * 1073741824)) as F2.
  assert (X0 : 0 <= Zceil (u * 1073741824)) by (apply le_IZR; nra).
  assert (Lt : Zceil (u * 1073741824) < Zfloor (v * 1073741824)) by (apply lt_IZR; nra).
  assert (Y1 : Zfloor (v * 1073741824) <= two53).
  { apply le_IZR. change (IZR two53) with 9007199254740992%R. nra. }
  split; [lia|]. split; [lia|]. split; [exact Lt|]. split.
  - apply (Rmult_le_compat_r (bpow radix2 (-30))) in C1; [|lra]. rewrite Rmult_assoc, (Rmult_comm 1073741824), P30, Rmult_1_r in C1. exact C1.
  - apply (Rmult_le_compat_r (bpow radix2 (-30))) in F1; [|lra]. rewrite (Rmult_assoc v), (Rmult_comm 1073741824), P30, Rmult_1_r in F1. exact F1.
Qed.
Lemma sqrt_word a w : 0 <= a <= 2 ^ 43 -> repr 0 a w -> f64_wf (f64_sqrt w) = true /\ f64_finite (f64_sqrt w) = true /\ f64_R (f64_sqrt w) = rnd (sqrt (IZR a)).
Proof.
  intros A (W & F & V). change (bpow radix2 0) with 1%R in V. rewrite Rmult_1_r in V.
  assert (P : (0 <= f64_R w)%R) by (rewrite V; apply IZR_le; lia). pose proof (sqrt_finite w W F P) as [Ws S]. rewrite V in S.
  assert (Up : (sqrt (IZR a) <= IZR (2 ^ 22) * bpow radix2 0)%R).
  { change (bpow radix2 0) with 1%R. rewrite Rmult_1_r. rewrite <- (sqrt_square (IZR (2 ^ 22))) by (apply IZR_le; lia). apply sqrt_le_1_alt. rewrite <- mult_IZR. apply IZR_le. lia. }
  apply rnd_le in Up. rewrite grid_rnd in Up by (unfold two53; lia).
  pose proof (grid_bound 0 (2 ^ 22) ltac:(lia) ltac:(unfold two53; lia)) as G. apply Rabs_lt_inv in G.
  pose proof (rnd_le _ _ (sqrt_pos (IZR a))) as Lo. rewrite rnd_0 in Lo.
  destruct S as [(Fs & E & _)|[(_ & H)|(_ & H)]]; [auto|lra|lra].
Qed.
Lemma sqrt_lt a b w v : 0 <= a <= 2 ^ 43 -> 0 <= b <= 2 ^ 43 -> repr 0 a w -> repr 0 b v -> f64_lt (f64_sqrt w) (f64_sqrt v) = (a <? b).
Proof.
  intros A B Ra Rb. destruct (sqrt_word a w A Ra) as (W1 & F1 & V1). destruct (sqrt_word b v B Rb) as (W2 & F2 & V2).
  apply eq_true_iff_eq. rewrite (lt_R _ _ W1 W2 F1 F2), V1, V2, Z.ltb_lt. split.
  - intros L. destruct (Z.lt_ge_cases a b) as [C|C]; [exact C|]. exfalso.
    assert (Q : (sqrt (IZR b) <= sqrt (IZR a))%R) by (apply sqrt_le_1_alt, IZR_le; exact C). apply rnd_le in Q. lra.
  - intros L. destruct (sqrt_gap a b ltac:(lia) ltac:(lia)) as (x & y & X & Y & XY & Ux & Vy).
    apply rnd_le in Ux. apply rnd_le in Vy. rewrite grid_rnd in Ux, Vy by (assumption || lia).
    assert (Q : (IZR x * bpow radix2 (-30) < IZR y * bpow radix2 (-30))%R) by (apply Rmult_lt_compat_r; [apply bpow_gt_0|apply IZR_lt, XY]). lra.
Qed.

Lemma abs_sub a b : Z.abs a <= 2 ^ 42 -> Z.abs b <= 2 ^ 42 -> Z.abs (a - b) <= two53.
Proof. unfold two53. lia. Qed.
Lemma mag_repr n m x y : Z.abs n <= 2 ^ 21 -> Z.abs m <= 2 ^ 21 -> repr 0 n x -> repr 0 m y ->
  repr 0 (n * n + m * m) (f64_add (f64_mul x x) (f64_mul y y)) /\ 0 <= n * n + m * m <= 2 ^ 43.
Proof.
  intros N M X Y. assert (0 <= n * n <= 2 ^ 42) by nia. assert (0 <= m * m <= 2 ^ 42) by nia. split; [|lia].
  apply repr_add; [lia|unfold two53; lia| |]; (apply (repr_mul 0 0); [lia|unfold two53; lia|assumption|assumption]).
Qed.
Lemma same_eq p q : same_zpt p q = true <-> p = q.
Proof.
  unfold same_zpt. rewrite andb_true_iff, !Z.eqb_eq. destruct p as [p1 p2], q as [q1 q2]. cbn [fst snd]. split; [intros [-> ->]; reflexivity|intros [= -> ->]; auto].
Qed.
Lemma two_squares a b : a * a + b * b = 0 -> a = 0 /\ b = 0.
Proof. intros H. assert (0 <= a * a) by apply Z.square_nonneg. assert (0 <= b * b) by apply Z.square_nonneg. nia. Qed.
Lemma same_square a b : 0 <= a -> 0 <= b -> a * a = b * b -> a = b.
Proof. nia. Qed.
Lemma same_vec d1 d2 x1 x2 : (d1 * x1 + d2 * x2) * (d1 * x1 + d2 * x2) = (d1 * d1 + d2 * d2) * (x1 * x1 + x2 * x2) ->
  0 <= d1 * x1 + d2 * x2 -> x1 * x1 + x2 * x2 = d1 * d1 + d2 * d2 -> x1 = d1 /\ x2 = d2.
Proof.
  intros L D E. rewrite E in L. apply same_square in L; [|exact D|pose proof (Z.square_nonneg d1); pose proof (Z.square_nonneg d2); lia].
  destruct (two_squares (x1 - d1) (x2 - d2)) as [A B]; [|lia].
  replace ((x1 - d1) * (x1 - d1) + (x2 - d2) * (x2 - d2)) with (x1 * x1 + x2 * x2 + (d1 * d1 + d2 * d2) - 2 * (d1 * x1 + d2 * x2)) by ring. lia.
Qed.
Lemma neg_dot a b : 0 <= a * b -> a < 0 \/ b < 0 -> a + b < 0.
Proof. nia. Qed.
Lemma pos_dot k a b : 0 <= k -> 0 < a -> a < b -> k * k = b * a -> 0 < k.
Proof. nia. Qed.
Lemma classify_lies p o q : moderate p -> moderate o -> moderate q -> forall t, classify (fpt p) (fpt o) (fpt q) = t <-> lies p o q t.
Proof.
  intros P O Q.
  assert (Cl : classify (fpt p) (fpt o) (fpt q) =
    let d := vec false o q in let x := vec false o p in
    if 0 <? cross d x then LEFT else if cross d x <? 0 then RIGHT
    else if (fst d * fst x <? 0) || (snd d * snd x <? 0) then BEHIND
    else if dot d d <? dot x x then BEYOND
    else if same_zpt p o then ORIGIN else if same_zpt p q then DESTINATION else BETWEEN).
  { destruct (sub_repr o q O Q) as [D1 D2]. destruct (sub_repr o p O P) as [X1 X2].
    destruct P as [P1 P2], O as [O1 O2], Q as [Q1 Q2].
    unfold classify, magnitude. cbv zeta. unfold vec, cross, dot. cbn [fst snd].
    set (d1 := fst q - fst o) in *. set (d2 := snd q - snd o) in *. set (x1 := fst p - fst o) in *. set (x2 := snd p - snd o) in *.
    set (a1 := fst (sub_pt (fpt q) (fpt o))) in *. set (a2 := snd (sub_pt (fpt q) (fpt o))) in *.
    set (b1 := fst (sub_pt (fpt p) (fpt o))) in *. set (b2 := snd (sub_pt (fpt p) (fpt o))) in *.
    assert (Bd1 : Z.abs d1 <= 2 ^ 21) by (unfold d1; lia). assert (Bd2 : Z.abs d2 <= 2 ^ 21) by (unfold d2; lia).
    assert (Bx1 : Z.abs x1 <= 2 ^ 21) by (unfold x1; lia). assert (Bx2 : Z.abs x2 <= 2 ^ 21) by (unfold x2; lia).
    assert (Pr : forall n m, Z.abs n <= 2 ^ 21 -> Z.abs m <= 2 ^ 21 -> Z.abs (n * m) <= 2 ^ 42) by (intros; nia).
    assert (Mu : forall n m u v, Z.abs n <= 2 ^ 21 -> Z.abs m <= 2 ^ 21 -> repr 0 n u -> repr 0 m v -> repr 0 (n * m) (f64_mul u v)).
    { intros n m u v N M U V. apply (repr_mul 0 0); [lia|apply (Z.le_trans _ _ _ (Pr n m N M)); unfold two53; lia|exact U|exact V]. }
    assert (Sa : repr 0 (d1 * x2 - x1 * d2) (f64_sub (f64_mul a1 b2) (f64_mul a2 b1))).
    { rewrite (Z.mul_comm x1). apply repr_sub; [lia| |apply Mu; assumption|apply Mu; assumption]. apply abs_sub; apply Pr; assumption. }
    rewrite (repr_gt0 _ _ Sa), (repr_lt0 _ _ Sa), (repr_lt0 _ _ (Mu _ _ _ _ Bd1 Bx1 D1 X1)), (repr_lt0 _ _ (Mu _ _ _ _ Bd2 Bx2 D2 X2)).
    destruct (mag_repr d1 d2 a1 a2 Bd1 Bd2 D1 D2) as [Ma La]. destruct (mag_repr x1 x2 b1 b2 Bx1 Bx2 X1 X2) as [Mb Lb].
    rewrite (sqrt_lt _ _ _ _ La Lb Ma Mb). rewrite !same_int by (split; assumption). reflexivity. }
  rewrite Cl. clear Cl. unfold lies. cbv zeta.
  assert (Eo : p = o <-> fst (vec false o p) = 0 /\ snd (vec false o p) = 0).
  { unfold vec. cbn [fst snd]. destruct p as [p1 p2], o as [o1 o2]. cbn [fst snd]. split; [intros [= -> ->]; lia|intros [A B]; f_equal; lia]. }
  assert (Eq : p = q <-> fst (vec false o p) = fst (vec false o q) /\ snd (vec false o p) = snd (vec false o q)).
  { unfold vec. cbn [fst snd]. destruct p as [p1 p2], q as [q1 q2]. cbn [fst snd]. split; [intros [= -> ->]; lia|intros [A B]; f_equal; lia]. }
  destruct (vec false o q) as [d1 d2], (vec false o p) as [x1 x2]. unfold cross, dot. cbn [fst snd] in *.
  pose proof (same_eq p o) as Ro. pose proof (same_eq p q) as Rq.
  (* products of parallel vectors have one sign *)
  assert (Sg : d1 * x2 - x1 * d2 = 0 -> 0 <= (d1 * x1) * (d2 * x2)).
  { intros Z0. replace (d1 * x1 * (d2 * x2)) with ((d1 * x2) * (d1 * x2)) by (replace (d1 * x1 * (d2 * x2)) with ((d1 * x2) * (x1 * d2)) by ring; replace (x1 * d2) with (d1 * x2) by lia; ring). apply Z.square_nonneg. }
  assert (Lag : d1 * x2 - x1 * d2 = 0 -> (d1 * x1 + d2 * x2) * (d1 * x1 + d2 * x2) = (d1 * d1 + d2 * d2) * (x1 * x1 + x2 * x2)).
  { intros Z0. replace ((d1 * d1 + d2 * d2) * (x1 * x1 + x2 * x2)) with ((d1 * x1 + d2 * x2) * (d1 * x1 + d2 * x2) + (d1 * x2 - x1 * d2) * (d1 * x2 - x1 * d2)) by ring. rewrite Z0. ring. }
  assert (Eql : d1 * x2 - x1 * d2 = 0 -> 0 <= d1 * x1 + d2 * x2 -> x1 * x1 + x2 * x2 = d1 * d1 + d2 * d2 -> x1 = d1 /\ x2 = d2).
  { intros Z0. apply same_vec, Lag, Z0. }
  assert (Zx : x1 * x1 + x2 * x2 = 0 -> x1 = 0 /\ x2 = 0) by apply two_squares.
  assert (Sq : forall a b, 0 <= a * a + b * b) by (intros a b; pose proof (Z.square_nonneg a); pose proof (Z.square_nonneg b); lia).
  assert (N0 := Sq x1 x2). assert (N1 := Sq d1 d2).
  destruct (0 <? d1 * x2 - x1 * d2) eqn:E1.
  { apply Z.ltb_lt in E1. intros t. destruct t; (split; [intros X; try discriminate X; lia|intros X; try reflexivity; exfalso]); try lia.
    - apply Eo in X. destruct X as [-> ->]. lia.
    - destruct X as [X _]. apply Eq in X. destruct X as [-> ->]. lia. }
  destruct (d1 * x2 - x1 * d2 <? 0) eqn:E2.
  { apply Z.ltb_lt in E2. intros t. destruct t; (split; [intros X; try discriminate X; lia|intros X; try reflexivity; exfalso]); try lia.
    - apply Eo in X. destruct X as [-> ->]. lia.
    - destruct X as [X _]. apply Eq in X. destruct X as [-> ->]. lia. }
  apply Z.ltb_ge in E1, E2. assert (E0 : d1 * x2 - x1 * d2 = 0) by lia. specialize (Sg E0). specialize (Lag E0). specialize (Eql E0).
  destruct ((d1 * x1 <? 0) || (d2 * x2 <? 0)) eqn:E3.
  { assert (Dn : d1 * x1 + d2 * x2 < 0) by (apply neg_dot; [exact Sg|]; apply orb_true_iff in E3; rewrite !Z.ltb_lt in E3; exact E3).
    intros t. destruct t; (split; [intros X; try discriminate X; lia|intros X; try reflexivity; exfalso]); try lia.
    - apply Eo in X. destruct X as [-> ->]. lia.
    - destruct X as [X _]. apply Eq in X. destruct X as [-> ->]. lia. }
  apply orb_false_iff in E3. rewrite !Z.ltb_ge in E3. assert (Dp : 0 <= d1 * x1 + d2 * x2) by lia. clear E3 Sg. specialize (Eql Dp).
  destruct (d1 * d1 + d2 * d2 <? x1 * x1 + x2 * x2) eqn:E4.
  { apply Z.ltb_lt in E4. intros t. destruct t; (split; [intros X; try discriminate X; lia|intros X; try reflexivity; exfalso]); try lia.
    - apply Eo in X. destruct X as [-> ->]. lia.
    - destruct X as [X _]. apply Eq in X. destruct X as [-> ->]. lia. }
  apply Z.ltb_ge in E4.
  destruct (same_zpt p o) eqn:E5.
  { assert (Po : p = o) by (apply Ro; reflexivity). pose proof (proj1 Eo Po) as [X1 X2].
    intros t. destruct t; (split; [intros X; try discriminate X; try exact Po|intros X; try reflexivity; exfalso]); try (subst x1 x2; lia). apply X, Po. }
  assert (Np : p <> o) by (intros X; apply Ro in X; discriminate X).
  assert (Xp : 0 < x1 * x1 + x2 * x2) by (destruct (Z.eq_dec (x1 * x1 + x2 * x2) 0) as [X|X]; [exfalso; apply Np, Eo, Zx, X|lia]).
  destruct (same_zpt p q) eqn:E6.
  { assert (Pq : p = q) by (apply Rq; reflexivity). pose proof (proj1 Eq Pq) as [X1 X2].
    intros t. destruct t; (split; [intros X; try discriminate X; try (split; [exact Pq|exact Np])|intros X; try reflexivity; exfalso]); try (subst x1 x2; lia). apply Np, X. }
  assert (Nq : p <> q) by (intros X; apply Rq in X; discriminate X).
  assert (Lt : x1 * x1 + x2 * x2 < d1 * d1 + d2 * d2).
  { destruct (Z.eq_dec (x1 * x1 + x2 * x2) (d1 * d1 + d2 * d2)) as [X|X]; [exfalso; apply Nq, Eq, Eql, X|lia]. }
  assert (Dq : 0 < d1 * x1 + d2 * x2) by (apply (pos_dot _ (x1 * x1 + x2 * x2) (d1 * d1 + d2 * d2)); assumption).
  intros t. destruct t; (split; [intros X; try discriminate X; try (split; [exact E0|split; assumption])|intros X; try reflexivity; exfalso]); try lia; [apply Np, X|apply Nq, X].
Qed.
