(** Proofs about planar/coord/utm: when the military grid letters panic *)
From Coq Require Import ZArith Bool List Lia Reals Lra Ascii.
From Flocq Require Import Core.Core IEEE754.BinarySingleNaN IEEE754.Binary IEEE754.Bits.
From Verif Require Import Base_Bytes Base_F64 Base_F64Arith Base_Res
  P_F64 P_F64Flocq P_F64Round P_F64Grid P_F64Err P_F64Sqrt P_Rtree3 P_Strconv4 P_Slippy P_SlippyR P_Ring
  M_Coord S_Coord P_Coord P_Coord2 P_Coord3 P_Coord4.
Import ListNotations.
Open Scope Z_scope.

Lemma abs_round b n e : -1074 <= e -> 0 <= n <= two53 -> b = (IZR n * bpow radix2 e)%R -> forall r, (Rabs r <= b)%R -> (Rabs (rnd r) <= b)%R.
Proof.
  intros He Hn -> r H. assert (V : rnd (IZR n * bpow radix2 e) = (IZR n * bpow radix2 e)%R) by (apply grid_rnd; lia).
  apply Rabs_le_inv in H. apply Rabs_le. split.
  - rewrite <- V, <- rnd_opp. apply rnd_le. lra.
  - rewrite <- V. apply rnd_le. lra.
Qed.

Lemma rle_t x y : Rle_bool x y = true -> (x <= y)%R.
Proof. case Rle_bool_spec; [auto|discriminate]. Qed.
Lemma rlt_t x y : Rlt_bool x y = true -> (x < y)%R.
Proof. case Rlt_bool_spec; [auto|discriminate]. Qed.

Lemma bnd_step r w b n e : is_round r w -> (Rabs r <= b)%R -> -1074 <= e -> 0 <= n <= two53 -> b = (IZR n * bpow radix2 e)%R ->
  (b <= 16384)%R -> f64_wf w = true /\ f64_finite w = true /\ (Rabs (f64_R w) <= b)%R.
Proof.
  intros H L He Hn E B. destruct (round_val 14 r w ltac:(lia) H) as (W & F & V); [change (bpow radix2 14) with 16384%R; lra|].
  split; [exact W|]. split; [exact F|]. rewrite V. now apply (abs_round b n e).
Qed.

(** ** The zone of a position and its central meridian *)
Lemma zone_wide l (N : bool) n b : N = Rle_bool 0 (latR l) -> (-80 <= latR l <= 84)%R -> 1 <= n <= 60 ->
  (b = true -> 56 <= latR l /\ Rabs (IZR (6 * n - 183) - lngR l) <= 6)%R -> b = true ->
  1 <= n <= 60 /\ N = Rle_bool 0 (latR l) /\ (-80 <= latR l <= 84)%R /\
  (Rabs (IZR (6 * n - 183) - lngR l) <= 3 + 1 / 4 \/ (56 <= latR l /\ Rabs (IZR (6 * n - 183) - lngR l) <= 6))%R.
Proof. intros H1 H2 H3 H4 H5. split; [exact H3|]. split; [exact H1|]. split; [exact H2|]. right. now apply H4. Qed.

Lemma zone_near l z : position l -> (-180 <= lngR l <= 180 - bpow radix2 (-44))%R -> new_zone l = Ok z ->
  letter_is_valid (letter z) = true /\ 1 <= number z <= 60 /\ letter_is_northern (letter z) = Rle_bool 0 (latR l) /\
  (-80 <= latR l <= 84)%R /\
  let d := (IZR (6 * number z - 183) - lngR l)%R in
  (Rabs d <= 3 + 1 / 4 \/ (56 <= latR l /\ Rabs d <= 6))%R.
Proof.
  intros P G E. pose proof P as (Wg & Fg & Wt & Ft). unfold new_zone in E. cbv zeta in E.
  pose proof (letter_spec (lat l) Wt Ft) as Hl. fold (latR l) in Hl.
  destruct (zone_letter (lat l)) as [c|]; [|discriminate E]. cbn [letter_ok] in Hl. injection E as <-. cbn [letter number].
  pose proof (band_range _ _ Hl) as Rg.
  assert (Lt : letter_is_valid c = true /\ letter_is_northern c = Rle_bool 0 (latR l)).
  { destruct Hl as (i & Ec & L & U). clear - Ec L U.
    do 10 (destruct i as [|i]; [injection Ec as <-; split; [reflexivity|]; cbn [Nat.eqb] in U; simpl INR in *; rewrite Rle_bool_false by lra; reflexivity|]).
    do 10 (destruct i as [|i]; [injection Ec as <-; split; [reflexivity|]; simpl INR in L; rewrite Rle_bool_true by lra; reflexivity|]).
    exfalso. destruct i; discriminate Ec. }
  destruct Lt as [L1 L2]. split; [exact L1|].
  pose proof (bpow_gt_0 radix2 (-44)) as P44.
  destruct (strip_res (lng l) Wg Fg) as (n & En & Hn & S1 & _ & S3); [unfold lngR in G; lra|]. fold (lngR l) in S1, S3.
  rewrite (number_R_ok l P), En. replace (n - 1 + 1) with n by lia. rewrite i64_id by lia.
  specialize (S3 ltac:(lra)).
  assert (Sn : (Rabs (IZR (6 * n - 183) - lngR l) <= 3 + 1 / 4)%R).
  { unfold strip in S1. rewrite (minus_IZR _ 186), (minus_IZR _ 180) in S1. rewrite minus_IZR.
    assert (bpow radix2 (-43) <= 1 / 4)%R.
    { replace (1 / 4)%R with (bpow radix2 (-2)) by (simpl; lra). apply bpow_le. lia. }
    apply Rabs_le. lra. }
  assert (Hn' : 1 <= n <= 60) by lia.
  clear - L2 Rg Sn Hn' P44 G.
  unfold number_R. cbv zeta.
  rewrite (Rlt_bool_false 84 (latR l)), (Rlt_bool_false (latR l) (-90)), !andb_false_r by lra. cbn [orb andb].
  Ltac wide l L2 Rg n := match goal with |- context [if ?b then n else _] =>
    destruct b eqn:Q; [apply (zone_wide l _ n b L2 Rg); [lia| |exact Q];
      clear; intros Q'; rewrite !andb_true_iff in Q'; destruct Q' as [[[Q0 Q1] Q2] Q3];
      apply rlt_t in Q3; apply rle_t in Q2; apply rle_t in Q0; cbn; split; [lra|apply Rabs_le; lra]
    |clear Q] end.
  wide l L2 Rg 32. wide l L2 Rg 31. wide l L2 Rg 33. wide l L2 Rg 35. wide l L2 Rg 37.
  split; [lia|]. split; [exact L2|]. split; [exact Rg|]. left. exact Sn.
Qed.

(** ** The first letter *)
Definition q_ok : bool := forallb (fun q => f64_to_i64 (f64_abs (f64_ofZ q)) =? Z.abs q) [-3; -2; -1; 0; 1; 2; 3].
Lemma q_table q : Z.abs q <= 3 -> f64_to_i64 (f64_abs (f64_ofZ q)) = Z.abs q.
Proof.
  intros H. assert (T : q_ok = true) by (vm_compute; reflexivity). unfold q_ok in T. rewrite forallb_forall in T.
  apply Z.eqb_eq, T. assert (q = -3 \/ q = -2 \/ q = -1 \/ q = 0 \/ q = 1 \/ q = 2 \/ q = 3) as C by lia.
  cbn [In]. intuition.
Qed.

Lemma quot_small k : Z.abs k <= 399 -> Z.abs (Z.quot k 100) <= 3.
Proof. intros H. Z.to_euclidean_division_equations. lia. Qed.

Lemma km_bound x dd m c km t : is_round x dd ->
  (f64_wf dd = true -> f64_finite dd = true -> is_round (111 * f64_R dd) m) ->
  (f64_wf m = true -> f64_finite m = true -> is_round (f64_R m * f64_R c) km) ->
  (0 <= f64_R c <= 1)%R -> (56 <= t -> f64_R c <= 3 / 5)%R -> (Rabs x <= 3 + 1 / 4 \/ (56 <= t /\ Rabs x <= 6))%R ->
  f64_wf km = true /\ f64_finite km = true /\ (Rabs (f64_R km) <= 399 + 3 / 4)%R.
Proof.
  intros R1 R2 R3 Bc Sc [D|[H D]].
  - destruct (bnd_step _ _ (3 + 1 / 4) 13 (-2) R1 D) as (W1 & F1 & D1); [lia|unfold two53; lia|simpl; lra|lra|].
    assert (M : (Rabs (111 * f64_R dd) <= 360 + 3 / 4)%R) by (rewrite Rabs_mult, (Rabs_pos_eq 111) by lra; clear - D1; lra).
    destruct (bnd_step _ _ (360 + 3 / 4) 1443 (-2) (R2 W1 F1) M) as (W2 & F2 & D2); [lia|unfold two53; lia|simpl; clear; lra|clear; lra|].
    apply (bnd_step _ _ (399 + 3 / 4) 1599 (-2) (R3 W2 F2)); [|lia|unfold two53; lia|simpl; clear; lra|clear; lra].
    rewrite Rabs_mult, (Rabs_pos_eq (f64_R c)) by apply Bc. pose proof (Rabs_pos (f64_R m)). clear - D2 Bc H. nra.
  - specialize (Sc H).
    destruct (bnd_step _ _ 6 6 0 R1 D) as (W1 & F1 & D1); [lia|unfold two53; lia|simpl; lra|lra|].
    assert (M : (Rabs (111 * f64_R dd) <= 666)%R) by (rewrite Rabs_mult, (Rabs_pos_eq 111) by lra; clear - D1; lra).
    destruct (bnd_step _ _ 666 666 0 (R2 W1 F1) M) as (W2 & F2 & D2); [lia|unfold two53; lia|simpl; clear; lra|clear; lra|].
    apply (bnd_step _ _ (399 + 3 / 4) 1599 (-2) (R3 W2 F2)); [|lia|unfold two53; lia|simpl; clear; lra|clear; lra].
    rewrite Rabs_mult, (Rabs_pos_eq (f64_R c)) by apply Bc. pose proof (Rabs_pos (f64_R m)) as P. clear - D2 Bc Sc P. nra.
Qed.

Lemma lng_letter_ok cos z cm l : Z.abs cm <= 177 -> 1 <= number z ->
  position l -> cos_like cos (lat l) -> (Rabs (IZR cm - lngR l) <= 3 + 1 / 4 \/ (56 <= latR l /\ Rabs (IZR cm - lngR l) <= 6))%R ->
  exists a, lng_letter cos z cm l = Ok a.
Proof.
  intros Hcm Hz (Wg & Fg & _ & _) (Wc & Fc & Bc & Sc) D. unfold lng_letter.
  set (c := cos (to_radian (lat l))) in *.
  destruct (ofZ_all cm ltac:(lia)) as (A1 & A2 & A3). destruct (ofZ_all 111 ltac:(lia)) as (B1 & B2 & B3).
  replace c111 with (f64_ofZ 111) by (vm_compute; reflexivity).
  pose proof (sub_round (f64_ofZ cm) (lng l) A1 Wg A2 Fg) as R1. rewrite A3 in R1. fold (lngR l) in R1.
  generalize dependent (f64_sub (f64_ofZ cm) (lng l)). intros dd R1.
  pose proof (fun W => mul_round (f64_ofZ 111) dd B1 W B2) as R2. rewrite B3 in R2.
  generalize dependent (f64_mul (f64_ofZ 111) dd). intros m R2.
  pose proof (fun W F => mul_round m c W Wc F Fc) as R3.
  generalize dependent (f64_mul m c). intros km R3.
  destruct (km_bound _ _ _ _ _ _ R1 R2 R3 Bc Sc D) as (W3 & F3 & K').
  assert (I : Z.abs (f64_to_i64 km) <= 399) by (apply to_i64_abs; [exact W3|exact F3|clear; lia|clear - K'; lra]).
  assert (Q : Z.abs (Z.quot (f64_to_i64 km) 100) <= 3).
  { clear - I. now apply quot_small. }
  rewrite q_table by exact Q.
  assert (Rm : 0 <= Z.rem (number z) 3 < 3) by (apply Z.rem_bound_pos; clear - Hz; lia).
  set (r := Z.rem (number z) 3) in *. assert (Hq : 0 <= Z.abs (Z.quot (f64_to_i64 km) 100) <= 3) by (clear - Q; lia).
  generalize dependent (Z.abs (Z.quot (f64_to_i64 km) 100)). intros q _ Hq. clearbody r. generalize (f64_lt dd f64_zero). clear - Rm Hq. intros b.
  assert (r = 0 \/ r = 1 \/ r = 2) as Cr by lia. assert (q = 0 \/ q = 1 \/ q = 2 \/ q = 3) as Cq by lia.
  destruct Cr as [E|[E|E]]; rewrite E; clear E; destruct Cq as [E|[E|[E|E]]]; rewrite E; clear E; destruct b; eexists; reflexivity.
Qed.

(** ** The second letter *)
Definition row (r : Z) : Z := f64_to_i64 (f64_abs (f64_ceil (f64_div (f64_ofZ r) c100))).
Definition row_all (f : Z -> Z) : bool := forallb (fun n => f (Z.of_nat n) =? (Z.of_nat n + 99) / 100) (seq 0 2000).
Lemma row_all_spec f : row_all f = true -> forall r, 0 <= r < 2000 -> f r = (r + 99) / 100.
Proof.
  intros T r H. unfold row_all in T. rewrite forallb_forall in T.
  assert (I : In (Z.to_nat r) (seq 0 2000)) by (apply in_seq; lia).
  specialize (T _ I). rewrite Z2Nat.id in T by lia. now apply Z.eqb_eq.
Qed.
Lemma row_all_ok : row_all row = true.
Proof. vm_compute. reflexivity. Qed.
Lemma row_table r : 0 <= r < 2000 -> row r = (r + 99) / 100.
Proof. exact (row_all_spec row row_all_ok r). Qed.

Lemma at_idx_ok {A} (l : list A) i : 0 <= i < Z.of_nat (length l) -> exists a, @at_idx unit A l i = Ok a.
Proof.
  intros H. unfold at_idx. destruct (Z.ltb_spec i 0); [lia|].
  destruct (nth_error l (Z.to_nat i)) as [a|] eqn:E; [now exists a|]. apply nth_error_None in E. lia.
Qed.
Lemma at_idx_panic {A} (l : list A) i : ~ (0 <= i < Z.of_nat (length l)) -> @at_idx unit A l i = Panic.
Proof.
  intros H. unfold at_idx. destruct (Z.ltb_spec i 0); [reflexivity|].
  destruct (nth_error l (Z.to_nat i)) as [a|] eqn:E; [|reflexivity].
  assert (Z.to_nat i < length l)%nat by (apply nth_error_Some; now rewrite E). lia.
Qed.

Lemma lat_letter_row z l : lat_letter z l =
  at_idx lat_digraph_zones ((if Z.rem (number z) 2 =? 0 then 4 else -1) +
    (if is_northern z then row (Z.rem (f64_to_i64 (f64_abs (f64_mul c111 (lat l)))) 2000)
     else 21 - row (Z.rem (f64_to_i64 (f64_abs (f64_mul c111 (lat l)))) 2000))).
Proof. unfold lat_letter, row. cbv zeta. reflexivity. Qed.

Lemma row_case (o b : bool) m : 0 <= m < 2000 ->
  if (m =? 0) && Bool.eqb b o then @at_idx unit _ lat_digraph_zones ((if negb o then 4 else -1) + (if b then (m + 99) / 100 else 21 - (m + 99) / 100)) = Panic
  else exists a, @at_idx unit _ lat_digraph_zones ((if negb o then 4 else -1) + (if b then (m + 99) / 100 else 21 - (m + 99) / 100)) = Ok a.
Proof.
  intros Bm.
  assert (Lg : Z.of_nat (length lat_digraph_zones) = 25) by reflexivity.
  assert (I0 : (m + 99) / 100 = 0 <-> m = 0).
  { split; intros C; [|subst; reflexivity]. Z.to_euclidean_division_equations; lia. }
  assert (I1 : 0 <= (m + 99) / 100 <= 20) by (Z.to_euclidean_division_equations; lia).
  set (i := (m + 99) / 100) in *. clearbody i.
  destruct (Z.eqb_spec m 0) as [Em|Em]; destruct b; destruct o; cbn [andb Bool.eqb negb];
    first [apply at_idx_panic; rewrite Lg; lia | apply at_idx_ok; rewrite Lg; lia].
Qed.

Lemma km_trunc w k : f64_wf w = true -> f64_finite w = true -> (Rabs (f64_R w) <= 9324)%R ->
  (IZR k <= Rabs (f64_R w) < IZR k + 1)%R -> f64_to_i64 (f64_abs w) = k /\ 0 <= k.
Proof.
  intros W1 F1 M K. destruct (abs_R _ W1 F1) as (W2 & F2 & E2).
  pose proof (Rabs_pos (f64_R w)) as Pk.
  destruct (trunc_floor _ W2 F2) as (n & Tn & N0 & Hn); [rewrite E2; apply Rabs_pos|].
  rewrite E2 in Hn.
  assert (n < k + 1) by (apply lt_IZR; rewrite plus_IZR; lra). assert (k < n + 1) by (apply lt_IZR; rewrite plus_IZR; lra).
  assert (n = k) by (clear - H H0; lia). subst n. assert (k <= 9324) by (apply le_IZR; lra).
  split; [|exact N0]. unfold f64_to_i64. rewrite Tn. clear - N0 H1. unfold two63. destruct (_ && _) eqn:V; [reflexivity|]. exfalso. lia.
Qed.

Lemma lat_letter_spec z l k : position l -> 1 <= number z -> (-80 <= latR l <= 84)%R ->
  letter_is_northern (letter z) = Rle_bool 0 (latR l) -> whole_km (lat l) k ->
  if (k mod 2000 =? 0) && Bool.eqb (Rle_bool 0 (latR l)) (Z.odd (number z)) then lat_letter z l = Panic
  else exists b, lat_letter z l = Ok b.
Proof.
  intros (_ & _ & Wt & Ft) Hz T N K. unfold whole_km in K.
  destruct (ofZ_all 111 ltac:(lia)) as (B1 & B2 & B3).
  pose proof (mul_round (f64_ofZ 111) (lat l) B1 Wt B2 Ft) as R1. rewrite B3 in R1. fold (latR l) in R1.
  assert (M : (Rabs (111 * latR l) <= 9324)%R) by (apply Rabs_le; lra).
  rewrite lat_letter_row. replace c111 with (f64_ofZ 111) by (vm_compute; reflexivity).
  generalize dependent (f64_mul (f64_ofZ 111) (lat l)). intros w K R1.
  destruct (bnd_step _ _ 9324 9324 0 R1 M) as (W1 & F1 & M'); [clear; lia|clear; unfold two53; lia|clear; simpl; lra|clear; lra|].
  destruct (km_trunc w k W1 F1 M' K) as [-> N0]. clear - Hz N N0.
  rewrite (Z.rem_mod_nonneg k) by lia. pose proof (Z.mod_pos_bound k 2000 ltac:(lia)) as Bm.
  rewrite row_table by exact Bm. unfold is_northern. rewrite N.
  rewrite (Z.rem_mod_nonneg (number z)) by lia.
  assert (Eo : (number z mod 2 =? 0) = negb (Z.odd (number z))).
  { rewrite Zmod_odd. destruct (Z.odd (number z)); reflexivity. }
  rewrite Eo. now apply row_case.
Qed.

(** ** FromLngLat *)
Theorem panic_iff project cos l z k : position l -> (-180 <= lngR l <= 180 - bpow radix2 (-44))%R ->
  new_zone l = Ok z -> cos_like cos (lat l) -> whole_km (lat l) k ->
  if (k mod 2000 =? 0) && Bool.eqb (Rle_bool 0 (latR l)) (Z.odd (number z)) then from_lnglat project cos true l = Panic
  else exists c, from_lnglat project cos true l = Ok c /\ c_zone c = z /\ digraph c <> None.
Proof.
  intros P G E C K. pose proof P as (Wg & Fg & Wt & Ft).
  destruct (zone_near l z P G E) as (V & Hn & N & T & D).
  pose proof (bpow_gt_0 radix2 (-44)) as P44.
  destruct (normalize_spec l Wg Fg) as (j & _ & Lt & W' & F' & Eg & _ & J); [lra|]. specialize (J ltac:(lra)). subst j.
  rewrite Rmult_0_r, Rminus_0_r in Eg.
  unfold from_lnglat. rewrite E. cbn [bind]. cbv zeta. set (l' := normalize_lng l) in *.
  assert (P' : position l') by (unfold position; rewrite Lt; auto).
  destruct (project l' z) as [no ea]. unfold new_digraph, is_valid. rewrite V.
  destruct (Z.leb_spec 1 (number z)) as [_|]; [|lia]. destruct (Z.leb_spec (number z) 60) as [_|]; [|lia]. cbn [andb negb].
  rewrite meridian_spec, V. destruct (Z.leb_spec 1 (number z)) as [_|]; [|lia]. destruct (Z.leb_spec (number z) 60) as [_|]; [|lia]. cbn [andb bind].
  assert (Lr : latR l' = latR l) by (unfold latR; now rewrite Lt).
  destruct (lng_letter_ok cos z (6 * number z - 183) l') as (a & Ea); [lia|lia|exact P'|rewrite Lt; exact C|rewrite Lr, Eg; exact D|].
  rewrite Ea. cbn [bind].
  pose proof (lat_letter_spec z l' k P' ltac:(lia)) as S. rewrite Lr in S. specialize (S T N). rewrite Lt in S. specialize (S K).
  destruct (_ && _).
  - rewrite S. reflexivity.
  - destruct S as (b & Eb). rewrite Eb. cbn [bind]. eexists. split; [reflexivity|]. split; [reflexivity|discriminate].
Qed.
