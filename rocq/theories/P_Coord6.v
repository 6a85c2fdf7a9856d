(** Proofs about planar/coord: statements as used by the theorems, counterexamples *)
From Coq Require Import ZArith Bool List Lia Reals Lra Ascii.
From Flocq Require Import Core.Core.
From Verif Require Import Base_Bytes Base_F64 Base_F64Arith Base_Res
  P_F64 P_F64Flocq P_F64Round P_F64Grid P_SlippyR
  M_Coord S_Coord P_Coord P_Coord2 P_Coord3 P_Coord4 P_Coord5.
Import ListNotations.
Open Scope Z_scope.

Theorem zone_error_iff l : position l -> (new_zone l = Err tt <-> (~ (-80 <= latR l <= 84))%R).
Proof. intros P. pose proof (latitude_error l P). tauto. Qed.

(** Panics as an equivalence *)
Theorem panic_iff' project cos l z k : position l -> (-180 <= lngR l <= 180 - bpow radix2 (-44))%R ->
  new_zone l = Ok z -> cos_like cos (lat l) -> whole_km (lat l) k ->
  (from_lnglat project cos true l = Panic <->
     k mod 2000 = 0 /\ ((0 <= latR l)%R /\ Z.odd (number z) = true \/ (latR l < 0)%R /\ Z.odd (number z) = false)) /\
  (from_lnglat project cos true l <> Panic ->
     exists c, from_lnglat project cos true l = Ok c /\ c_zone c = z /\ digraph c <> None).
Proof.
  intros P G E C K. pose proof (panic_iff project cos l z k P G E C K) as H.
  destruct (Z.eqb_spec (k mod 2000) 0) as [Ek|Ek]; cbn [andb] in H.
  - revert H. case (Rle_bool_spec 0 (latR l)); intros Hl; destruct (Z.odd (number z)) eqn:Eo; cbn [Bool.eqb]; intros H.
    + split; [|intros N; now elim N]. split; [intros _; split; [exact Ek|left; split; [exact Hl|reflexivity]]|intros _; exact H].
    + destruct H as (c & Hc & R). rewrite Hc. split; [|intros _; exists c; now split]. split; [discriminate|]. intros [_ [[_ D]|[D _]]]; [discriminate D|lra].
    + destruct H as (c & Hc & R). rewrite Hc. split; [|intros _; exists c; now split]. split; [discriminate|]. intros [_ [[D _]|[_ D]]]; [lra|discriminate D].
    + split; [|intros N; now elim N]. split; [intros _; split; [exact Ek|right; split; [exact Hl|reflexivity]]|intros _; exact H].
  - destruct H as (c & Hc & R). rewrite Hc. split; [|intros _; exists c; now split]. split; [discriminate|]. intros [D _]. now elim Ek.
Qed.

(** ** Words used in counterexamples *)
Definition at_deg (g t : Z) : lnglat := LngLat (f64_ofZ g) (f64_ofZ t).
Lemma at_deg_pos g t : Z.abs g <= 1000 -> Z.abs t <= 1000 -> position (at_deg g t) /\ lngR (at_deg g t) = IZR g /\ latR (at_deg g t) = IZR t.
Proof.
  intros Hg Ht. destruct (ofZ_all g Hg) as (A1 & A2 & A3). destruct (ofZ_all t Ht) as (B1 & B2 & B3).
  unfold position, lngR, latR. cbn [lng lat at_deg]. auto.
Qed.

Lemma lt_deg w n : f64_wf w = true -> f64_finite w = true -> Z.abs n <= 1000 -> f64_lt w (f64_ofZ n) = true -> (f64_R w < IZR n)%R.
Proof.
  intros W F Hn H. destruct (ofZ_all n Hn) as (A1 & A2 & A3). rewrite <- A3. now apply lt_R.
Qed.
Lemma gt_deg w n : f64_wf w = true -> f64_finite w = true -> Z.abs n <= 1000 -> f64_lt (f64_ofZ n) w = true -> (IZR n < f64_R w)%R.
Proof.
  intros W F Hn H. destruct (ofZ_all n Hn) as (A1 & A2 & A3). rewrite <- A3. now apply lt_R.
Qed.

(** The last float64 before 180. *)
Definition before_180 : f64 := 0x40667FFFFFFFFFFF.
(** The last float64 before 6. *)
Definition before_6 : f64 := 0x4017FFFFFFFFFFFF.

Lemma east_end : exists l, position l /\ (-180 <= lngR l < 180)%R /\ latR l = 0%R /\ new_zone l = Ok (Zone 61 (code "N")).
Proof.
  exists (LngLat before_180 f64_zero).
  split; [split; [reflexivity|split; [reflexivity|split; reflexivity]]|]. unfold lngR, latR. cbn [lng lat].
  split; [|split; [reflexivity|vm_compute; reflexivity]].
  assert (f64_R before_180 < IZR 180)%R by (apply lt_deg; [reflexivity|reflexivity|lia|vm_compute; reflexivity]).
  assert (IZR (-180) < f64_R before_180)%R by (apply gt_deg; [reflexivity|reflexivity|lia|vm_compute; reflexivity]). lra.
Qed.

Lemma west_side : exists l, position l /\ (0 <= lngR l < 6)%R /\ latR l = 0%R /\ new_zone l = Ok (Zone 32 (code "N")).
Proof.
  exists (LngLat before_6 f64_zero).
  split; [split; [reflexivity|split; [reflexivity|split; reflexivity]]|]. unfold lngR, latR. cbn [lng lat].
  split; [|split; [reflexivity|vm_compute; reflexivity]].
  assert (f64_R before_6 < IZR 6)%R by (apply lt_deg; [reflexivity|reflexivity|lia|vm_compute; reflexivity]).
  assert (IZR 0 < f64_R before_6)%R by (apply gt_deg; [reflexivity|reflexivity|lia|vm_compute; reflexivity]). lra.
Qed.

Lemma north_end : exists l, position l /\ lngR l = 7%R /\ latR l = 84%R /\ new_zone l = Ok (Zone 32 (code "X")) /\
  forall n, utm_number 0 (code "X") 7 n -> n = 31.
Proof.
  exists (at_deg 7 84). destruct (at_deg_pos 7 84 ltac:(lia) ltac:(lia)) as (P & G & T).
  split; [exact P|]. split; [exact G|]. split; [exact T|]. split; [vm_compute; reflexivity|].
  intros n H. unfold utm_number in H. change (code "X" =? code "V") with false in H. change (code "X" =? code "X") with true in H.
  cbv iota in H. destruct H as [[_ H]|[[H _]|[[H _]|[[H _]|[H _]]]]]; [exact H|exfalso; lra..].
Qed.

Lemma letter_I : is_valid (Zone 31 (code "I")) = true /\ forall l, position l -> new_zone l <> Ok (Zone 31 (code "I")).
Proof.
  split; [reflexivity|]. intros l (Wg & Fg & Wt & Ft) E. unfold new_zone in E. cbv zeta in E.
  destruct (zone_letter (lat l)) as [c|] eqn:Ec; [|discriminate E].
  assert (c = code "I") by congruence. subst c. apply letter_iff in Ec; [|assumption|assumption].
  destruct Ec as (i & Ei & _).
  do 20 (destruct i as [|i]; [discriminate Ei|]). destruct i; discriminate Ei.
Qed.

(** ** Letters *)
Lemma panic_3_0 project cos : cos f64_zero = f64_one -> from_lnglat project cos true (at_deg 3 0) = Panic.
Proof.
  intros C. unfold from_lnglat. replace (new_zone (at_deg 3 0)) with (@Ok unit _ (Zone 31 (code "N"))) by (vm_compute; reflexivity).
  cbn [bind]. cbv zeta. replace (normalize_lng (at_deg 3 0)) with (at_deg 3 0) by (vm_compute; reflexivity).
  destruct (project _ _). unfold new_digraph.
  replace (is_valid (Zone 31 (code "N"))) with true by reflexivity. cbn [negb].
  replace (central_meridian (Zone 31 (code "N"))) with (@Ok unit Z 3) by reflexivity. cbn [bind].
  unfold lng_letter. replace (to_radian (lat (at_deg 3 0))) with f64_zero by (vm_compute; reflexivity). rewrite C.
  vm_compute. reflexivity.
Qed.

Definition neg_deg : f64 := 0xBF747AE147AE147B.
Lemma panic_south project cos (l := LngLat (f64_ofZ 9) neg_deg) : (forall w, cos w = f64_one) ->
  position l /\ lngR l = 9%R /\ (-1 < latR l < 0)%R /\ from_lnglat project cos true l = Panic.
Proof.
  intros C. destruct (ofZ_all 9 ltac:(lia)) as (A1 & A2 & A3).
  split; [split; [exact A1|split; [exact A2|split; reflexivity]]|]. split; [exact A3|]. split.
  { unfold latR. cbn [lat l].
    assert (f64_R neg_deg < IZR 0)%R by (apply lt_deg; [reflexivity|reflexivity|lia|vm_compute; reflexivity]).
    assert (IZR (-1) < f64_R neg_deg)%R by (apply gt_deg; [reflexivity|reflexivity|lia|vm_compute; reflexivity]). lra. }
  unfold from_lnglat. replace (new_zone l) with (@Ok unit _ (Zone 32 (code "M"))) by (vm_compute; reflexivity).
  cbn [bind]. cbv zeta. replace (normalize_lng l) with l by (vm_compute; reflexivity).
  destruct (project _ _). unfold new_digraph.
  replace (is_valid (Zone 32 (code "M"))) with true by reflexivity. cbn [negb].
  replace (central_meridian (Zone 32 (code "M"))) with (@Ok unit Z 9) by reflexivity. cbn [bind].
  unfold lng_letter. rewrite C. vm_compute. reflexivity.
Qed.

Lemma panic_west project cos (l := at_deg (-185) 10) : (forall w, cos w = f64_one) -> from_lnglat project cos true l = Panic.
Proof.
  intros C. unfold from_lnglat. replace (new_zone l) with (@Ok unit _ (Zone 1 (code "P"))) by (vm_compute; reflexivity).
  cbn [bind]. cbv zeta. replace (normalize_lng l) with l by (vm_compute; reflexivity).
  destruct (project _ _). unfold new_digraph.
  replace (is_valid (Zone 1 (code "P"))) with true by reflexivity. cbn [negb].
  replace (central_meridian (Zone 1 (code "P"))) with (@Ok unit Z (-177)) by reflexivity. cbn [bind].
  unfold lng_letter. rewrite C. vm_compute. reflexivity.
Qed.

(** 35.75 *)
Definition d35_75 : f64 := 0x4041E00000000000.
Lemma same_square cos : cos f64_zero = f64_one -> exists l1 l2 z d,
  position l1 /\ position l2 /\ latR l1 = 0%R /\ latR l2 = 0%R /\ (1 < lngR l2 - lngR l1)%R /\
  new_zone l1 = Ok z /\ new_zone l2 = Ok z /\ new_digraph cos z l1 = Ok d /\ new_digraph cos z l2 = Ok d.
Proof.
  intros C. exists (at_deg 34 0), (LngLat d35_75 f64_zero), (Zone 36 (code "N")), ("X"%char, "E"%char).
  destruct (at_deg_pos 34 0 ltac:(lia) ltac:(lia)) as (P & G & T).
  split; [exact P|]. split; [split; [reflexivity|split; [reflexivity|split; reflexivity]]|]. split; [exact T|]. split; [reflexivity|].
  split.
  { rewrite G. unfold lngR. cbn [lng].
    assert (IZR 35 < f64_R d35_75)%R by (apply gt_deg; [reflexivity|reflexivity|lia|vm_compute; reflexivity]). lra. }
  split; [vm_compute; reflexivity|]. split; [vm_compute; reflexivity|].
  unfold new_digraph. replace (is_valid (Zone 36 (code "N"))) with true by reflexivity. cbn [negb].
  replace (central_meridian (Zone 36 (code "N"))) with (@Ok unit Z 33) by reflexivity. cbn [bind].
  unfold lng_letter. cbn [lat].
  replace (to_radian (lat (at_deg 34 0))) with f64_zero by (vm_compute; reflexivity).
  replace (to_radian f64_zero) with f64_zero by (vm_compute; reflexivity). rewrite C.
  split; vm_compute; reflexivity.
Qed.

(** ** NormalizeLng *)
Lemma west_unchanged : normalize_lng (at_deg (-190) 0) = at_deg (-190) 0.
Proof. vm_compute. reflexivity. Qed.

(** ** Degrees, minutes, seconds *)
Lemma lt0 v : f64_wf v = true -> f64_finite v = true -> f64_lt v f64_zero = Rlt_bool (f64_R v) 0.
Proof.
  intros W F. change 0%R with (f64_R f64_zero).
  case (Rlt_bool_spec (f64_R v) (f64_R f64_zero)); intros H.
  - now apply lt_R.
  - apply not_true_iff_false. intros C. apply lt_R in C; [lra|assumption|reflexivity|assumption|reflexivity].
Qed.
Lemma hemi (a b : ascii) v : a <> b -> f64_wf v = true -> f64_finite v = true ->
  ((if f64_lt v f64_zero then a else b) = a <-> (f64_R v < 0)%R) /\ ((if f64_lt v f64_zero then a else b) = b <-> (0 <= f64_R v)%R).
Proof.
  intros N W F. rewrite (lt0 v W F). case (Rlt_bool_spec (f64_R v) 0); intros H.
  - split; split; intros E; try reflexivity; try lra; now elim N.
  - split; split; intros E; try reflexivity; try lra; now elim N.
Qed.
Theorem lat_dms l : f64_wf (lat l) = true -> f64_finite (lat l) = true -> (Rabs (latR l) < IZR two63)%R ->
  let r := lat_as_dms l in
  (IZR (degree r) <= Rabs (latR l) < IZR (degree r) + 1)%R /\ 0 <= minute r < 60 /\
  f64_finite (second r) = true /\ (0 <= f64_R (second r) < 60)%R /\
  (Rabs (dms_value (degree r) (minute r) (f64_R (second r)) - Rabs (latR l)) <= bpow radix2 (-52))%R /\
  (hemisphere r = "S"%char <-> (latR l < 0)%R) /\ (hemisphere r = "N"%char <-> (0 <= latR l)%R).
Proof.
  intros W F B. pose proof (dms_spec (lat l) W F B) as H. cbv zeta. unfold lat_as_dms.
  destruct (to_dms (lat l)) as [[d m] s]. cbn [degree minute second hemisphere].
  destruct H as (_ & H1 & H2 & _ & H3 & H4 & H5).
  destruct (hemi "S" "N" (lat l) ltac:(discriminate) W F). unfold latR. auto 10.
Qed.
Theorem lng_dms l : f64_wf (lng l) = true -> f64_finite (lng l) = true -> (Rabs (lngR l) < IZR two63)%R ->
  let r := lng_as_dms l in
  (IZR (degree r) <= Rabs (lngR l) < IZR (degree r) + 1)%R /\ 0 <= minute r < 60 /\
  f64_finite (second r) = true /\ (0 <= f64_R (second r) < 60)%R /\
  (Rabs (dms_value (degree r) (minute r) (f64_R (second r)) - Rabs (lngR l)) <= bpow radix2 (-52))%R /\
  (hemisphere r = "W"%char <-> (lngR l < 0)%R) /\ (hemisphere r = "E"%char <-> (0 <= lngR l)%R).
Proof.
  intros W F B. pose proof (dms_spec (lng l) W F B) as H. cbv zeta. unfold lng_as_dms.
  destruct (to_dms (lng l)) as [[d m] s]. cbn [degree minute second hemisphere].
  destruct H as (_ & H1 & H2 & _ & H3 & H4 & H5).
  destruct (hemi "W" "E" (lng l) ltac:(discriminate) W F). unfold lngR. auto 10.
Qed.
