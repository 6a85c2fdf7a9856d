(** * Theorems about planar/coord: UTM zones, central meridians, letters of the
    military grid, longitudes brought into range, degrees minutes and seconds

    [new_zone], [zone_letter], [central_meridian], [from_lnglat] (with the letters
    when its flag is true), [normalize_lng], [lat_as_dms] and [lng_as_dms] are the
    functions of the code.  [position] are two numbers, [lngR] and [latR] their
    values; [in_band], [utm_number] say what the UTM grid is. *)
From Coq Require Import ZArith Bool List Lia Reals Lra Ascii.
From Flocq Require Import Core.Core.
From Verif Require Import Base_Bytes Base_F64 Base_F64Arith Base_Res P_F64Flocq
  M_Coord S_Coord P_Coord P_Coord2 P_Coord3 P_Coord4 P_Coord5 P_Coord6.
Import ListNotations.
Open Scope Z_scope.

(** ** C53: zones *)

(** A latitude gets letter [c] exactly when it lies in band [c]. *)
Theorem C53_letter : forall t c, f64_wf t = true -> f64_finite t = true ->
  (zone_letter t = Some c <-> in_band c (f64_R t)).
Proof. exact letter_iff. Qed.
Print Assumptions C53_letter.

(** Positions south of 84 N get the zone of the UTM grid, with the exceptions of
    Norway and Svalbard.  The western side of a strip may be off by 2^-43 degrees,
    and is exact for longitudes that are multiples of 2^-44 degrees.  Up to 2^-44
    degrees before 180 the number is one of 1 to 60. *)
Theorem C53_zone : forall l, position l -> (-180 <= lngR l <= 180)%R -> (-80 <= latR l < 84)%R ->
  exists z, new_zone l = Ok z /\ in_band (letter z) (latR l) /\
    utm_number (bpow radix2 (-43)) (letter z) (lngR l) (number z) /\
    ((exists k, lngR l = IZR k * bpow radix2 (-44))%R -> utm_number 0 (letter z) (lngR l) (number z)) /\
    ((lngR l <= 180 - bpow radix2 (-44))%R -> 1 <= number z <= 60).
Proof. exact zone_of_position. Qed.
Print Assumptions C53_zone.

(** The error is for latitudes outside the grid, and only for them. *)
Theorem C53_error : forall l, position l -> (new_zone l = Err tt <-> (~ (-80 <= latR l <= 84))%R).
Proof. exact zone_error_iff. Qed.
Print Assumptions C53_error.

Example C53_example : position (at_deg 5 60) /\ new_zone (at_deg 5 60) = Ok (Zone 32 (code "V")) /\
  new_zone (at_deg 5 50) = Ok (Zone 31 (code "U")) /\ new_zone (at_deg (-180) (-80)) = Ok (Zone 1 (code "C")) /\
  new_zone (at_deg 0 85) = Err tt.
Proof.
  split; [exact (proj1 (at_deg_pos 5 60 ltac:(lia) ltac:(lia)))|].
  split; [vm_compute; reflexivity|]. split; [vm_compute; reflexivity|]. split; vm_compute; reflexivity.
Qed.

(** ** C102: exactly the zones of the grid, everywhere *)

(** Just before 180 E the number is 61. *)
Theorem C102_number_refuted : exists l, position l /\ (-180 <= lngR l < 180)%R /\ latR l = 0%R /\ new_zone l = Ok (Zone 61 (code "N")).
Proof. exact east_end. Qed.
Print Assumptions C102_number_refuted.

(** A longitude west of 6 E is given the zone east of it. *)
Theorem C102_side_refuted : exists l, position l /\ (0 <= lngR l < 6)%R /\ latR l = 0%R /\ new_zone l = Ok (Zone 32 (code "N")).
Proof. exact west_side. Qed.
Print Assumptions C102_side_refuted.

(** At 84 N the zone is one that does not exist. *)
Theorem C102_north_refuted : exists l, position l /\ lngR l = 7%R /\ latR l = 84%R /\ new_zone l = Ok (Zone 32 (code "X")) /\
  forall n, utm_number 0 (code "X") 7 n -> n = 31.
Proof. exact north_end. Qed.
Print Assumptions C102_north_refuted.

(** IsValid accepts a zone that no position has. *)
Theorem C102_valid_refuted : is_valid (Zone 31 (code "I")) = true /\ forall l, position l -> new_zone l <> Ok (Zone 31 (code "I")).
Proof. exact letter_I. Qed.
Print Assumptions C102_valid_refuted.

(** ** C103: central meridians *)

(** The meridian in the middle of the 6 degrees of the zone; an error for zones
    that IsValid does not accept. *)
Theorem C103_meridian : forall z, central_meridian z =
  if letter_is_valid (letter z) && (1 <=? number z) && (number z <=? 60) then Ok (6 * number z - 183) else Err tt.
Proof. exact meridian_spec. Qed.
Print Assumptions C103_meridian.

Example C103_example : central_meridian (Zone 1 (code "C")) = Ok (-177) /\ central_meridian (Zone 31 (code "U")) = Ok 3 /\
  central_meridian (Zone 61 (code "U")) = Err tt /\ central_meridian (Zone 31 (code "O")) = Err tt.
Proof. repeat split. Qed.

(** ** C104: FromLngLat with the letters of the military grid *)

(** It panics exactly in the first kilometre of each 2000 km from the equator (at
    111 km a degree): in odd zones in the north, in even zones in the south.
    Otherwise it returns the zone and two letters. *)
Theorem C104_panic_partial : forall project cos l z k, position l -> (-180 <= lngR l <= 180 - bpow radix2 (-44))%R ->
  new_zone l = Ok z -> cos_like cos (lat l) -> whole_km (lat l) k ->
  (from_lnglat project cos true l = Panic <->
     k mod 2000 = 0 /\ ((0 <= latR l)%R /\ Z.odd (number z) = true \/ (latR l < 0)%R /\ Z.odd (number z) = false)) /\
  (from_lnglat project cos true l <> Panic ->
     exists c, from_lnglat project cos true l = Ok c /\ c_zone c = z /\ digraph c <> None).
Proof. exact panic_iff'. Qed.
Print Assumptions C104_panic_partial.

(** On the equator, in an odd zone. *)
Theorem C104_equator_refuted : forall project cos, cos f64_zero = f64_one -> from_lnglat project cos true (at_deg 3 0) = Panic.
Proof. exact panic_3_0. Qed.
Print Assumptions C104_equator_refuted.

(** A longitude below -180 is not brought into range, and has no letter. *)
Theorem C104_west_refuted : forall project cos, (forall w, cos w = f64_one) -> from_lnglat project cos true (at_deg (-185) 10) = Panic.
Proof. exact panic_west. Qed.
Print Assumptions C104_west_refuted.

Example C104_example : cos_like (fun _ => 0x3FE0000000000000) (f64_ofZ 60) /\ whole_km (f64_ofZ 60) 6660 /\
  from_lnglat (fun _ _ => (f64_zero, f64_zero)) (fun _ => 0x3FE0000000000000) true (at_deg 5 60) =
    Ok (Coord f64_zero f64_zero (Zone 32 (code "V")) (Some ("K", "M")%char)) /\
  from_lnglat (fun _ _ => (f64_zero, f64_zero)) (fun _ => 0x3FE0000000000000) true (LngLat (f64_ofZ 9) neg_deg) = Panic.
Proof.
  split; [|split; [|split; vm_compute; reflexivity]].
  - assert (E : f64_R 0x3FE0000000000000 = (1 / 2)%R) by (unfold f64_R; cbn; unfold F2R; cbn; lra).
    unfold cos_like. cbv zeta. rewrite E. split; [reflexivity|]. split; [reflexivity|]. split; [lra|intros; lra].
  - unfold whole_km. replace (f64_mul (f64_ofZ 111) (f64_ofZ 60)) with (f64_ofZ 6660) by (vm_compute; reflexivity).
    destruct (P_F64Grid.repr_ofZ 6660) as (_ & _ & ->); [unfold P_F64Grid.two53; lia|].
    change (bpow radix2 0) with 1%R. rewrite Rabs_pos_eq; lra.
Qed.

(** ** C105: the letters name a square of 100 km *)

(** Two positions of a zone on the equator, more than a degree (111 km) apart, get
    the same two letters. *)
Theorem C105_square_refuted : forall cos, cos f64_zero = f64_one -> exists l1 l2 z d,
  position l1 /\ position l2 /\ latR l1 = 0%R /\ latR l2 = 0%R /\ (1 < lngR l2 - lngR l1)%R /\
  new_zone l1 = Ok z /\ new_zone l2 = Ok z /\ new_digraph cos z l1 = Ok d /\ new_digraph cos z l2 = Ok d.
Proof. exact same_square. Qed.
Print Assumptions C105_square_refuted.

(** ** C106: NormalizeLng *)

(** From -180 up to 2^20 a whole number of turns is taken off, exactly, and the
    result is below 180 and at least -180 - 2^-30.  Longitudes up to 180 - 2^-44
    keep their value. *)
Theorem C106_normalize : forall l, f64_wf (lng l) = true -> f64_finite (lng l) = true -> (-180 <= lngR l <= 2 ^ 20)%R ->
  exists k, 0 <= k /\ lat (normalize_lng l) = lat l /\
    f64_wf (lng (normalize_lng l)) = true /\ f64_finite (lng (normalize_lng l)) = true /\
    lngR (normalize_lng l) = (lngR l - 360 * IZR k)%R /\ (- 180 - bpow radix2 (-30) <= lngR (normalize_lng l) < 180)%R /\
    ((lngR l <= 180 - bpow radix2 (-44))%R -> k = 0).
Proof. exact normalize_spec. Qed.
Print Assumptions C106_normalize.

Example C106_example : normalize_lng (at_deg 725 9) = at_deg 5 9 /\ normalize_lng (at_deg 180 9) = at_deg (-180) 9.
Proof. split; vm_compute; reflexivity. Qed.

(** ** C107: NormalizeLng for every longitude *)

(** Longitudes below -180 stay where they are. *)
Theorem C107_west_refuted : normalize_lng (at_deg (-190) 0) = at_deg (-190) 0.
Proof. exact west_unchanged. Qed.
Print Assumptions C107_west_refuted.

(** ** C108: degrees, minutes, seconds *)

(** Whole degrees and minutes and seconds below 60 that stand for the absolute
    value, up to 2^-52 degrees; the hemisphere is the sign. *)
Theorem C108_lat : forall l, f64_wf (lat l) = true -> f64_finite (lat l) = true -> (Rabs (latR l) < IZR two63)%R ->
  let r := lat_as_dms l in
  (IZR (degree r) <= Rabs (latR l) < IZR (degree r) + 1)%R /\ 0 <= minute r < 60 /\
  f64_finite (second r) = true /\ (0 <= f64_R (second r) < 60)%R /\
  (Rabs (dms_value (degree r) (minute r) (f64_R (second r)) - Rabs (latR l)) <= bpow radix2 (-52))%R /\
  (hemisphere r = "S"%char <-> (latR l < 0)%R) /\ (hemisphere r = "N"%char <-> (0 <= latR l)%R).
Proof. exact lat_dms. Qed.
Print Assumptions C108_lat.

Theorem C108_lng : forall l, f64_wf (lng l) = true -> f64_finite (lng l) = true -> (Rabs (lngR l) < IZR two63)%R ->
  let r := lng_as_dms l in
  (IZR (degree r) <= Rabs (lngR l) < IZR (degree r) + 1)%R /\ 0 <= minute r < 60 /\
  f64_finite (second r) = true /\ (0 <= f64_R (second r) < 60)%R /\
  (Rabs (dms_value (degree r) (minute r) (f64_R (second r)) - Rabs (lngR l)) <= bpow radix2 (-52))%R /\
  (hemisphere r = "W"%char <-> (lngR l < 0)%R) /\ (hemisphere r = "E"%char <-> (0 <= lngR l)%R).
Proof. exact lng_dms. Qed.
Print Assumptions C108_lng.

(** 33.5 S, 151.75 E *)
Example C108_example : lat_as_dms (LngLat 0x4062F80000000000 0xC040C00000000000) = Dms 33 30 f64_zero "S" /\
  lng_as_dms (LngLat 0x4062F80000000000 0xC040C00000000000) = Dms 151 45 f64_zero "E".
Proof. split; vm_compute; reflexivity. Qed.
