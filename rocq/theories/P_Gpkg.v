(** Proofs about GeoPackage binaries. *)
From Coq Require Import ZArith Bool List Lia ZifyBool ZifyNat.
From Verif Require Import Base_Res Base_F64 Base_Geom Base_Bytes M_Wkb M_Geom M_Extent M_Gpkg
  S_Wkb S_Geom S_Gpkg P_List P_Bytes P_Wkb P_Geom P_F64 S_Extent P_Extent P_Extent2.
Import ListNotations.
Open Scope Z_scope.

(** ** Flags *)

Ltac et_cases et H :=
  let K := fresh in
  assert (et = 0 \/ et = 1 \/ et = 2 \/ et = 3 \/ et = 4) as K by lia; clear H;
  destruct K as [K|[K|[K|[K|K]]]]; subst et.

Lemma encode_flags_spec bo et x y :
  0 <= et <= 4 -> encode_header_flags bo et x y = gp_flags bo et x y 0.
Proof. intros H. et_cases et H; destruct bo, x, y; reflexivity. Qed.

(** Reading the fields of any flag byte. *)
Lemma gp_flags_read bo et x y r :
  0 <= et <= 4 -> 0 <= r < 4 ->
  flags_endian (gp_flags bo et x y r) = bo /\
  flags_envelope (gp_flags bo et x y r) = et /\
  flags_is_empty (gp_flags bo et x y r) = y /\
  flags_is_standard (gp_flags bo et x y r) = negb x.
Proof.
  intros H R. assert (r = 0 \/ r = 1 \/ r = 2 \/ r = 3) as R' by lia.
  et_cases et H; destruct R' as [-> | [-> | [-> | ->]]]; destruct bo, x, y; repeat split.
Qed.

(** Every byte is a flag byte. *)
Lemma gp_flags_surj fl : 0 <= fl < 256 ->
  exists bo et x y r, 0 <= et < 8 /\ 0 <= r < 4 /\ fl = gp_flags bo et x y r.
Proof.
  intros H. unfold gp_flags.
  exists (if fl mod 2 =? 1 then LittleEndian else BigEndian), ((fl / 2) mod 8),
    ((fl / 32) mod 2 =? 1), ((fl / 16) mod 2 =? 1), (fl / 64).
  pose proof (Z.mod_pos_bound fl 2 eq_refl). pose proof (Z.mod_pos_bound (fl / 2) 8 eq_refl).
  pose proof (Z.mod_pos_bound (fl / 32) 2 eq_refl). pose proof (Z.mod_pos_bound (fl / 16) 2 eq_refl).
  assert (0 <= fl / 64 < 4) by (split; [apply Z.div_pos; lia | apply Z.div_lt_upper_bound; lia]).
  split; [lia|]. split; [lia|].
  assert (order_bit (if fl mod 2 =? 1 then LittleEndian else BigEndian) = fl mod 2) as ->
    by (destruct (fl mod 2 =? 1) eqn:E; cbn [order_bit]; lia).
  unfold bit.
  assert ((if (fl / 16) mod 2 =? 1 then 1 else 0) = (fl / 16) mod 2) as ->
    by (destruct ((fl / 16) mod 2 =? 1) eqn:E; lia).
  assert ((if (fl / 32) mod 2 =? 1 then 1 else 0) = (fl / 32) mod 2) as ->
    by (destruct ((fl / 32) mod 2 =? 1) eqn:E; lia).
  replace (fl / 64) with (fl / 2 / 2 / 2 / 2 / 2 / 2) by (rewrite !Z.div_div by lia; reflexivity).
  replace (fl / 32) with (fl / 2 / 2 / 2 / 2 / 2) by (rewrite !Z.div_div by lia; reflexivity).
  replace (fl / 16) with (fl / 2 / 2 / 2 / 2) by (rewrite !Z.div_div by lia; reflexivity).
  assert ((fl / 2) mod 8 = (fl / 2) mod 2 + 2 * ((fl / 2 / 2) mod 2) + 4 * ((fl / 2 / 2 / 2) mod 2)) as ->.
  { set (z := fl / 2).
    pose proof (Z.div_mod z 8 ltac:(lia)). pose proof (Z.div_mod z 2 ltac:(lia)).
    pose proof (Z.div_mod (z / 2) 2 ltac:(lia)). pose proof (Z.div_mod (z / 2 / 2) 2 ltac:(lia)).
    assert (z / 8 = z / 2 / 2 / 2) by (rewrite !Z.div_div by lia; reflexivity). lia. }
  pose proof (Z.div_mod fl 2 ltac:(lia)). pose proof (Z.div_mod (fl / 2) 2 ltac:(lia)).
  pose proof (Z.div_mod (fl / 2 / 2) 2 ltac:(lia)). pose proof (Z.div_mod (fl / 2 / 2 / 2) 2 ltac:(lia)).
  pose proof (Z.div_mod (fl / 2 / 2 / 2 / 2) 2 ltac:(lia)).
  pose proof (Z.div_mod (fl / 2 / 2 / 2 / 2 / 2) 2 ltac:(lia)). lia.
Qed.

Lemma gp_flags_read_invalid bo et x y r :
  5 <= et < 8 -> 0 <= r < 4 -> flags_envelope (gp_flags bo et x y r) = etInvalid.
Proof.
  intros H R. assert (r = 0 \/ r = 1 \/ r = 2 \/ r = 3) as R' by lia.
  assert (et = 5 \/ et = 6 \/ et = 7) as H' by lia.
  destruct H' as [-> | [-> | ->]]; destruct R' as [-> | [-> | [-> | ->]]]; destruct bo, x, y; reflexivity.
Qed.

Lemma number_of_elements_spec et :
  number_of_elements et = match gp_envelope_len et with Some n => n | None => -1 end.
Proof.
  unfold number_of_elements, etNone, etXY, etXYZ, etXYM, etXYZM, gp_envelope_len.
  destruct et as [|p|p]; try reflexivity.
  do 4 (destruct p as [p|p|]; try reflexivity).
Qed.

Lemma number_nonneg et : 0 <= number_of_elements et -> 0 <= et <= 4.
Proof.
  unfold number_of_elements, etNone, etXY, etXYZ, etXYM, etXYZM. intros H.
  repeat match goal with |- context [if ?b then _ else _] => destruct b eqn:? 
         | H : context [if ?b then _ else _] |- _ => destruct b eqn:? end; lia.
Qed.

(** ** Slices *)

Lemma slice_app data lo hi a b c :
  data = a ++ b ++ c -> length a = lo -> (lo + length b)%nat = hi ->
  slice data lo hi = Ok b.
Proof.
  intros -> <- <-. unfold slice.
  replace ((length a <=? length a + length b)%nat) with true by (symmetry; apply Nat.leb_le; lia).
  replace ((length a + length b <=? length (a ++ b ++ c))%nat) with true
    by (symmetry; apply Nat.leb_le; rewrite !app_length; lia).
  cbn [andb]. rewrite skipn_app, skipn_all, Nat.sub_diag, skipn_O. cbn [app].
  replace (length a + length b - length a)%nat with (length b) by lia.
  rewrite firstn_app, firstn_all, Nat.sub_diag, firstn_O, app_nil_r. reflexivity.
Qed.

Lemma slice_ok data lo hi : (lo <= hi)%nat -> (hi <= length data)%nat ->
  slice data lo hi = Ok (firstn (hi - lo) (skipn lo data)).
Proof.
  intros A B. unfold slice. apply Nat.leb_le in A. apply Nat.leb_le in B.
  rewrite A, B. reflexivity.
Qed.

Lemma flat_map_put_length bo (env : list f64) :
  length (flat_map (put_uint bo 8) env) = (length env * 8)%nat.
Proof.
  induction env as [|w env IH]; [reflexivity|].
  cbn [flat_map length]. rewrite app_length, put_uint_length, IH. lia.
Qed.

Lemma read_envelope_put bo env : forall pre tail i,
  Forall (fun w => f64_wf w = true) env -> length pre = (i * 8)%nat ->
  read_envelope bo (pre ++ flat_map (put_uint bo 8) env ++ tail) i (length env) = Ok env.
Proof.
  induction env as [|w env IH]; intros pre tail i W L; [reflexivity|].
  inversion W as [|? ? W1 W2]; subst. cbn [length read_envelope flat_map].
  rewrite <- app_assoc.
  rewrite (slice_app _ (i * 8) (i * 8 + 8) pre (put_uint bo 8 w)
             (flat_map (put_uint bo 8) env ++ tail));
    [ | reflexivity | exact L | rewrite put_uint_length; lia ].
  cbn [bind].
  rewrite app_assoc, IH; [| exact W2 | rewrite app_length, put_uint_length; lia ].
  cbn [bind]. rewrite get_put by (apply f64_wf_bound; exact W1). reflexivity.
Qed.

Lemma read_envelope_total bo bytes : forall n i,
  ((i + n) * 8 <= length bytes)%nat ->
  exists l, read_envelope bo bytes i n = Ok l /\ length l = n.
Proof.
  induction n as [|n IH]; intros i L; [exists []; split; reflexivity|].
  cbn [read_envelope]. rewrite slice_ok by lia. cbn [bind].
  destruct (IH (S i)) as (l & -> & Hl); [lia|]. cbn [bind].
  eexists; split; [reflexivity|]. cbn [length]. lia.
Qed.

(** ** Header *)

Lemma i32_range v : int32_range v -> i32 (v mod 2 ^ 32) = v.
Proof.
  unfold int32_range, i32. intros H. rewrite Z.mod_mod by lia.
  change (2 ^ 32) with 4294967296 in *. change (2 ^ 31) with 2147483648 in *.
  destruct (Z.ltb_spec (v mod 4294967296) 2147483648).
  - assert (v / 4294967296 = 0 \/ v / 4294967296 = -1) as [E|E].
    { pose proof (Z.div_mod v 4294967296 ltac:(lia)).
      pose proof (Z.mod_pos_bound v 4294967296 ltac:(lia)). lia. }
    + pose proof (Z.div_mod v 4294967296 ltac:(lia)). lia.
    + pose proof (Z.div_mod v 4294967296 ltac:(lia)). lia.
  - pose proof (Z.div_mod v 4294967296 ltac:(lia)).
    pose proof (Z.mod_pos_bound v 4294967296 ltac:(lia)). lia.
Qed.

Lemma decode_layout m0 m1 ver bo et x y r srs env tail :
  0 <= et <= 4 -> 0 <= r < 4 -> int32_range srs ->
  Forall (fun w => f64_wf w = true) env ->
  gp_envelope_len et = Some (Z.of_nat (length env)) ->
  decode_binary_header (gp_header m0 m1 ver bo et x y r srs env ++ tail) =
  if (et =? 0) || ((m0 =? 0x47) && (m1 =? 0x50))
  then Ok (Header m0 m1 ver (gp_flags bo et x y r) srs env)
  else Err EInvalidMagicNumber.
Proof.
  intros He Hr Hs Hw Hn.
  destruct (gp_flags_read bo et x y r He Hr) as (F1 & F2 & _ & _).
  unfold gp_header. set (fl := gp_flags bo et x y r) in *.
  set (sb := put_uint bo 4 (srs mod 2 ^ 32)).
  assert (Lsb : length sb = 4%nat) by apply put_uint_length.
  set (eb := flat_map (put_uint bo 8) env).
  assert (Leb : length eb = (length env * 8)%nat) by apply flat_map_put_length.
  set (data := ([m0; m1; ver; fl] ++ sb ++ eb) ++ tail).
  assert (Ld : length data = (8 + (length env * 8 + length tail))%nat).
  { unfold data. rewrite !app_length. cbn [length]. lia. }
  unfold decode_binary_header.
  replace (length data <? 8)%nat with false by (symmetry; apply Nat.ltb_ge; lia).
  change (at_ data 0) with (@Ok gpkg_err Z m0).
  change (at_ data 1) with (@Ok gpkg_err Z m1). change (at_ data 2) with (@Ok gpkg_err Z ver).
  change (at_ data 3) with (@Ok gpkg_err Z fl). cbn [bind].
  rewrite (slice_app data 4 8 [m0; m1; ver; fl] sb (eb ++ tail));
    [| unfold data; rewrite <- !app_assoc; reflexivity | reflexivity | rewrite Lsb; reflexivity].
  cbn [bind].
  rewrite (slice_app data 8 (length data) ([m0; m1; ver; fl] ++ sb) (eb ++ tail) []);
    [| unfold data; rewrite app_nil_r, <- !app_assoc; reflexivity
     | rewrite app_length; cbn [length]; lia
     | rewrite app_length; cbn [length]; lia].
  cbn [bind].
  rewrite F1, F2. unfold sb.
  rewrite get_put
    by (change (256 ^ Z.of_nat 4) with (2 ^ 32); apply Z.mod_pos_bound; reflexivity).
  rewrite i32_range by exact Hs.
  pose proof (number_of_elements_spec et) as N. rewrite Hn in N.
  replace (et =? etInvalid) with false by (unfold etInvalid; lia).
  change etNone with 0.
  destruct (et =? 0) eqn:E0.
  - cbn [orb]. assert (et = 0) as E by lia. rewrite E in N, Hn. cbn in Hn.
    destruct env; [reflexivity | cbn [length] in Hn; injection Hn as Hn; lia].
  - cbn [orb]. rewrite N.
    replace (Z.of_nat (length (eb ++ tail)) <? Z.of_nat (length env) * 8) with false
      by (rewrite app_length; lia).
    rewrite Nat2Z.id.
    change (eb ++ tail) with ([] ++ flat_map (put_uint bo 8) env ++ tail).
    rewrite (read_envelope_put bo env [] tail 0 Hw eq_refl). cbn [bind].
    change magic0 with 0x47. change magic1 with 0x50.
    rewrite <- negb_andb. destruct ((m0 =? 0x47) && (m1 =? 0x50)); reflexivity.
Qed.

Lemma new_header_ok bo srs env et x y :
  is_ok (new_binary_header bo srs env et x y) = true <->
  gp_envelope_len et = Some (Z.of_nat (length env)).
Proof.
  unfold new_binary_header. rewrite number_of_elements_spec.
  destruct (gp_envelope_len et) as [n|] eqn:G; cbn [negb].
  - destruct (n =? Z.of_nat (length env)) eqn:E; cbn; split; intros H;
      try discriminate; [f_equal; lia | reflexivity | injection H; lia].
  - destruct (-1 =? Z.of_nat (length env)) eqn:E; [lia|]. cbn. split; discriminate.
Qed.

Lemma new_header_inv bo srs env et x y h :
  new_binary_header bo srs env et x y = Ok h ->
  0 <= et <= 4 /\ gp_envelope_len et = Some (Z.of_nat (length env)) /\
  h = Header 0x47 0x50 0 (gp_flags bo et x y 0) srs env.
Proof.
  intros H. assert (K : gp_envelope_len et = Some (Z.of_nat (length env))).
  { apply (proj1 (new_header_ok bo srs env et x y)). rewrite H. reflexivity. }
  assert (R : 0 <= et <= 4).
  { apply number_nonneg. rewrite number_of_elements_spec, K. lia. }
  split; [exact R|]. split; [exact K|].
  unfold new_binary_header in H. destruct (negb _); [discriminate|].
  injection H as <-. rewrite encode_flags_spec by exact R. reflexivity.
Qed.

Lemma h_encode_layout bo srs env et x y h :
  new_binary_header bo srs env et x y = Ok h ->
  h_encode (Some h) = Ok (gp_header 0x47 0x50 0 bo et x y 0 srs env).
Proof.
  intros H. apply new_header_inv in H. destruct H as (R & K & ->).
  unfold h_encode. cbn [bind h_flags h_magic0 h_magic1 h_version h_srsid h_envelope].
  destruct (gp_flags_read bo et x y 0 R ltac:(lia)) as (-> & _). reflexivity.
Qed.

Lemma gp_header_length m0 m1 ver bo et x y r srs env :
  length (gp_header m0 m1 ver bo et x y r srs env) = (length env * 8 + 8)%nat.
Proof.
  unfold gp_header. rewrite !app_length, put_uint_length, flat_map_put_length. cbn [length]. lia.
Qed.

Theorem header_roundtrip bo srs env et x y h :
  int32_range srs -> Forall (fun w => f64_wf w = true) env ->
  new_binary_header bo srs env et x y = Ok h ->
  exists bs, h_encode (Some h) = Ok bs /\ length bs = h_size (Some h) /\
    forall tail, exists h', decode_binary_header (bs ++ tail) = Ok h' /\
      h_magic (Some h') = (71, 80) /\ h_get_version (Some h') = 0 /\
      h_endian (Some h') = bo /\ h_envelope_type (Some h') = et /\
      h_get_srsid (Some h') = srs /\ h_get_envelope (Some h') = env /\
      h_is_geometry_empty (Some h') = y /\ h_is_standard_geometry (Some h') = negb x.
Proof.
  intros Hs Hw H. exists (gp_header 71 80 0 bo et x y 0 srs env).
  split; [exact (h_encode_layout _ _ _ _ _ _ _ H)|].
  apply new_header_inv in H. destruct H as (R & K & ->).
  split; [rewrite gp_header_length; reflexivity|].
  intros tail. rewrite decode_layout by (assumption || lia).
  rewrite orb_true_r. eexists. split; [reflexivity|].
  destruct (gp_flags_read bo et x y 0 R ltac:(lia)) as (F1 & F2 & F3 & F4).
  cbn [h_magic h_get_version h_endian h_envelope_type h_get_srsid h_get_envelope
       h_is_geometry_empty h_is_standard_geometry h_magic0 h_magic1 h_version h_flags h_srsid h_envelope].
  repeat split; assumption.
Qed.

(** ** The decoder on arbitrary bytes *)

Lemma firstn_skipn_split {A} (n m : nat) (l : list A) : (n + m <= length l)%nat ->
  exists a b c, l = a ++ b ++ c /\ length a = n /\ length b = m.
Proof.
  intros H. exists (firstn n l), (firstn m (skipn n l)), (skipn m (skipn n l)).
  rewrite !firstn_skipn, !firstn_length, skipn_length. repeat split; lia.
Qed.

Lemma chunk_envelope bo n : forall b, length b = (n * 8)%nat -> Forall (fun b => byte_ok b = true) b ->
  exists env, length env = n /\ Forall (fun w => f64_wf w = true) env /\
    b = flat_map (put_uint bo 8) env.
Proof.
  induction n as [|n IH]; intros b L F.
  - exists []. destruct b; [repeat split; constructor | discriminate].
  - destruct (firstn_skipn_split 0 8 b) as (a & b1 & c & E & La & Lb); [lia|].
    destruct a; [|discriminate]. cbn [app] in E. subst b.
    apply Forall_app in F. destruct F as [F1 F2]. rewrite app_length in L.
    destruct (IH c) as (env & Le & W & ->); [lia|exact F2|].
    exists (get_uint bo b1 :: env). cbn [length flat_map]. split; [lia|].
    pose proof (get_uint_bound bo b1 F1) as B. rewrite Lb in B.
    split.
    + constructor; [|exact W]. unfold f64_wf, two64.
      change (256 ^ Z.of_nat 8) with (2 ^ 64) in B. lia.
    + pose proof (put_get bo b1 F1) as Q. rewrite Lb in Q. rewrite Q. reflexivity.
Qed.

Lemma u32_i32 v : 0 <= v < 2 ^ 32 -> int32_range (i32 v) /\ i32 v mod 2 ^ 32 = v.
Proof.
  unfold int32_range, i32. change (2 ^ 32) with 4294967296. change (2 ^ 31) with 2147483648.
  intros H. rewrite (Z.mod_small v) by lia.
  destruct (Z.ltb_spec v 2147483648).
  - split; [lia|]. apply Z.mod_small. lia.
  - split; [lia|]. replace (v - 4294967296) with (v + (-1) * 4294967296) by lia.
    rewrite Z.mod_add by lia. apply Z.mod_small. lia.
Qed.

(** Every byte string is too short, has an invalid envelope kind, or starts with
    a header laid out as specified. *)
Lemma data_cases data : Forall (fun b => byte_ok b = true) data ->
  (length data < 8)%nat \/
  exists m0 m1 ver bo et x y r srs rest,
    data = gp_header m0 m1 ver bo et x y r srs [] ++ rest /\
    0 <= et < 8 /\ 0 <= r < 4 /\ int32_range srs /\ Forall (fun b => byte_ok b = true) rest.
Proof.
  intros F. destruct (Nat.lt_ge_cases (length data) 8) as [|L]; [left; assumption|right].
  do 4 (destruct data as [|?b data]; [cbn [length] in L; lia|]).
  cbn [length] in L.
  destruct (firstn_skipn_split 0 4 data) as (a & s & c & E & La & Ls); [lia|].
  destruct a; [|discriminate]. cbn [app] in E. subst data.
  inversion F as [|? ? F0 F']; subst. inversion F' as [|? ? F1 F'']; subst.
  inversion F'' as [|? ? F2 F''']; subst. inversion F''' as [|? ? F3 F4]; subst.
  apply Forall_app in F4. destruct F4 as [Fs Fc].
  destruct (gp_flags_surj b2) as (bo & et & x & y & r & He & Hr & ->); [unfold byte_ok in F3; lia|].
  pose proof (get_uint_bound bo s Fs) as B. rewrite Ls in B. change (256 ^ Z.of_nat 4) with (2 ^ 32) in B.
  destruct (u32_i32 _ B) as [S1 S2].
  exists b, b0, b1, bo, et, x, y, r, (i32 (get_uint bo s)), c.
  split; [|tauto]. unfold gp_header. rewrite S2.
  pose proof (put_get bo s Fs) as Q. rewrite Ls in Q. rewrite Q. cbn [flat_map]. rewrite app_nil_r. reflexivity.
Qed.

Lemma decode_invalid m0 m1 ver bo et x y r srs rest :
  5 <= et < 8 -> 0 <= r < 4 ->
  decode_binary_header (gp_header m0 m1 ver bo et x y r srs [] ++ rest) = Err EInvalidEnvelopeType.
Proof.
  intros He Hr. unfold gp_header. cbn [flat_map]. rewrite app_nil_r.
  pose proof (gp_flags_read_invalid bo et x y r He Hr) as F2.
  set (fl := gp_flags bo et x y r) in *.
  set (sb := put_uint bo 4 (srs mod 2 ^ 32)).
  assert (Lsb : length sb = 4%nat) by apply put_uint_length.
  set (data := ([m0; m1; ver; fl] ++ sb) ++ rest).
  assert (Ld : length data = (8 + length rest)%nat).
  { unfold data. rewrite !app_length. cbn [length]. lia. }
  unfold decode_binary_header.
  replace (length data <? 8)%nat with false by (symmetry; apply Nat.ltb_ge; lia).
  change (at_ data 0) with (@Ok gpkg_err Z m0).
  change (at_ data 1) with (@Ok gpkg_err Z m1). change (at_ data 2) with (@Ok gpkg_err Z ver).
  change (at_ data 3) with (@Ok gpkg_err Z fl). cbn [bind].
  rewrite !slice_ok by lia. cbn [bind]. rewrite F2. reflexivity.
Qed.

Lemma decode_short m0 m1 ver bo et x y r srs rest n :
  0 <= et <= 4 -> 0 <= r < 4 -> gp_envelope_len et = Some n ->
  Z.of_nat (length rest) < n * 8 ->
  decode_binary_header (gp_header m0 m1 ver bo et x y r srs [] ++ rest) = Err EInsufficientBytes.
Proof.
  intros He Hr Hn Hl. unfold gp_header. cbn [flat_map]. rewrite app_nil_r.
  destruct (gp_flags_read bo et x y r He Hr) as (F1 & F2 & _).
  set (fl := gp_flags bo et x y r) in *.
  set (sb := put_uint bo 4 (srs mod 2 ^ 32)).
  assert (Lsb : length sb = 4%nat) by apply put_uint_length.
  set (data := ([m0; m1; ver; fl] ++ sb) ++ rest).
  assert (Ld : length data = (8 + length rest)%nat).
  { unfold data. rewrite !app_length. cbn [length]. lia. }
  unfold decode_binary_header.
  replace (length data <? 8)%nat with false by (symmetry; apply Nat.ltb_ge; lia).
  change (at_ data 0) with (@Ok gpkg_err Z m0).
  change (at_ data 1) with (@Ok gpkg_err Z m1). change (at_ data 2) with (@Ok gpkg_err Z ver).
  change (at_ data 3) with (@Ok gpkg_err Z fl). cbn [bind].
  rewrite (slice_ok data 4 8) by lia. cbn [bind].
  rewrite (slice_app data 8 (length data) ([m0; m1; ver; fl] ++ sb) rest []);
    [| unfold data; rewrite app_nil_r; reflexivity
     | rewrite app_length; cbn [length]; lia | lia ].
  cbn [bind]. rewrite F2, number_of_elements_spec, Hn.
  replace (et =? etInvalid) with false by (unfold etInvalid; lia).
  destruct (et =? etNone) eqn:E; [|].
  - unfold etNone in E. assert (et = 0) as -> by lia. injection Hn as <-. lia.
  - replace (Z.of_nat (length rest) <? n * 8) with true by lia. reflexivity.
Qed.

(** What any byte string decodes to. *)
Theorem decode_header_cases data : Forall (fun b => byte_ok b = true) data ->
  match decode_binary_header data with
  | Panic => False
  | Ok h => exists m0 m1 ver bo et x y r srs env rest,
      data = gp_header m0 m1 ver bo et x y r srs env ++ rest /\
      gp_envelope_len et = Some (Z.of_nat (length env)) /\ 0 <= r < 4 /\
      int32_range srs /\ (et = 0 \/ m0 = 71 /\ m1 = 80) /\
      h_magic (Some h) = (m0, m1) /\ h_get_version (Some h) = ver /\
      h_endian (Some h) = bo /\ h_envelope_type (Some h) = et /\
      h_get_srsid (Some h) = srs /\ h_get_envelope (Some h) = env /\
      h_is_geometry_empty (Some h) = y /\ h_is_standard_geometry (Some h) = negb x
  | Err e => (length data < 8)%nat /\ e = EInsufficientBytes \/
      exists m0 m1 ver bo et x y r srs rest,
        data = gp_header m0 m1 ver bo et x y r srs [] ++ rest /\ 0 <= et < 8 /\ 0 <= r < 4 /\
        int32_range srs /\
        match gp_envelope_len et with
        | None => e = EInvalidEnvelopeType
        | Some n => if Z.of_nat (length rest) <? n * 8 then e = EInsufficientBytes
                    else e = EInvalidMagicNumber /\ et <> 0 /\ ~ (m0 = 71 /\ m1 = 80)
        end
  end.
Proof.
  intros F. destruct (data_cases data F) as [L|C].
  - unfold decode_binary_header. apply Nat.ltb_lt in L. rewrite L. left. apply Nat.ltb_lt in L. tauto.
  - destruct C as (m0 & m1 & ver & bo & et & x & y & r & srs & rest & E & He & Hr & Hs & Fr).
    destruct (gp_envelope_len et) as [n|] eqn:G.
    + assert (R : 0 <= et <= 4).
      { apply number_nonneg. rewrite number_of_elements_spec, G.
        unfold gp_envelope_len in G. clear - G. destruct et as [|p|p]; try discriminate; [injection G; lia|].
        do 3 (destruct p as [p|p|]; try discriminate; try (injection G; lia)). }
      assert (Nn : 0 <= n).
      { pose proof (number_of_elements_spec et) as Q. rewrite G in Q. rewrite <- Q.
        clear - R. unfold number_of_elements, etNone, etXY, etXYZ, etXYM, etXYZM.
        assert (et = 0 \/ et = 1 \/ et = 2 \/ et = 3 \/ et = 4) as H by lia.
        destruct H as [H|[H|[H|[H|H]]]]; subst et; cbn; lia. }
      destruct (Z.ltb_spec (Z.of_nat (length rest)) (n * 8)) as [S|S].
      * subst data. rewrite (decode_short m0 m1 ver bo et x y r srs rest n) by assumption.
        right. exists m0, m1, ver, bo, et, x, y, r, srs, rest.
        rewrite G. replace (Z.of_nat (length rest) <? n * 8) with true by lia. tauto.
      * destruct (firstn_skipn_split 0 (Z.to_nat n * 8) rest) as (a & b & c & Er & La & Lb); [lia|].
        destruct a; [|discriminate]. cbn [app] in Er.
        assert (Fb : Forall (fun b => byte_ok b = true) b).
        { subst rest. apply Forall_app in Fr. tauto. }
        destruct (chunk_envelope bo (Z.to_nat n) b Lb Fb) as (env & Le & W & Eb).
        assert (G' : gp_envelope_len et = Some (Z.of_nat (length env))) by (rewrite G; f_equal; lia).
        assert (D : data = gp_header m0 m1 ver bo et x y r srs env ++ c).
        { subst data rest b. unfold gp_header. cbn [flat_map]. rewrite app_nil_r, <- !app_assoc.
          reflexivity. }
        pose proof (decode_layout m0 m1 ver bo et x y r srs env c R Hr Hs W G') as Q.
        rewrite <- D in Q. rewrite Q.
        destruct (gp_flags_read bo et x y r R Hr) as (F1 & F2 & F3 & F4).
        destruct ((et =? 0) || ((m0 =? 71) && (m1 =? 80))) eqn:B.
        -- exists m0, m1, ver, bo, et, x, y, r, srs, env, c.
           cbn [h_magic h_get_version h_endian h_envelope_type h_get_srsid h_get_envelope
                h_is_geometry_empty h_is_standard_geometry h_magic0 h_magic1 h_version h_flags h_srsid h_envelope].
           repeat split; try assumption; try lia; try exact (proj1 Hs); try exact (proj2 Hs).
        -- right. exists m0, m1, ver, bo, et, x, y, r, srs, rest. rewrite G.
           replace (Z.of_nat (length rest) <? n * 8) with false by lia.
           repeat split; try assumption; try lia; try exact (proj1 Hs); try exact (proj2 Hs).
    + assert (5 <= et < 8).
      { destruct (Z.le_gt_cases et 4); [|lia]. exfalso.
        assert (et = 0 \/ et = 1 \/ et = 2 \/ et = 3 \/ et = 4) as H' by lia.
        destruct H' as [H'|[H'|[H'|[H'|H']]]]; subst et; discriminate. }
      subst data. rewrite decode_invalid by assumption. right.
      exists m0, m1, ver, bo, et, x, y, r, srs, rest. rewrite G. tauto.
Qed.

(** ** Blobs *)

Lemma f64_ne_self w : f64_ne w w = f64_isnan w.
Proof. unfold f64_ne. rewrite P_Wkb.f64_eq_refl. apply negb_involutive. Qed.

Lemma is_empty_point_nan p : is_empty_point p = pt_isnan p.
Proof. unfold is_empty_point, pt_isnan. rewrite !f64_ne_self. reflexivity. Qed.

Lemma forallb_concat {A} (f : A -> bool) ls : forallb (forallb f) ls = forallb f (concat ls).
Proof. induction ls as [|l ls IH]; [reflexivity|]. cbn. rewrite forallb_app, IH. reflexivity. Qed.

Lemma forallb_ext' {A} (f g : A -> bool) l : (forall x, In x l -> f x = g x) -> forallb f l = forallb g l.
Proof.
  induction l as [|a l IH]; intros H; [reflexivity|]. cbn.
  rewrite (H a) by (left; reflexivity). rewrite IH by (intros; apply H; right; assumption). reflexivity.
Qed.

Lemma forallb_flat_map {A B} (f : B -> bool) (g : A -> list B) l :
  forallb f (flat_map g l) = forallb (fun a => forallb f (g a)) l.
Proof. induction l as [|a l IH]; [reflexivity|]. cbn. rewrite forallb_app, IH. reflexivity. Qed.

Lemma is_empty_points_nan ps : is_empty_points ps = forallb pt_isnan ps.
Proof. apply forallb_ext'. intros. apply is_empty_point_nan. Qed.

Lemma is_empty_lines_nan ls : is_empty_lines ls = forallb pt_isnan (concat ls).
Proof.
  rewrite <- forallb_concat. apply forallb_ext'. intros. apply is_empty_points_nan.
Qed.

Lemma is_empty_geo_spec g : unknown_inside g = false -> is_empty_geo g = all_nan g.
Proof.
  unfold all_nan. induction g using geom_ind'; intros U; cbn [is_empty_geo coords unknown_inside] in *.
  - rewrite is_empty_point_nan. cbn. rewrite andb_true_r. reflexivity.
  - apply is_empty_points_nan.
  - apply is_empty_points_nan.
  - apply is_empty_lines_nan.
  - apply is_empty_lines_nan.
  - rewrite <- forallb_concat, <- forallb_concat. apply forallb_ext'. intros rs _.
    rewrite is_empty_lines_nan, forallb_concat. reflexivity.
  - rewrite forallb_flat_map. apply forallb_ext'. intros x I.
    rewrite Forall_forall in H. apply H; [exact I|].
    destruct (unknown_inside x) eqn:Q; [|reflexivity].
    assert (existsb unknown_inside gs = true) by (apply existsb_exists; eauto). congruence.
  - discriminate.
Qed.

Lemma has_unknown_inside (g : geom f64) : has_unknown g = unknown_inside g.
Proof. reflexivity. Qed.

Lemma f64_min_wf x y : f64_wf x = true -> f64_wf y = true -> f64_wf (f64_min x y) = true.
Proof.
  intros A B. unfold f64_min.
  repeat match goal with |- context [if ?b then _ else _] => destruct b end; assumption || reflexivity.
Qed.
Lemma f64_maxf_wf x y : f64_wf x = true -> f64_wf y = true -> f64_wf (f64_maxf x y) = true.
Proof.
  intros A B. unfold f64_maxf.
  repeat match goal with |- context [if ?b then _ else _] => destruct b end; assumption || reflexivity.
Qed.

Definition ext_wf (e : extent) : Prop :=
  f64_wf (e0 e) = true /\ f64_wf (e1 e) = true /\ f64_wf (e2 e) = true /\ f64_wf (e3 e) = true.

Lemma add_point1_wf e p : ext_wf e -> pt_wf p = true -> ext_wf (add_point1 e p).
Proof.
  unfold ext_wf, pt_wf, add_point1. rewrite andb_true_iff. intros (A & B & C & D) [X Y]. cbn.
  repeat split; (apply f64_min_wf || apply f64_maxf_wf); assumption.
Qed.

Lemma add_pointers_wf ps : forall e, ext_wf e -> Forall (fun p => pt_wf p = true) ps ->
  exists e', add_pointers (Some e) ps = Some e' /\ ext_wf e'.
Proof.
  induction ps as [|p ps IH]; intros e W F; [exists e; split; [reflexivity|exact W]|].
  inversion F as [|? ? F1 F2]; subst. cbn [add_pointers fold_left].
  apply (IH (add_point1 e p)); [apply add_point1_wf; assumption|exact F2].
Qed.

Lemma coords_wf g : encodable g = true -> Forall (fun p => pt_wf p = true) (coords g).
Proof.
  assert (A : forall ps, pts_ok ps = true -> Forall (fun p => pt_wf p = true) ps).
  { intros ps H. unfold pts_ok in H. rewrite andb_true_iff in H. apply Forall_forall.
    apply (proj1 (forallb_forall _ _)). apply H. }
  assert (B : forall ls, forallb pts_ok ls = true -> Forall (fun p => pt_wf p = true) (concat ls)).
  { intros ls H. apply Forall_concat. apply Forall_forall. intros l I. apply A.
    rewrite forallb_forall in H. apply H. exact I. }
  induction g using geom_ind'; cbn [encodable coords]; intros E;
    try (rewrite andb_true_iff in E; destruct E as [_ E]).
  - constructor; [exact E|constructor].
  - apply A. exact E.
  - apply A. exact E.
  - apply B. exact E.
  - apply B. exact E.
  - apply Forall_concat. apply Forall_concat. apply Forall_forall. intros rs I.
    rewrite forallb_forall in E. specialize (E rs I). rewrite andb_true_iff in E.
    apply Forall_forall. intros r Ir. apply A. destruct E as [_ E]. rewrite forallb_forall in E. auto.
  - rewrite Forall_forall in *. intros p I. apply in_flat_map in I. destruct I as (x & Ix & Ip).
    specialize (H x Ix). rewrite forallb_forall in E. specialize (H (E x Ix)).
    rewrite Forall_forall in H. auto.
  - discriminate.
Qed.

Lemma nefg_ok g : encodable g = true -> all_nan g = false ->
  exists e, new_extent_from_geometry g = Some (Some e) /\ ext_wf e.
Proof.
  intros E N. pose proof (encodable_known g E) as U. rewrite has_unknown_inside in U.
  unfold new_extent_from_geometry. rewrite get_coordinates_ok by exact U.
  pose proof (coords_wf g E) as W. unfold all_nan in N.
  destruct (coords g) as [|p ps] eqn:C; [discriminate|].
  inversion W as [|? ? W1 W2]; subst.
  destruct (add_pointers_wf (p :: ps) (Ext (fst p) (snd p) (fst p) (snd p))) as (e & -> & We);
    [| exact W | exists e; tauto].
  unfold pt_wf in W1. rewrite andb_true_iff in W1. unfold ext_wf. cbn. tauto.
Qed.

Lemma header_slice bo srs env et x y b :
  gp_envelope_len et = Some (Z.of_nat (length env)) ->
  let hb := gp_header 0x47 0x50 0 bo et x y 0 srs env in
  slice (hb ++ b) (length env * 8 + 8) (length (hb ++ b)) = Ok b.
Proof.
  intros K hb. apply (slice_app _ _ _ hb b []).
  - rewrite app_nil_r. reflexivity.
  - apply gp_header_length.
  - rewrite app_length. unfold hb. rewrite gp_header_length. reflexivity.
Qed.

Theorem blob_roundtrip srs g :
  int32_range srs -> encodable g = true -> rings_open g = true ->
  exists sb bs sb', new_binary srs g = Ok sb /\ sb_encode sb = Ok bs /\
    decode_geometry bs = Ok sb' /\
    sb_geometry sb' = g /\ sb_srsid sb' = srs /\ h_get_srsid (sb_header sb') = srs /\
    h_is_geometry_empty (sb_header sb') = all_nan g /\
    h_is_standard_geometry (sb_header sb') = true /\
    h_envelope_type (sb_header sb') = 1 /\
    if all_nan g
    then h_get_envelope (sb_header sb') = [f64_nan; f64_nan; f64_nan; f64_nan] /\
         sb_extent sb' = None
    else exists e, new_extent_from_geometry g = Some (Some e) /\
           h_get_envelope (sb_header sb') = [e0 e; e1 e; e2 e; e3 e] /\
           sb_extent sb' = Some e.
Proof.
  intros Hs E O.
  destruct (wkb_roundtrip LittleEndian g E O) as (b & Eb & Db).
  pose proof (encodable_known g E) as U. rewrite has_unknown_inside in U.
  pose proof (is_empty_geo_spec g U) as M.
  assert (X : exists env, (if all_nan g then Ok [f64_nan; f64_nan; f64_nan; f64_nan]
     else match new_extent_from_geometry g with
          | None => Err EExtent
          | Some None => Panic
          | Some (Some e) => Ok [e0 e; e1 e; e2 e; e3 e]
          end) = @Ok gpkg_err _ env /\ length env = 4%nat /\ Forall (fun w => f64_wf w = true) env /\
     (if all_nan g then env = [f64_nan; f64_nan; f64_nan; f64_nan]
      else exists e, new_extent_from_geometry g = Some (Some e) /\ env = [e0 e; e1 e; e2 e; e3 e])).
  { destruct (all_nan g) eqn:N.
    - eexists. split; [reflexivity|]. split; [reflexivity|]. split; [repeat constructor|reflexivity].
    - destruct (nefg_ok g E N) as (e & -> & W1 & W2 & W3 & W4).
      eexists. split; [reflexivity|]. split; [reflexivity|]. split; [repeat constructor; assumption|].
      exists e. split; reflexivity. }
  destruct X as (env & X & Le & We & S).
  assert (K : gp_envelope_len 1 = Some (Z.of_nat (length env))) by (rewrite Le; reflexivity).
  set (h := Header 0x47 0x50 0 (gp_flags LittleEndian 1 false (all_nan g) 0) srs env).
  assert (NB : new_binary srs g = Ok (SB (Some h) srs g)).
  { unfold new_binary. rewrite M, X. cbn [bind].
    destruct (new_binary_header LittleEndian srs env etXY false (all_nan g)) as [h'|e|] eqn:Q.
    - apply new_header_inv in Q. destruct Q as (_ & _ & ->). reflexivity.
    - pose proof (proj2 (new_header_ok LittleEndian srs env etXY false (all_nan g)) K) as I.
      rewrite Q in I. discriminate.
    - pose proof (proj2 (new_header_ok LittleEndian srs env etXY false (all_nan g)) K) as I.
      rewrite Q in I. discriminate. }
  assert (HE : h_encode (Some h) = Ok (gp_header 0x47 0x50 0 LittleEndian 1 false (all_nan g) 0 srs env)).
  { unfold h_encode. cbn [bind h_flags h_magic0 h_magic1 h_version h_srsid h_envelope h].
    destruct (gp_flags_read LittleEndian 1 false (all_nan g) 0 ltac:(lia) ltac:(lia)) as (-> & _).
    reflexivity. }
  destruct (gp_flags_read LittleEndian 1 false (all_nan g) 0 ltac:(lia) ltac:(lia))
    as (F1 & F2 & F3 & F4).
  exists (SB (Some h) srs g), (gp_header 0x47 0x50 0 LittleEndian 1 false (all_nan g) 0 srs env ++ b),
    (SB (Some h) srs g).
  split; [exact NB|]. split.
  { unfold sb_encode. cbn [sb_header sb_geometry]. rewrite HE. cbn [bind h_endian h h_flags].
    rewrite F1, Eb. reflexivity. }
  split.
  { unfold decode_geometry.
    rewrite decode_layout by (assumption || lia || (cbn; lia)). rewrite orb_true_r. cbn [bind h_size h_envelope].
    rewrite (header_slice LittleEndian srs env 1 false (all_nan g) b K). cbn [bind]. rewrite Db.
    reflexivity. }
  cbn [sb_geometry sb_srsid sb_header h_get_srsid h_srsid h h_is_geometry_empty h_flags
       h_is_standard_geometry h_envelope_type h_get_envelope h_envelope].
  rewrite F2, F3, F4. repeat (split; [reflexivity|]).
  unfold sb_extent. cbn [sb_geometry]. rewrite M.
  destruct (all_nan g); [split; [exact S|reflexivity]|].
  destruct S as (e & S1 & S2). exists e. split; [exact S1|]. split; [exact S2|]. rewrite S1. reflexivity.
Qed.

Lemma decode_geometry_no_panic bytes : Forall (fun b => byte_ok b = true) bytes ->
  decode_geometry bytes <> Panic.
Proof.
  intros F. unfold decode_geometry. pose proof (decode_header_cases bytes F) as C.
  destruct (decode_binary_header bytes) as [h|e|]; cbn [bind]; [|discriminate|tauto].
  destruct C as (m0 & m1 & ver & bo & et & x & y & r & srs & env & rest & D & G & _ & _ & _ & _ & _ & _ & _ & _ & Ev & _).
  cbn [h_get_envelope] in Ev.
  assert (L : (h_size (Some h) <= length bytes)%nat).
  { cbn [h_size]. rewrite Ev, D, app_length, gp_header_length. lia. }
  rewrite slice_ok by lia. cbn [bind].
  unfold decode_bytes. pose proof (decode_no_panic (firstn (length bytes - h_size (Some h)) (skipn (h_size (Some h)) bytes))) as N.
  destruct (decode _) as [[g' r']|e|]; cbn [bind]; [discriminate|discriminate|congruence].
Qed.

Lemma new_binary_no_panic srs g : new_binary srs g <> Panic.
Proof.
  unfold new_binary. destruct (is_empty_geo g) eqn:M.
  - cbn [bind]. unfold new_binary_header. destruct (negb _); discriminate.
  - unfold new_extent_from_geometry. pose proof (get_coordinates_err g) as Er.
    destruct (get_coordinates g) as [pts err] eqn:E. cbn [snd] in Er. subst err.
    destruct (unknown_inside g) eqn:U; [discriminate|].
    rewrite get_coordinates_ok in E by exact U. injection E as <-.
    rewrite is_empty_geo_spec in M by exact U. unfold all_nan in M.
    destruct (coords g) as [|p ps]; [discriminate|].
    assert (exists e, add_pointers (Some (Ext (fst p) (snd p) (fst p) (snd p))) (p :: ps) = Some e) as (e & ->).
    { generalize (p :: ps) (Ext (fst p) (snd p) (fst p) (snd p)). clear.
      induction l as [|q l IH]; intros e; [exists e; reflexivity|]. apply (IH (add_point1 e q)). }
    cbn [bind]. unfold new_binary_header. destruct (negb _); discriminate.
Qed.

Lemma h_encode_no_panic h : h_encode h <> Panic.
Proof. destruct h as [h|]; discriminate. Qed.

Lemma h_encode_nil : h_encode None = Err EMismatch.
Proof. reflexivity. Qed.

Lemma envelope_order srs g e sb :
  all_nan g = false -> unknown_inside g = false ->
  new_extent_from_geometry g = Some (Some e) -> new_binary srs g = Ok sb ->
  h_get_envelope (sb_header sb) = [e0 e; e1 e; e2 e; e3 e].
Proof.
  intros N U E H. unfold new_binary in H. rewrite is_empty_geo_spec, N, E in H by exact U.
  cbn in H. injection H as <-. reflexivity.
Qed.
