(** Proofs about planar/coord: zones of positions, central meridians *)
From Coq Require Import ZArith Bool List Lia Reals Lra Ascii.
From Flocq Require Import Core.Core.
From Verif Require Import Base_Bytes Base_F64 Base_F64Arith Base_Res
  P_F64 P_F64Flocq P_F64Round P_F64Grid P_F64Err P_Rtree3 P_Slippy P_SlippyR M_Coord S_Coord P_Coord.
Import ListNotations.
Open Scope Z_scope.

Lemma band_V t : (56 <= t < 64)%R -> in_band (code "V") t.
Proof. intros H. exists 17%nat. split; [reflexivity|]. cbn [Nat.eqb]. simpl INR. lra. Qed.
Lemma band_X t : (72 <= t <= 84)%R -> in_band (code "X") t.
Proof. intros H. exists 19%nat. split; [reflexivity|]. cbn [Nat.eqb]. simpl INR. lra. Qed.
Lemma band_V_inv t : in_band (code "V") t -> (56 <= t < 64)%R.
Proof.
  intros (i & E & L & U).
  do 20 (destruct i as [|i]; [try discriminate E; cbn [Nat.eqb] in U; simpl INR in *; lra|]).
  exfalso. destruct i; discriminate E.
Qed.
Lemma band_X_inv t : in_band (code "X") t -> (72 <= t <= 84)%R.
Proof.
  intros (i & E & L & U).
  do 20 (destruct i as [|i]; [try discriminate E; cbn [Nat.eqb] in U; simpl INR in *; lra|]).
  exfalso. destruct i; discriminate E.
Qed.

(** ZoneNumberFromLngLat with comparisons of reals. *)
Definition number_R (g t : R) (n : Z) : Z :=
  if (Rlt_bool 84 t && Rlt_bool t 90) || (Rlt_bool (-80) t && Rlt_bool t (-90)) then 0
  else if Rle_bool 56 t && Rlt_bool t 64 && Rle_bool 3 g && Rlt_bool g 12 then 32
  else
    let sv := Rle_bool 72 t && Rlt_bool t 84 in
    if sv && Rle_bool 0 g && Rlt_bool g 9 then 31
    else if sv && Rle_bool 9 g && Rlt_bool g 21 then 33
    else if sv && Rle_bool 21 g && Rlt_bool g 33 then 35
    else if sv && Rle_bool 33 g && Rlt_bool g 42 then 37
    else n.

Lemma number_R_ok l : position l ->
  zone_number l = number_R (lngR l) (latR l) (i64 (f64_to_i64 (f64_div (f64_add (lng l) c180) c6) + 1)).
Proof.
  intros (Wg & Fg & Wt & Ft). unfold zone_number, number_R, lngR, latR. cbv zeta.
  rewrite !(gt_Z _ (lat l)), !(lt_Z _ (lat l)), !(ge_Z _ (lat l)), !(lt_Z _ (lng l)), !(ge_Z _ (lng l)) by (assumption || lia).
  reflexivity.
Qed.

Ltac rb := repeat match goal with
  | |- context [Rlt_bool ?a ?b] => case (Rlt_bool_spec a b); intros ?; cbn [andb orb]
  | |- context [Rle_bool ?a ?b] => case (Rle_bool_spec a b); intros ?; cbn [andb orb]
  end.

Lemma number_cases g t c n eps : in_band c t -> (t < 84)%R -> strip eps n g -> utm_number eps c g (number_R g t n).
Proof.
  intros Hb Ht Hs. unfold utm_number.
  destruct (Z.eqb_spec c (code "V")) as [->|NV].
  - apply band_V_inv in Hb. unfold number_R. cbv zeta.
    rewrite (Rlt_bool_false 84 t), (Rlt_bool_false t (-90)), !andb_false_r, (Rle_bool_true 56 t), (Rlt_bool_true t 64), (Rle_bool_false 72 t) by lra.
    cbn [andb orb]. rb; (left; split; [lra|reflexivity]) || (right; split; [lra|exact Hs]).
  - assert (A : ~ (56 <= t < 64)%R) by (intros C; apply NV; apply (band_one c _ t Hb); now apply band_V).
    destruct (Z.eqb_spec c (code "X")) as [->|NX].
    + apply band_X_inv in Hb. unfold number_R. cbv zeta.
      rewrite (Rlt_bool_false 84 t), (Rlt_bool_false t (-90)), !andb_false_r, (Rlt_bool_false t 64), (Rle_bool_true 72 t), (Rlt_bool_true t 84) by lra.
      rewrite !andb_false_r. cbn [andb orb].
      destruct (Rle_lt_dec 0 g) as [G0|G0]; [destruct (Rlt_le_dec g 9) as [G1|G1]; [|destruct (Rlt_le_dec g 21) as [G2|G2]; [|destruct (Rlt_le_dec g 33) as [G3|G3]; [|destruct (Rlt_le_dec g 42) as [G4|G4]]]]|].
      * rewrite (Rle_bool_true 0 g), (Rlt_bool_true g 9) by lra. cbn [andb]. left. split; [lra|reflexivity].
      * rewrite (Rlt_bool_false g 9), (Rle_bool_true 9 g), (Rlt_bool_true g 21), andb_false_r by lra. cbn [andb]. right. left. split; [lra|reflexivity].
      * rewrite (Rlt_bool_false g 9), (Rlt_bool_false g 21), (Rle_bool_true 21 g), (Rlt_bool_true g 33), !andb_false_r by lra. cbn [andb]. right. right. left. split; [lra|reflexivity].
      * rewrite (Rlt_bool_false g 9), (Rlt_bool_false g 21), (Rlt_bool_false g 33), (Rle_bool_true 33 g), (Rlt_bool_true g 42), !andb_false_r by lra. cbn [andb]. right. right. right. left. split; [lra|reflexivity].
      * rewrite (Rlt_bool_false g 9), (Rlt_bool_false g 21), (Rlt_bool_false g 33), (Rlt_bool_false g 42), !andb_false_r by lra. cbn [andb]. right. right. right. right. split; [lra|exact Hs].
      * rewrite (Rle_bool_false 0 g), (Rle_bool_false 9 g), (Rle_bool_false 21 g), (Rle_bool_false 33 g) by lra. cbn [andb]. right. right. right. right. split; [lra|exact Hs].
    + assert (A' : ~ (72 <= t <= 84)%R) by (intros C; apply NX; apply (band_one c _ t Hb); now apply band_X).
      pose proof (band_range _ _ Hb) as Rg.
      assert (E : number_R g t n = n); [|rewrite E; exact Hs]. unfold number_R. cbv zeta.
      assert (E1 : Rle_bool 56 t && Rlt_bool t 64 = false) by (case Rle_bool_spec; case Rlt_bool_spec; intros; try reflexivity; lra).
      assert (E2 : Rle_bool 72 t && Rlt_bool t 84 = false) by (case Rle_bool_spec; case Rlt_bool_spec; intros; try reflexivity; lra).
      rewrite (Rlt_bool_false 84 t), (Rlt_bool_false t (-90)), !andb_false_r, E1, E2 by lra. reflexivity.
Qed.

(** Zones of the positions south of 84 N. *)
Theorem zone_of_position l : position l -> (-180 <= lngR l <= 180)%R -> (-80 <= latR l < 84)%R ->
  exists z, new_zone l = Ok z /\ in_band (letter z) (latR l) /\
    utm_number (bpow radix2 (-43)) (letter z) (lngR l) (number z) /\
    ((exists k, lngR l = IZR k * bpow radix2 (-44))%R -> utm_number 0 (letter z) (lngR l) (number z)) /\
    ((lngR l <= 180 - bpow radix2 (-44))%R -> 1 <= number z <= 60).
Proof.
  intros P G T. pose proof P as (Wg & Fg & Wt & Ft).
  pose proof (letter_spec (lat l) Wt Ft) as Hl. fold (latR l) in Hl.
  destruct (zone_letter (lat l)) as [c|] eqn:Ec; cbn [letter_ok] in Hl; [|lra].
  unfold new_zone. rewrite Ec. cbv zeta. eexists. split; [reflexivity|]. cbn [letter number]. split; [exact Hl|].
  destruct (strip_res (lng l) Wg Fg) as (n & E & Hn & S1 & S2 & S3); [unfold lngR in G; lra|]. fold (lngR l) in S1, S2, S3.
  rewrite (number_R_ok l P), E. replace (n - 1 + 1) with n by lia. rewrite i64_id by lia.
  split; [|split].
  - apply number_cases; [exact Hl|lra|exact S1].
  - intros K. apply number_cases; [exact Hl|lra|now apply S2].
  - intros U. specialize (S3 ltac:(lra)). assert (1 <= n <= 60) by lia. clear - H T. unfold number_R. cbv zeta.
    rewrite (Rlt_bool_false 84 (latR l)), (Rlt_bool_false (latR l) (-90)), !andb_false_r by lra. cbn [orb andb].
    repeat match goal with |- context [if ?b then _ else _] => destruct b end; lia.
Qed.

(** At 84 N exactly, and east of 180 - 2^-44, and at lower strips' ends. *)
Theorem latitude_error l : position l -> (~ (-80 <= latR l <= 84))%R <-> (position l /\ new_zone l = Err tt).
Proof.
  intros P. pose proof P as (Wg & Fg & Wt & Ft).
  pose proof (letter_spec (lat l) Wt Ft) as Hl. fold (latR l) in Hl. unfold new_zone.
  destruct (zone_letter (lat l)) as [c|] eqn:Ec; cbn [letter_ok] in Hl.
  - pose proof (band_range _ _ Hl). split; [intros; lra|]. intros [_ C]. discriminate C.
  - split; [intros _; split; [exact P|reflexivity]|intros _; exact Hl].
Qed.

(** ** Central meridians *)

Lemma meridian_table : forallb (fun i => match nth_error central_meridian_degrees i with Some d => d =? 3 + 6 * Z.of_nat i | None => false end) (seq 0 30) = true.
Proof. reflexivity. Qed.
Lemma meridian_nth i : (i < 30)%nat -> nth_error central_meridian_degrees i = Some (3 + 6 * Z.of_nat i).
Proof.
  intros H. pose proof meridian_table as T. rewrite forallb_forall in T. specialize (T i).
  rewrite in_seq in T. specialize (T ltac:(lia)).
  destruct (nth_error _ _) as [d|]; [|discriminate T]. apply Z.eqb_eq in T. now subst.
Qed.

Theorem meridian_spec z : central_meridian z =
  if letter_is_valid (letter z) && (1 <=? number z) && (number z <=? 60) then Ok (6 * number z - 183) else Err tt.
Proof.
  unfold central_meridian. fold (is_valid z). destruct (is_valid z) eqn:V; [|reflexivity]. cbn [negb].
  unfold is_valid in V. apply andb_prop in V. destruct V as [V V2]. apply andb_prop in V. destruct V as [_ V1].
  apply Z.leb_le in V1, V2.
  destruct (Z.leb_spec (number z) 30).
  - unfold at_idx. destruct (Z.ltb_spec (30 - number z) 0); [lia|]. rewrite meridian_nth by lia. cbn [bind]. f_equal. lia.
  - unfold at_idx. destruct (Z.ltb_spec (number z - 31) 0); [lia|]. rewrite meridian_nth by lia. f_equal. lia.
Qed.
