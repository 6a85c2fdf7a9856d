From Coq Require Import ZArith Bool List Lia.
From Coq Require Import ZifyBool ZifyNat.
From Verif Require Import Base_F64 Base_F64Arith Base_Geom Base_Res Base_Bytes P_F64Flocq P_F64Grid P_List
  M_Winding S_Winding P_Winding P_Winding2 M_Mvt S_Mvt.
Import ListNotations.
Open Scope Z_scope.

(** ** Zig-zag *)

Lemma i64_id z : - 2 ^ 63 <= z < 2 ^ 63 -> i64 z = z.
Proof.
  intros H. unfold i64. change (2 ^ 63) with 9223372036854775808 in *.
  change (2 ^ 64) with 18446744073709551616 in *.
  pose proof (Z.mod_pos_bound z 18446744073709551616 ltac:(lia)).
  pose proof (Z.div_mod z 18446744073709551616 ltac:(lia)).
  destruct (Z.ltb_spec (z mod 18446744073709551616) 9223372036854775808); nia.
Qed.
Lemma i32_id z : int32 z -> i32 z = z.
Proof.
  unfold int32, i32. change (2 ^ 31) with 2147483648. change (2 ^ 32) with 4294967296.
  intros H. pose proof (Z.mod_pos_bound z 4294967296 ltac:(lia)).
  pose proof (Z.div_mod z 4294967296 ltac:(lia)).
  destruct (Z.ltb_spec (z mod 4294967296) 2147483648); nia.
Qed.
Lemma i32_range z : int32 (i32 z).
Proof.
  unfold int32, i32. change (2 ^ 31) with 2147483648. change (2 ^ 32) with 4294967296.
  pose proof (Z.mod_pos_bound z 4294967296 ltac:(lia)).
  destruct (Z.ltb_spec (z mod 4294967296) 2147483648); lia.
Qed.
Lemma u32_range z : uint32 (u32 z).
Proof. apply Z.mod_pos_bound. reflexivity. Qed.
Lemma u32_id z : uint32 z -> u32 z = z.
Proof. intros H. now apply Z.mod_small. Qed.

Lemma encode_zigzag_val i : int32 i -> encode_zigzag i = if i <? 0 then - 2 * i - 1 else 2 * i.
Proof.
  intros H. unfold int32 in H. unfold encode_zigzag. rewrite Z.shiftl_mul_pow2, Z.shiftr_div_pow2 by lia.
  rewrite i64_id by lia. change (i * 2 ^ 1) with (i * 2).
  destruct (Z.ltb_spec i 0) as [N|N].
  - replace (i / 2 ^ 31) with (-1) by (change (2 ^ 31) with 2147483648 in *; lia).
    rewrite Z.lxor_m1_r. unfold Z.lnot. rewrite u32_id; unfold uint32; lia.
  - replace (i / 2 ^ 31) with 0 by (change (2 ^ 31) with 2147483648 in *; lia).
    rewrite Z.lxor_0_r. rewrite u32_id; unfold uint32; lia.
Qed.

Lemma lxor_ones k : 0 <= k < 2 ^ 32 -> Z.lxor k (2 ^ 32 - 1) = 2 ^ 32 - 1 - k.
Proof.
  intros H. change (2 ^ 32 - 1) with (Z.ones 32).
  assert (L : Z.ldiff k (Z.ones 32) = 0).
  { apply Z.bits_inj'. intros n Hn. rewrite Z.ldiff_spec, Z.bits_0.
    destruct (Z.ltb_spec n 32).
    - rewrite Z.ones_spec_low by lia. now rewrite andb_false_r.
    - rewrite (Z.bits_above_log2 k n); [reflexivity | lia |].
      destruct (Z.eq_dec k 0) as [->|]; [cbn; lia|].
      apply Z.log2_lt_pow2; [lia|]. apply Z.lt_le_trans with (2 ^ 32); [lia|]. apply Z.pow_le_mono_r; lia. }
  rewrite Z.sub_nocarry_ldiff by exact L.
  apply Z.bits_inj'. intros n Hn. rewrite Z.lxor_spec, Z.ldiff_spec.
  destruct (Z.ltb_spec n 32).
  - rewrite Z.ones_spec_low by lia. destruct (Z.testbit k n); reflexivity.
  - rewrite Z.ones_spec_high by lia.
    assert (Z.testbit (Z.ldiff k (Z.ones 32)) n = Z.testbit 0 n) by now rewrite L.
    rewrite Z.ldiff_spec, Z.ones_spec_high, Z.bits_0 in H1 by lia. cbn [negb] in H1.
    rewrite andb_true_r in H1. now rewrite H1.
Qed.

Lemma decode_zigzag_val u : uint32 u ->
  decode_zigzag u = if Z.odd u then - (u / 2) - 1 else u / 2.
Proof.
  unfold uint32. intros H. unfold decode_zigzag. rewrite Z.shiftr_div_pow2 by lia. change (2 ^ 1) with 2.
  assert (L1 : Z.land u 1 = Z.b2z (Z.odd u)).
  { change (Z.land u 1) with (Z.land u (Z.ones 1)). rewrite Z.land_ones by lia. change (2 ^ 1) with 2.
    rewrite Zmod_odd. now destruct (Z.odd u). }
  rewrite L1.
  destruct (Z.odd u); cbn [Z.b2z].
  - change (u32 (- (1))) with (2 ^ 32 - 1). rewrite lxor_ones by lia.
    assert (0 <= u / 2 < 2 ^ 31) by lia.
    unfold i32. replace ((2 ^ 32 - 1 - u / 2) mod 2 ^ 32) with (2 ^ 32 - 1 - u / 2) by (symmetry; apply Z.mod_small; lia).
    destruct (Z.ltb_spec (2 ^ 32 - 1 - u / 2) (2 ^ 31)); lia.
  - change (u32 (- 0)) with 0. rewrite Z.lxor_0_r. apply i32_id. unfold int32. lia.
Qed.

Lemma zigzag_range i : uint32 (encode_zigzag i).
Proof. apply u32_range. Qed.
Lemma dezigzag_range u : int32 (decode_zigzag u).
Proof. apply i32_range. Qed.

Theorem zigzag_iff i : decode_zigzag (encode_zigzag i) = i <-> int32 i.
Proof.
  split.
  - intros <-. apply dezigzag_range.
  - intros H. rewrite decode_zigzag_val by apply zigzag_range.
    rewrite encode_zigzag_val by exact H.
    destruct (Z.ltb_spec i 0).
    + replace (Z.odd (-2 * i - 1)) with true; [lia|].
      replace (-2 * i - 1) with (1 + 2 * (- i - 1)) by lia. now rewrite Z.odd_add_mul_2.
    + replace (Z.odd (2 * i)) with false; [lia|].
      replace (2 * i) with (0 + 2 * i) by lia. now rewrite Z.odd_add_mul_2.
Qed.

Theorem zigzag_onto u : uint32 u -> encode_zigzag (decode_zigzag u) = u.
Proof.
  intros H. rewrite encode_zigzag_val by apply dezigzag_range. rewrite decode_zigzag_val by exact H.
  unfold uint32 in H. pose proof (Zmod_odd u). destruct (Z.odd u).
  - destruct (Z.ltb_spec (- (u / 2) - 1) 0); lia.
  - destruct (Z.ltb_spec (u / 2) 0); lia.
Qed.

(** ** Commands *)

Lemma new_command_val id n : 0 <= id < 8 -> 0 <= n < max_count -> new_command id n = id + 8 * n.
Proof.
  unfold max_count. intros Hi Hn. unfold new_command.
  rewrite (u32_id n) by (unfold uint32; lia).
  rewrite Z.shiftl_mul_pow2 by lia. change (2 ^ 3) with 8.
  rewrite u32_id by (unfold uint32; lia).
  change 7 with (Z.ones 3). rewrite Z.land_ones by lia. rewrite (Z.mod_small id) by (cbn; lia).
  assert (L : Z.land id (n * 8) = 0).
  { apply Z.bits_inj'. intros k Hk. rewrite Z.land_spec, Z.bits_0.
    destruct (Z.ltb_spec k 3).
    - change 8 with (2 ^ 3). rewrite Z.mul_pow2_bits_low by lia. apply andb_false_r.
    - rewrite (Z.bits_above_log2 id k); [reflexivity | lia |].
      destruct (Z.eq_dec id 0) as [->|]; [cbn; lia|].
      apply Z.log2_lt_pow2; [lia|]. apply Z.lt_le_trans with (2 ^ 3); [lia|]. apply Z.pow_le_mono_r; lia. }
  rewrite <- Z.lxor_lor by exact L. rewrite <- Z.add_nocarry_lxor by exact L. lia.
Qed.

Lemma cmd_id_val id n : 0 <= id < 8 -> 0 <= n -> cmd_id (id + 8 * n) = id.
Proof.
  intros. unfold cmd_id. change 7 with (Z.ones 3). rewrite Z.land_ones by lia. change (2 ^ 3) with 8.
  rewrite Z.mul_comm, Z.mod_add by lia. apply Z.mod_small. lia.
Qed.
Lemma cmd_count_val id n : 0 <= id < 8 -> 0 <= n -> cmd_count (id + 8 * n) = n.
Proof.
  intros. unfold cmd_count. rewrite Z.shiftr_div_pow2 by lia. change (2 ^ 3) with 8.
  rewrite Z.mul_comm, Z.div_add by lia. rewrite Z.div_small by lia. lia.
Qed.

Lemma new_command_id id n : 0 <= id < 8 -> 0 <= n < max_count -> cmd_id (new_command id n) = id.
Proof. intros. rewrite new_command_val by assumption. apply cmd_id_val; lia. Qed.
Lemma new_command_count id n : 0 <= id < 8 -> 0 <= n < max_count -> cmd_count (new_command id n) = n.
Proof. intros. rewrite new_command_val by assumption. apply cmd_count_val; lia. Qed.

Lemma command_roundtrip id n : id = cmdMoveTo \/ id = cmdLineTo \/ id = cmdClosePath -> 0 <= n < max_count ->
  uint32 (new_command id n) /\ cmd_id (new_command id n) = id /\ cmd_count (new_command id n) = n.
Proof.
  intros Hi Hn. assert (0 <= id < 8) by (unfold cmdMoveTo, cmdLineTo, cmdClosePath in *; lia).
  split; [|split; [now apply new_command_id | now apply new_command_count]].
  rewrite new_command_val by assumption. unfold uint32, max_count in *. lia.
Qed.
Lemma command_split c : 0 <= c -> c = cmd_id c + 8 * cmd_count c /\ 0 <= cmd_id c < 8.
Proof.
  intros H. unfold cmd_id, cmd_count. change 7 with (Z.ones 3).
  rewrite Z.land_ones, Z.shiftr_div_pow2 by lia. change (2 ^ 3) with 8. lia.
Qed.

(** ** Cursor *)

Definition exact_pt (p : Z * Z) : Prop := Z.abs (fst p) <= 2 ^ 53 /\ Z.abs (snd p) <= 2 ^ 53.

Lemma ipt_fpt p : exact_pt p -> ipt (fpt p) = p.
Proof. intros [H1 H2]. destruct p as [x y]. unfold ipt, fpt. cbn [fst snd] in *. now rewrite !to_i64_ofZ. Qed.
Lemma map_ipt_fpt ps : exact_pts ps -> map ipt (map fpt ps) = ps.
Proof. induction 1 as [|p ps H F IH]; [reflexivity|]. cbn [map]. now rewrite IH, ipt_fpt. Qed.

Lemma move_cursor_end c pts : fst (move_cursor c pts) = last pts c.
Proof.
  revert c. induction pts as [|p pts IH]; intros c; [reflexivity|].
  cbn [move_cursor]. rewrite last_cons. specialize (IH p). destruct (move_cursor p pts). exact IH.
Qed.
Lemma move_cursor_length c pts : length (snd (move_cursor c pts)) = length pts.
Proof.
  revert c. induction pts as [|p pts IH]; intros c; [reflexivity|].
  cbn [move_cursor]. specialize (IH p). destruct (move_cursor p pts). cbn in *. now rewrite IH.
Qed.
Lemma move_cursor_cons c p pts :
  move_cursor c (p :: pts) = (last pts p, (i64 (fst p - fst c), i64 (snd p - snd c)) :: snd (move_cursor p pts)).
Proof.
  cbn [move_cursor]. pose proof (move_cursor_end p pts). destruct (move_cursor p pts). cbn in *. now subst.
Qed.

Lemma dec_point_enc c p : exact_pt c -> exact_pt p -> int32 (fst p - fst c) -> int32 (snd p - snd c) ->
  dec_point (fpt c) (encode_zigzag (i64 (fst p - fst c))) (encode_zigzag (i64 (snd p - snd c))) = fpt p.
Proof.
  intros [C1 C2] [P1 P2] D1 D2. unfold dec_point.
  rewrite !i64_id by (unfold int32 in *; lia).
  rewrite !(proj2 (zigzag_iff _)) by assumption.
  unfold fpt. cbn [fst snd]. unfold int32 in *.
  rewrite !add_ofZ by (unfold two53; lia). f_equal; f_equal; lia.
Qed.

Definition zz (c : Z * Z) (pts : list (Z * Z)) : list Z := encode_zigzag_pt (snd (move_cursor c pts)).

Lemma zz_cons c p pts : zz c (p :: pts) =
  encode_zigzag (i64 (fst p - fst c)) :: encode_zigzag (i64 (snd p - snd c)) :: zz p pts.
Proof. unfold zz. now rewrite move_cursor_cons. Qed.

Lemma zz_nil c : zz c [] = []. Proof. reflexivity. Qed.

Lemma zz_length c pts : length (zz c pts) = (2 * length pts)%nat.
Proof. revert c. induction pts as [|p pts IH]; intros c; [reflexivity|]. rewrite zz_cons. cbn [length]. rewrite IH. lia. Qed.

Lemma dec_loop_enc pts : forall c rest, exact_pt c -> exact_pts pts -> steps_fit c pts ->
  dec_loop (length pts) (fpt c) (zz c pts ++ rest) = Ok (fpt (last pts c), map fpt pts, rest).
Proof.
  induction pts as [|p pts IH]; intros c rest Hc He Hs; [reflexivity|].
  inversion He as [|? ? Hp He']; subst. destruct Hs as (D1 & D2 & Hs).
  rewrite zz_cons. cbn [length app dec_loop]. rewrite dec_point_enc by assumption.
  rewrite IH by assumption. cbn [bind map]. now rewrite last_cons.
Qed.

Lemma encode_cmd_fpt c cmd p pts : exact_pts (p :: pts) ->
  encode_cmd c cmd (map fpt (p :: pts)) = (last pts p, cmd :: zz c (p :: pts)).
Proof.
  intros H. inversion H; subst. unfold encode_cmd. cbn [map].
  rewrite map_ipt_fpt, ipt_fpt by assumption.
  unfold zz. now rewrite move_cursor_cons.
Qed.

(** ** Points *)

Lemma origin_fpt : fpt (0, 0) = (f64_zero, f64_zero). Proof. reflexivity. Qed.
Lemma origin_exact : exact_pt (0, 0). Proof. unfold exact_pt. cbn. lia. Qed.

Lemma decode_point_enc ps : countable ps -> fits ps -> ps <> [] ->
  decode_point (snd (move_to (0, 0) (map fpt ps))) = Ok (Some (fgeom (single_mp ps))).
Proof.
  intros Hc [Hs He] Hn. destruct ps as [|p ps]; [contradiction|].
  unfold move_to. rewrite map_length, encode_cmd_fpt by exact He. cbn [snd].
  unfold decode_point, countable in *.
  rewrite new_command_count, new_command_id by (unfold cmdMoveTo; lia).
  rewrite Nat2Z.id. unfold zlen. rewrite zz_length.
  destruct (Z.ltb_spec (Z.of_nat (2 * length (p :: ps))) (Z.of_nat (length (p :: ps)) * 2)); [lia|].
  cbn [Z.eqb cmdMoveTo Pos.eqb]. rewrite <- origin_fpt.
  unfold dec_n_points. rewrite <- (app_nil_r (zz (0, 0) (p :: ps))).
  rewrite dec_loop_enc by (auto using origin_exact). cbn [bind].
  cbn [map]. destruct ps as [|q ps]; reflexivity.
Qed.

(** ** Lines *)

Definition line_ints (c : Z * Z) (p : Z * Z) (tl : list (Z * Z)) : list Z :=
  (new_command cmdMoveTo 1 :: zz c [p]) ++ (new_command cmdLineTo (Z.of_nat (length tl)) :: zz p tl).

Lemma encode_line_fpt c p tl : exact_pts (p :: tl) -> tl <> [] ->
  encode_line c (map fpt (p :: tl)) = Ok (last tl p, line_ints c p tl).
Proof.
  intros H N. inversion H; subst. unfold encode_line. cbn [map]. unfold move_to, line_to.
  change [fpt p] with (map fpt [p]). rewrite encode_cmd_fpt by (constructor; [assumption | constructor]).
  cbn [last]. rewrite !map_length. destruct tl as [|q tl]; [contradiction|].
  rewrite encode_cmd_fpt by assumption. now rewrite last_cons.
Qed.

Lemma ls_step_move fuel lst c ret m x y tl :
  cmd_id m = cmdMoveTo -> cmd_count m = 1 -> lst = 0 \/ cmd_id lst = cmdLineTo ->
  ls_loop (S fuel) lst c ret (m :: x :: y :: tl) = ls_loop fuel m (dec_point c x y) ret tl.
Proof.
  intros Hi Hc Hl. cbn [ls_loop]. rewrite Hi, Hc. unfold zlen. cbn [length].
  destruct (Z.ltb_spec (Z.of_nat (S (S (length tl)))) (1 * 2)); [lia|].
  change (cmdMoveTo =? cmdMoveTo) with true. cbv iota.
  assert (Hb : negb (lst =? 0) && negb (cmd_id lst =? cmdLineTo) = false)
    by (destruct Hl as [-> | ->]; [reflexivity | apply andb_false_r]).
  now rewrite Hb.
Qed.

Lemma ls_step_line fuel lst c ret m n buf c' ps rest :
  cmd_id m = cmdLineTo -> cmd_count m = Z.of_nat n -> (0 < n)%nat -> cmd_id lst = cmdMoveTo ->
  (2 * n <= length buf)%nat -> dec_loop n c buf = Ok (c', ps, rest) ->
  ls_loop (S fuel) lst c ret (m :: buf) = ls_loop fuel m c' (ret ++ [c :: ps]) rest.
Proof.
  intros Hi Hc Hn Hl Hb Hd. cbn [ls_loop]. rewrite Hi, Hc, Hl. unfold zlen.
  destruct (Z.ltb_spec (Z.of_nat (length buf)) (Z.of_nat n * 2)); [lia|].
  change (cmdLineTo =? cmdMoveTo) with false. change (cmdLineTo =? cmdLineTo) with true.
  change (cmdMoveTo =? cmdMoveTo) with true. cbv iota. cbn [negb].
  destruct (Z.leb_spec (Z.of_nat n) 0); [lia|].
  unfold dec_n_points. rewrite Nat2Z.id, Hd. reflexivity.
Qed.

Lemma ls_loop_line c p tl rest lst ret fuel :
  exact_pt c -> exact_pts (p :: tl) -> steps_fit c (p :: tl) -> tl <> [] -> countable (p :: tl) ->
  lst = 0 \/ cmd_id lst = cmdLineTo ->
  ls_loop (S (S fuel)) lst (fpt c) ret (line_ints c p tl ++ rest) =
  ls_loop fuel (new_command cmdLineTo (Z.of_nat (length tl))) (fpt (last tl p)) (ret ++ [map fpt (p :: tl)]) rest.
Proof.
  intros Hc He Hs Hn Hcnt Hl. inversion He as [|? ? Hp He']; subst. destruct Hs as (D1 & D2 & Hs).
  unfold countable, max_count in Hcnt. cbn [length] in Hcnt.
  assert (Hlen : (0 < length tl)%nat) by (destruct tl; [contradiction | cbn; lia]).
  unfold line_ints. rewrite zz_cons, zz_nil. cbn [app].
  rewrite ls_step_move; [| apply new_command_id; unfold cmdMoveTo, max_count; lia
                         | apply new_command_count; unfold cmdMoveTo, max_count; lia | exact Hl].
  rewrite dec_point_enc by assumption.
  erewrite ls_step_line; [reflexivity | | | exact Hlen | | | now apply dec_loop_enc].
  - apply new_command_id; unfold cmdLineTo, max_count; lia.
  - apply new_command_count; unfold cmdLineTo, max_count; lia.
  - apply new_command_id; unfold cmdMoveTo, max_count; lia.
  - rewrite app_length, zz_length. lia.
Qed.

Lemma line_ints_length c p tl : (2 <= length (line_ints c p tl))%nat.
Proof. unfold line_ints. rewrite app_length. cbn [length]. lia. Qed.


Lemma encode_lines_fpt ls : forall c, Forall good_line ls -> exact_pts (concat ls) -> steps_fit c (concat ls) ->
  exact_pt c ->
  exists b, (exists c', encode_lines c (map (map fpt) ls) = Ok (c', b)) /\
    forall fuel last ret, (length b < fuel)%nat -> last = 0 \/ cmd_id last = cmdLineTo ->
      ls_loop fuel last (fpt c) ret b = Ok (ret ++ map (map fpt) ls).
Proof.
  induction ls as [|l ls IH]; intros c Hg He Hs Hc.
  - exists []. split; [now exists c|]. intros [|fuel] last ret Hf Hl; [cbn in Hf; lia|].
    cbn. now rewrite app_nil_r.
  - inversion Hg as [|? ? [Hl Hcnt] Hg']; subst. cbn [concat] in *.
    destruct l as [|p tl]; [cbn in Hl; lia|].
    assert (Hn : tl <> []) by (intros ->; cbn in Hl; lia).
    apply Forall_app in He. destruct He as [He1 He2].
    assert (Hsplit : forall a b c, steps_fit c (a ++ b) -> steps_fit c a /\ steps_fit (List.last a c) b).
    { clear. induction a as [|x a IHa]; intros b c H; [now split|].
      cbn [app steps_fit] in H. destruct H as (H1 & H2 & H). apply IHa in H. destruct H as [H3 H4].
      rewrite last_cons. cbn [steps_fit]. auto. }
    apply Hsplit in Hs. destruct Hs as [Hs1 Hs2]. rewrite last_cons in Hs2.
    assert (Hlast : exact_pt (List.last tl p)).
    { inversion He1; subst. apply last_in; assumption. }
    destruct (IH (List.last tl p) Hg' He2 Hs2 Hlast) as (b & (c' & Eb) & Db).
    exists (line_ints c p tl ++ b). split.
    + exists c'. cbn [encode_lines map]. change (fpt p :: map fpt tl) with (map fpt (p :: tl)).
      rewrite encode_line_fpt by assumption. cbn [bind]. rewrite Eb. reflexivity.
    + intros fuel lst ret Hf Hlst. pose proof (line_ints_length c p tl). rewrite app_length in Hf.
      destruct fuel as [|[|fuel]]; [lia | lia |].
      rewrite ls_loop_line by assumption.
      rewrite Db; [| lia | right; apply new_command_id; unfold cmdLineTo, countable, max_count in *; cbn [length] in *; lia].
      rewrite <- app_assoc. reflexivity.
Qed.

Lemma decode_lines_enc ls : Forall good_line ls -> fits (concat ls) -> ls <> [] ->
  exists b, encode_geometry (GMultiLineString (map (map fpt) ls)) = Ok (b, Tile_LINESTRING) /\
    decode_geometry Tile_LINESTRING b = Ok (Some (fgeom (single_ml ls))).
Proof.
  intros Hg [Hs He] Hn. destruct (encode_lines_fpt ls (0, 0) Hg He Hs origin_exact) as (b & (c' & Eb) & Db).
  exists b. split.
  - cbn [encode_geometry]. rewrite Eb. reflexivity.
  - cbn [decode_geometry]. unfold decode_linestring. rewrite <- origin_fpt, Db by (auto; lia).
    cbn [bind app]. destruct ls as [|l [|l' ls]]; [contradiction | reflexivity | reflexivity].
Qed.

Lemma decode_line_enc l : good_line l -> fits l ->
  exists b, encode_geometry (GLineString (map fpt l)) = Ok (b, Tile_LINESTRING) /\
    decode_geometry Tile_LINESTRING b = Ok (Some (fgeom (GLineString l))).
Proof.
  intros Hg Hf.
  destruct (decode_lines_enc [l]) as (b & Eb & Db); [now constructor | cbn [concat]; now rewrite app_nil_r | discriminate |].
  exists b. split; [|exact Db]. cbn [encode_geometry map encode_lines] in *.
  destruct (encode_line (0, 0) (map fpt l)) as [[c' g]| |]; cbn [bind] in *; try discriminate.
  injection Eb as <-. now rewrite app_nil_r.
Qed.

(** ** Polygons *)

Definition ring_ints (c : Z * Z) (r : list (Z * Z)) : list Z :=
  match r with
  | [] => []
  | p :: tl => new_command cmdMoveTo 1 :: zz c [p] ++
               new_command cmdLineTo (Z.of_nat (length tl)) :: zz p tl ++ [new_command cmdClosePath 1]
  end.

Lemma orientation_tile r : exact_pts r -> small_ring r -> orientation true (map fpt r) = - Z.sgn (area2 r).
Proof.
  intros He Hs. rewrite orientation_int; [lia | | exact Hs].
  intros p Hp. exact (proj1 (Forall_forall _ _) He p Hp).
Qed.

Lemma has_area_length r : has_area r = true -> (3 <= length r)%nat.
Proof.
  unfold has_area. intros H. destruct (Nat.ltb_spec (length r) 3) as [L|L]; [|lia].
  rewrite area2_short in H by exact L. discriminate.
Qed.

Lemma encode_ring_ints c r : r <> [] ->
  (let '(c', ds) := move_cursor c r in
    (c', [new_command cmdMoveTo 1] ++ encode_zigzag_pt (firstn 1 ds) ++
         [new_command cmdLineTo (Z.of_nat (length ds) - 1)] ++ encode_zigzag_pt (skipn 1 ds) ++
         [new_command cmdClosePath 1])) = (last r c, ring_ints c r).
Proof.
  intros N. destruct r as [|p tl]; [contradiction|].
  rewrite move_cursor_cons. cbn [firstn skipn length]. rewrite move_cursor_length.
  rewrite last_cons. unfold ring_ints, zz. cbn [move_cursor snd].
  replace (Z.of_nat (S (length tl)) - 1) with (Z.of_nat (length tl)) by lia. reflexivity.
Qed.

Lemma encode_exterior c r : exact_pts r -> small_ring r -> has_area r = true ->
  encode_linear_ring c true wClockwise (map fpt r) = (last (exterior r) c, ring_ints c (exterior r)).
Proof.
  intros He Hs Ha. pose proof (has_area_length r Ha) as HL. unfold encode_linear_ring. rewrite map_ipt_fpt by exact He.
  unfold of_int64_points. change (map (fun p => (f64_ofZ (fst p), f64_ofZ (snd p))) r) with (map fpt r).
  rewrite orientation_tile by assumption. unfold has_area, wColinear, wClockwise, exterior in *.
  destruct (Z.eqb_spec (- Z.sgn (area2 r)) 0); [lia|].
  replace (- Z.sgn (area2 r) =? -1) with (0 <? area2 r) by lia.
  destruct (0 <? area2 r).
  - apply encode_ring_ints. intros ->. cbn in HL. lia.
  - rewrite reverse_in_place_rev. apply encode_ring_ints. intros E. apply (f_equal (@length _)) in E. rewrite rev_length in E. cbn in E. lia.
Qed.

Lemma encode_interior c r : exact_pts r -> small_ring r -> has_area r = true ->
  encode_linear_ring c true wCounterClockwise (map fpt r) = (last (interior r) c, ring_ints c (interior r)).
Proof.
  intros He Hs Ha. pose proof (has_area_length r Ha) as HL. unfold encode_linear_ring. rewrite map_ipt_fpt by exact He.
  unfold of_int64_points. change (map (fun p => (f64_ofZ (fst p), f64_ofZ (snd p))) r) with (map fpt r).
  rewrite orientation_tile by assumption. unfold has_area, wColinear, wCounterClockwise, interior in *.
  destruct (Z.eqb_spec (- Z.sgn (area2 r)) 0); [lia|].
  replace (- Z.sgn (area2 r) =? 1) with (area2 r <? 0) by lia.
  destruct (area2 r <? 0).
  - apply encode_ring_ints. intros ->. cbn in HL. lia.
  - rewrite reverse_in_place_rev. apply encode_ring_ints. intros E. apply (f_equal (@length _)) in E. rewrite rev_length in E. cbn in E. lia.
Qed.

Lemma encode_no_area c wo r : exact_pts r -> small_ring r -> has_area r = false ->
  encode_linear_ring c true wo (map fpt r) = (c, []).
Proof.
  intros He Hs Ha. unfold encode_linear_ring. rewrite map_ipt_fpt by exact He.
  unfold of_int64_points. change (map (fun p => (f64_ofZ (fst p), f64_ofZ (snd p))) r) with (map fpt r).
  rewrite orientation_tile by assumption. unfold has_area in Ha.
  destruct (Z.eqb_spec (area2 r) 0) as [->|]; [reflexivity | discriminate].
Qed.

(** The integers of a sequence of rings, from a cursor. *)
Fixpoint rings_ints (c : Z * Z) (rs : list (list (Z * Z))) : list Z :=
  match rs with
  | [] => []
  | r :: tl => ring_ints c r ++ rings_ints (last r c) tl
  end.

Lemma last_app_cons {A} (a b : list A) d : last (a ++ b) d = last b (last a d).
Proof.
  revert d. induction a as [|x a IH]; intros d; [reflexivity|].
  cbn [app]. rewrite !last_cons. apply IH.
Qed.

Lemma rings_ints_app c a b : rings_ints c (a ++ b) = rings_ints c a ++ rings_ints (last (concat a) c) b.
Proof.
  revert c. induction a as [|r a IH]; intros c; [reflexivity|].
  cbn [app rings_ints concat]. rewrite IH, last_app_cons. now rewrite app_assoc.
Qed.


Lemma encode_rings_inner rs : forall c i, Forall ok_ring rs ->
  let out := map interior (filter has_area rs) in
  encode_rings c (S i) (map (map fpt) rs) = (last (concat out) c, rings_ints c out).
Proof.
  induction rs as [|r rs IH]; intros c i Hok; [reflexivity|].
  cbn zeta in *. inversion Hok as [|? ? (He & Hs & Hc) Hok']; subst. cbn [map encode_rings filter].
  rewrite map_length. destruct (Nat.ltb_spec (length r) 2) as [L|L].
  - replace (has_area r) with false by (unfold has_area; rewrite area2_short by lia; reflexivity).
    cbn [Nat.eqb]. rewrite IH by assumption. reflexivity.
  - cbn [Nat.eqb]. destruct (has_area r) eqn:Ha.
    + rewrite encode_interior, IH by assumption. cbn [map concat rings_ints]. rewrite last_app_cons. reflexivity.
    + rewrite encode_no_area, IH by assumption. reflexivity.
Qed.


Lemma encode_polygon_ints c rs : ok_polygon rs ->
  encode_polygon c (map (map fpt) rs) =
  (last (concat (tile_polygon rs)) c, rings_ints c (tile_polygon rs)).
Proof.
  intros H. destruct rs as [|o rs]; [contradiction|]. destruct H as [Ha Hok].
  inversion Hok as [|? ? (He & Hs & Hc) Hok']; subst.
  unfold encode_polygon. cbn [map encode_rings]. rewrite map_length.
  pose proof (has_area_length o Ha). destruct (Nat.ltb_spec (length o) 2) as [L|L]; [lia|].
  cbn [Nat.eqb]. rewrite encode_exterior, encode_rings_inner by assumption.
  cbn [tile_polygon concat rings_ints]. rewrite last_app_cons. reflexivity.
Qed.

Lemma encode_polygons_ints pls : forall c, Forall ok_polygon pls ->
  let out := concat (map tile_polygon pls) in
  encode_polygons c (map (map (map fpt)) pls) = (last (concat out) c, rings_ints c out).
Proof.
  induction pls as [|p pls IH]; intros c H; [reflexivity|]. inversion H; subst.
  cbn zeta in *. cbn [map encode_polygons concat]. rewrite encode_polygon_ints, IH by assumption.
  now rewrite concat_app, last_app_cons, rings_ints_app.
Qed.

(** Decoding one ring. *)
Lemma poly_step_move fuel lst c ret m x y tl :
  cmd_id m = cmdMoveTo -> cmd_count m = 1 -> lst = 0 \/ cmd_id lst = cmdClosePath ->
  poly_loop (S fuel) lst c ret (m :: x :: y :: tl) = poly_loop fuel m (dec_point c x y) ret tl.
Proof.
  intros Hi Hc Hl. cbn [poly_loop]. rewrite Hi, Hc. unfold zlen. cbn [length].
  change (cmdMoveTo =? cmdClosePath) with false. cbn [negb andb].
  destruct (Z.ltb_spec (Z.of_nat (S (S (length tl)))) (1 * 2)); [lia|].
  change (cmdMoveTo =? cmdMoveTo) with true. cbv iota.
  assert (Hb : negb (lst =? 0) && negb (cmd_id lst =? cmdClosePath) = false)
    by (destruct Hl as [-> | ->]; [reflexivity | apply andb_false_r]).
  now rewrite Hb.
Qed.

Lemma poly_step_line fuel lst c ret m n buf c' ps rest :
  cmd_id m = cmdLineTo -> cmd_count m = Z.of_nat n -> (1 < n)%nat -> cmd_id lst = cmdMoveTo ->
  (2 * n <= length buf)%nat -> dec_loop n c buf = Ok (c', ps, rest) ->
  poly_loop (S fuel) lst c ret (m :: buf) =
  if orientation true (c :: ps) =? wClockwise
  then poly_loop fuel m c' (append_to_last (ret ++ [[]]) (c :: ps)) rest
  else match ret with
       | [] => Err ENotExterior
       | _ => poly_loop fuel m c' (append_to_last ret (c :: ps)) rest
       end.
Proof.
  intros Hi Hc Hn Hl Hb Hd. cbn [poly_loop]. rewrite Hi, Hc, Hl. unfold zlen.
  change (cmdLineTo =? cmdClosePath) with false. cbn [negb andb].
  destruct (Z.ltb_spec (Z.of_nat (length buf)) (Z.of_nat n * 2)); [lia|].
  change (cmdLineTo =? cmdMoveTo) with false. change (cmdLineTo =? cmdLineTo) with true.
  change (cmdMoveTo =? cmdMoveTo) with true. cbv iota. cbn [negb].
  destruct (Z.leb_spec (Z.of_nat n) 1); [lia|].
  unfold dec_n_points. rewrite Nat2Z.id, Hd. reflexivity.
Qed.

Lemma poly_step_close fuel lst c ret m rest :
  cmd_id m = cmdClosePath -> cmd_id lst = cmdLineTo ->
  poly_loop (S fuel) lst c ret (m :: rest) = poly_loop fuel m c ret rest.
Proof. intros Hi Hl. cbn [poly_loop]. rewrite Hi, Hl. reflexivity. Qed.

Lemma poly_loop_ring c r rest lst ret fuel :
  exact_pt c -> exact_pts r -> steps_fit c r -> small_ring r -> countable r -> has_area r = true ->
  lst = 0 \/ cmd_id lst = cmdClosePath ->
  poly_loop (S (S (S fuel))) lst (fpt c) ret (ring_ints c r ++ rest) =
  if 0 <? area2 r
  then poly_loop fuel (new_command cmdClosePath 1) (fpt (last r c)) (append_to_last (ret ++ [[]]) (map fpt r)) rest
  else match ret with
       | [] => Err ENotExterior
       | _ => poly_loop fuel (new_command cmdClosePath 1) (fpt (last r c)) (append_to_last ret (map fpt r)) rest
       end.
Proof.
  intros Hc He Hs Hsm Hcnt Ha Hl. pose proof (has_area_length r Ha) as HL.
  pose proof (orientation_tile r He Hsm) as HO.
  destruct r as [|p tl]; [cbn in HL; lia|].
  inversion He as [|? ? Hp He']; subst. destruct Hs as (D1 & D2 & Hs).
  unfold countable, max_count in Hcnt. cbn [length] in Hcnt, HL.
  assert (I1 : cmd_id (new_command cmdMoveTo 1) = cmdMoveTo) by (apply new_command_id; unfold cmdMoveTo, max_count; lia).
  assert (I2 : cmd_id (new_command cmdLineTo (Z.of_nat (length tl))) = cmdLineTo) by (apply new_command_id; unfold cmdLineTo, max_count; lia).
  assert (I3 : cmd_id (new_command cmdClosePath 1) = cmdClosePath) by (apply new_command_id; unfold cmdClosePath, max_count; lia).
  unfold ring_ints. rewrite zz_cons, zz_nil. cbn [app]. rewrite <- app_assoc.
  rewrite poly_step_move; [| exact I1 | apply new_command_count; unfold cmdMoveTo, max_count; lia | exact Hl].
  rewrite dec_point_enc by assumption.
  erewrite poly_step_line; [ | exact I2 | | | exact I1 | | now apply dec_loop_enc].
  2: apply new_command_count; unfold cmdLineTo, max_count; lia.
  2: lia.
  2: rewrite app_length, zz_length; lia.
  change (fpt p :: map fpt tl) with (map fpt (p :: tl)). rewrite HO, last_cons.
  unfold wClockwise. replace (- Z.sgn (area2 (p :: tl)) =? -1) with (0 <? area2 (p :: tl)) by lia.
  cbn [app]. destruct (0 <? area2 (p :: tl)).
  - now apply poly_step_close.
  - destruct ret; [reflexivity | now apply poly_step_close].
Qed.

Lemma ring_ints_length c r : (3 <= length r)%nat -> (3 <= length (ring_ints c r))%nat.
Proof. destruct r; cbn [length]; [lia|]. intros _. unfold ring_ints. cbn [length app]. rewrite !app_length. cbn [length]. rewrite app_length. cbn. lia. Qed.

Lemma append_new ret ln : append_to_last (ret ++ [[]]) ln = ret ++ [[ln]].
Proof. unfold append_to_last. now rewrite removelast_last, last_last. Qed.
Lemma append_old ret p ln : append_to_last (ret ++ [p]) ln = ret ++ [p ++ [ln]].
Proof. unfold append_to_last. now rewrite removelast_last, last_last. Qed.

Lemma steps_fit_app a b c : steps_fit c (a ++ b) -> steps_fit c a /\ steps_fit (last a c) b.
Proof.
  revert c. induction a as [|x a IHa]; intros c H; [now split|].
  cbn [app steps_fit] in H. destruct H as (H1 & H2 & H). apply IHa in H. destruct H as [H3 H4].
  rewrite last_cons. cbn [steps_fit]. auto.
Qed.

Lemma area2_rev_has r : has_area (rev r) = has_area r.
Proof. unfold has_area. rewrite area2_rev. lia. Qed.
Lemma exact_rev r : exact_pts r -> exact_pts (rev r).
Proof. intros H. unfold exact_pts in *. now apply Forall_rev. Qed.
Lemma countable_rev {A} (r : list A) : countable r -> countable (rev r).
Proof. unfold countable. now rewrite rev_length. Qed.
Lemma ok_rev r : ok_ring r -> ok_ring (rev r).
Proof. intros (H1 & H2 & H3). split; [now apply exact_rev|]. split; [now apply small_rev | now apply countable_rev]. Qed.
Lemma exterior_ok r : ok_ring r -> has_area r = true ->
  ok_ring (exterior r) /\ has_area (exterior r) = true /\ (0 <? area2 (exterior r)) = true.
Proof.
  intros H Ha. unfold exterior. destruct (0 <? area2 r) eqn:E.
  - auto.
  - split; [now apply ok_rev|]. split; [now rewrite area2_rev_has|]. rewrite area2_rev. unfold has_area in Ha. lia.
Qed.
Lemma interior_ok r : ok_ring r -> has_area r = true ->
  ok_ring (interior r) /\ has_area (interior r) = true /\ (0 <? area2 (interior r)) = false.
Proof.
  intros H Ha. unfold interior. destruct (area2 r <? 0) eqn:E.
  - repeat split; auto; try apply H. lia.
  - split; [now apply ok_rev|]. split; [now rewrite area2_rev_has|]. rewrite area2_rev. unfold has_area in Ha. lia.
Qed.

(** Decoding the inner rings of the polygon being read. *)
Lemma poly_loop_inner rs : forall c rest last ret p fuel K,
  Forall (fun r => ok_ring r /\ has_area r = true /\ (0 <? area2 r) = false) rs ->
  exact_pt c -> steps_fit c (concat rs) -> cmd_id last = cmdClosePath ->
  (length (rings_ints c rs ++ rest) < fuel)%nat ->
  (forall fuel' last', (length rest < fuel')%nat -> cmd_id last' = cmdClosePath ->
     poly_loop fuel' last' (fpt (List.last (concat rs) c)) (ret ++ [p ++ map (map fpt) rs]) rest = K) ->
  poly_loop fuel last (fpt c) (ret ++ [p]) (rings_ints c rs ++ rest) = K.
Proof.
  induction rs as [|r rs IH]; intros c rest last ret p fuel K Hok Hc Hs Hl Hf HK.
  - cbn [rings_ints app concat List.last map] in *. rewrite app_nil_r in HK. now apply HK.
  - inversion Hok as [|? ? (Hr & Ha & Ho) Hok']; subst. destruct Hr as (He & Hsm & Hcnt).
    cbn [rings_ints concat] in *. apply steps_fit_app in Hs. destruct Hs as [Hs1 Hs2].
    rewrite <- app_assoc in *. pose proof (has_area_length r Ha) as HL.
    pose proof (ring_ints_length c r HL). rewrite app_length in Hf.
    destruct fuel as [|[|[|fuel]]]; try lia.
    rewrite poly_loop_ring by (auto). rewrite Ho.
    destruct (ret ++ [p]) as [|x y] eqn:E; [now destruct ret|]. rewrite <- E, append_old. clear x y E.
    apply IH; auto.
    + unfold exact_pts in He. apply last_in; assumption.
    + lia.
    + intros fuel' last' Hf' Hl'. rewrite last_app_cons in HK. rewrite <- app_assoc. now apply HK.
Qed.

Lemma tile_polygon_good rs : ok_polygon rs ->
  exists o inner, tile_polygon rs = o :: inner /\
    ok_ring o /\ has_area o = true /\ (0 <? area2 o) = true /\
    Forall (fun r => ok_ring r /\ has_area r = true /\ (0 <? area2 r) = false) inner.
Proof.
  destruct rs as [|o rs]; [contradiction|]. intros [Ha Hok]. inversion Hok as [|? ? Ho Hok']; subst.
  exists (exterior o), (map interior (filter has_area rs)). split; [reflexivity|].
  destruct (exterior_ok o Ho Ha) as (? & ? & ?). repeat (split; [assumption|]).
  apply Forall_map, Forall_forall. intros r Hr. apply filter_In in Hr. destruct Hr as [Hr Har].
  apply interior_ok; [|exact Har]. exact (proj1 (Forall_forall _ _) Hok' r Hr).
Qed.

Lemma poly_loop_polygons pls : forall c last ret fuel,
  Forall ok_polygon pls -> exact_pt c -> last = 0 \/ cmd_id last = cmdClosePath ->
  let out := concat (map tile_polygon pls) in
  steps_fit c (concat out) -> (length (rings_ints c out) < fuel)%nat ->
  poly_loop fuel last (fpt c) ret (rings_ints c out) =
  Ok (ret ++ map (map (map fpt)) (map tile_polygon pls)).
Proof.
  induction pls as [|p pls IH]; intros c last ret fuel Hok Hc Hl; cbn zeta in *; intros Hs Hf.
  - cbn in *. destruct fuel; [lia|]. cbn. now rewrite app_nil_r.
  - inversion Hok as [|? ? Hp Hok']; subst.
    destruct (tile_polygon_good p Hp) as (o & inner & Et & (He & Hsm & Hcnt) & Ha & Ho & Hin).
    cbn [map concat] in *. rewrite Et in *. cbn [app] in *. cbn [rings_ints concat] in *.
    apply steps_fit_app in Hs. destruct Hs as [Hs1 Hs2].
    pose proof (has_area_length o Ha) as HL. pose proof (ring_ints_length c o HL).
    rewrite app_length in Hf. destruct fuel as [|[|[|fuel]]]; try lia.
    rewrite poly_loop_ring by auto. rewrite Ho, append_new.
    rewrite rings_ints_app in *. rewrite concat_app in Hs2. apply steps_fit_app in Hs2. destruct Hs2 as [Hs2 Hs3].
    apply poly_loop_inner; auto.
    + unfold exact_pts in He. apply last_in; assumption.
    + lia.
    + intros fuel' last' Hf' Hl'.
      assert (Hce : exact_pt (List.last (concat inner) (List.last o c))).
      { apply last_in; [|apply last_in; [exact He | exact Hc]].
        apply Forall_concat. eapply Forall_impl; [|exact Hin]. intros r (Hr & _). apply Hr. }
      rewrite IH by auto. rewrite <- app_assoc. reflexivity.
Qed.

Lemma decode_polygons_enc pls : pls <> [] -> Forall ok_polygon pls ->
  steps_fit (0, 0) (concat (concat (map tile_polygon pls))) ->
  exists b, encode_geometry (GMultiPolygon (map (map (map fpt)) pls)) = Ok (b, Tile_POLYGON) /\
    decode_geometry Tile_POLYGON b = Ok (Some (fgeom (single_mpoly (map tile_polygon pls)))).
Proof.
  intros Hn Hok Hs. exists (rings_ints (0, 0) (concat (map tile_polygon pls))).
  split.
  - cbn [encode_geometry]. rewrite encode_polygons_ints by exact Hok. reflexivity.
  - cbn [decode_geometry]. unfold decode_poly. rewrite <- origin_fpt.
    rewrite poly_loop_polygons by (auto using origin_exact; lia). cbn [bind app].
    destruct pls as [|p [|q pls]]; [contradiction | reflexivity | reflexivity].
Qed.

Lemma decode_polygon_enc rs : ok_polygon rs -> steps_fit (0, 0) (concat (tile_polygon rs)) ->
  exists b, encode_geometry (GPolygon (map (map fpt) rs)) = Ok (b, Tile_POLYGON) /\
    decode_geometry Tile_POLYGON b = Ok (Some (fgeom (GPolygon (tile_polygon rs)))).
Proof.
  intros Hok Hs.
  destruct (decode_polygons_enc [rs]) as (b & Eb & Db);
    [discriminate | now constructor | cbn [map concat]; now rewrite app_nil_r |].
  exists b. split; [|exact Db]. cbn [encode_geometry map encode_polygons] in *.
  destruct (encode_polygon (0, 0) (map (map fpt) rs)) as [c g] eqn:E. cbn [snd] in *.
  injection Eb as <-. now rewrite app_nil_r.
Qed.

(** ** Panics *)

Lemma dec_loop_ok n : forall c buf, (2 * n <= length buf)%nat ->
  exists c' ps, dec_loop n c buf = Ok (c', ps, skipn (2 * n) buf) /\ length ps = n.
Proof.
  induction n as [|n IH]; intros c buf H.
  - exists c, []. split; reflexivity.
  - destruct buf as [|x [|y tl]]; cbn [length] in H; try lia.
    cbn [dec_loop]. destruct (IH (dec_point c x y) tl ltac:(lia)) as (c' & ps & E & L).
    rewrite E. cbn [bind]. exists c', (dec_point c x y :: ps). split; [|cbn; lia].
    f_equal. f_equal. replace (2 * S n)%nat with (S (S (2 * n))) by lia. reflexivity.
Qed.

Lemma decode_point_total buf : Forall uint32 buf -> decode_point buf <> Panic.
Proof.
  intros Hu. unfold decode_point. destruct buf as [|cmd buf]; [discriminate|].
  inversion Hu as [|? ? Hc _]; subst.
  unfold zlen. destruct (Z.ltb_spec (Z.of_nat (length buf)) (cmd_count cmd * 2)); [discriminate|].
  destruct (cmd_id cmd =? cmdMoveTo); [|discriminate].
  assert (0 <= cmd_count cmd) by (unfold cmd_count, uint32 in *; rewrite Z.shiftr_div_pow2 by lia; apply Z.div_pos; lia).
  unfold dec_n_points. destruct (dec_loop_ok (Z.to_nat (cmd_count cmd)) (f64_zero, f64_zero) buf) as (c' & ps & E & L); [lia|].
  rewrite E. cbn [bind]. destruct (skipn _ buf); [|discriminate]. destruct ps as [|? [|? ?]]; discriminate.
Qed.
