(** Proofs about slippy tiles: grids *)
From Coq Require Import ZArith Bool List Lia Reals Lra.
From Coq Require Import ZifyBool.
From Flocq Require Import Core.Core.
From Verif Require Import Base_Bytes Base_F64 Base_F64Arith Base_Res Base_Geom M_Extent M_Slippy S_Slippy
  P_F64 P_F64Flocq P_F64Round P_F64Grid P_Slippy P_SlippyR.
Import ListNotations.
Open Scope Z_scope.

(** A whole world at zoom 22 is too much for one slice. *)
Lemma world_panics lat2px y2deg ts :
  from_bounds (grid4326 lat2px y2deg ts) (Some ((fm180, f64_ofZ (-90)), (f180, f64_ofZ 90))) 22 = Panic.
Proof. vm_compute. reflexivity. Qed.

(** NewTileMinMaxer *)
Lemma contains_max x0 y0 x1 y1 : num x0 -> num y0 -> num x1 -> num y1 ->
  let e := new_extent [(x0, y0); (x1, y1)] in
  contains e (Ext (maxX e) (maxY e) (maxX e) (maxY e)) = true.
Proof.
  intros [_ A] [_ B] [_ C] [_ D]. cbn [new_extent fold_left fst snd]. unfold widen1. cbn [fst snd e0 e1 e2 e3].
  assert (K : forall u v, nn u -> nn v -> f64_lt u v = true -> f64_le u v = true) by (intros; now apply f64_lt_le).
  assert (R : forall u, nn u -> f64_le u u = true) by (intros; now apply f64_le_refl).
  unfold contains, f64_gt, f64_ge.
  repeat (match goal with |- context [if ?b then _ else _] => destruct b eqn:? end; cbn [e0 e1 e2 e3 maxX maxY]);
  repeat (rewrite R by assumption); repeat (rewrite K by assumption); reflexivity.
Qed.

Theorem min_maxer_exact g ext t :
  from_native g 22 (e0 ext, e1 ext) = Ok t -> t_z t = 22 -> 0 <= t_x t < 2 ^ 64 -> 0 <= t_y t < 2 ^ 64 ->
  (forall u, t_z u = 22 -> t_x u = t_x t \/ t_x u = u64 (t_x t + 1) ->
    exists p, to_native g u = Ok p /\ num (fst p) /\ num (snd p)) ->
  new_tile_min_maxer g ext = Ok t.
Proof.
  intros H Hz Hx Hy Hn. unfold new_tile_min_maxer. change max_zoom with 22. rewrite H. cbn [bind].
  change (rev (range 0 (22 + 1))) with (22 :: rev (range 0 22)). cbn [min_maxer_loop].
  unfold family_at. rewrite Hz. cbn [Z.leb Z.compare Pos.compare Pos.compare_cont]. change (22 <=? 22) with true. cbn iota.
  change (22 - 22) with 0. rewrite !Z.shiftr_0_r.
  replace (Tile 22 (t_x t) (t_y t)) with t.
  2:{ destruct t. cbn in *. now subst. }
  unfold min_maxer_yield. unfold tile_extent.
  destruct (Hn t Hz (or_introl eq_refl)) as ([x0 y0] & -> & A & B). cbn [bind].
  destruct (Hn (Tile (t_z t) (u64 (t_x t + 1)) (u64 (t_y t + 1))) Hz (or_intror eq_refl)) as ([x1 y1] & -> & C & D). cbn [bind].
  cbn [fst snd] in *.
  pose proof (contains_max x0 y0 x1 y1 A B C D) as Q. cbv zeta in Q |- *. cbn [fst snd] in *. match goal with |- context [if ?b then _ else _] => replace b with true by (symmetry; exact Q) end. reflexivity.
Qed.


Lemma size_default z lon : lon2num 0 z lon = lon2num 256 z lon.
Proof. reflexivity. Qed.
Lemma ts_cases ts : 0 <= ts <= 2 ^ 29 ->
  exists ts', 1 <= ts' <= 2 ^ 29 /\ (ts <= 4096 -> ts' <= 4096) /\ forall z lon, lon2num ts z lon = lon2num ts' z lon.
Proof.
  intros H. destruct (Z.eq_dec ts 0) as [->|].
  - exists 256. split; [lia|]. split; [lia|]. intros. apply size_default.
  - exists ts. split; [lia|]. split; [lia|]. reflexivity.
Qed.

Section Cols.
  Variables (ts z : Z).
  Hypothesis Hts : 0 <= ts <= 2 ^ 29.
  Hypothesis Hz : 0 <= z <= 22.
  Theorem col_roundtrip x : 0 <= x < 2 ^ z -> lon2num ts z (x2deg z x) = x.
  Proof. destruct (ts_cases ts Hts) as (t & H & _ & E). rewrite E. now apply lon2num_roundtrip. Qed.
  Theorem col_mono a b : degrees a -> degrees b -> f64_le a b = true -> f64_lt b f180 = true ->
    lon2num ts z a <= lon2num ts z b.
  Proof. destruct (ts_cases ts Hts) as (t & H & _ & E). rewrite !E. now apply lon2num_mono. Qed.
  Theorem col_bound lon : degrees lon -> 0 <= lon2num ts z lon <= 2 ^ z.
  Proof. destruct (ts_cases ts Hts) as (t & H & _ & E). rewrite E. now apply lon2num_bound. Qed.
  Theorem col_left lon x : degrees lon -> 0 <= x < 2 ^ z -> (left_side z x <= f64_R lon)%R -> x <= lon2num ts z lon.
  Proof. destruct (ts_cases ts Hts) as (t & H & _ & E). rewrite E. now apply lon2num_left. Qed.
  Theorem col_right lon x : ts <= 4096 -> degrees lon -> 0 <= x < 2 ^ z ->
    (f64_R lon <= left_side z (x + 1) - 360 / IZR (2 ^ 18) / IZR (2 ^ z))%R -> lon2num ts z lon <= x.
  Proof. destruct (ts_cases ts Hts) as (t & H & H4 & E). rewrite E. intros. now apply lon2num_right; auto. Qed.
  Theorem col_ends lon : degrees lon ->
    ((f64_R lon <= -180)%R -> lon2num ts z lon = 0) /\ ((180 <= f64_R lon)%R -> lon2num ts z lon = 2 ^ z - 1).
  Proof.
    destruct (ts_cases ts Hts) as (t & H & H4 & E). intros D. rewrite !E. split; intros L.
    - now apply lon2num_low.
    - now apply lon2num_high.
  Qed.
End Cols.

(** Latitudes beyond the limit, whatever the projection is. *)
Lemma row_ends lat2px ts z lat : 0 <= z <= 22 -> degrees lat ->
  ((86 <= f64_R lat)%R -> lat2num lat2px ts z lat = 0) /\ ((f64_R lat <= -86)%R -> lat2num lat2px ts z lat = 2 ^ z - 1).
Proof.
  intros Hz [W F].
  assert (V : forall n, Z.abs n <= 100 -> f64_wf (f64_ofZ n) = true /\ f64_finite (f64_ofZ n) = true /\ f64_R (f64_ofZ n) = IZR n).
  { intros n Hn. destruct (repr_ofZ n) as (A & B & C); [unfold two53; lia|]. rewrite C. repeat split; auto. cbn. ring. }
  destruct (V 86 ltac:(lia)) as (A1 & B1 & C1). destruct (V (-86) ltac:(lia)) as (A2 & B2 & C2).
  assert (Hi : (f64_R lat_max < 86)%R).
  { change 86%R with (IZR 86). rewrite <- C1. apply lt_R; auto; vm_compute; reflexivity. }
  assert (Lo : (-86 < f64_R lat_min)%R).
  { change (-86)%R with (IZR (-86)). rewrite <- C2. apply lt_R; auto; vm_compute; reflexivity. }
  assert (Mid : (f64_R lat_min < f64_R lat_max)%R) by (apply lt_R; vm_compute; reflexivity).
  unfold lat2num, f64_gt. split; intros H.
  - replace (f64_lt lat lat_min) with false.
    2:{ symmetry. apply not_true_is_false. intros C. apply lt_R in C; auto. lra. }
    replace (f64_lt lat_max lat) with true by (symmetry; apply lt_R; auto; lra). reflexivity.
  - replace (f64_lt lat lat_min) with true by (symmetry; apply lt_R; auto; lra).
    pose proof (pow22 z Hz) as Hp.
    assert (Q : repr 0 (2 ^ z - 1) (f64_sub (zoom_n z) f64_one)).
    { apply repr_sub; [lia|unfold two53; lia|now apply c_zoom|].
      change f64_one with (f64_ofZ 1). apply repr_ofZ. unfold two53. lia. }
    unfold f64_to_i64. rewrite (trunc_repr _ _ Q). unfold two63. destruct (_ && _) eqn:E; lia.
Qed.

(** The longitude just below 180. *)
Definition east : f64 := 0x40667FFFFFFFFFFF.
Lemma east_outside z : 0 <= z <= 22 -> lon2num 0 z east = 2 ^ z.
Proof.
  intros H.
  assert (A : forallb (fun i => lon2num 0 (Z.of_nat i) east =? 2 ^ Z.of_nat i) (seq 0 23) = true)
    by (vm_compute; reflexivity).
  rewrite forallb_forall in A. specialize (A (Z.to_nat z)).
  rewrite Z2Nat.id in A by lia. apply Z.eqb_eq. apply A. apply in_seq. lia.
Qed.
Theorem outside_grid : exists lon, degrees lon /\ f64_lt lon f180 = true /\
  forall z, 0 <= z <= 22 -> lon2num 0 z lon = 2 ^ z.
Proof. exists east. split; [split; reflexivity|]. split; [reflexivity|]. exact east_outside. Qed.

Theorem x2deg_left z x : 0 <= z <= 22 -> 0 <= x <= 2 ^ z -> degrees (x2deg z x) /\ f64_R (x2deg z x) = left_side z x.
Proof. intros H. now apply x2deg_exact. Qed.

(** FromBounds covers the columns. *)
Theorem columns_covered lat2px y2deg ts z mn mx lon ts' :
  0 <= ts <= 2 ^ 29 -> 0 <= z <= 22 ->
  degrees (fst mn) -> degrees (fst mx) -> degrees lon ->
  f64_le (fst mn) lon = true -> f64_le lon (fst mx) = true -> f64_lt (fst mx) f180 = true ->
  from_bounds (grid4326 lat2px y2deg ts) (Some (mn, mx)) z = Ok ts' ->
  exists y, In (Tile z (u64 (lon2num ts z lon)) y) ts'.
Proof.
  intros Hts Hz D1 D2 D L1 L2 U H.
  pose proof (pow22 z Hz) as Hp.
  pose proof (col_bound ts z Hts Hz _ D1) as B1. pose proof (col_bound ts z Hts Hz _ D2) as B2.
  pose proof (col_bound ts z Hts Hz _ D) as B.
  assert (M1 : lon2num ts z (fst mn) <= lon2num ts z lon).
  { apply col_mono; auto. eapply f64_le_lt_trans; eassumption. }
  assert (M2 : lon2num ts z lon <= lon2num ts z (fst mx)) by (apply col_mono; auto).
  unfold from_bounds in H. cbn [grid4326 from_native bind] in H. cbn [t_x t_y] in H.
  rewrite !(u64_id (lon2num _ _ _)) in H by lia. rewrite (u64_id (lon2num _ _ _)) by lia.
  replace (lon2num ts z (fst mx) <? lon2num ts z (fst mn)) with false in H by lia.
  set (ya := u64 (lat2num lat2px ts z (snd mn))) in *. set (yb := u64 (lat2num lat2px ts z (snd mx))) in *.
  assert (Ey : exists c d, (if yb <? ya then (yb, ya) else (ya, yb)) = (c, d) /\ c <= d).
  { destruct (Z.ltb_spec yb ya); do 2 eexists; (split; [reflexivity|]); lia. }
  destruct Ey as (c & d & Ey & Lcd). rewrite Ey in H.
  unfold make_tiles in H. destruct (_ <? _) in H; [discriminate|]. cbn [bind] in H.
  destruct (_ || _) in H; [discriminate|]. cbn [app] in H.
  inversion H. exists c. apply in_flat_map. exists (lon2num ts z lon). unfold urange. split.
  - apply in_range. lia.
  - apply in_map_iff. exists c. split; [reflexivity|]. apply in_range. lia.
Qed.

Definition wide : extent := Ext (f64_ofZ (-90)) (f64_ofZ (-90)) (f64_ofZ 90) (f64_ofZ 90).

Lemma lon_m90 ts : 0 <= ts <= 2 ^ 29 -> lon2num ts 22 (f64_ofZ (-90)) = 2 ^ 20.
Proof.
  intros H. replace (f64_ofZ (-90)) with (x2deg 22 (2 ^ 20)) by (vm_compute; reflexivity).
  destruct (Z.eq_dec ts 0) as [->|]; [rewrite size_default|]; apply lon2num_roundtrip; lia.
Qed.

Theorem min_maxer_wrong lat2px y2deg ts : 0 <= ts <= 2 ^ 29 ->
  (forall z y, num (y2deg z y)) ->
  exists t e, new_tile_min_maxer (grid4326 lat2px y2deg ts) wide = Ok t /\
    tile_extent (grid4326 lat2px y2deg ts) t = Ok e /\ contains e wide = false.
Proof.
  intros Hts Hy.
  set (t := Tile 22 (2 ^ 20) (2 ^ 22 - 1)).
  assert (Ht : from_native (grid4326 lat2px y2deg ts) 22 (e0 wide, e1 wide) = Ok t).
  { cbn [grid4326 from_native fst snd e0 e1 wide]. rewrite lon_m90 by exact Hts.
    unfold lat2num. change (f64_lt (f64_ofZ (-90)) lat_min) with true. cbv iota.
    replace (f64_to_i64 (f64_sub (zoom_n 22) f64_one)) with (2 ^ 22 - 1) by (vm_compute; reflexivity).
    rewrite !u64_id by lia. reflexivity. }
  exists t. eexists. split; [|split].
  - apply min_maxer_exact; auto; try (cbn [t t_x t_y t_z]; lia).
    intros u Hz Hx. eexists. split; [reflexivity|]. cbn [fst snd]. split; [|apply Hy].
    rewrite Hz. unfold t in Hx. cbn [t_x] in Hx. destruct Hx as [-> | ->]; split; vm_compute; reflexivity.
  - unfold tile_extent. cbn [grid4326 to_native bind]. reflexivity.
  - cbn [new_extent fold_left fst snd]. unfold contains. cbn [t t_x t_z t_y].
    replace (x2deg 22 (i64 (2 ^ 20))) with (f64_ofZ (-90)) by (vm_compute; reflexivity).
    replace (x2deg 22 (i64 (u64 (2 ^ 20 + 1)))) with (x2deg 22 (2 ^ 20 + 1)) by (vm_compute; reflexivity).
    set (xr := x2deg 22 (2 ^ 20 + 1)).
    unfold widen1. cbn [fst snd e0 e1 e2 e3].
    change (f64_lt xr (f64_ofZ (-90))) with (f64_lt (x2deg 22 (2 ^ 20 + 1)) (f64_ofZ (-90))).
    replace (f64_lt (x2deg 22 (2 ^ 20 + 1)) (f64_ofZ (-90))) with false by (vm_compute; reflexivity).
    unfold f64_gt. replace (f64_lt (f64_ofZ (-90)) xr) with true by (vm_compute; reflexivity).
    cbn [e0 e1 e2 e3].
    assert (Q : f64_le (f64_ofZ 90) xr = false) by (vm_compute; reflexivity).
    unfold f64_ge.
    repeat (match goal with |- context [if ?b then _ else _] => destruct b end; cbn [e0 e1 e2 e3 wide]);
      rewrite Q; rewrite ?andb_false_r; reflexivity.
Qed.

(** PixelRatioForZoom on Grid4326 *)
Theorem pixel_ratio_exact lat2px y2deg ts z dim : 0 <= z -> 0 <= dim <= 2 ^ 53 ->
  exists w, pixel_ratio (grid4326 lat2px y2deg ts) z dim = Ok w /\
    is_round (360 / IZR (2 ^ Z.min z 22) / IZR (if dim =? 0 then 4096 else dim))%R w.
Proof.
  intros Hz Hd. unfold pixel_ratio. change max_zoom with 22.
  set (zz := if 22 <? z then 22 else z).
  assert (Ez : zz = Z.min z 22) by (unfold zz; destruct (Z.ltb_spec 22 z); lia).
  set (dd := if dim =? 0 then 4096 else dim). assert (Hdd : 1 <= dd <= 2 ^ 53) by (unfold dd; destruct (Z.eqb_spec dim 0); lia).
  assert (Hzz : 0 <= zz <= 22) by lia. rewrite <- Ez. clearbody zz dd.
  pose proof (pow22 zz Hzz) as Hp.
  unfold tile_extent. cbn [grid4326 to_native bind t_x t_y t_z]. change (i64 0) with 0. change (i64 (u64 (0 + 1))) with 1.
  eexists. split; [reflexivity|].
  destruct (x2deg_exact zz Hzz 0 ltac:(lia)) as [[W0 F0] E0]. destruct (x2deg_exact zz Hzz 1 ltac:(lia)) as [[W1 F1] E1].
  assert (HN : (1 <= IZR (2 ^ zz))%R) by (apply IZR_le; lia).
  set (N := IZR (2 ^ zz)) in *.
  assert (P : (0 < / N)%R) by (apply Rinv_0_lt_compat; lra).
  assert (L0 : left_side zz 0 = (-180)%R) by (unfold left_side; fold N; field; lra).
  assert (L1 : left_side zz 1 = (360 * / N - 180)%R) by (unfold left_side; fold N; field; lra).
  assert (LT : f64_lt (x2deg zz 0) (x2deg zz 1) = true) by (apply lt_R; auto; rewrite E0, E1, L0, L1; lra).
  assert (GT : f64_lt (x2deg zz 1) (x2deg zz 0) = false).
  { apply not_true_is_false. intros C. apply lt_R in C; auto. rewrite E0, E1, L0, L1 in C. lra. }
  assert (X : xspan (new_extent [(x2deg zz 0, y2deg zz 0); (x2deg zz 1, y2deg zz 1)]) = f64_sub (x2deg zz 1) (x2deg zz 0)).
  { cbn [new_extent fold_left fst snd]. unfold widen1, f64_gt. cbn [fst snd e0 e1 e2 e3]. rewrite LT, GT.
    cbn [e0 e1 e2 e3]. repeat (match goal with |- context [if ?b then _ else _] => destruct b end; cbn [e0 e1 e2 e3]); reflexivity. }
  match goal with |- context [f64_div ?b _] => replace b with (f64_sub (x2deg zz 1) (x2deg zz 0)) by (symmetry; exact X) end.
  assert (Q : repr (- zz) 360 (f64_sub (x2deg zz 1) (x2deg zz 0))).
  { apply (is_round_repr _ _ _ (f64_R (x2deg zz 1) - f64_R (x2deg zz 0))); [lia|unfold two53; lia|now apply sub_round|].
    rewrite E0, E1, L0, L1, bpow_opp. rewrite <- (IZR_Zpower radix2 zz) by lia. change (IZR (radix2 ^ zz)) with N. lra. }
  destruct Q as (Wq & Fq & Eq). 
  assert (O : repr 0 dd (f64_ofZ dd)) by (apply repr_ofZ; unfold two53; lia).
  pose proof (repr0 _ _ O) as RO. destruct O as (Wo & Fo & _).
  assert (1 <= IZR dd)%R by (apply IZR_le; lia).
  replace (360 / N / IZR dd)%R with (f64_R (f64_sub (x2deg zz 1) (x2deg zz 0)) / f64_R (f64_ofZ dd))%R.
  - apply div_round; auto. rewrite RO. lra.
  - rewrite Eq, RO, bpow_opp. rewrite <- (IZR_Zpower radix2 zz) by lia. reflexivity.
Qed.

Lemma size_exact z : 0 <= z <= 22 -> grid_size z = Some (Tile z (2 ^ z) (2 ^ z)).
Proof.
  intros H. unfold grid_size. change max_zoom with 22. replace (22 <? z) with false by lia.
  rewrite zoom_n_int by lia. pose proof (pow22 z H). now rewrite u64_id by lia.
Qed.
