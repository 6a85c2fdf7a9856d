From Coq Require Import ZArith Bool List Lia.
From Coq Require Import ZifyBool ZifyNat.
From Verif Require Import Base_F64 Base_F64Arith Base_Geom Base_Res Base_Bytes P_F64Flocq P_F64Grid P_List
  M_Winding S_Winding P_Winding P_Winding2 M_Mvt S_Mvt P_Mvt.
Import ListNotations.
Open Scope Z_scope.

(** ** Layout *)

Lemma zz_wire pts : forall c, steps_fit c pts -> zz c pts = wire_path c pts.
Proof.
  induction pts as [|p pts IH]; intros c H; [reflexivity|]. destruct H as (D1 & D2 & H).
  rewrite zz_cons. cbn [wire_path]. rewrite IH by exact H.
  rewrite !i64_id by (unfold int32 in *; lia). rewrite !encode_zigzag_val by assumption. reflexivity.
Qed.

Lemma new_command_wire id n : id = 1 \/ id = 2 \/ id = 7 -> 0 <= n < max_count -> new_command id n = wire_command id n.
Proof. intros. apply new_command_val; [lia | assumption]. Qed.

Lemma encode_points_wire ps : ps <> [] -> countable ps -> fits ps ->
  encode_geometry (GMultiPoint (map fpt ps)) = Ok (wire_points ps, Tile_POINT).
Proof.
  intros Hn Hc [Hs He]. cbn [encode_geometry]. do 2 f_equal. destruct ps as [|p ps]; [contradiction|].
  unfold move_to. rewrite map_length, encode_cmd_fpt by exact He. cbn [snd].
  unfold wire_points. rewrite zz_wire by exact Hs. f_equal.
  apply new_command_wire; [now left | unfold countable in *; lia].
Qed.

Lemma line_ints_wire c p tl : steps_fit c (p :: tl) -> countable (p :: tl) -> line_ints c p tl = wire_line c (p :: tl).
Proof.
  intros Hs Hc. assert (S1 : steps_fit c [p]) by (destruct Hs as (? & ? & _); cbn; auto).
  destruct Hs as (D1 & D2 & Hs). unfold line_ints, wire_line.
  rewrite zz_wire by exact S1. rewrite zz_wire by exact Hs.
  unfold countable in Hc. cbn [length] in Hc.
  change cmdMoveTo with 1. change cmdLineTo with 2.
  rewrite !new_command_wire by (auto; unfold max_count in *; lia). reflexivity.
Qed.

Lemma encode_lines_wire ls : forall c, Forall good_line ls -> exact_pts (concat ls) -> steps_fit c (concat ls) ->
  encode_lines c (map (map fpt) ls) = Ok (last (concat ls) c, wire_lines c ls).
Proof.
  induction ls as [|l ls IH]; intros c Hg He Hs; [reflexivity|].
  inversion Hg as [|? ? [Hl Hcnt] Hg']; subst. cbn [concat map encode_lines] in *.
  apply Forall_app in He. destruct He as [He1 He2].
  apply steps_fit_app in Hs. destruct Hs as [Hs1 Hs2].
  destruct l as [|p tl]; [cbn in Hl; lia|].
  assert (Hn : tl <> []) by (intros ->; cbn in Hl; lia).
  rewrite encode_line_fpt by assumption. cbn [bind]. rewrite last_cons in Hs2.
  rewrite IH by assumption. cbn [bind wire_lines]. rewrite line_ints_wire by assumption.
  rewrite last_app_cons, !last_cons. reflexivity.
Qed.

Lemma encode_mls_wire ls : Forall good_line ls -> fits (concat ls) ->
  encode_geometry (GMultiLineString (map (map fpt) ls)) = Ok (wire_lines (0, 0) ls, Tile_LINESTRING).
Proof. intros Hg [Hs He]. cbn [encode_geometry]. now rewrite encode_lines_wire. Qed.

Lemma encode_ls_wire l : good_line l -> fits l ->
  encode_geometry (GLineString (map fpt l)) = Ok (wire_line (0, 0) l, Tile_LINESTRING).
Proof.
  intros [Hl Hc] [Hs He]. cbn [encode_geometry]. destruct l as [|p tl]; [cbn in Hl; lia|].
  assert (Hn : tl <> []) by (intros ->; cbn in Hl; lia).
  rewrite encode_line_fpt by assumption. cbn [bind]. now rewrite line_ints_wire.
Qed.

Lemma ring_ints_wire c r : r <> [] -> steps_fit c r -> countable r ->
  ring_ints c r = wire_line c r ++ [wire_command 7 1].
Proof.
  intros Hn Hs Hc. destruct r as [|p tl]; [contradiction|].
  rewrite <- line_ints_wire by assumption. unfold ring_ints, line_ints.
  change (wire_command 7 1) with (new_command cmdClosePath 1). cbn [app]. rewrite <- app_assoc. reflexivity.
Qed.

Lemma rings_ints_wire rs : forall c, Forall (fun r => ok_ring r /\ has_area r = true) rs -> steps_fit c (concat rs) ->
  rings_ints c rs = wire_rings c rs.
Proof.
  induction rs as [|r rs IH]; intros c Hok Hs; [reflexivity|].
  inversion Hok as [|? ? [(He & Hsm & Hc) Ha] Hok']; subst. cbn [concat rings_ints wire_rings] in *.
  apply steps_fit_app in Hs. destruct Hs as [Hs1 Hs2].
  rewrite ring_ints_wire; auto.
  - rewrite <- app_assoc, IH by assumption. reflexivity.
  - intros ->. apply has_area_length in Ha. cbn in Ha. lia.
Qed.

Lemma tile_polygons_ok pls : Forall ok_polygon pls ->
  Forall (fun r => ok_ring r /\ has_area r = true) (concat (map tile_polygon pls)).
Proof.
  intros H. apply Forall_concat, Forall_map. eapply Forall_impl; [|exact H].
  intros rs Hr. destruct (tile_polygon_good rs Hr) as (o & inner & -> & Ho & Ha & _ & Hin).
  constructor; [now split|]. eapply Forall_impl; [|exact Hin]. intros r (? & ? & _). now split.
Qed.

Lemma encode_mpoly_wire pls : Forall ok_polygon pls ->
  steps_fit (0, 0) (concat (concat (map tile_polygon pls))) ->
  encode_geometry (GMultiPolygon (map (map (map fpt)) pls)) =
  Ok (wire_rings (0, 0) (concat (map tile_polygon pls)), Tile_POLYGON).
Proof.
  intros Hok Hs. cbn [encode_geometry]. rewrite encode_polygons_ints by exact Hok. cbn [snd].
  rewrite rings_ints_wire; auto using tile_polygons_ok.
Qed.

Lemma encode_poly_wire rs : ok_polygon rs -> steps_fit (0, 0) (concat (tile_polygon rs)) ->
  encode_geometry (GPolygon (map (map fpt) rs)) = Ok (wire_rings (0, 0) (tile_polygon rs), Tile_POLYGON).
Proof.
  intros Hok Hs. cbn [encode_geometry]. rewrite encode_polygon_ints by exact Hok. cbn [snd].
  rewrite rings_ints_wire; auto.
  pose proof (tile_polygons_ok [rs]) as H. cbn [map concat] in H. rewrite app_nil_r in H. apply H. now constructor.
Qed.

(** ** Panics and fuel *)

Lemma cmd_id_mod c : cmd_id c = c mod 8.
Proof. unfold cmd_id. change 7 with (Z.ones 3). now rewrite Z.land_ones by lia. Qed.
Lemma cmd_count_div c : cmd_count c = c / 8.
Proof. unfold cmd_count. now rewrite Z.shiftr_div_pow2 by lia. Qed.

Lemma dec_n_ok n c buf b : (2 * n <= length buf)%nat ->
  exists c' ps, dec_n_points n c buf b = Ok (c', ps, skipn (2 * n) buf).
Proof.
  intros H. unfold dec_n_points. destruct (dec_loop_ok n c buf H) as (c' & ps & E & _). rewrite E. cbn [bind]. eauto.
Qed.

Lemma Forall_skipn {A} (P : A -> Prop) n l : Forall P l -> Forall P (skipn n l).
Proof. revert l. induction n; intros l H; [exact H|]. destruct H; cbn; auto. Qed.

Lemma dangling_cons u buf : dangling_move buf -> dangling_move (u :: buf).
Proof. intros (pre & tail & -> & H). exists (u :: pre), tail. split; [reflexivity | exact H]. Qed.
Lemma dangling_skipn n buf : dangling_move (skipn n buf) -> dangling_move buf.
Proof.
  revert buf. induction n; intros buf H; [exact H|].
  destruct buf as [|u buf]; [exact H|]. apply dangling_cons, IHn, H.
Qed.
Lemma dangling_here m buf : uint32 m -> cmd_id m = cmdMoveTo -> cmd_count m * 2 <= zlen buf ->
  (length buf < 2)%nat -> dangling_move (m :: buf).
Proof.
  unfold uint32, zlen, cmdMoveTo. rewrite cmd_id_mod, cmd_count_div. intros Hm Hi Hc Hl.
  exists [], buf. split; [|exact Hl]. cbn [app]. f_equal. lia.
Qed.

Lemma ls_loop_outcomes fuel : forall lst c ret buf, Forall uint32 buf -> (length buf < fuel)%nat ->
  match ls_loop fuel lst c ret buf with
  | Err EFuel => False
  | Err _ => True
  | Panic => dangling_move buf
  | Ok out => exists more, out = ret ++ more /\
      (more = [] -> buf = [] \/ exists m x y, buf = [m; x; y] /\ m mod 8 = 1)
  end.
Proof.
  induction fuel as [|fuel IH]; intros lst c ret buf Hu Hf; [lia|].
  destruct buf as [|cmd buf]; cbn [ls_loop].
  - exists []. split; [now rewrite app_nil_r | auto].
  - inversion Hu as [|? ? Hc Hu']; subst.
    destruct (Z.ltb_spec (zlen buf) (cmd_count cmd * 2)) as [L|L]; [exact I|].
    destruct (Z.eqb_spec (cmd_id cmd) cmdMoveTo) as [E|E].
    + destruct (negb (lst =? 0) && negb (cmd_id lst =? cmdLineTo)); [exact I|].
      destruct buf as [|x [|y tl]].
      * apply dangling_here; auto.
      * apply dangling_here; auto.
      * inversion Hu' as [|? ? Hx Hu2]; subst. inversion Hu2 as [|? ? Hy Hu3]; subst. cbn [length] in Hf.
        specialize (IH cmd (dec_point c x y) ret tl Hu3 ltac:(lia)).
        pose proof E as E'. rewrite cmd_id_mod in E'.
        destruct (ls_loop fuel cmd (dec_point c x y) ret tl) as [out|e|] eqn:R.
        -- destruct IH as (more & -> & Hm). exists more. split; [reflexivity|]. intros Hz.
           destruct (Hm Hz) as [->|(m & x' & y' & -> & Hm')].
           ++ right. exists cmd, x, y. auto.
           ++ (* a MoveTo after a MoveTo is refused *)
              exfalso. destruct fuel as [|fuel]; [cbn in R; discriminate|]. cbn [ls_loop] in R.
              rewrite (cmd_id_mod m), Hm' in R. change (1 =? cmdMoveTo) with true in R. cbv iota in R.
              destruct (zlen [x'; y'] <? cmd_count m * 2); [discriminate|].
              replace (negb (cmd =? 0) && negb (cmd_id cmd =? cmdLineTo)) with true in R; [discriminate|].
              rewrite E. destruct (Z.eqb_spec cmd 0); [subst; cbn in E; discriminate | reflexivity].
        -- exact IH.
        -- now apply dangling_cons, dangling_cons, dangling_cons.
    + destruct (Z.eqb_spec (cmd_id cmd) cmdLineTo) as [E2|E2]; [|exact I].
      destruct (negb (cmd_id lst =? cmdMoveTo)); [exact I|].
      destruct (Z.leb_spec (cmd_count cmd) 0); [exact I|].
      unfold zlen in L.
      destruct (dec_n_ok (Z.to_nat (cmd_count cmd)) c buf true ltac:(lia)) as (c' & ps & ->). cbn [bind].
      set (rest := skipn (2 * Z.to_nat (cmd_count cmd)) buf).
      assert (Hr : Forall uint32 rest) by now apply Forall_skipn.
      assert (Hl : (length rest < fuel)%nat) by (unfold rest; rewrite skipn_length; cbn in Hf; lia).
      specialize (IH cmd c' (ret ++ [ps]) rest Hr Hl).
      destruct (ls_loop fuel cmd c' (ret ++ [ps]) rest) as [out|e|].
      * destruct IH as (more & -> & _). exists (ps :: more). split; [now rewrite <- app_assoc | discriminate].
      * exact IH.
      * apply dangling_cons. now apply dangling_skipn in IH.
Qed.

Lemma append_to_last_nonempty ret ln : append_to_last ret ln <> [].
Proof. unfold append_to_last. intros H. now apply app_eq_nil in H. Qed.

Lemma poly_loop_outcomes fuel : forall lst c ret buf, Forall uint32 buf -> (length buf < fuel)%nat ->
  match poly_loop fuel lst c ret buf with
  | Err EFuel => False
  | Err _ => True
  | Panic => dangling_move buf
  | Ok out => out = [] -> cmd_id lst <> cmdLineTo -> idle buf
  end /\
  (ret <> [] -> poly_loop fuel lst c ret buf <> Ok []).
Proof.
  induction fuel as [|fuel IH]; intros lst c ret buf Hu Hf; [lia|].
  destruct buf as [|cmd buf]; cbn [poly_loop].
  - split; [intros; constructor | congruence].
  - inversion Hu as [|? ? Hc Hu']; subst.
    destruct (negb (cmd_id cmd =? cmdClosePath) && (zlen buf <? cmd_count cmd * 2)) eqn:L; [split; [exact I | discriminate]|].
    destruct (Z.eqb_spec (cmd_id cmd) cmdMoveTo) as [E|E].
    + rewrite E in L. change (cmdMoveTo =? cmdClosePath) with false in L. cbn [negb andb] in L.
      destruct (negb (lst =? 0) && negb (cmd_id lst =? cmdClosePath)); [split; [exact I | discriminate]|].
      destruct buf as [|x [|y tl]].
      * split; [apply dangling_here; auto; lia | discriminate].
      * split; [apply dangling_here; auto; lia | discriminate].
      * inversion Hu' as [|? ? Hx Hu2]; subst. inversion Hu2 as [|? ? Hy Hu3]; subst. cbn [length] in Hf.
        destruct (IH cmd (dec_point c x y) ret tl Hu3 ltac:(lia)) as [IH1 IH2]. split; [|exact IH2].
        destruct (poly_loop fuel cmd (dec_point c x y) ret tl) as [out|e|].
        -- intros Ho _. constructor; [now rewrite <- cmd_id_mod|]. apply IH1; [exact Ho|]. rewrite E. discriminate.
        -- exact IH1.
        -- now apply dangling_cons, dangling_cons, dangling_cons.
    + destruct (Z.eqb_spec (cmd_id cmd) cmdLineTo) as [E2|E2].
      * rewrite E2 in L. change (cmdLineTo =? cmdClosePath) with false in L. cbn [negb andb] in L.
        destruct (negb (cmd_id lst =? cmdMoveTo)); [split; [exact I | discriminate]|].
        destruct (Z.leb_spec (cmd_count cmd) 1); [split; [exact I | discriminate]|].
        unfold zlen in L. apply Z.ltb_ge in L.
        destruct (dec_n_ok (Z.to_nat (cmd_count cmd)) c buf true ltac:(lia)) as (c' & ps & ->). cbn [bind].
        set (rest := skipn (2 * Z.to_nat (cmd_count cmd)) buf).
        assert (Hr : Forall uint32 rest) by now apply Forall_skipn.
        assert (Hl : (length rest < fuel)%nat) by (unfold rest; rewrite skipn_length; cbn in Hf; lia).
        assert (K : forall ret', ret' <> [] ->
          match poly_loop fuel cmd c' ret' rest with
          | Err EFuel => False
          | Err _ => True
          | Panic => dangling_move (cmd :: buf)
          | Ok out => out = [] -> cmd_id lst <> cmdLineTo -> idle (cmd :: buf)
          end /\ (ret <> [] -> poly_loop fuel cmd c' ret' rest <> Ok [])).
        { intros ret' Hn. destruct (IH cmd c' ret' rest Hr Hl) as [IH1 IH2]. specialize (IH2 Hn).
          split; [|auto]. destruct (poly_loop fuel cmd c' ret' rest) as [out|e|].
          - intros -> _. now destruct IH2.
          - exact IH1.
          - apply dangling_cons. now apply dangling_skipn in IH1. }
        destruct (orientation true ps =? wClockwise).
        -- apply K, append_to_last_nonempty.
        -- destruct ret as [|r0 ret]; [split; [exact I | discriminate]|]. apply K, append_to_last_nonempty.
      * destruct (Z.eqb_spec (cmd_id cmd) cmdClosePath) as [E3|E3].
        -- destruct (Z.eqb_spec (cmd_id lst) cmdLineTo) as [E4|E4]; cbn [negb]; [|split; [exact I | discriminate]].
           destruct (IH cmd c ret buf Hu' ltac:(cbn in Hf; lia)) as [IH1 IH2]. split; [|exact IH2].
           destruct (poly_loop fuel cmd c ret buf) as [out|e|]; [| exact IH1 | now apply dangling_cons].
           intros _ H. contradiction.
        -- destruct (IH cmd c ret buf Hu' ltac:(cbn in Hf; lia)) as [IH1 IH2]. split; [|exact IH2].
           destruct (poly_loop fuel cmd c ret buf) as [out|e|]; [| exact IH1 | now apply dangling_cons].
           intros Ho _. rewrite cmd_id_mod in *. apply idle_other; auto.
Qed.

Theorem decode_no_fuel t buf : Forall uint32 buf -> decode_geometry t buf <> Err EFuel.
Proof.
  intros Hu. destruct t; cbn [decode_geometry]; try discriminate.
  - unfold decode_point. destruct buf as [|cmd buf]; [discriminate|].
    destruct (zlen buf <? cmd_count cmd * 2); [discriminate|].
    destruct (cmd_id cmd =? cmdMoveTo); [|discriminate].
    assert (D : forall n c b e, dec_loop n c b <> Err e).
    { induction n as [|n IHn]; intros c b e; cbn [dec_loop]; [discriminate|].
      destruct b as [|x [|y tl]]; try discriminate. specialize (IHn (dec_point c x y) tl e).
      destruct (dec_loop n (dec_point c x y) tl) as [[[? ?] ?]| |]; cbn [bind]; congruence. }
    unfold dec_n_points. specialize (D (Z.to_nat (cmd_count cmd)) (f64_zero, f64_zero) buf).
    destruct (dec_loop _ _ _) as [[[? ps] rest]|e|]; cbn [bind]; [| now destruct (D e) | discriminate].
    destruct rest; [|discriminate]. destruct ps as [|? [|? ?]]; discriminate.
  - unfold decode_linestring. pose proof (ls_loop_outcomes (S (length buf)) 0 (f64_zero, f64_zero) [] buf Hu ltac:(lia)) as H.
    destruct (ls_loop _ _ _ _ _) as [[|? [|? ?]]|e|]; cbn [bind]; try discriminate. destruct e; try discriminate. contradiction.
  - unfold decode_poly. destruct (poly_loop_outcomes (S (length buf)) 0 (f64_zero, f64_zero) [] buf Hu ltac:(lia)) as [H _].
    destruct (poly_loop _ _ _ _ _) as [[|? [|? ?]]|e|]; cbn [bind]; try discriminate. destruct e; try discriminate. contradiction.
Qed.

Theorem decode_panic_cases t buf : Forall uint32 buf -> decode_geometry t buf = Panic ->
  match t with
  | Tile_UNKNOWN => True
  | Tile_POINT => False
  | Tile_LINESTRING => dangling_move buf \/ buf = [] \/ exists m x y, buf = [m; x; y] /\ m mod 8 = 1
  | Tile_POLYGON => dangling_move buf \/ idle buf
  end.
Proof.
  intros Hu. destruct t; cbn [decode_geometry]; auto.
  - intros H. now apply decode_point_total in H.
  - unfold decode_linestring. pose proof (ls_loop_outcomes (S (length buf)) 0 (f64_zero, f64_zero) [] buf Hu ltac:(lia)) as H.
    destruct (ls_loop _ _ _ _ _) as [out|e|]; cbn [bind]; try discriminate; [|auto].
    destruct H as (more & -> & Hm). destruct more as [|? [|? ?]]; try discriminate. intros _. right. now apply Hm.
  - unfold decode_poly. destruct (poly_loop_outcomes (S (length buf)) 0 (f64_zero, f64_zero) [] buf Hu ltac:(lia)) as [H _].
    destruct (poly_loop _ _ _ _ _) as [out|e|]; cbn [bind]; try discriminate; [|auto].
    destruct out as [|? [|? ?]]; try discriminate. intros _. right. apply H; [reflexivity|]. discriminate.
Qed.

(** ** Errors and panics of the encoder *)

Lemma encode_line_panic c l : encode_line c l = Panic <-> l = [].
Proof.
  destruct l; cbn [encode_line]; [tauto|]. destruct (move_to c [p]), (line_to c0 l). split; discriminate.
Qed.
Lemma encode_line_err c l e : encode_line c l <> Err e.
Proof. destruct l; cbn [encode_line]; [discriminate|]. destruct (move_to c [p]), (line_to c0 l). discriminate. Qed.
Lemma encode_lines_panic ls : forall c, encode_lines c ls = Panic <-> In [] ls.
Proof.
  induction ls as [|l ls IH]; intros c; cbn [encode_lines In]; [split; [discriminate | tauto]|].
  pose proof (encode_line_panic c l) as Hp. pose proof (encode_line_err c l) as He.
  destruct (encode_line c l) as [[c1 g1]|e|] eqn:E; cbn [bind].
  - specialize (IH c1). assert (l <> []) by (intros ->; destruct Hp as [_ Hp]; specialize (Hp eq_refl); discriminate).
    destruct (encode_lines c1 ls) as [[? ?]|?|]; cbn [bind]; rewrite <- IH; split; intros; try discriminate; auto;
      destruct H0; auto; try congruence; discriminate.
  - now destruct (He e).
  - split; [|auto]. intros _. left. now apply Hp.
Qed.
Lemma encode_lines_err ls : forall c e, encode_lines c ls <> Err e.
Proof.
  induction ls as [|l ls IH]; intros c e; cbn [encode_lines]; [discriminate|].
  pose proof (encode_line_err c l) as He. destruct (encode_line c l) as [[c1 g1]|e'|]; cbn [bind]; [| now destruct (He e') | discriminate].
  specialize (IH c1 e). destruct (encode_lines c1 ls) as [[? ?]|?|]; cbn [bind]; congruence.
Qed.

Theorem encode_panic_iff g : encode_geometry g = Panic <-> empty_line g.
Proof.
  destruct g; cbn [encode_geometry empty_line]; try (split; [discriminate | tauto]).
  - pose proof (encode_line_panic (0, 0) ps). destruct (encode_line (0, 0) ps) as [[? ?]|?|]; cbn [bind]; rewrite <- H; split; auto; discriminate.
  - pose proof (encode_lines_panic ls (0, 0)). destruct (encode_lines (0, 0) ls) as [[? ?]|?|]; cbn [bind]; rewrite <- H; split; auto; discriminate.
Qed.

Theorem encode_error_iff g : (exists e, encode_geometry g = Err e) <->
  match g with GCollection _ | GUnknown => True | _ => False end.
Proof.
  destruct g; cbn [encode_geometry]; try (split; [intros [e H]; discriminate | tauto]).
  - pose proof (encode_line_err (0, 0) ps). destruct (encode_line (0, 0) ps) as [[? ?]|e|]; cbn [bind]; split; try tauto;
      intros [e' He]; try discriminate. now destruct (H e).
  - pose proof (encode_lines_err ls (0, 0)). destruct (encode_lines (0, 0) ls) as [[? ?]|e|]; cbn [bind]; split; try tauto;
      intros [e' He]; try discriminate. now destruct (H e).
  - split; eauto.
  - split; eauto.
Qed.

(** ** Features of a collection *)
Lemma new_features_collection {C} (gs : list (geom C)) :
  new_features (GCollection gs) = flat_map new_features gs.
Proof. induction gs as [|g gs IH]; [reflexivity|]. cbn [flat_map]. rewrite <- IH. reflexivity. Qed.
Lemma new_features_flat {C} (g : geom C) :
  Forall (fun h => match h with GCollection _ | GUnknown => False | _ => True end) (new_features g).
Proof.
  induction g as [| | | | | |gs IH|] using geom_ind'; try (constructor; [exact I | constructor]); [|constructor].
  rewrite new_features_collection. apply Forall_flat_map. exact IH.
Qed.

Lemma new_features_members {C} (h g : geom C) : In h (new_features g) <-> simple_member h g.
Proof.
  split.
  - induction g as [| | | | | |gs IH|] using geom_ind';
      try (cbn; intros [<-|[]]; now constructor); [|contradiction].
    rewrite new_features_collection. intros H. apply in_flat_map in H. destruct H as (x & Hx & Hh).
    econstructor; [exact Hx|]. rewrite Forall_forall in IH. now apply IH.
  - induction 1 as [H|g gs Hg _ IH].
    + destruct h; cbn in *; auto; contradiction.
    + rewrite new_features_collection. apply in_flat_map. eauto.
Qed.
Lemma new_features_encodable g e : Forall (fun h => encode_geometry h <> Err e) (new_features g).
Proof.
  eapply Forall_impl; [|apply new_features_flat]. intros h Hh E.
  assert (X : exists e, encode_geometry h = Err e) by eauto. apply encode_error_iff in X. now destruct h.
Qed.

Lemma decode_multipoint_enc ps : countable ps -> fits ps -> ps <> [] ->
  exists b, encode_geometry (GMultiPoint (map fpt ps)) = Ok (b, Tile_POINT) /\
    decode_geometry Tile_POINT b = Ok (Some (fgeom (single_mp ps))).
Proof. intros. eexists. split; [reflexivity|]. now apply decode_point_enc. Qed.
Lemma decode_one_point_enc p : fits [p] ->
  exists b, encode_geometry (GPoint (fpt p)) = Ok (b, Tile_POINT) /\
    decode_geometry Tile_POINT b = Ok (Some (GPoint (fpt p))).
Proof. intros H. eexists. split; [reflexivity|]. apply (decode_point_enc [p]); [reflexivity | exact H | discriminate]. Qed.

Definition ints (r : res mvt_err (list Z * gtype)) : list Z := match r with Ok (b, _) => b | _ => [] end.
Lemma flat_outer_ring :
  (exists rs b, rs <> [] /\ encode_geometry (GPolygon rs) = Ok (b, Tile_POLYGON) /\
     decode_geometry Tile_POLYGON b = Err ENotExterior) /\
  (exists sq hole flat b,
     encode_geometry (GMultiPolygon [[sq]; [flat; hole]]) = Ok (b, Tile_POLYGON) /\
     decode_geometry Tile_POLYGON b = Ok (Some (GPolygon [sq; hole]))).
Proof.
  pose (sq a b := map fpt [(a, a); (b, a); (b, b); (a, b)]).
  pose (flat := map fpt [(0, 0); (5, 5); (9, 9)]).
  split.
  - exists [flat; rev (sq 2 4)], (ints (encode_geometry (GPolygon [flat; rev (sq 2 4)]))).
    split; [discriminate|]. split; vm_compute; reflexivity.
  - exists (sq 0 10), (rev (sq 2 4)), flat, (ints (encode_geometry (GMultiPolygon [[sq 0 10]; [flat; rev (sq 2 4)]]))).
    split; vm_compute; reflexivity.
Qed.
Lemma encode_panics : exists g, encode_geometry g = Panic.
Proof. now exists (GLineString []). Qed.
Lemma decode_panics :
  decode_geometry Tile_UNKNOWN [] = Panic /\
  decode_geometry Tile_LINESTRING [] = Panic /\
  decode_geometry Tile_LINESTRING [9; 2; 2] = Panic /\
  decode_geometry Tile_LINESTRING [1] = Panic /\
  decode_geometry Tile_POLYGON [] = Panic /\
  decode_geometry Tile_POLYGON [9; 2; 2] = Panic /\
  decode_geometry Tile_POLYGON [1; 7] = Panic.
Proof. repeat split; vm_compute; reflexivity. Qed.
