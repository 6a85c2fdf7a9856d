(** Proofs about encoding/mvt/prepare.go: whole geometries, and what goes wrong *)
From Coq Require Import ZArith Bool List Lia Reals Lra.
From Flocq Require Import Core.Core.
From Verif Require Import Base_Res Base_F64 Base_F64Arith Base_Geom P_F64 P_F64Flocq P_F64Round P_F64Grid M_Extent M_Cmp M_Winding M_Triangle M_Walker M_MvtPrepare
  M_Mvt S_Mvt S_Winding S_MvtPrepare P_MvtPrepare P_MvtPrepare2 P_Ring P_MvtPrepare3 P_MvtPrepare4.
Import ListNotations.
Local Open Scope Z_scope.

Lemma prepare_lines_spec tile pixels ls :
  prepare_lines tile pixels ls = filter (fun l => (0 <? length l)%nat) (map (prepare_line tile pixels) ls) /\
  Forall (fun l => (2 <= length l)%nat) (prepare_lines tile pixels ls).
Proof.
  split; [reflexivity|]. unfold prepare_lines. apply Forall_forall. intros l H. apply filter_In in H as [H L].
  apply in_map_iff in H as (k & <- & _). apply prepare_line_thinned. intros E. rewrite E in L. discriminate.
Qed.
(** The lines of a multi-line, one by one, without those that vanish. *)
Lemma multiline_spec tile pixels ls : exists out, prepare_geo (GMultiLineString ls) tile pixels = Ok (Some (GMultiLineString out)) /\
  Forall (fun l => (2 <= length l)%nat) out /\
  forall o, In o out <-> o <> [] /\ exists l, In l ls /\ prepare_geo (GLineString l) tile pixels = Ok (Some (GLineString o)).
Proof.
  exists (prepare_lines tile pixels ls). split; [reflexivity|]. split; [apply prepare_lines_spec|].
  intros o. unfold prepare_lines. rewrite filter_In, in_map_iff. cbn [prepare_geo]. split.
  - intros [(l & <- & I) L]. split; [intros E; rewrite E in L; discriminate|]. exists l. auto.
  - intros [N (l & I & [= <-])]. split; [exists l; auto|]. destruct (prepare_line tile pixels l); [congruence|reflexivity].
Qed.

Lemma polygons_panic tile pixels pls : prepare_polygons tile pixels pls = Panic <-> exists p, In p pls /\ prepare_polygon tile pixels p = Panic.
Proof.
  induction pls as [|p pls IH]; cbn [prepare_polygons]; [split; [discriminate|intros (p & [] & _)]|].
  destruct (prepare_polygon tile pixels p) as [np|e|] eqn:E; cbn [bind].
  - destruct (prepare_polygons tile pixels pls) as [r|e|] eqn:Q; cbn [bind].
    + split; [discriminate|]. intros (q & [<- |I] & H); [congruence|]. destruct IH as [_ IH]. discriminate IH. eauto.
    + split; [discriminate|]. intros (q & [<- |I] & H); [congruence|]. destruct IH as [_ IH]. discriminate IH. eauto.
    + split; [|reflexivity]. intros _. destruct (proj1 IH eq_refl) as (q & I & H). exists q. cbn; auto.
  - destruct e. unfold prepare_polygon in E. destruct p as [|r0 rs0]; [discriminate|].
    destruct (prepare_rings_spec tile pixels (r0 :: rs0)) as [[Q _]|(o & Q & _)]; rewrite Q in E; discriminate.
  - split; [|reflexivity]. intros _. exists p. cbn; auto.
Qed.
Lemma polygons_ok tile pixels pls out : prepare_polygons tile pixels pls = Ok out ->
  exists nps, Forall2 (fun p np => prepare_polygon tile pixels p = Ok np) pls nps /\ out = filter (fun p => (0 <? length p)%nat) nps.
Proof.
  revert out. induction pls as [|p pls IH]; intros out; cbn [prepare_polygons].
  - intros [= <-]. exists []. split; [constructor|reflexivity].
  - destruct (prepare_polygon tile pixels p) as [np|e|] eqn:E; cbn [bind]; try discriminate.
    destruct (prepare_polygons tile pixels pls) as [r|e|]; cbn [bind]; try discriminate.
    intros [= <-]. destruct (IH r eq_refl) as (nps & F & ->). exists (np :: nps). split; [now constructor|].
    cbn [filter]. now destruct (0 <? length np)%nat.
Qed.

(** A square of the tile, with a hole or an outer ring that shrinks to a point. *)
Definition tile16 : option extent := Some (int_tile 4 0 16).
Definition square : list (Z * Z) := [(2, 2); (14, 2); (14, 14); (2, 14)].
Definition dot : list pt := [fpt (8, 8); (f64_ofZ 8 + 1, f64_ofZ 8); fpt (8, 8)].
Lemma collapsing_hole : prepare_geo (GPolygon [map fpt square; dot]) tile16 (f64_ofZ 4096) = Panic.
Proof. vm_compute. reflexivity. Qed.
Lemma collapsing_outer : prepare_geo (GPolygon [dot]) tile16 (f64_ofZ 4096) = Panic /\ prepare_geo (GMultiPolygon [[map fpt square]; [dot]]) tile16 (f64_ofZ 4096) = Panic.
Proof. vm_compute. auto. Qed.
Lemma short_outer : exists out, prepare_geo (GPolygon [[fpt (8, 8)]; map fpt square]) tile16 (f64_ofZ 16) = Ok (Some (GPolygon out)) /\
  prepare_geo (GPolygon [map fpt square]) tile16 (f64_ofZ 16) = Ok (Some (GPolygon out)).
Proof. eexists. split; vm_compute; reflexivity. Qed.
Lemma collapsing_line : prepare_geo (GLineString dot) tile16 (f64_ofZ 4096) = Ok (Some (GLineString [])) /\
  encode_geometry (GLineString []) = Panic.
Proof. vm_compute. auto. Qed.
Definition flat : extent := Ext (f64_ofZ 3) (f64_ofZ 0) (f64_ofZ 3) (f64_ofZ 8).
Lemma flat_nan : f64_isnan (fst (prepare_pt (Some flat) (f64_ofZ 4096) (fpt (3, 4)))) = true.
Proof. vm_compute. reflexivity. Qed.
Lemma flat_tile : exists p, prepare_geo (GPoint (fpt (3, 4))) (Some flat) (f64_ofZ 4096) = Ok (Some (GPoint p)) /\ f64_isnan (fst p) = true.
Proof. exists (prepare_pt (Some flat) (f64_ofZ 4096) (fpt (3, 4))). split; [exact eq_refl|exact flat_nan]. Qed.

(** ** The statements of T_MvtPrepare.v *)
Lemma point_near : forall e p q, plain_tile e -> far_apart (e2 e) (e0 e) -> far_apart (e3 e) (e1 e) -> plain_pixels p ->
  plain (fst q) -> plain (snd q) ->
  f64_R (fst q) = f64_R (e0 e) \/ far_apart (fst q) (e0 e) ->
  f64_R (snd q) = f64_R (e3 e) \/ far_apart (snd q) (e3 e) ->
  exists r, prepare_geo (GPoint q) (Some e) p = Ok (Some (GPoint r)) /\
    let x := pixel (f64_R (e0 e)) (f64_R (e2 e)) (f64_R p) (f64_R (fst q)) in
    let y := pixel (f64_R (e3 e)) (f64_R (e1 e)) (f64_R p) (f64_R (snd q)) in
    f64_finite (fst r) = true /\ f64_finite (snd r) = true /\
    (Rabs (f64_R (fst r) - x) <= bpow radix2 (-50) * Rabs x)%R /\ (Rabs (f64_R (snd r) - y) <= bpow radix2 (-50) * Rabs y)%R.
Proof. intros e p q A B C D E F G H. exists (prepare_pt (Some e) p q). split; [exact eq_refl|]. exact (pixels_near e p q A B C D E F G H). Qed.
Lemma points_spec : forall tile pixels,
  (forall p, prepare_geo (GPoint p) tile pixels = Ok (Some (GPoint (prepare_pt tile pixels p)))) /\
  (forall p ps, prepare_geo (GMultiPoint (p :: ps)) tile pixels = Ok (Some (GMultiPoint (map (prepare_pt tile pixels) (p :: ps))))) /\
  prepare_geo (GMultiPoint []) tile pixels = Ok None /\
  (forall gs, prepare_geo (GCollection gs) tile pixels = Ok None) /\ prepare_geo GUnknown tile pixels = Ok None.
Proof. repeat split. Qed.
Lemma line_vanishes : forall tile pixels l,
  prepare_geo (GLineString l) tile pixels = Ok (Some (GLineString [])) <->
  (length l < 2)%nat \/ one_place (point_equal hi_cmp) (map (prepare_pt tile pixels) l).
Proof.
  intros tile pixels l. rewrite <- prepare_line_empty. cbn [prepare_geo]. split; [intros H; now injection H|intros H; now rewrite H].
Qed.
Lemma line_thinned : forall tile pixels l, exists out, prepare_geo (GLineString l) tile pixels = Ok (Some (GLineString out)) /\
  (out <> [] -> (2 <= length out)%nat /\ thinned (point_equal hi_cmp) (map (prepare_pt tile pixels) l) out /\ steps (point_equal hi_cmp) out).
Proof. intros tile pixels l. exists (prepare_line tile pixels l). split; [exact eq_refl|]. exact (prepare_line_thinned tile pixels l). Qed.
Lemma polygon_rings : forall tile pixels rs out, prepare_geo (GPolygon rs) tile pixels = Ok (Some (GPolygon out)) ->
  exists rings, Forall2 (prepared_ring (point_equal hi_cmp) (prepare_pt tile pixels)) (filter (fun r => (2 <=? length r)%nat) rs) rings /\
    match rings with
    | [] => out = []
    | outer :: inner =>
        (orientation false outer = wColinear /\ out = []) \/
        (orientation false outer <> wColinear /\
         same_or_reversed (outer :: filter (fun r => negb (orientation false r =? wColinear)) inner) out)
    end.
Proof.
  intros tile pixels rs out H. apply prepare_polygon_ok. cbn [prepare_geo] in H.
  destruct (prepare_polygon tile pixels rs); cbn in H; congruence.
Qed.
Lemma polygons_spec : forall tile pixels pls,
  (prepare_polygons tile pixels pls = Panic <-> exists p, In p pls /\ prepare_polygon tile pixels p = Panic) /\
  (forall out, prepare_polygons tile pixels pls = Ok out ->
     exists nps, Forall2 (fun p np => prepare_polygon tile pixels p = Ok np) pls nps /\ out = filter (fun p => (0 <? length p)%nat) nps).
Proof. intros tile pixels pls. split; [exact (polygons_panic tile pixels pls)|exact (polygons_ok tile pixels pls)]. Qed.

Lemma ofZ_R n : Z.abs n <= 2 ^ 53 -> (f64_wf (f64_ofZ n) = true /\ f64_finite (f64_ofZ n) = true) /\ f64_R (f64_ofZ n) = IZR n.
Proof. intros H. destruct (repr_int _ _ (repr_ofZ n H)) as (A & B & C). auto. Qed.
Lemma example_tile : let e := int_tile 4 0 16 in
  finite_tile e /\ real_spans e /\ plain_tile e /\ far_apart (e2 e) (e0 e) /\ far_apart (e3 e) (e1 e) /\ plain_pixels (f64_ofZ 4096) /\
  finite_pt (fpt (3, 5)) /\ in_tile e (fpt (3, 5)) /\ plain (f64_ofZ 3) /\ far_apart (f64_ofZ 3) (e0 e).
Proof.
  cbn zeta. unfold finite_tile, real_spans, plain_tile, plain, far_apart, plain_pixels, finite_pt, in_tile. cbn [int_tile e0 e1 e2 e3 fpt fst snd].
  change (16 - 2 ^ 4) with 0. change (0 + 2 ^ 4) with 16.
  destruct (ofZ_R 0 ltac:(lia)) as [[A0 B0] ->], (ofZ_R 16 ltac:(lia)) as [[A1 B1] ->], (ofZ_R 3 ltac:(lia)) as [[A2 B2] ->],
    (ofZ_R 5 ltac:(lia)) as [[A3 B3] ->], (ofZ_R 4096 ltac:(lia)) as [[A4 B4] ->].
  assert (P : (bpow radix2 5 <= bpow radix2 400)%R) by (apply bpow_le; lia). change (bpow radix2 5) with 32%R in P.
  assert (N : (bpow radix2 (-400) <= bpow radix2 0)%R) by (apply bpow_le; lia). change (bpow radix2 0) with 1%R in N.
  assert (M : (bpow radix2 20 <= bpow radix2 64)%R) by (apply bpow_le; lia). change (bpow radix2 20) with 1048576%R in M.
  generalize dependent (bpow radix2 400). generalize dependent (bpow radix2 (-400)). generalize dependent (bpow radix2 64). intros.
  repeat split; try assumption; try (vm_compute; reflexivity); try lra.
  all: try (rewrite Rabs_pos_eq; lra).
Qed.

Lemma small_example r : Forall (fun p => 0 <= fst p <= 16 /\ 0 <= snd p <= 16) r -> (length r <= 10)%nat -> ok_ring r.
Proof.
  intros F L. split; [|split].
  - revert F. apply Forall_impl. intros p H. lia.
  - exists 80. rewrite Forall_forall in F. split.
    + intros p q Hp Hq. apply F in Hp, Hq. lia.
    + change (80 * 80) with 6400. lia.
  - unfold countable, max_count. lia.
Qed.
Lemma small_real r : Forall (fun p => 0 <= fst p <= 16 /\ 0 <= snd p <= 16) r -> (2 <= length (squeezed (map (tile_pixel 0 0 16) r)))%nat -> real_ring 0 0 16 r.
Proof.
  intros F L. split; [|exact L]. revert F. apply Forall_impl. intros p H. split; [lia|]. unfold pixel_range, tile_pixel. cbn [fst snd]. lia.
Qed.
Ltac points := repeat (constructor; [cbn [fst snd]; lia|]); constructor.
Lemma example_rings :
  let rs := [square ++ [(2, 2)]; [(4, 4); (6, 4); (6, 4); (6, 6); (4, 6); (4, 4)]; [(8, 8); (9, 9); (10, 10)]] in
  Forall (real_ring 0 0 16) rs /\ ok_polygon (map (tile_ring 0 0 16) rs) /\
  tile_polygon (map (tile_ring 0 0 16) rs) =
    [[(2, 2); (14, 2); (14, 14); (2, 14)]; [(4, 12); (6, 12); (6, 10); (4, 10)]].
Proof.
  cbn zeta. split; [|split].
  - repeat (constructor; [apply small_real; [cbn [square app]; points|vm_compute; repeat constructor]|]). constructor.
  - match goal with |- ok_polygon ?x => let y := eval vm_compute in x in change (ok_polygon y) end.
    split; [reflexivity|]. repeat (constructor; [apply small_example; [points|cbn [length]; lia]|]). constructor.
  - reflexivity.
Qed.
