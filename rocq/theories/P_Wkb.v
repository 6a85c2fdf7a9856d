(** Proofs about the WKB model. *)
From Coq Require Import ZArith Bool List Lia.
From Coq Require Import ZifyBool ZifyNat.
From Verif Require Import Base_Res Base_F64 Base_Geom Base_Bytes P_Bytes M_Wkb S_Wkb.
Import ListNotations.
Open Scope Z_scope.

Ltac inv H := inversion H; subst; clear H.

(** ** Reading what was written *)

Lemma read_full_app n b rest :
  length b = n -> (0 < n)%nat -> read_full n (b ++ rest) = Ok (b, rest).
Proof.
  intros Hb Hn. unfold read_full.
  destruct (b ++ rest) as [|z l] eqn:E.
  - destruct b; cbn in *; [lia | discriminate].
  - rewrite <- E. destruct (length (b ++ rest) <? n)%nat eqn:L.
    + rewrite app_length in L. lia.
    + rewrite firstn_app, Hb, Nat.sub_diag, firstn_all2 by lia.
      rewrite skipn_app, Hb, Nat.sub_diag, skipn_all2 by lia.
      cbn. now rewrite app_nil_r.
Qed.

Lemma read_u32_put bo v rest :
  0 <= v < 2 ^ 32 -> read_u32 bo (enc_u32 bo v ++ rest) = Ok (v, rest).
Proof.
  intros Hv. unfold read_u32, enc_u32.
  rewrite read_full_app by (rewrite ?put_uint_length; lia).
  cbn [bind]. rewrite get_put; [reflexivity|].
  replace (256 ^ Z.of_nat 4) with (2 ^ 32) by reflexivity. lia.
Qed.

Lemma f64_wf_bound w : f64_wf w = true -> 0 <= w < 256 ^ Z.of_nat 8.
Proof.
  unfold f64_wf, two64. intros H.
  replace (256 ^ Z.of_nat 8) with (2 ^ 64) by reflexivity. lia.
Qed.

Lemma enc_xy_length bo p : length (enc_xy bo p) = 16%nat.
Proof. unfold enc_xy, enc_f64. now rewrite app_length, !put_uint_length. Qed.

Lemma enc_u32_length bo v : length (enc_u32 bo v) = 4%nat.
Proof. apply put_uint_length. Qed.

Lemma enc_bom_length bo : length (enc_bom bo) = 1%nat.
Proof. now destruct bo. Qed.

Lemma read_xy_put bo p rest :
  pt_wf p = true -> read_xy bo (enc_xy bo p ++ rest) = Ok (p, rest).
Proof.
  destruct p as [x y]. unfold pt_wf; cbn [fst snd]. intros Hp.
  apply andb_true_iff in Hp as [Hx Hy].
  unfold read_xy. rewrite read_full_app by (rewrite ?enc_xy_length; lia).
  cbn [bind]. unfold enc_xy, enc_f64; cbn [fst snd].
  rewrite firstn_app, put_uint_length, firstn_all2 by (rewrite put_uint_length; lia).
  rewrite skipn_app, put_uint_length, skipn_all2 by (rewrite put_uint_length; lia).
  cbn [Nat.sub firstn skipn app]. rewrite app_nil_r.
  rewrite !get_put by now apply f64_wf_bound.
  reflexivity.
Qed.

Lemma bot_put bo t rest :
  0 <= t < 2 ^ 32 ->
  byte_order_type (enc_bom bo ++ enc_u32 bo t ++ rest) = Ok ((bo, t), rest).
Proof.
  intros Ht. destruct bo; cbn [enc_bom app byte_order_type Z.eqb]; rewrite read_u32_put by lia;
    reflexivity.
Qed.

(** ** Sequences of elements *)

Lemma len_flat_map_ge {X} (e : X -> list Z) xs :
  (forall x, In x xs -> e x <> []) -> (length xs <= length (flat_map e xs))%nat.
Proof.
  induction xs as [|x xs IH]; cbn; intros H; [lia|].
  rewrite app_length.
  assert (e x <> []) by (apply H; now left).
  assert (length xs <= length (flat_map e xs))%nat by (apply IH; intros; apply H; now right).
  destruct (e x); [congruence | cbn; lia].
Qed.

Lemma dec_many_put {A X} (d : dec A) (e : X -> list Z) (f : X -> A) xs fuel rest :
  (forall x rest', In x xs -> d (e x ++ rest') = Ok (f x, rest')) ->
  (length xs <= fuel)%nat ->
  dec_many d fuel (Z.of_nat (length xs)) (flat_map e xs ++ rest) = Ok (map f xs, rest).
Proof.
  revert fuel rest. induction xs as [|x xs IH]; intros fuel rest Hd Hf.
  - destruct fuel; reflexivity.
  - destruct fuel as [|fuel]; [cbn in Hf; lia|].
    cbn [dec_many].
    destruct (Z.of_nat (length (x :: xs)) <=? 0) eqn:E; [cbn [length] in E; lia|].
    cbn [flat_map]. rewrite <- app_assoc, Hd by now left.
    cbn [bind].
    replace (Z.of_nat (length (x :: xs)) - 1) with (Z.of_nat (length xs)) by (cbn [length]; lia).
    rewrite IH; [reflexivity | | cbn in Hf; lia].
    intros; apply Hd; now right.
Qed.

Lemma len_u32_small {A} (l : list A) :
  Z.of_nat (length l) < 2 ^ 32 -> len_u32 l = Z.of_nat (length l).
Proof. intros H. unfold len_u32, u32. apply Z.mod_small. lia. Qed.

Lemma dec_counted_put {A X} bo (d : dec A) (e : X -> list Z) (f : X -> A) xs fuel rest :
  (forall x rest', In x xs -> d (e x ++ rest') = Ok (f x, rest')) ->
  (length xs <= fuel)%nat ->
  Z.of_nat (length xs) < 2 ^ 32 ->
  dec_counted bo d fuel (enc_u32 bo (len_u32 xs) ++ flat_map e xs ++ rest)
  = Ok (map f xs, rest).
Proof.
  intros Hd Hf Hl. unfold dec_counted.
  rewrite len_u32_small by lia.
  rewrite read_u32_put by lia. cbn [bind].
  now apply dec_many_put.
Qed.

Lemma count_ok_lt {A} (l : list A) : count_ok l = true -> Z.of_nat (length l) < 2 ^ 32 - 1.
Proof. unfold count_ok. lia. Qed.

Lemma pts_ok_inv ps :
  pts_ok ps = true -> Z.of_nat (length ps) < 2 ^ 32 - 1 /\ (forall p, In p ps -> pt_wf p = true).
Proof.
  unfold pts_ok. intros H. apply andb_true_iff in H as [H1 H2].
  split; [now apply count_ok_lt | now apply forallb_forall].
Qed.

Lemma enc_xy_nonnil bo p : enc_xy bo p <> [].
Proof. intros H. pose proof (enc_xy_length bo p) as L. rewrite H in L. discriminate. Qed.

Lemma enc_bom_app_nonnil bo l : enc_bom bo ++ l <> [].
Proof. destruct bo; discriminate. Qed.

(** ** Typed elements *)

Lemma dec_linestring_put bo ps fuel rest :
  pts_ok ps = true -> (length ps <= fuel)%nat ->
  dec_linestring bo fuel (enc_u32 bo (len_u32 ps) ++ flat_map (enc_xy bo) ps ++ rest)
  = Ok (ps, rest).
Proof.
  intros Hp Hf. apply pts_ok_inv in Hp as [Hl Hw].
  unfold dec_linestring.
  rewrite (dec_counted_put bo (read_xy bo) (enc_xy bo) (fun p => p)); [now rewrite map_id | | | ].
  - intros p rest' Hin. now apply read_xy_put, Hw.
  - lia.
  - lia.
Qed.

Lemma dec_tagged_put {A} bo t (d : byte_order -> dec A) body a rest :
  0 <= t < 2 ^ 32 ->
  d bo (body ++ rest) = Ok (a, rest) ->
  dec_tagged t d ((enc_bom bo ++ enc_u32 bo t ++ body) ++ rest) = Ok (a, rest).
Proof.
  intros Ht Hd. unfold dec_tagged.
  rewrite <- !app_assoc, bot_put by lia. cbn [bind fst snd].
  now rewrite Z.eqb_refl.
Qed.

Lemma dec_multipoint_put bo ps fuel rest :
  pts_ok ps = true -> (length ps <= fuel)%nat ->
  dec_multipoint bo fuel (enc_u32 bo (len_u32 ps) ++ flat_map (enc_point bo) ps ++ rest)
  = Ok (ps, rest).
Proof.
  intros Hp Hf. apply pts_ok_inv in Hp as [Hl Hw].
  unfold dec_multipoint.
  rewrite (dec_counted_put bo (dec_tagged tPoint read_xy) (enc_point bo) (fun p => p));
    [now rewrite map_id | | lia | lia].
  intros p rest' Hin. unfold enc_point.
  apply dec_tagged_put; [unfold tPoint; lia|].
  now apply read_xy_put, Hw.
Qed.

Lemma flat_map_in_len {X} (e : X -> list Z) xs x :
  In x xs -> (length (e x) <= length (flat_map e xs))%nat.
Proof.
  induction xs as [|y ys IH]; cbn; [tauto|].
  rewrite app_length. intros [->|H]; [lia | specialize (IH H); lia].
Qed.

Lemma enc_linestring_len bo ps :
  (length ps <= length (enc_linestring bo ps))%nat.
Proof.
  unfold enc_linestring. rewrite !app_length.
  pose proof (len_flat_map_ge (enc_xy bo) ps (fun x _ => enc_xy_nonnil bo x)). lia.
Qed.

Lemma dec_multilinestring_put bo ls fuel rest :
  count_ok ls = true -> forallb pts_ok ls = true ->
  (length (flat_map (enc_linestring bo) ls) <= fuel)%nat ->
  dec_multilinestring bo fuel
    (enc_u32 bo (len_u32 ls) ++ flat_map (enc_linestring bo) ls ++ rest) = Ok (ls, rest).
Proof.
  intros Hc Hp Hf. apply count_ok_lt in Hc. rewrite forallb_forall in Hp.
  unfold dec_multilinestring.
  rewrite (dec_counted_put bo _ (enc_linestring bo) (fun p => p)); [now rewrite map_id | | | lia].
  - intros l rest' Hin. unfold enc_linestring.
    apply dec_tagged_put; [unfold tLineString; lia|].
    rewrite <- app_assoc. apply dec_linestring_put; [now apply Hp|].
    pose proof (flat_map_in_len (enc_linestring bo) ls l Hin).
    pose proof (enc_linestring_len bo l). lia.
  - pose proof (len_flat_map_ge (enc_linestring bo) ls (fun x _ => enc_bom_app_nonnil bo _)). lia.
Qed.

(** ** Rings *)

Lemma f64_eq_refl x : f64_eq x x = negb (f64_isnan x).
Proof. unfold f64_eq. rewrite Z.eqb_refl. now destruct (f64_isnan x). Qed.

Lemma pt_eqb_refl p : pt_eqb p p = negb (pt_isnan p).
Proof.
  unfold pt_eqb, pt_isnan. rewrite !f64_eq_refl.
  now destruct (f64_isnan (fst p)), (f64_isnan (snd p)).
Qed.

Lemma last_cons_same {A} (p : A) tl d : last (p :: tl) d = last tl p.
Proof.
  revert p d. induction tl as [|q tl IH]; intros p d; [reflexivity|].
  change (last (q :: tl) d = last (q :: tl) p). now rewrite !IH.
Qed.

Lemma nth_error_last {A} (p : A) tl : nth_error (p :: tl) (length tl) = Some (last tl p).
Proof.
  revert p. induction tl as [|q tl IH]; intros p; [reflexivity|].
  cbn [length nth_error]. rewrite IH. now rewrite last_cons_same.
Qed.

Lemma ring_needs_close_spec p tl :
  Z.of_nat (length (p :: tl)) < 2 ^ 32 ->
  ring_needs_close (p :: tl) = negb (pt_eqb p (last tl p)).
Proof.
  intros Hl. unfold ring_needs_close.
  rewrite len_u32_small by exact Hl.
  replace (Z.to_nat (Z.of_nat (length (p :: tl)) - 1)) with (length tl) by (cbn [length]; lia).
  rewrite nth_error_last. cbn [nth_error].
  replace (0 <? Z.of_nat (length (p :: tl))) with true by (cbn [length]; lia).
  cbn [andb]. unfold pt_eqb, f64_ne. now rewrite negb_andb.
Qed.

Lemma firstn_removelast_cons {A} (p : A) tl :
  firstn (length (p :: tl) - 1) (p :: tl) = removelast (p :: tl).
Proof. rewrite removelast_firstn_len. f_equal. cbn [length]; lia. Qed.

Lemma open_ring_cons p tl :
  open_ring (p :: tl) =
  if (1 <? length (p :: tl))%nat && pt_eqb p (last tl p) then removelast (p :: tl) else p :: tl.
Proof.
  unfold open_ring. destruct (1 <? length (p :: tl))%nat eqn:E; [|reflexivity].
  replace (length (p :: tl) - 1)%nat with (length tl) by (cbn [length]; lia).
  rewrite nth_error_last. cbn [nth_error andb]. unfold pt_eqb.
  destruct (f64_eq (fst p) (fst (last tl p)) && f64_eq (snd p) (snd (last tl p))); [|reflexivity].
  replace (length tl) with (length (p :: tl) - 1)%nat by (cbn [length]; lia).
  apply firstn_removelast_cons.
Qed.

(** The points written for a ring. *)
Definition written_ring (r : list (point f64)) : list (point f64) :=
  match r with
  | [] => []
  | p :: tl => if pt_eqb p (last tl p) then r else r ++ [p]
  end.

Lemma enc_ring_written bo r :
  count_ok r = true ->
  enc_ring bo r = enc_u32 bo (len_u32 (written_ring r)) ++ flat_map (enc_xy bo) (written_ring r).
Proof.
  intros Hc. apply count_ok_lt in Hc. unfold enc_ring.
  destruct r as [|p tl]; [reflexivity|].
  rewrite ring_needs_close_spec by lia. cbn [written_ring nth_error].
  destruct (pt_eqb p (last tl p)) eqn:E; cbn [negb].
  - now rewrite app_nil_r.
  - rewrite flat_map_app. cbn [flat_map]. rewrite app_nil_r.
    rewrite !len_u32_small by (rewrite ?app_length; cbn [length] in *; lia).
    unfold u32. rewrite Z.mod_small by (cbn [length] in *; lia).
    rewrite app_length. cbn [length].
    replace (Z.of_nat (S (length tl)) + 1) with (Z.of_nat (S (length tl) + 1)) by lia.
    reflexivity.
Qed.

Lemma last_snoc {A} (l : list A) x d : last (l ++ [x]) d = x.
Proof. apply last_last. Qed.

Lemma open_written r : open_ring (written_ring r) = norm_ring r.
Proof.
  destruct r as [|p tl]; [reflexivity|].
  unfold written_ring, norm_ring.
  destruct (pt_eqb p (last tl p)) eqn:E.
  - rewrite open_ring_cons, last_cons_same.
    destruct (pt_isnan p) eqn:N; [|reflexivity].
    exfalso. unfold pt_eqb, pt_isnan, f64_eq in *.
    destruct (f64_isnan (fst p)), (f64_isnan (snd p)); cbn in *; try discriminate.
    rewrite andb_false_r in E. discriminate.
  - change ((p :: tl) ++ [p]) with (p :: (tl ++ [p])).
    rewrite open_ring_cons, last_snoc, pt_eqb_refl, last_cons_same, E.
    replace (1 <? length (p :: tl ++ [p]))%nat with true
      by (cbn [length]; rewrite app_length; cbn [length]; lia).
    cbn [andb].
    destruct (pt_isnan p); cbn [negb]; [reflexivity|].
    rewrite andb_false_r.
    change (p :: tl ++ [p]) with ((p :: tl) ++ [p]).
    now rewrite removelast_last.
Qed.

Lemma written_ring_len r : (length (written_ring r) <= S (length r))%nat.
Proof.
  destruct r as [|p tl]; [cbn; lia|]. unfold written_ring.
  destruct (pt_eqb p (last tl p)); [lia|]. rewrite app_length. cbn [length]. lia.
Qed.

Lemma written_ring_in r p : In p (written_ring r) -> In p r.
Proof.
  destruct r as [|q tl]; [tauto|]. unfold written_ring.
  destruct (pt_eqb q (last tl q)); [tauto|].
  rewrite in_app_iff. cbn. tauto.
Qed.

Lemma dec_ring_put bo r fuel rest :
  pts_ok r = true -> (length (enc_ring bo r) <= fuel)%nat ->
  dec_ring bo fuel (enc_ring bo r ++ rest) = Ok (norm_ring r, rest).
Proof.
  intros Hp Hf.
  assert (Hc : count_ok r = true) by (unfold pts_ok in Hp; apply andb_true_iff in Hp; tauto).
  apply pts_ok_inv in Hp as [Hl Hw].
  rewrite enc_ring_written in * by assumption.
  unfold dec_ring. rewrite <- app_assoc.
  rewrite app_length, enc_u32_length in Hf.
  pose proof (len_flat_map_ge (enc_xy bo) (written_ring r) (fun x _ => enc_xy_nonnil bo x)).
  pose proof (written_ring_len r).
  rewrite (dec_counted_put bo (read_xy bo) (enc_xy bo) (fun p => p)).
  - cbn [bind]. now rewrite map_id, open_written.
  - intros p rest' Hin. apply read_xy_put, Hw. now apply written_ring_in.
  - lia.
  - lia.
Qed.

Lemma enc_ring_nonnil bo r : enc_ring bo r <> [].
Proof.
  unfold enc_ring. intros H. apply (f_equal (@length Z)) in H.
  rewrite app_length, enc_u32_length in H. cbn in H. lia.
Qed.

Lemma dec_polygon_put bo rs fuel rest :
  count_ok rs = true -> forallb pts_ok rs = true ->
  (length (flat_map (enc_ring bo) rs) <= fuel)%nat ->
  dec_polygon bo fuel (enc_u32 bo (len_u32 rs) ++ flat_map (enc_ring bo) rs ++ rest)
  = Ok (map norm_ring rs, rest).
Proof.
  intros Hc Hp Hf. apply count_ok_lt in Hc. rewrite forallb_forall in Hp.
  unfold dec_polygon. apply dec_counted_put; [ | | lia].
  - intros r rest' Hin. apply dec_ring_put; [now apply Hp|].
    pose proof (flat_map_in_len (enc_ring bo) rs r Hin). lia.
  - pose proof (len_flat_map_ge (enc_ring bo) rs (fun x _ => enc_ring_nonnil bo x)). lia.
Qed.

Lemma dec_multipolygon_put bo pls fuel rest :
  count_ok pls = true -> forallb (fun rs => count_ok rs && forallb pts_ok rs) pls = true ->
  (length (flat_map (enc_polygon bo) pls) <= fuel)%nat ->
  dec_multipolygon bo fuel (enc_u32 bo (len_u32 pls) ++ flat_map (enc_polygon bo) pls ++ rest)
  = Ok (map (map norm_ring) pls, rest).
Proof.
  intros Hc Hp Hf. apply count_ok_lt in Hc. rewrite forallb_forall in Hp.
  unfold dec_multipolygon.
  apply dec_counted_put; [ | | lia].
  - intros rs rest' Hin. unfold enc_polygon.
    apply dec_tagged_put; [unfold tPolygon; lia|].
    specialize (Hp rs Hin). apply andb_true_iff in Hp as [Hp1 Hp2].
    rewrite <- app_assoc. apply dec_polygon_put; [assumption..|].
    pose proof (flat_map_in_len (enc_polygon bo) pls rs Hin) as L.
    unfold enc_polygon in L at 1. rewrite !app_length in L. lia.
  - pose proof (len_flat_map_ge (enc_polygon bo) pls (fun x _ => enc_bom_app_nonnil bo _)). lia.
Qed.

(** ** The encoder, seen as a total function on known geometries *)

Definition enc_members (bo : byte_order) :=
  fix members (l : list (geom f64)) : list Z * bool :=
    match l with
    | [] => ([], false)
    | x :: xs =>
        let (b, bad) := enc_geometry bo x in
        if bad then (b, true)
        else let (b', bad') := members xs in (b ++ b', bad')
    end.

Lemma enc_geometry_collection bo gs :
  enc_geometry bo (GCollection gs) =
  (enc_bom bo ++ enc_u32 bo tCollection ++ enc_u32 bo (len_u32 gs) ++ fst (enc_members bo gs),
   snd (enc_members bo gs)).
Proof.
  cbn [enc_geometry]. fold (enc_members bo).
  now destruct (enc_members bo gs).
Qed.

Lemma enc_geometry_bad bo g : snd (enc_geometry bo g) = has_unknown g.
Proof.
  induction g as [p|ps|ps|ls|rs|pls|gs IH|] using geom_ind'; try reflexivity.
  rewrite enc_geometry_collection. cbn [snd has_unknown].
  induction IH as [|x xs Hx Hxs IH']; [reflexivity|].
  cbn [enc_members existsb].
  destruct (enc_geometry bo x) as [b bad]. cbn [snd] in Hx. rewrite <- Hx.
  destruct bad; [reflexivity|].
  destruct (enc_members bo xs) as [b' bad']. exact IH'.
Qed.

Lemma enc_members_flat bo gs :
  snd (enc_members bo gs) = false ->
  fst (enc_members bo gs) = flat_map (fun g => fst (enc_geometry bo g)) gs /\
  (forall g, In g gs -> snd (enc_geometry bo g) = false).
Proof.
  induction gs as [|x xs IH]; [cbn; tauto|].
  cbn [enc_members flat_map].
  destruct (enc_geometry bo x) as [b bad] eqn:E; cbn [fst].
  destruct bad; [discriminate|].
  destruct (enc_members bo xs) as [b' bad']; cbn [fst snd] in *.
  intros H. destruct (IH H) as [IH1 IH2]. split.
  - now rewrite IH1.
  - intros g [->|Hg]; [now rewrite E | now apply IH2].
Qed.

Lemma enc_geometry_nonnil bo g :
  snd (enc_geometry bo g) = false -> fst (enc_geometry bo g) <> [].
Proof.
  destruct g; try (intros _; cbn; apply enc_bom_app_nonnil).
  - intros _. rewrite enc_geometry_collection. cbn. apply enc_bom_app_nonnil.
  - discriminate.
Qed.

(** The type tag and body of an encoded geometry. *)
Definition typ_of (g : geom f64) : Z :=
  match g with
  | GPoint _ => tPoint
  | GMultiPoint _ => tMultiPoint
  | GLineString _ => tLineString
  | GMultiLineString _ => tMultiLineString
  | GPolygon _ => tPolygon
  | GMultiPolygon _ => tMultiPolygon
  | GCollection _ => tCollection
  | GUnknown => 0
  end.

Definition body_of (bo : byte_order) (g : geom f64) : list Z :=
  match g with
  | GPoint p => enc_xy bo p
  | GMultiPoint ps => enc_u32 bo (len_u32 ps) ++ flat_map (enc_point bo) ps
  | GLineString ps => enc_u32 bo (len_u32 ps) ++ flat_map (enc_xy bo) ps
  | GMultiLineString ls => enc_u32 bo (len_u32 ls) ++ flat_map (enc_linestring bo) ls
  | GPolygon rs => enc_u32 bo (len_u32 rs) ++ flat_map (enc_ring bo) rs
  | GMultiPolygon pls => enc_u32 bo (len_u32 pls) ++ flat_map (enc_polygon bo) pls
  | GCollection gs => enc_u32 bo (len_u32 gs) ++ fst (enc_members bo gs)
  | GUnknown => []
  end.

Lemma enc_geometry_split bo g :
  snd (enc_geometry bo g) = false ->
  fst (enc_geometry bo g) = enc_bom bo ++ enc_u32 bo (typ_of g) ++ body_of bo g.
Proof.
  destruct g; try reflexivity.
  - rewrite enc_geometry_collection. reflexivity.
  - discriminate.
Qed.

Lemma typ_of_range g : 0 <= typ_of g < 2 ^ 32.
Proof. destruct g; vm_compute; split; congruence. Qed.

Lemma encodable_known g : encodable g = true -> has_unknown g = false.
Proof.
  induction g as [p|ps|ps|ls|rs|pls|gs IH|] using geom_ind'; try reflexivity; try discriminate.
  cbn [encodable has_unknown]. intros H. apply andb_true_iff in H as [_ H].
  induction IH as [|x xs Hx Hxs IH']; [reflexivity|].
  cbn [forallb existsb] in *. apply andb_true_iff in H as [H1 H2].
  now rewrite (Hx H1), (IH' H2).
Qed.

Lemma dec_body_put g : forall bo bad fuel rest,
  encodable g = true ->
  (length (body_of bo g) <= fuel)%nat ->
  dec_body fuel bad (typ_of g) bo (body_of bo g ++ rest) = Ok (norm g, rest).
Proof.
  induction g as [p|ps|ps|ls|rs|pls|gs IH|] using geom_ind'; intros bo bad fuel rest He Hf;
    cbn [typ_of body_of encodable norm] in *.
  - destruct fuel; cbn [dec_body Z.eqb]; unfold tPoint; cbn [Z.eqb Pos.eqb];
      unfold as_geom, dec_point; rewrite read_xy_put by assumption; reflexivity.
  - rewrite app_length, enc_u32_length in Hf.
    pose proof (len_flat_map_ge (enc_point bo) ps (fun x _ => enc_bom_app_nonnil bo _)).
    destruct fuel; cbn [dec_body]; unfold tPoint, tMultiPoint; cbn [Z.eqb Pos.eqb];
      unfold as_geom; rewrite <- app_assoc, dec_multipoint_put by (assumption || lia); reflexivity.
  - rewrite app_length, enc_u32_length in Hf.
    pose proof (len_flat_map_ge (enc_xy bo) ps (fun x _ => enc_xy_nonnil bo _)).
    destruct fuel; cbn [dec_body]; unfold tPoint, tMultiPoint, tLineString; cbn [Z.eqb Pos.eqb];
      unfold as_geom; rewrite <- app_assoc, dec_linestring_put by (assumption || lia); reflexivity.
  - apply andb_true_iff in He as [He1 He2].
    rewrite app_length, enc_u32_length in Hf.
    destruct fuel; cbn [dec_body]; unfold tPoint, tMultiPoint, tLineString, tMultiLineString;
      cbn [Z.eqb Pos.eqb]; unfold as_geom;
      rewrite <- app_assoc, dec_multilinestring_put by (assumption || lia); reflexivity.
  - apply andb_true_iff in He as [He1 He2].
    rewrite app_length, enc_u32_length in Hf.
    destruct fuel; cbn [dec_body];
      unfold tPoint, tMultiPoint, tLineString, tMultiLineString, tPolygon;
      cbn [Z.eqb Pos.eqb]; unfold as_geom;
      rewrite <- app_assoc, dec_polygon_put by (assumption || lia); reflexivity.
  - apply andb_true_iff in He as [He1 He2].
    rewrite app_length, enc_u32_length in Hf.
    destruct fuel; cbn [dec_body];
      unfold tPoint, tMultiPoint, tLineString, tMultiLineString, tPolygon, tMultiPolygon;
      cbn [Z.eqb Pos.eqb]; unfold as_geom;
      rewrite <- app_assoc, dec_multipolygon_put by (assumption || lia); reflexivity.
  - assert (Hun : has_unknown (GCollection gs) = false)
      by (apply encodable_known; exact He).
    apply andb_true_iff in He as [He1 He2]. apply count_ok_lt in He1.
    rewrite forallb_forall in He2. rewrite Forall_forall in IH.
    rewrite <- (enc_geometry_bad bo), enc_geometry_collection in Hun; cbn [snd] in Hun.
    destruct (enc_members_flat bo gs Hun) as [Hfl Hgood].
    rewrite Hfl in *. rewrite app_length, enc_u32_length in Hf.
    destruct fuel as [|fuel]; [lia|].
    cbn [dec_body];
      unfold tPoint, tMultiPoint, tLineString, tMultiLineString, tPolygon, tMultiPolygon, tCollection;
      cbn [Z.eqb Pos.eqb]. unfold as_geom at 1.
    rewrite <- app_assoc.
    rewrite (dec_counted_put bo _ (fun g => fst (enc_geometry bo g)) norm).
    + reflexivity.
    + intros g rest' Hin.
      rewrite enc_geometry_split by now apply Hgood.
      rewrite <- !app_assoc, bot_put by apply typ_of_range.
      cbn [bind fst snd].
      apply IH; [assumption | now apply He2 |].
      pose proof (flat_map_in_len (fun g => fst (enc_geometry bo g)) gs g Hin) as L.
      cbn beta in L. rewrite enc_geometry_split in L by now apply Hgood.
      rewrite !app_length in L. lia.
    + pose proof (len_flat_map_ge (fun g => fst (enc_geometry bo g)) gs) as L.
      assert (length gs <= length (flat_map (fun g => fst (enc_geometry bo g)) gs))%nat; [|lia].
      apply L. intros x Hx. apply enc_geometry_nonnil, Hgood, Hx.
    + lia.
  - discriminate.
Qed.

Theorem wkb_decode_encode bo g bs rest :
  encodable g = true -> encode_bytes bo g = Some bs ->
  decode (bs ++ rest) = Ok (norm g, rest).
Proof.
  intros He Hb. unfold encode_bytes, encode_to in Hb.
  destruct (enc_geometry bo g) as [b bad] eqn:E.
  destruct bad; [discriminate|]. inv Hb.
  assert (Hs : snd (enc_geometry bo g) = false) by now rewrite E.
  assert (Hbs : bs = enc_bom bo ++ enc_u32 bo (typ_of g) ++ body_of bo g)
    by (rewrite <- enc_geometry_split, E by exact Hs; reflexivity).
  unfold decode.
  assert (Hlen : (length (body_of bo g) <= S (length (bs ++ rest)))%nat)
    by (rewrite app_length, Hbs, !app_length; lia).
  revert Hlen. generalize (S (length (bs ++ rest))). intros fuel Hlen.
  unfold decode_with. rewrite Hbs.
  rewrite <- !app_assoc, bot_put by apply typ_of_range.
  cbn [bind fst snd].
  now apply dec_body_put.
Qed.

Theorem wkb_encode_total bo g :
  encode_bytes bo g = None <-> has_unknown g = true.
Proof.
  unfold encode_bytes, encode_to. rewrite <- (enc_geometry_bad bo).
  destruct (enc_geometry bo g) as [b bad]; cbn [snd].
  destruct bad; split; congruence.
Qed.

(** ** Open geometries are fixed points of [norm] *)

Lemma norm_ring_open r : ring_open r = true -> norm_ring r = r.
Proof.
  destruct r as [|p tl]; [reflexivity|]. unfold ring_open, norm_ring.
  intros H. apply andb_true_iff in H as [H1 H2].
  apply negb_true_iff in H1. rewrite H1.
  rewrite last_cons_same.
  destruct tl as [|q tl]; [reflexivity|].
  apply negb_true_iff in H2. rewrite H2. now rewrite andb_false_r.
Qed.

Lemma map_id_in {A} (f : A -> A) l : (forall x, In x l -> f x = x) -> map f l = l.
Proof.
  induction l as [|x l IH]; intros H; [reflexivity|].
  cbn. rewrite H, IH; [reflexivity | | now left]. intros; apply H; now right.
Qed.

Lemma norm_open g : rings_open g = true -> norm g = g.
Proof.
  induction g as [p|ps|ps|ls|rs|pls|gs IH|] using geom_ind'; try reflexivity;
    cbn [rings_open norm]; intros H.
  - rewrite forallb_forall in H. f_equal. apply map_id_in.
    intros; now apply norm_ring_open, H.
  - rewrite forallb_forall in H. f_equal. apply map_id_in.
    intros rs Hrs. specialize (H rs Hrs). rewrite forallb_forall in H.
    apply map_id_in. intros; now apply norm_ring_open, H.
  - rewrite forallb_forall in H. rewrite Forall_forall in IH. f_equal. apply map_id_in.
    intros; apply IH; auto.
Qed.

Theorem wkb_roundtrip bo g :
  encodable g = true -> rings_open g = true ->
  exists bs, encode_bytes bo g = Some bs /\ decode_bytes bs = Ok g.
Proof.
  intros He Ho.
  destruct (encode_bytes bo g) as [bs|] eqn:E.
  - exists bs. split; [reflexivity|].
    unfold decode_bytes.
    pose proof (wkb_decode_encode bo g bs [] He E) as D.
    rewrite app_nil_r in D. rewrite D. cbn [bind]. now rewrite norm_open.
  - apply wkb_encode_total in E. apply encodable_known in He. congruence.
Qed.

(** ** More input does not change what was decoded; errors other than running
    out of input do not depend on what follows *)

Definition stable {A} (d d' : dec A) : Prop := forall bs s,
  match d bs with
  | Ok (a, r) => d' (bs ++ s) = Ok (a, r ++ s)
  | Err EEof | Err EUnexpectedEof | Err EOutOfFuel => True
  | Err e => d' (bs ++ s) = Err e
  | Panic => False
  end.

Lemma stable_bind {A B} (d d' : dec A) (f f' : A -> dec B) :
  stable d d' -> (forall a, stable (f a) (f' a)) ->
  stable (fun bs => do (a, r) <- d bs; f a r) (fun bs => do (a, r) <- d' bs; f' a r).
Proof.
  intros Hd Hf bs s. specialize (Hd bs s).
  destruct (d bs) as [[a r]|e|]; cbn [bind].
  - rewrite Hd. cbn [bind]. apply Hf.
  - destruct e; try exact I; now rewrite Hd.
  - exact Hd.
Qed.

Lemma stable_ret {A} (a : A) : stable (fun bs => Ok (a, bs)) (fun bs => Ok (a, bs)).
Proof. intros bs s. reflexivity. Qed.

Lemma stable_err {A} e : stable (A := A) (fun _ => Err e) (fun _ => Err e).
Proof. intros bs s. now destruct e. Qed.

Lemma stable_read_full n : stable (read_full n) (read_full n).
Proof.
  intros bs s. unfold read_full.
  destruct bs as [|z l]; [exact I|].
  destruct (length (z :: l) <? n)%nat eqn:E; [exact I|].
  cbn [app]. change (z :: l ++ s) with ((z :: l) ++ s).
  replace (length ((z :: l) ++ s) <? n)%nat with false by (rewrite app_length; lia).
  rewrite firstn_app, skipn_app.
  replace (n - length (z :: l))%nat with 0%nat by lia.
  cbn [firstn skipn]. now rewrite app_nil_r.
Qed.

Lemma stable_read_u32 bo : stable (read_u32 bo) (read_u32 bo).
Proof. apply (stable_bind _ _ _ _ (stable_read_full 4)). intros; apply stable_ret. Qed.

Lemma stable_read_xy bo : stable (read_xy bo) (read_xy bo).
Proof. apply (stable_bind _ _ _ _ (stable_read_full 16)). intros; apply stable_ret. Qed.

Lemma stable_bot : stable byte_order_type byte_order_type.
Proof.
  intros bs s. unfold byte_order_type. destruct bs as [|b bs]; [exact I|].
  cbn [app].
  destruct (b =? 0).
  - apply (stable_bind _ _ (fun t r => Ok ((BigEndian, t), r)) (fun t r => Ok ((BigEndian, t), r))
      (stable_read_u32 BigEndian)). intros; apply stable_ret.
  - destruct (b =? 1); [|reflexivity].
    apply (stable_bind _ _ (fun t r => Ok ((LittleEndian, t), r))
      (fun t r => Ok ((LittleEndian, t), r)) (stable_read_u32 LittleEndian)).
    intros; apply stable_ret.
Qed.

Lemma stable_many {A} (d d' : dec A) fuel : forall fuel' n,
  (fuel <= fuel')%nat -> stable d d' -> stable (dec_many d fuel n) (dec_many d' fuel' n).
Proof.
  induction fuel as [|fuel IH]; intros fuel' n Hf Hd bs s.
  - cbn [dec_many]. destruct fuel' as [|fuel'].
    + destruct (n <=? 0) eqn:E; cbn [dec_many]; [rewrite E|]; reflexivity || exact I.
    + destruct (n <=? 0) eqn:E; cbn [dec_many]; [rewrite E|]; reflexivity || exact I.
  - destruct fuel' as [|fuel']; [lia|]. cbn [dec_many].
    destruct (n <=? 0); [reflexivity|].
    apply (stable_bind d d'
      (fun a r => do (l, bs2) <- dec_many d fuel (n - 1) r; Ok (a :: l, bs2))
      (fun a r => do (l, bs2) <- dec_many d' fuel' (n - 1) r; Ok (a :: l, bs2)) Hd).
    intros a. apply stable_bind; [apply IH; [lia | exact Hd] | intros; apply stable_ret].
Qed.

Lemma stable_counted {A} bo (d d' : dec A) fuel fuel' :
  (fuel <= fuel')%nat -> stable d d' ->
  stable (dec_counted bo d fuel) (dec_counted bo d' fuel').
Proof.
  intros Hf Hd. unfold dec_counted.
  apply stable_bind; [apply stable_read_u32|]. intros n. now apply stable_many.
Qed.

Lemma stable_tagged {A} t (d d' : byte_order -> dec A) :
  (forall bo, stable (d bo) (d' bo)) -> stable (dec_tagged t d) (dec_tagged t d').
Proof.
  intros Hd. unfold dec_tagged. apply stable_bind; [apply stable_bot|].
  intros [bo t']; cbn [fst snd]. destruct (t' =? t); [apply Hd | apply stable_err].
Qed.

Lemma stable_ring bo fuel fuel' :
  (fuel <= fuel')%nat -> stable (dec_ring bo fuel) (dec_ring bo fuel').
Proof.
  intros Hf. unfold dec_ring. apply stable_bind; [|intros; apply stable_ret].
  apply stable_counted; [exact Hf | apply stable_read_xy].
Qed.

Lemma stable_as_geom {A} (c : A -> geom f64) d d' :
  stable d d' -> stable (as_geom c d) (as_geom c d').
Proof. intros Hd. unfold as_geom. apply stable_bind; [exact Hd | intros; apply stable_ret]. Qed.

Lemma stable_polygon bo fuel fuel' :
  (fuel <= fuel')%nat -> stable (dec_polygon bo fuel) (dec_polygon bo fuel').
Proof. intros. apply stable_counted; [assumption | now apply stable_ring]. Qed.

Lemma stable_body fuel : forall fuel' bad typ bo,
  (fuel <= fuel')%nat -> stable (dec_body fuel bad typ bo) (dec_body fuel' bad typ bo).
Proof.
  induction fuel as [|fuel IH]; intros fuel' bad typ bo Hf bs s.
  - destruct fuel' as [|fuel']; cbn [dec_body];
    (destruct (typ =? tPoint); [apply stable_as_geom, stable_read_xy|];
     destruct (typ =? tMultiPoint);
       [apply stable_as_geom, stable_counted; [lia | apply stable_tagged, stable_read_xy]|];
     destruct (typ =? tLineString);
       [apply stable_as_geom, stable_counted; [lia | apply stable_read_xy]|];
     destruct (typ =? tMultiLineString);
       [apply stable_as_geom, stable_counted; [lia | apply stable_tagged; intros bo';
          apply stable_counted; [lia | apply stable_read_xy]]|];
     destruct (typ =? tPolygon); [apply stable_as_geom, stable_polygon; lia|];
     destruct (typ =? tMultiPolygon);
       [apply stable_as_geom, stable_counted; [lia | apply stable_tagged; intros bo';
          apply stable_polygon; lia]|];
     destruct (typ =? tCollection); [exact I | now apply (stable_err (A := geom f64) (bad typ))]).
  - destruct fuel' as [|fuel']; [lia|]; cbn [dec_body].
    destruct (typ =? tPoint); [apply stable_as_geom, stable_read_xy|].
    destruct (typ =? tMultiPoint);
       [apply stable_as_geom, stable_counted; [lia | apply stable_tagged, stable_read_xy]|].
    destruct (typ =? tLineString);
       [apply stable_as_geom, stable_counted; [lia | apply stable_read_xy]|].
    destruct (typ =? tMultiLineString);
       [apply stable_as_geom, stable_counted; [lia | apply stable_tagged; intros bo';
          apply stable_counted; [lia | apply stable_read_xy]]|].
    destruct (typ =? tPolygon); [apply stable_as_geom, stable_polygon; lia|].
    destruct (typ =? tMultiPolygon);
       [apply stable_as_geom, stable_counted; [lia | apply stable_tagged; intros bo';
          apply stable_polygon; lia]|].
    destruct (typ =? tCollection); [| now apply (stable_err (A := geom f64) (bad typ))].
    apply stable_as_geom, stable_counted; [lia|].
    apply stable_bind; [apply stable_bot|]. intros bt. apply IH. lia.
Qed.

Lemma stable_decode bs s :
  match decode bs with
  | Ok (a, r) => decode (bs ++ s) = Ok (a, r ++ s)
  | Err EEof | Err EUnexpectedEof | Err EOutOfFuel => True
  | Err e => decode (bs ++ s) = Err e
  | Panic => False
  end.
Proof.
  unfold decode.
  apply (stable_bind byte_order_type byte_order_type
    (fun bt => dec_body (S (length bs)) EUnknownType (snd bt) (fst bt))
    (fun bt => dec_body (S (length (bs ++ s))) EUnknownType (snd bt) (fst bt)) stable_bot).
  intros bt. apply stable_body. rewrite app_length. lia.
Qed.

(** ** The model's fuel is never exhausted *)

Definition total_below {A} (n : nat) (d : dec A) : Prop :=
  forall bs, (length bs < n)%nat -> d bs <> Err EOutOfFuel.
Definition consumes {A} (k : nat) (d : dec A) : Prop :=
  forall bs a r, d bs = Ok (a, r) -> (length r + k <= length bs)%nat.

Lemma consumes_weaken {A} k k' (d : dec A) : (k' <= k)%nat -> consumes k d -> consumes k' d.
Proof. intros Hk H bs a r E. specialize (H bs a r E). lia. Qed.

Lemma consumes_bind {A B} k1 k2 (d : dec A) (f : A -> dec B) :
  consumes k1 d -> (forall a, consumes k2 (f a)) ->
  consumes (k1 + k2) (fun bs => do (a, r) <- d bs; f a r).
Proof.
  intros Hd Hf bs b r E. destruct (d bs) as [[a r1]|e|] eqn:E1; cbn [bind] in E; try discriminate.
  apply Hd in E1. apply Hf in E. lia.
Qed.

Lemma total_bind {A B} n k (d : dec A) (f : A -> dec B) :
  total_below n d -> consumes k d -> (forall a, total_below (n - k) (f a)) ->
  total_below n (fun bs => do (a, r) <- d bs; f a r).
Proof.
  intros Hd Hk Hf bs Hl. specialize (Hd bs Hl).
  destruct (d bs) as [[a r1]|e|] eqn:E1; cbn [bind]; try congruence.
  apply Hk in E1. apply Hf. lia.
Qed.

Lemma consumes_ret {A} (a : A) : consumes 0 (fun bs => Ok (a, bs)).
Proof. intros bs b r E. inv E. lia. Qed.

Lemma total_ret {A} n (a : A) : total_below n (fun bs => Ok (a, bs)).
Proof. intros bs _ H. discriminate. Qed.

Lemma consumes_read_full n : consumes n (read_full n).
Proof.
  intros bs a r. unfold read_full. destruct bs as [|z l]; [discriminate|].
  destruct (length (z :: l) <? n)%nat eqn:E; [discriminate|].
  intros H. inv H. rewrite skipn_length. lia.
Qed.

Lemma total_read_full m n : total_below m (read_full n).
Proof.
  intros bs _. unfold read_full. destruct bs as [|z l]; [discriminate|].
  destruct (length (z :: l) <? n)%nat; discriminate.
Qed.

Lemma consumes_read_u32 bo : consumes 4 (read_u32 bo).
Proof. apply (consumes_bind 4 0); [apply consumes_read_full | intros; apply consumes_ret]. Qed.
Lemma consumes_read_xy bo : consumes 16 (read_xy bo).
Proof. apply (consumes_bind 16 0); [apply consumes_read_full | intros; apply consumes_ret]. Qed.
Lemma total_read_u32 n bo : total_below n (read_u32 bo).
Proof.
  apply (total_bind n 4); [apply total_read_full | apply consumes_read_full |
    intros; apply total_ret].
Qed.
Lemma total_read_xy n bo : total_below n (read_xy bo).
Proof.
  apply (total_bind n 16); [apply total_read_full | apply consumes_read_full |
    intros; apply total_ret].
Qed.

Lemma consumes_bot : consumes 5 byte_order_type.
Proof.
  intros bs a r. unfold byte_order_type. destruct bs as [|b bs]; [discriminate|].
  cbn [length].
  destruct (b =? 0); [|destruct (b =? 1); [|discriminate]].
  - destruct (read_u32 BigEndian bs) as [[t r1]|e|] eqn:E; cbn [bind]; try discriminate.
    apply consumes_read_u32 in E. intros H. inv H. lia.
  - destruct (read_u32 LittleEndian bs) as [[t r1]|e|] eqn:E; cbn [bind]; try discriminate.
    apply consumes_read_u32 in E. intros H. inv H. lia.
Qed.

Lemma total_bot n : total_below n byte_order_type.
Proof.
  intros bs Hn. unfold byte_order_type. destruct bs as [|b bs]; [discriminate|].
  cbn [length] in Hn.
  destruct (b =? 0); [|destruct (b =? 1); [|discriminate]].
  - pose proof (total_read_u32 n BigEndian bs ltac:(lia)).
    destruct (read_u32 BigEndian bs) as [[t r1]|e|]; cbn [bind]; congruence.
  - pose proof (total_read_u32 n LittleEndian bs ltac:(lia)).
    destruct (read_u32 LittleEndian bs) as [[t r1]|e|]; cbn [bind]; congruence.
Qed.

Lemma consumes_many {A} (d : dec A) fuel : forall n,
  consumes 1 d -> consumes 0 (dec_many d fuel n).
Proof.
  induction fuel as [|fuel IH]; intros n Hd bs l r.
  - cbn [dec_many]. destruct (n <=? 0); [|discriminate]. intros H. inv H. lia.
  - cbn [dec_many]. destruct (n <=? 0); [intros H; inv H; lia|].
    destruct (d bs) as [[a r1]|e|] eqn:E; cbn [bind]; try discriminate.
    destruct (dec_many d fuel (n - 1) r1) as [[l2 r2]|e|] eqn:E2; cbn [bind]; try discriminate.
    intros H. inv H. apply IH in E2; [|exact Hd]. apply Hd in E. lia.
Qed.

Lemma total_many {A} (d : dec A) fuel : forall n m,
  (m <= fuel)%nat -> consumes 1 d -> total_below m d -> total_below m (dec_many d fuel n).
Proof.
  induction fuel as [|fuel IH]; intros n m Hm Hc Hd bs Hl; [lia|].
  cbn [dec_many]. destruct (n <=? 0); [discriminate|].
  pose proof (Hd bs Hl) as Hd1.
  destruct (d bs) as [[a r1]|e|] eqn:E; cbn [bind]; try congruence.
  apply Hc in E.
  assert (dec_many d fuel (n - 1) r1 <> Err EOutOfFuel).
  { apply (IH (n - 1) (m - 1)%nat); [lia | exact Hc | | lia].
    intros bs' Hbs'. apply Hd. lia. }
  destruct (dec_many d fuel (n - 1) r1) as [[l2 r2]|e|]; cbn [bind]; congruence.
Qed.

Lemma consumes_counted {A} bo (d : dec A) fuel :
  consumes 1 d -> consumes 4 (dec_counted bo d fuel).
Proof.
  intros Hd. unfold dec_counted. apply (consumes_bind 4 0); [apply consumes_read_u32|].
  intros. now apply consumes_many.
Qed.

Lemma total_counted {A} bo (d : dec A) fuel m :
  (m <= fuel + 4)%nat -> consumes 1 d -> total_below (m - 4) d ->
  total_below m (dec_counted bo d fuel).
Proof.
  intros Hm Hc Hd. unfold dec_counted.
  apply (total_bind m 4); [apply total_read_u32 | apply consumes_read_u32|].
  intros n. apply total_many; [lia | exact Hc | exact Hd].
Qed.

Lemma consumes_tagged {A} t (d : byte_order -> dec A) :
  (forall bo, consumes 0 (d bo)) -> consumes 5 (dec_tagged t d).
Proof.
  intros Hd. unfold dec_tagged. apply (consumes_bind 5 0); [apply consumes_bot|].
  intros bt. destruct (snd bt =? t); [apply Hd|]. intros bs a r H; discriminate.
Qed.

Lemma total_err_bad {A} n t : total_below (A := A) n (fun _ => Err (EInvalidType t)).
Proof. intros bs _ H. discriminate. Qed.

Lemma total_tagged {A} t (d : byte_order -> dec A) m :
  (forall bo, total_below (m - 5) (d bo)) -> total_below m (dec_tagged t d).
Proof.
  intros Hd. unfold dec_tagged. apply (total_bind m 5); [apply total_bot | apply consumes_bot|].
  intros bt. destruct (snd bt =? t); [apply Hd | apply total_err_bad].
Qed.

Lemma consumes_xy1 bo : consumes 1 (read_xy bo).
Proof. apply (consumes_weaken 16); [lia | apply consumes_read_xy]. Qed.

Lemma consumes_ring bo fuel : consumes 4 (dec_ring bo fuel).
Proof.
  unfold dec_ring. apply (consumes_bind 4 0); [|intros; apply consumes_ret].
  apply consumes_counted, consumes_xy1.
Qed.

Lemma total_ring bo fuel m : (m <= fuel + 4)%nat -> total_below m (dec_ring bo fuel).
Proof.
  intros Hm. unfold dec_ring.
  apply (total_bind m 0); [| |intros; apply total_ret].
  - apply total_counted; [exact Hm | apply consumes_xy1 | apply total_read_xy].
  - apply (consumes_weaken 4); [lia|]. apply consumes_counted, consumes_xy1.
Qed.

Lemma consumes_polygon bo fuel : consumes 4 (dec_polygon bo fuel).
Proof. apply consumes_counted. apply (consumes_weaken 4); [lia | apply consumes_ring]. Qed.

Lemma total_polygon bo fuel m : (m <= fuel + 4)%nat -> total_below m (dec_polygon bo fuel).
Proof.
  intros Hm. apply total_counted; [exact Hm | | apply total_ring; lia].
  apply (consumes_weaken 4); [lia | apply consumes_ring].
Qed.

Lemma consumes_as_geom {A} (c : A -> geom f64) d k : consumes k d -> consumes k (as_geom c d).
Proof.
  intros Hd. unfold as_geom. rewrite <- (Nat.add_0_r k).
  apply consumes_bind; [exact Hd | intros; apply consumes_ret].
Qed.

Lemma total_as_geom {A} (c : A -> geom f64) d m : total_below m d -> total_below m (as_geom c d).
Proof.
  intros Hd bs Hl. unfold as_geom. specialize (Hd bs Hl).
  destruct (d bs) as [[a r]|e|]; cbn [bind]; congruence.
Qed.

Lemma consumes_body fuel : forall bad typ bo, consumes 0 (dec_body fuel bad typ bo).
Proof.
  assert (forall bo, consumes 0 (read_xy bo)) as Hxy
    by (intros; apply (consumes_weaken 16); [lia | apply consumes_read_xy]).
  assert (forall bo f, consumes 4 (dec_counted bo (read_xy bo) f)) as Hls
    by (intros; apply consumes_counted, consumes_xy1).
  induction fuel as [|fuel IH]; intros bad typ bo bs a r; cbn [dec_body];
    (destruct (typ =? tPoint); [now apply consumes_as_geom|];
     destruct (typ =? tMultiPoint);
       [apply consumes_as_geom; apply (consumes_weaken 4); [lia|]; apply consumes_counted;
        apply (consumes_weaken 5); [lia|]; now apply consumes_tagged|];
     destruct (typ =? tLineString);
       [apply consumes_as_geom; apply (consumes_weaken 4); [lia|]; apply Hls|];
     destruct (typ =? tMultiLineString);
       [apply consumes_as_geom; apply (consumes_weaken 4); [lia|]; apply consumes_counted;
        apply (consumes_weaken 5); [lia|]; apply consumes_tagged; intros;
        apply (consumes_weaken 4); [lia|]; apply Hls|];
     destruct (typ =? tPolygon);
       [apply consumes_as_geom; apply (consumes_weaken 4); [lia|]; apply consumes_polygon|];
     destruct (typ =? tMultiPolygon);
       [apply consumes_as_geom; apply (consumes_weaken 4); [lia|]; apply consumes_counted;
        apply (consumes_weaken 5); [lia|]; apply consumes_tagged; intros;
        apply (consumes_weaken 4); [lia|]; apply consumes_polygon|];
     destruct (typ =? tCollection); [|discriminate]).
  - discriminate.
  - apply consumes_as_geom. apply (consumes_weaken 4); [lia|]. apply consumes_counted.
    apply (consumes_weaken (5 + 0)); [lia|]. apply consumes_bind; [apply consumes_bot|].
    intros; apply IH.
Qed.

Lemma total_body fuel : forall bad typ bo,
  (forall t, bad t <> EOutOfFuel) -> total_below fuel (dec_body fuel bad typ bo).
Proof.
  induction fuel as [|fuel IH]; intros bad typ bo Hbad bs Hl; [lia|]. cbn [dec_body].
  destruct (typ =? tPoint); [apply (total_as_geom _ _ (S fuel)); [apply total_read_xy | exact Hl]|].
  destruct (typ =? tMultiPoint).
  { apply (total_as_geom _ _ (S fuel)); [|exact Hl]. apply total_counted; [lia | |].
    - apply (consumes_weaken 5); [lia|]. apply consumes_tagged. intros.
      apply (consumes_weaken 16); [lia | apply consumes_read_xy].
    - apply total_tagged. intros. apply total_read_xy. }
  destruct (typ =? tLineString).
  { apply (total_as_geom _ _ (S fuel)); [|exact Hl].
    apply total_counted; [lia | apply consumes_xy1 | apply total_read_xy]. }
  destruct (typ =? tMultiLineString).
  { apply (total_as_geom _ _ (S fuel)); [|exact Hl]. apply total_counted; [lia | |].
    - apply (consumes_weaken 5); [lia|]. apply consumes_tagged. intros.
      apply (consumes_weaken 4); [lia|]. apply consumes_counted, consumes_xy1.
    - apply total_tagged. intros.
      apply total_counted; [lia | apply consumes_xy1 | apply total_read_xy]. }
  destruct (typ =? tPolygon).
  { apply (total_as_geom _ _ (S fuel)); [|exact Hl]. apply total_polygon. lia. }
  destruct (typ =? tMultiPolygon).
  { apply (total_as_geom _ _ (S fuel)); [|exact Hl]. apply total_counted; [lia | |].
    - apply (consumes_weaken 5); [lia|]. apply consumes_tagged. intros.
      apply (consumes_weaken 4); [lia|]. apply consumes_polygon.
    - apply total_tagged. intros. apply total_polygon; lia. }
  destruct (typ =? tCollection); [| intros H; inv H; now apply (Hbad typ)].
  apply (total_as_geom _ _ (S fuel)); [|exact Hl].
  apply total_counted; [lia | |].
  - apply (consumes_weaken (5 + 0)); [lia|]. apply consumes_bind; [apply consumes_bot|].
    intros; apply consumes_body.
  - apply (total_bind _ 5); [apply total_bot | apply consumes_bot|].
    intros bt bs' Hl'. apply IH; [discriminate | lia].
Qed.

Lemma decode_no_fuel_error bs : decode bs <> Err EOutOfFuel.
Proof.
  unfold decode, decode_with.
  apply (total_bind (S (length bs)) 5 byte_order_type); [apply total_bot | apply consumes_bot | | lia].
  intros bt bs' Hl. apply total_body; [discriminate | lia].
Qed.

Lemma decode_no_panic bs : decode bs <> Panic.
Proof.
  pose proof (stable_decode bs []) as H. intros E. now rewrite E in H.
Qed.

Theorem wkb_truncation bo g bs n :
  encodable g = true -> encode_bytes bo g = Some bs -> (n < length bs)%nat ->
  decode (firstn n bs) = Err EEof \/ decode (firstn n bs) = Err EUnexpectedEof.
Proof.
  intros He Hb Hn.
  pose proof (wkb_decode_encode bo g bs [] He Hb) as D. rewrite app_nil_r in D.
  pose proof (stable_decode (firstn n bs) (skipn n bs)) as S.
  rewrite firstn_skipn, D in S.
  pose proof (decode_no_fuel_error (firstn n bs)) as F.
  destruct (decode (firstn n bs)) as [[g' r]|e|].
  - inv S. symmetry in H1. apply app_eq_nil in H1 as [_ H1].
    apply (f_equal (@length Z)) in H1. rewrite skipn_length in H1. cbn in H1. lia.
  - destruct e; try discriminate; auto. now elim F.
  - elim S.
Qed.

(** ** Explicitly closed rings *)

Lemma written_close r :
  ring_open r = true -> (match r with [_] => False | _ => True end) ->
  written_ring (close_ring r) = written_ring r.
Proof.
  destruct r as [|p tl]; [reflexivity|]. intros Ho H1.
  destruct tl as [|q tl]; [tauto|]. cbn [ring_open close_ring] in *.
  apply andb_true_iff in Ho as [Hn Ho]. apply negb_true_iff in Hn, Ho.
  change ((p :: q :: tl) ++ [p]) with (p :: (q :: tl) ++ [p]).
  unfold written_ring at 1. rewrite last_snoc, pt_eqb_refl, Hn. cbn [negb].
  unfold written_ring. now rewrite Ho.
Qed.
