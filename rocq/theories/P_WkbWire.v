(** The WKB model against the OGC layout of [S_Wkb.wire]. *)
From Coq Require Import ZArith Bool List Lia.
From Coq Require Import ZifyBool ZifyNat.
From Verif Require Import Base_Res Base_F64 Base_Geom Base_Bytes P_Bytes M_Wkb S_Wkb P_Wkb.
Import ListNotations.
Open Scope Z_scope.

Lemma wire_header_eq bo t : wire_header bo t = enc_bom bo ++ enc_u32 bo t.
Proof. now destruct bo. Qed.

Lemma file_ring_written r : file_ring r = written_ring r.
Proof. destruct r as [|p tl]; [reflexivity|]. unfold file_ring, written_ring.
  now rewrite last_cons_same. Qed.

Lemma wire_count_eq {A} bo (l : list A) :
  Z.of_nat (length l) < 2 ^ 32 -> wire_count bo l = enc_u32 bo (len_u32 l).
Proof. intros H. unfold wire_count. now rewrite len_u32_small. Qed.

Lemma flat_map_ext_in {A B} (f g : A -> list B) l :
  (forall x, In x l -> f x = g x) -> flat_map f l = flat_map g l.
Proof.
  induction l as [|x l IH]; intros H; [reflexivity|]. cbn.
  rewrite H by now left. f_equal. apply IH. intros; apply H; now right.
Qed.

Lemma flat_map_map {A B C} (f : A -> B) (g : B -> list C) l :
  flat_map g (map f l) = flat_map (fun x => g (f x)) l.
Proof. induction l as [|x l IH]; [reflexivity|]. cbn. now rewrite IH. Qed.

Lemma enc_linestring_wire bo l :
  pts_ok l = true -> enc_linestring bo l = wire_header bo 2 ++ wire_seq bo l.
Proof.
  intros H. apply pts_ok_inv in H as [H _].
  unfold enc_linestring, wire_seq. rewrite wire_header_eq, wire_count_eq by lia.
  now rewrite <- app_assoc.
Qed.

Lemma enc_ring_wire bo r :
  pts_ok r = true -> enc_ring bo r = wire_seq bo (file_ring r).
Proof.
  intros H. unfold pts_ok in H. apply andb_true_iff in H as [H _].
  rewrite enc_ring_written by exact H. rewrite <- file_ring_written.
  unfold wire_seq. rewrite wire_count_eq; [reflexivity|].
  rewrite file_ring_written. pose proof (written_ring_len r). apply count_ok_lt in H. lia.
Qed.

Lemma enc_polygon_wire bo rs :
  count_ok rs && forallb pts_ok rs = true ->
  enc_polygon bo rs =
  wire_header bo 3 ++ wire_count bo (map file_ring rs) ++ flat_map (wire_seq bo) (map file_ring rs).
Proof.
  intros H. apply andb_true_iff in H as [H1 H2]. apply count_ok_lt in H1.
  rewrite forallb_forall in H2.
  unfold enc_polygon. rewrite wire_header_eq, wire_count_eq by (rewrite map_length; lia).
  unfold len_u32. rewrite map_length, <- app_assoc, flat_map_map. do 3 f_equal.
  apply flat_map_ext_in. intros; now apply enc_ring_wire, H2.
Qed.

Theorem wkb_encode_wire bo g :
  encodable g = true -> encode_bytes bo g = Some (wire_with bo (map_rings file_ring g)).
Proof.
  intros He. unfold encode_bytes, encode_to.
  assert (fst (enc_geometry bo g) = wire_with bo (map_rings file_ring g) /\
          snd (enc_geometry bo g) = false) as [H1 H2].
  { split; [|now rewrite enc_geometry_bad; apply encodable_known].
    induction g as [p|ps|ps|ls|rs|pls|gs IH|] using geom_ind';
      cbn [enc_geometry map_rings wire_with encodable fst] in *.
    - unfold enc_point. now rewrite wire_header_eq, <- app_assoc.
    - apply pts_ok_inv in He as [He _].
      unfold enc_multipoint. rewrite wire_header_eq, wire_count_eq, <- app_assoc by lia.
      do 3 f_equal. apply flat_map_ext_in. intros. unfold enc_point.
      now rewrite wire_header_eq, <- app_assoc.
    - now apply enc_linestring_wire.
    - apply andb_true_iff in He as [He1 He2]. apply count_ok_lt in He1.
      rewrite forallb_forall in He2.
      unfold enc_multilinestring. rewrite wire_header_eq, wire_count_eq, <- app_assoc by lia.
      do 3 f_equal. apply flat_map_ext_in. intros; now apply enc_linestring_wire, He2.
    - now apply enc_polygon_wire.
    - apply andb_true_iff in He as [He1 He2]. apply count_ok_lt in He1.
      rewrite forallb_forall in He2.
      unfold enc_multipolygon.
      rewrite wire_header_eq, wire_count_eq, <- app_assoc by (rewrite map_length; lia).
      unfold len_u32. rewrite map_length, flat_map_map. do 3 f_equal.
      apply flat_map_ext_in. intros; now apply enc_polygon_wire, He2.
    - pose proof (encodable_known (GCollection gs) He) as Hu.
      rewrite <- (enc_geometry_bad bo), enc_geometry_collection in Hu. cbn [snd] in Hu.
      destruct (enc_members_flat bo gs Hu) as [Hfl _].
      change (fst (enc_geometry bo (GCollection gs)) =
        wire_header bo 7 ++ wire_count bo (map (map_rings file_ring) gs) ++
        flat_map (wire_with bo) (map (map_rings file_ring) gs)).
      rewrite enc_geometry_collection. cbn [fst].
      apply andb_true_iff in He as [He1 He2]. apply count_ok_lt in He1.
      rewrite forallb_forall in He2. rewrite Forall_forall in IH.
      rewrite wire_header_eq, wire_count_eq, <- app_assoc by (rewrite map_length; lia).
      unfold len_u32. rewrite map_length, flat_map_map, Hfl. do 3 f_equal.
      apply flat_map_ext_in. intros; apply IH; auto.
    - discriminate. }
  destruct (enc_geometry bo g) as [b bad]. cbn [fst snd] in *. now subst.
Qed.

Lemma Forall2_impl {A B} (R R' : A -> B -> Prop) l l' :
  (forall a b, R a b -> R' a b) -> Forall2 R l l' -> Forall2 R' l l'.
Proof. intros HR H. induction H; constructor; auto. Qed.

Lemma Forall2_map_l {A B} (R : A -> B -> Prop) (f : A -> B) l :
  (forall x, In x l -> R x (f x)) -> Forall2 R l (map f l).
Proof.
  induction l as [|x l IH]; intros H; constructor; [apply H; now left|].
  apply IH. intros; apply H; now right.
Qed.

Theorem wire_with_wire bo g : has_unknown g = false -> wire g (wire_with bo g).
Proof.
  induction g as [p|ps|ps|ls|rs|pls|gs IH|] using geom_ind'; cbn [wire_with has_unknown];
    intros H; rewrite ?flat_map_concat_map; try constructor.
  - apply Forall2_map_l. intros; constructor.
  - apply Forall2_map_l. intros; constructor.
  - rewrite <- flat_map_concat_map. constructor.
  - apply Forall2_map_l. intros; constructor.
  - apply Forall2_map_l. rewrite Forall_forall in IH. intros x Hx. apply IH; [exact Hx|].
    destruct (has_unknown x) eqn:E; [|reflexivity].
    rewrite <- H. symmetry. apply existsb_exists. eauto.
  - discriminate.
Qed.

(** ** Decoding any well-formed file *)

Lemma file_count_lt {A} (l : list A) : file_count l = true -> Z.of_nat (length l) < 2 ^ 32.
Proof. unfold file_count. lia. Qed.

Lemma dec_many_wire {A X} (d : dec A) (f : X -> A) xs bss fuel rest :
  Forall2 (fun x bs => forall rest', d (bs ++ rest') = Ok (f x, rest')) xs bss ->
  (length xs <= fuel)%nat ->
  dec_many d fuel (Z.of_nat (length xs)) (concat bss ++ rest) = Ok (map f xs, rest).
Proof.
  intros H. revert fuel rest. induction H as [|x bs xs bss Hx Hxs IH]; intros fuel rest Hf.
  - destruct fuel; reflexivity.
  - destruct fuel as [|fuel]; [cbn in Hf; lia|].
    cbn [dec_many]. replace (Z.of_nat (length (x :: xs)) <=? 0) with false by (cbn [length]; lia).
    cbn [concat]. rewrite <- app_assoc, Hx. cbn [bind].
    replace (Z.of_nat (length (x :: xs)) - 1) with (Z.of_nat (length xs)) by (cbn [length]; lia).
    rewrite IH; [reflexivity | cbn in Hf; lia].
Qed.

Lemma dec_counted_wire {A X} bo (d : dec A) (f : X -> A) xs bss fuel rest :
  Forall2 (fun x bs => forall rest', d (bs ++ rest') = Ok (f x, rest')) xs bss ->
  (length xs <= fuel)%nat ->
  Z.of_nat (length xs) < 2 ^ 32 ->
  dec_counted bo d fuel (wire_count bo xs ++ concat bss ++ rest) = Ok (map f xs, rest).
Proof.
  intros H Hf Hl. unfold dec_counted, wire_count.
  fold (enc_u32 bo (Z.of_nat (length xs))). rewrite read_u32_put by lia. cbn [bind]. now apply dec_many_wire.
Qed.

Lemma Forall2_concat_len {X} (R : X -> list Z -> Prop) xs bss :
  Forall2 R xs bss -> (forall x bs, R x bs -> bs <> []) -> (length xs <= length (concat bss))%nat.
Proof.
  intros H Hn. induction H as [|x bs xs bss Hx Hxs IH]; [cbn; lia|].
  cbn [concat length]. rewrite app_length. apply Hn in Hx. destruct bs; [congruence|].
  cbn [length]. lia.
Qed.

Lemma Forall2_concat_elem {X} (R : X -> list Z -> Prop) xs bss :
  Forall2 R xs bss ->
  Forall2 (fun x bs => R x bs /\ In x xs /\ (length bs <= length (concat bss))%nat) xs bss.
Proof.
  intros H. induction H as [|x bs xs bss Hx Hxs IH]; constructor.
  - split; [exact Hx|]. split; [now left|]. cbn [concat]. rewrite app_length. lia.
  - eapply Forall2_impl; [|exact IH]. cbn beta. intros y bs' (H1 & H2 & H3).
    split; [exact H1|]. split; [now right|]. cbn [concat]. rewrite app_length. lia.
Qed.

Lemma read_xy_wire bo p rest :
  pt_wf p = true -> read_xy bo (wire_xy bo p ++ rest) = Ok (p, rest).
Proof. exact (read_xy_put bo p rest). Qed.

Lemma dec_seq_wire bo ps fuel rest :
  file_pts ps = true -> (length (wire_seq bo ps) <= fuel)%nat ->
  dec_counted bo (read_xy bo) fuel (wire_seq bo ps ++ rest) = Ok (ps, rest).
Proof.
  intros H Hf. unfold file_pts in H. apply andb_true_iff in H as [H1 H2].
  apply file_count_lt in H1. rewrite forallb_forall in H2.
  unfold wire_seq in *. rewrite app_length in Hf. rewrite <- app_assoc, flat_map_concat_map.
  rewrite (dec_counted_wire bo (read_xy bo) (fun p => p)).
  - now rewrite map_id.
  - apply Forall2_map_l. intros p Hp rest'. apply (read_xy_put bo p rest'). now apply H2.
  - pose proof (len_flat_map_ge (wire_xy bo) ps (fun x _ => enc_xy_nonnil bo x)). lia.
  - lia.
Qed.

Lemma lib_ring_open r : open_ring r = lib_ring r.
Proof.
  destruct r as [|p tl]; [reflexivity|]. rewrite open_ring_cons. unfold lib_ring.
  destruct tl as [|q tl]; [reflexivity|].
  change (1 <? length (p :: q :: tl))%nat with true. cbn [andb].
  now rewrite (last_cons_same p (q :: tl)).
Qed.

Lemma wire_seq_nonnil bo ps : wire_seq bo ps <> [].
Proof.
  unfold wire_seq, wire_count. intros H. apply (f_equal (@length Z)) in H.
  rewrite app_length, put_uint_length in H. cbn in H. lia.
Qed.

Lemma dec_polygon_wire bo rs fuel rest :
  file_count rs && forallb file_pts rs = true ->
  (length (flat_map (wire_seq bo) rs) <= fuel)%nat ->
  dec_polygon bo fuel (wire_count bo rs ++ flat_map (wire_seq bo) rs ++ rest)
  = Ok (map lib_ring rs, rest).
Proof.
  intros H Hf. apply andb_true_iff in H as [H1 H2]. apply file_count_lt in H1.
  rewrite forallb_forall in H2. unfold dec_polygon. rewrite flat_map_concat_map in *.
  apply dec_counted_wire; [| | lia].
  - apply Forall2_map_l. intros r Hr rest'. unfold dec_ring.
    rewrite dec_seq_wire; [cbn [bind]; now rewrite lib_ring_open | now apply H2 |].
    rewrite <- flat_map_concat_map in Hf.
    pose proof (flat_map_in_len (wire_seq bo) rs r Hr). lia.
  - rewrite <- flat_map_concat_map in Hf.
    pose proof (len_flat_map_ge (wire_seq bo) rs (fun x _ => wire_seq_nonnil bo x)). lia.
Qed.

Lemma wire_nonnil g bs : wire g bs -> bs <> [].
Proof. intros H. destruct H; unfold wire_header; cbn; discriminate. Qed.

Lemma bot_wire bo t rest :
  0 <= t < 2 ^ 32 -> byte_order_type (wire_header bo t ++ rest) = Ok ((bo, t), rest).
Proof. intros H. rewrite wire_header_eq, <- app_assoc. now apply bot_put. Qed.

Lemma file_ok_inv_coll gs : file_ok (GCollection gs) = true ->
  Z.of_nat (length gs) < 2 ^ 32 /\ forall g, In g gs -> file_ok g = true.
Proof.
  cbn [file_ok]. intros H. apply andb_true_iff in H as [H1 H2].
  apply file_count_lt in H1. rewrite forallb_forall in H2. auto.
Qed.

(** Decode one geometry (header included) with [fuel]. *)
Definition dec_one (fuel : nat) (bad : Z -> wkb_err) : dec (geom f64) := fun bs =>
  do (bt, bs1) <- byte_order_type bs; dec_body fuel bad (snd bt) (fst bt) bs1.

Lemma dec_tagged_wire {A} bo t (d : byte_order -> dec A) body a rest :
  0 <= t < 2 ^ 32 -> d bo (body ++ rest) = Ok (a, rest) ->
  dec_tagged t d ((wire_header bo t ++ body) ++ rest) = Ok (a, rest).
Proof.
  intros Ht Hd. unfold dec_tagged. rewrite <- app_assoc, bot_wire by lia.
  cbn [bind fst snd]. now rewrite Z.eqb_refl.
Qed.

Ltac fuel_case fuel := destruct fuel as [|fuel]; cbn [dec_body].
Ltac pick_type :=
  unfold tPoint, tMultiPoint, tLineString, tMultiLineString, tPolygon, tMultiPolygon, tCollection;
  cbn [Z.eqb Pos.eqb].

Lemma dec_one_wire g : forall bs bad fuel rest,
  wire g bs -> file_ok g = true -> (length bs <= fuel)%nat ->
  dec_one fuel bad (bs ++ rest) = Ok (map_rings lib_ring g, rest).
Proof.
  induction g as [p|ps|ps|ls|rs|pls|gs IH|] using geom_ind'; intros bs bad fuel rest Hw Hok Hf;
    inv Hw; unfold dec_one; rewrite <- app_assoc, bot_wire by lia; cbn [bind fst snd];
    rewrite ?app_length in Hf; cbn [map_rings].
  - cbn [file_ok] in Hok.
    fuel_case fuel; pick_type; unfold as_geom, dec_point;
      rewrite (read_xy_wire bo p rest) by exact Hok; reflexivity.
  - cbn [file_ok] in Hok. unfold file_pts in Hok. apply andb_true_iff in Hok as [H1 H2].
    apply file_count_lt in H1. rewrite forallb_forall in H2.
    assert (D : dec_multipoint bo fuel (wire_count bo ps ++ concat bss ++ rest) = Ok (ps, rest)).
    { unfold dec_multipoint.
      rewrite (dec_counted_wire bo (dec_tagged tPoint read_xy) (fun p => p));
        [now rewrite map_id | | | lia].
      - eapply Forall2_impl; [|apply (Forall2_concat_elem _ _ _ H0)].
        cbn beta. intros p b (Hb & Hin & _) rest'. inv Hb.
        apply dec_tagged_wire; [unfold tPoint; lia|]. apply (read_xy_put bo0 p rest'). now apply H2.
      - pose proof (Forall2_concat_len _ _ _ H0 (fun x b => wire_nonnil _ b)). lia. }
    rewrite <- app_assoc.
    fuel_case fuel; pick_type; unfold as_geom; rewrite D; reflexivity.
  - cbn [file_ok] in Hok.
    assert (D : dec_linestring bo fuel (wire_seq bo ps ++ rest) = Ok (ps, rest)).
    { apply dec_seq_wire; [exact Hok | lia]. }
    fuel_case fuel; pick_type; unfold as_geom; rewrite D; reflexivity.
  - cbn [file_ok] in Hok. apply andb_true_iff in Hok as [H1 H2].
    apply file_count_lt in H1. rewrite forallb_forall in H2.
    assert (D : dec_multilinestring bo fuel (wire_count bo ls ++ concat bss ++ rest) = Ok (ls, rest)).
    { unfold dec_multilinestring.
      rewrite (dec_counted_wire bo _ (fun p => p)); [now rewrite map_id | | | lia].
      - eapply Forall2_impl; [|apply (Forall2_concat_elem _ _ _ H0)].
        cbn beta. intros l b (Hb & Hin & Hlen) rest'. inv Hb.
        apply dec_tagged_wire; [unfold tLineString; lia|].
        rewrite app_length in Hlen.
        apply dec_seq_wire; [now apply H2 | lia].
      - pose proof (Forall2_concat_len _ _ _ H0 (fun x b => wire_nonnil _ b)). lia. }
    rewrite <- app_assoc.
    fuel_case fuel; pick_type; unfold as_geom; rewrite D; reflexivity.
  - cbn [file_ok] in Hok.
    assert (D : dec_polygon bo fuel (wire_count bo rs ++ flat_map (wire_seq bo) rs ++ rest)
                = Ok (map lib_ring rs, rest)).
    { apply dec_polygon_wire; [exact Hok | lia]. }
    rewrite <- app_assoc.
    fuel_case fuel; pick_type; unfold as_geom; rewrite D; reflexivity.
  - cbn [file_ok] in Hok. apply andb_true_iff in Hok as [H1 H2].
    apply file_count_lt in H1. rewrite forallb_forall in H2.
    assert (D : dec_multipolygon bo fuel (wire_count bo pls ++ concat bss ++ rest)
                = Ok (map (map lib_ring) pls, rest)).
    { unfold dec_multipolygon. apply dec_counted_wire; [ | | lia].
      - eapply Forall2_impl; [|apply (Forall2_concat_elem _ _ _ H0)].
        cbn beta. intros l b (Hb & Hin & Hlen) rest'. inv Hb.
        apply dec_tagged_wire; [unfold tPolygon; lia|].
        rewrite !app_length in Hlen. rewrite <- app_assoc.
        apply dec_polygon_wire; [now apply H2 | lia].
      - pose proof (Forall2_concat_len _ _ _ H0 (fun x b => wire_nonnil _ b)). lia. }
    rewrite <- app_assoc.
    fuel_case fuel; pick_type; unfold as_geom; rewrite D; reflexivity.
  - apply file_ok_inv_coll in Hok as [H1 H2]. rewrite Forall_forall in IH.
    pose proof (Forall2_concat_len _ _ _ H0 (fun x b => wire_nonnil _ b)) as Hlen.
    assert (Hh : length (wire_header bo 7) = 5%nat)
      by (unfold wire_header; cbn [length]; now rewrite put_uint_length).
    destruct fuel as [|fuel]; [lia|]. cbn [dec_body]. pick_type. unfold as_geom at 1.
    rewrite <- app_assoc.
    rewrite (dec_counted_wire bo (dec_one fuel EInvalidType) (map_rings lib_ring));
      [reflexivity | | lia | lia].
    eapply Forall2_impl; [|apply (Forall2_concat_elem _ _ _ H0)].
    cbn beta. intros g b (Hb & Hin & Hbl) rest'. apply IH; auto. lia.
Qed.

Theorem wkb_decode_wire g bs rest :
  wire g bs -> file_ok g = true -> decode (bs ++ rest) = Ok (map_rings lib_ring g, rest).
Proof.
  intros Hw Hok. unfold decode. apply (dec_one_wire g bs EUnknownType); [exact Hw | exact Hok |].
  rewrite app_length. lia.
Qed.

(** ** Closing and opening *)

Lemma encodable_file g : encodable g = true -> file_ok (map_rings file_ring g) = true.
Proof.
  assert (Hp : forall ps, pts_ok ps = true -> file_pts ps = true).
  { intros ps H. unfold pts_ok in H. apply andb_true_iff in H as [H1 H2].
    unfold file_pts. rewrite H2, andb_true_r. unfold count_ok, file_count in *. lia. }
  assert (Hr : forall rs, count_ok rs && forallb pts_ok rs = true ->
     file_count (map file_ring rs) && forallb file_pts (map file_ring rs) = true).
  { intros rs H. apply andb_true_iff in H as [H1 H2]. rewrite forallb_forall in H2.
    apply andb_true_iff. split.
    - unfold count_ok, file_count in *. rewrite map_length. lia.
    - apply forallb_forall. intros r Hr. apply in_map_iff in Hr as (r0 & <- & Hr0).
      specialize (H2 r0 Hr0). apply pts_ok_inv in H2 as [H2 H3].
      unfold file_pts. apply andb_true_iff. rewrite file_ring_written. split.
      + unfold file_count. pose proof (written_ring_len r0). lia.
      + apply forallb_forall. intros p Hp0. apply H3. now apply written_ring_in. }
  induction g as [p|ps|ps|ls|rs|pls|gs IH|] using geom_ind'; cbn [encodable map_rings file_ok];
    intros H; auto.
  - apply andb_true_iff in H as [H1 H2]. rewrite forallb_forall in H2. apply andb_true_iff. split.
    + unfold count_ok, file_count in *. lia.
    + apply forallb_forall. intros; apply Hp, H2; assumption.
  - apply andb_true_iff in H as [H1 H2]. rewrite forallb_forall in H2. apply andb_true_iff. split.
    + unfold count_ok, file_count in *. rewrite map_length. lia.
    + apply forallb_forall. intros x Hx. apply in_map_iff in Hx as (x0 & <- & Hx0). apply Hr, H2, Hx0.
  - apply andb_true_iff in H as [H1 H2]. rewrite forallb_forall in H2. apply andb_true_iff.
    rewrite Forall_forall in IH. split.
    + unfold count_ok, file_count in *. rewrite map_length. lia.
    + apply forallb_forall. intros x Hx. apply in_map_iff in Hx as (x0 & <- & Hx0).
      apply IH; [exact Hx0 | now apply H2].
Qed.

(** A written ring has equal ends, unless its first point is NaN. *)
Lemma file_ring_closed p tl :
  exists q, last (file_ring (p :: tl)) p = q /\ hd_error (file_ring (p :: tl)) = Some p /\
            (pt_isnan p = false -> pt_eqb p q = true).
Proof.
  unfold file_ring. destruct (pt_eqb p (last (p :: tl) p)) eqn:E.
  - eexists. split; [reflexivity|]. split; [reflexivity|]. auto.
  - exists p. rewrite last_last. split; [reflexivity|]. split; [reflexivity|].
    intros H. rewrite pt_eqb_refl, H. reflexivity.
Qed.

Lemma file_ring_of_closed r :
  ring_open r = true -> (length r <> 1)%nat -> file_ring (close_ring r) = file_ring r.
Proof.
  intros Ho Hl. rewrite !file_ring_written. apply written_close; [exact Ho|].
  destruct r as [|p [|q tl]]; cbn in *; auto.
Qed.

Lemma wkb_encode_close bo rs :
  count_ok rs = true -> forallb pts_ok rs = true ->
  forallb (fun r => count_ok (close_ring r)) rs = true ->
  forallb ring_open rs = true -> forallb (fun r => negb (length r =? 1)%nat) rs = true ->
  encode_bytes bo (GPolygon (map close_ring rs)) = encode_bytes bo (GPolygon rs).
Proof.
  intros Hc Hp Hc' Ho Hl.
  rewrite forallb_forall in Hp, Hc', Ho, Hl.
  rewrite !wkb_encode_wire; cbn [encodable].
  - cbn [map_rings]. f_equal. f_equal. f_equal. rewrite map_map. apply map_ext_in.
    intros r Hr. apply file_ring_of_closed; [now apply Ho|]. specialize (Hl r Hr). lia.
  - apply andb_true_iff. split; [exact Hc|]. now apply forallb_forall.
  - apply andb_true_iff. split.
    + unfold count_ok in *. now rewrite map_length.
    + apply forallb_forall. intros r Hr. apply in_map_iff in Hr as (r0 & <- & Hr0).
      unfold pts_ok. rewrite (Hc' r0 Hr0). specialize (Hp r0 Hr0). apply pts_ok_inv in Hp as [_ Hp].
      apply forallb_forall. intros p Hin. apply Hp. destruct r0 as [|p0 tl]; [exact Hin|].
      cbn [close_ring] in Hin. rewrite in_app_iff in Hin. cbn in Hin. destruct Hin as [|[<-|[]]]; auto.
      now left.
Qed.
