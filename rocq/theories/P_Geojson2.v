(** Proofs about GeoJSON: features, null members, the caller's memory. *)
From Coq Require Import String ZArith Bool List Lia ZifyBool.
From Verif Require Import Base_F64 Base_Geom Base_Res M_Cmp M_Wkt M_Strconv P_F64Flocq P_F64
  P_Extent2 P_Strconv3 M_Wkt M_Geojson M_GeojsonAlias S_Geojson P_GeojsonNum P_Geojson.
Import ListNotations.
Open Scope Z_scope.

(** ** Sizes *)
Lemma sum_in' (l : list nat) n : In n l -> (n <= list_sum l)%nat.
Proof. intros H. induction l as [|x l IH]; [destruct H|]. change (list_sum (x :: l)) with (x + list_sum l)%nat. destruct H as [->|H]; [lia|]. apply IH in H. lia. Qed.
Lemma no_size' j : ~ (json_size j <= 0)%nat.
Proof. destruct j; cbn [json_size]; lia. Qed.
Lemma list_sum_app a b : list_sum (a ++ b) = (list_sum a + list_sum b)%nat.
Proof. unfold list_sum. induction a as [|x a IH]; [reflexivity|]. cbn [app fold_right]. rewrite IH. lia. Qed.
Lemma member_size k v ms : In (k, v) ms -> (json_size v < json_size (JObj ms))%nat.
Proof.
  intros I. assert (H : (json_size v <= list_sum (map (fun kv => json_size (snd kv)) ms))%nat).
  { apply sum_in'. change (json_size v) with ((fun kv : list Z * json => json_size (snd kv)) (k, v)). now apply in_map. }
  change (json_size (JObj ms)) with (S (list_sum (map (fun kv => json_size (snd kv)) ms))). lia.
Qed.
Lemma element_size v l : In v l -> (json_size v < json_size (JArr l))%nat.
Proof.
  intros I. assert (H : (json_size v <= list_sum (map json_size l))%nat) by (apply sum_in'; now apply in_map).
  change (json_size (JArr l)) with (S (list_sum (map json_size l))). lia.
Qed.


(** ** Features *)
Section Feat.
  Variable fmt : f64 -> list Z.
  Variable coerce : list Z -> list Z.

  Definition jfeature (f : feature) : json :=
    let '(id, g, props) := f in
    typed "Feature"
          ((match id with Some n => [(key "id", JNum (fmt_uint n))] | None => [] end) ++
           [(key "geometry", jgeom fmt g); (key "properties", jval fmt coerce (PMap props))]).

  (** Everything but the absence of nil slices. *)
  Definition written_ok (f : feature) : Prop :=
    let '(id, g, props) := f in
    (match id with Some n => 0 <= n < 2 ^ 64 | None => True end) /\
    supported g /\ Forall (good fmt) (coordinates g) /\ plain fmt coerce (PMap props).

  Lemma enc_feature_ok f : written_ok f -> enc_feature fmt coerce f = Ok (jfeature f).
  Proof.
    destruct f as [[id g] props]. intros (_ & S & G & P). unfold enc_feature.
    rewrite enc_geometry_ok by assumption. cbn [bind]. unfold enc_props. rewrite enc_pval_ok by assumption. reflexivity.
  Qed.

  Lemma dec_feature_geo geo id g props g' : written_ok (id, g, props) ->
    geo (jgeom fmt g) = Ok g' ->
    dec_feature geo (jfeature (id, g, props)) = Ok (id, g', reread_props props).
  Proof.
    intros (I & S & G & P) E. pose proof (dec_props_ok fmt coerce props P) as D.
    assert (E2 : forall idr, dec_members geo [(key "geometry", jgeom fmt g); (key "properties", jval fmt coerce (PMap props))] (idr, VNil, None) false
       = Ok (idr, g', reread_props props)).
    { intros idr. cbn [dec_members].
      change (named "id" (key "geometry")) with false. change (named "geometry" (key "geometry")) with true. cbv iota.
      rewrite E. cbn [bind].
      change (named "id" (key "properties")) with false. change (named "geometry" (key "properties")) with false.
      change (named "properties" (key "properties")) with true. cbv iota. rewrite D. reflexivity. }
    destruct id as [n|].
    - change (dec_feature geo (jfeature (Some n, g, props))) with
        (match dec_id (JNum (fmt_uint n)) with
         | Some id' => dec_members geo [(key "geometry", jgeom fmt g); (key "properties", jval fmt coerce (PMap props))] (id', VNil, None) false
         | None => dec_members geo [(key "geometry", jgeom fmt g); (key "properties", jval fmt coerce (PMap props))] (None, VNil, None) true end).
      cbn [dec_id]. rewrite parse_uint_fmt by assumption. apply E2.
    - exact (E2 None).
  Qed.

  Lemma dec_feature_panic geo id g props : geo (jgeom fmt g) = Panic ->
    dec_feature geo (jfeature (id, g, props)) = Panic.
  Proof.
    intros E.
    assert (E2 : forall idr bad, dec_members geo [(key "geometry", jgeom fmt g); (key "properties", jval fmt coerce (PMap props))] (idr, VNil, None) bad
       = Panic).
    { intros idr bad. cbn [dec_members].
      change (named "id" (key "geometry")) with false. change (named "geometry" (key "geometry")) with true. cbv iota.
      rewrite E. reflexivity. }
    destruct id as [n|].
    - change (dec_feature geo (jfeature (Some n, g, props))) with
        (match dec_id (JNum (fmt_uint n)) with
         | Some id' => dec_members geo [(key "geometry", jgeom fmt g); (key "properties", jval fmt coerce (PMap props))] (id', VNil, None) false
         | None => dec_members geo [(key "geometry", jgeom fmt g); (key "properties", jval fmt coerce (PMap props))] (None, VNil, None) true end).
      destruct (dec_id _); apply E2.
    - exact (E2 None false).
  Qed.

  Lemma jfeature_size f : (json_size (jgeom fmt (snd (fst f))) < json_size (jfeature f))%nat.
  Proof.
    destruct f as [[id g] props]. cbn [fst snd jfeature]. apply (member_size (key "geometry")).
    right. destruct id; [right|]; now left.
  Qed.

  Lemma unmarshal_feature f : unmarshal (jfeature f) =
    bind (dec_feature (dec_geometry (S (json_size (jfeature f)))) (jfeature f)) (fun f => Ok (VFeature f)).
  Proof. destruct f as [[[n|] g] props]; reflexivity. Qed.

  Lemma good_written f : good_feature fmt coerce f -> written_ok f.
  Proof. destruct f as [[id g] props]. intros (A & B & C & D & E). repeat split; auto. Qed.

  Theorem feature_roundtrip f : good_feature fmt coerce f ->
    exists j, marshal fmt coerce (VFeature f) = Ok j /\ unmarshal j = Ok (VFeature (returned f)).
  Proof.
    intros G. pose proof (good_written f G) as W. exists (jfeature f). split; [now apply enc_feature_ok|].
    rewrite unmarshal_feature. pose proof (jfeature_size f) as Sz. destruct f as [[id g] props].
    destruct G as (A & B & C & D & E). cbn [fst snd] in Sz.
    rewrite (dec_feature_geo _ id g props (closed g)); [reflexivity|assumption|].
    apply dec_geometry_ok; auto. lia.
  Qed.

  Lemma features_roundtrip (fs : list feature) : Forall (good_feature fmt coerce) fs ->
    exists j, marshal fmt coerce (VFC (Some fs)) = Ok j /\ unmarshal j = Ok (VFC (Some (map returned fs))).
  Proof.
    intros G. set (j := typed "FeatureCollection" [(key "features", JArr (map jfeature fs))]). exists j. split.
    - cbn [marshal]. unfold enc_fc, enc_slice. rewrite (map_m_ok _ jfeature); [reflexivity|].
      intros f I. apply enc_feature_ok. apply good_written. now eapply Forall_forall in G; [|exact I].
    - change (unmarshal j) with
        (bind (bind (dec_slice (dec_feature (dec_geometry (S (json_size j)))) (JArr (map jfeature fs))) (fun fs' => Ok fs'))
          (fun fs => Ok (VFC fs))).
      assert (B : forall f, In f fs -> (json_size (jfeature f) < json_size j)%nat).
      { intros f I. apply Nat.lt_trans with (json_size (JArr (map jfeature fs))).
        - apply element_size. now apply in_map.
        - apply (member_size (key "features")). right. now left. }
      generalize dependent (json_size j). intros n B. clear j.
      assert (E : map_m (dec_feature (dec_geometry (S n))) (map jfeature fs) = Ok (map returned fs)).
      { induction fs as [|f fs IH]; [reflexivity|]. inversion G; subst. cbn [map map_m].
        pose proof (good_written f H1) as W. pose proof (jfeature_size f) as Sz. pose proof (B f (or_introl eq_refl)) as Bf.
        destruct f as [[id g] props]. destruct H1 as (A & Su & C & D & Pl). cbn [fst snd] in Sz.
        rewrite (dec_feature_geo _ id g props (closed g)); [|assumption|apply dec_geometry_ok; auto; lia].
        cbn [bind]. rewrite IH; [reflexivity|assumption|]. intros f I. apply B. now right. }
      cbn [dec_slice]. rewrite E. reflexivity.
  Qed.

  (** ** What cannot be written *)
  Lemma bind_ok {A B} (m : res gj_err A) (f : A -> res gj_err B) b : bind m f = Ok b -> exists a, m = Ok a /\ f a = Ok b.
  Proof. destruct m; cbn [bind]; try discriminate. eauto. Qed.

  Lemma enc_pt_inv p j : f64_wf (fst p) = true -> f64_wf (snd p) = true -> enc_pt fmt p = Ok j ->
    f64_finite (fst p) = true /\ f64_finite (snd p) = true.
  Proof.
    intros W1 W2 H. apply bind_ok in H. destruct H as (a & E1 & H). apply bind_ok in H. destruct H as (b & E2 & _).
    split; eapply enc_finite; eauto.
  Qed.
  Lemma enc_slice_inv {A} (enc : A -> res gj_err json) s j : enc_slice enc s = Ok j ->
    forall x, In x (all s) -> exists y, enc x = Ok y.
  Proof.
    destruct s as [l|]; [|intros _ x []]. intros H. apply bind_ok in H. destruct H as (js & E & _). now apply (map_m_inv _ _ js).
  Qed.
  Local Notation fin := (fun w => f64_finite w = true).
  Local Notation wf := (fun w => f64_wf w = true).
  Lemma pts_finite ps : Forall wf (pts_coords ps) -> (forall p, In p ps -> exists y, enc_pt fmt p = Ok y) ->
    Forall fin (pts_coords ps).
  Proof.
    unfold pts_coords. rewrite !Forall_flat_map. intros W H. apply Forall_forall. intros p I.
    eapply Forall_forall in W; [|exact I]. inversion W as [|? ? W1 W2]; subst. inversion W2; subst.
    destruct (H p I) as (y & E). apply enc_pt_inv in E; auto. destruct E. repeat constructor; auto.
  Qed.
  Lemma ring_in r p : In p r -> In p (closed_ring r).
  Proof.
    destruct r as [|q r]; [easy|]. cbn [closed_ring]. intros I. destruct (pt_eq q (last r q)); [exact I|].
    apply in_app_iff. now left.
  Qed.
  Lemma rings_finite rs : Forall wf (flat_map (fun r => pts_coords (all r)) rs) ->
    (forall r, In r rs -> forall p, In p (all r) -> exists y, enc_pt fmt p = Ok y) ->
    Forall fin (flat_map (fun r => pts_coords (all r)) rs).
  Proof.
    rewrite !Forall_flat_map. intros W H. apply Forall_forall. intros r I.
    eapply Forall_forall in W; [|exact I]. apply pts_finite; [assumption|]. eauto.
  Qed.
  Lemma polys_finite pls : Forall wf (flat_map (fun pl => flat_map (fun r => pts_coords (all r)) (all pl)) pls) ->
    (forall pl, In pl pls -> forall r, In r (all pl) -> forall p, In p (all r) -> exists y, enc_pt fmt p = Ok y) ->
    Forall fin (flat_map (fun pl => flat_map (fun r => pts_coords (all r)) (all pl)) pls).
  Proof.
    rewrite !Forall_flat_map. intros W H. apply Forall_forall. intros r I.
    eapply Forall_forall in W; [|exact I]. apply rings_finite; [assumption|]. eauto.
  Qed.
  Lemma closed_enc rs j : enc_slice (enc_slice (enc_pt fmt)) (close_polygon rs) = Ok j ->
    forall r, In r (all rs) -> forall p, In p (all r) -> exists y, enc_pt fmt p = Ok y.
  Proof.
    intros H r I p Ip. destruct rs as [l|]; [|destruct I]. cbn [all] in I.
    assert (I2 : In (close_ring r) (all (close_polygon (Some l)))) by (cbn [close_polygon option_map all]; now apply in_map).
    destruct (enc_slice_inv _ _ _ H _ I2) as (y & E). apply (enc_slice_inv _ _ _ E).
    rewrite close_ring_eq. destruct r as [r|]; [|destruct Ip]. cbn [option_map all]. now apply ring_in.
  Qed.

  Theorem written_supported g j : Forall wf (coordinates g) -> enc_geometry fmt g = Ok j ->
    supported g /\ Forall fin (coordinates g).
  Proof.
    revert j. induction g as [p|s|s|s|s|s| |l IH|f|f| |] using gj_ind'; intros j W H; cbn [enc_geometry coordinates] in *;
      try discriminate.
    - split; [constructor|]. apply bind_ok in H. destruct H as (c & E & _). apply pts_finite; [assumption|].
      intros q [<-|[]]. eauto.
    - split; [constructor|]. apply bind_ok in H. destruct H as (c & E & _). apply pts_finite; [assumption|].
      now apply (enc_slice_inv _ _ c).
    - split; [constructor|]. apply bind_ok in H. destruct H as (c & E & _). apply pts_finite; [assumption|].
      now apply (enc_slice_inv _ _ c).
    - split; [constructor|]. apply bind_ok in H. destruct H as (c & E & _). apply rings_finite; [assumption|].
      intros r I. destruct (enc_slice_inv _ _ c E r I) as (y & E2). now apply (enc_slice_inv _ _ y).
    - split; [constructor|]. apply bind_ok in H. destruct H as (c & E & _). apply rings_finite; [assumption|].
      now apply (closed_enc _ c).
    - split; [constructor|]. apply bind_ok in H. destruct H as (c & E & _). apply polys_finite; [assumption|].
      intros pl I. destruct s as [l|]; [|destruct I]. cbn [all option_map] in *.
      assert (I2 : In (close_polygon pl) (all (Some (map close_polygon l)))) by (cbn [all]; now apply in_map).
      destruct (enc_slice_inv _ _ c E _ I2) as (y & E2). now apply (closed_enc _ y).
    - split; constructor.
    - destruct l as [|g1 gs]; [split; repeat constructor|].
      change (bind (map_m (enc_geometry fmt) (g1 :: gs))
        (fun js => Ok (typed "GeometryCollection" [(key "geometries", JArr js)])) = Ok j) in H.
      apply bind_ok in H. destruct H as (js & E & _).
      rewrite Forall_flat_map in W.
      assert (A : forall g, In g (g1 :: gs) -> supported g /\ Forall fin (coordinates g)).
      { intros g I. destruct (map_m_inv _ _ _ E g I) as (y & Ey). eapply Forall_forall in IH; [|exact I].
        apply (IH y); [|exact Ey]. now eapply Forall_forall in W; [|exact I]. }
      split.
      + constructor. apply Forall_forall. intros g I. now apply A.
      + rewrite Forall_flat_map. apply Forall_forall. intros g I. now apply A.
  Qed.

  (** ** Nil slices *)
  Lemma no_nil_dec g : supported g -> no_nil g \/ ~ no_nil g.
  Proof.
    induction g as [p|s|s|s|s|s| |l IH|f|f| |] using gj_ind'; intros S; inversion S; subst;
      try (destruct s; [left; constructor|right; intros X; inversion X]); try (left; constructor; fail).
    assert (D : Forall no_nil l \/ ~ Forall no_nil l).
    { clear S. induction l as [|x l IHl]; [left; constructor|]. inversion IH as [|? ? I1 I2]; inversion H0 as [|? ? S1 S2]; subst.
      destruct (I1 S1) as [A|A]; [|right; intros X; inversion X; auto].
      destruct (IHl I2 S2) as [B|B]; [left; constructor; auto|right; intros X; inversion X; auto]. }
    destruct D as [D|D]; [left; now constructor|right; intros X; inversion X; auto].
  Qed.

  Lemma nil_panics g : supported g -> ~ no_nil g -> Forall (good fmt) (coordinates g) ->
    forall n, (json_size (jgeom fmt g) <= n)%nat -> dec_geometry n (jgeom fmt g) = Panic.
  Proof.
    induction g as [p|s|s|s|s|s| |l IH|f|f| |] using gj_ind'; intros S N G n Hn; inversion S; subst;
      cbn [coordinates] in *; (destruct n as [|n]; [exfalso; eapply no_size'; exact Hn|]); cbn [jgeom] in *;
      try (exfalso; apply N; constructor; fail);
      try (destruct s; [exfalso; apply N; constructor|reflexivity]).
    destruct l as [|g1 gs]; [exfalso; apply N; constructor; constructor|].
    set (l := g1 :: gs) in *.
    change (dec_geometry (Datatypes.S n) (typed "GeometryCollection" [(key "geometries", JArr (map (jgeom fmt) l))]))
      with (bind (map_m (fun v => match v with JNull => Panic | _ => dec_geometry n v end) (map (jgeom fmt) l))
              (fun gs => Ok (VColl (Some gs)))).
    assert (E : map_m (fun v => match v with JNull => Panic | _ => dec_geometry n v end) (map (jgeom fmt) l) = Panic);
      [|now rewrite E].
    assert (B : forall x, In x l -> (json_size (jgeom fmt x) <= n)%nat).
    { intros x I. assert (H1 : (json_size (jgeom fmt x) < json_size (JArr (map (jgeom fmt) l)))%nat)
        by (apply element_size; now apply in_map).
      assert (H2 : (json_size (JArr (map (jgeom fmt) l)) < json_size (typed "GeometryCollection" [(key "geometries", JArr (map (jgeom fmt) l))]))%nat)
        by (apply (member_size (key "geometries")); right; now left).
      assert (Hn' : (json_size (typed "GeometryCollection" [(key "geometries", JArr (map (jgeom fmt) l))]) <= Datatypes.S n)%nat) by exact Hn.
      lia. }
    assert (N' : ~ Forall no_nil l) by (intros X; apply N; now constructor).
    clearbody l. clear Hn S N. induction l as [|x l IHl]; [exfalso; apply N'; constructor|].
    inversion IH as [|? ? I1 I2]; inversion H0 as [|? ? S1 S2]; subst.
    cbn [flat_map] in G. apply Forall_app in G. destruct G as [G1 G2].
    cbn [map map_m]. pose proof (B x (or_introl eq_refl)) as Bx.
    pose proof (jgeom_not_null fmt x S1) as NN.
    assert (Em : forall r, dec_geometry n (jgeom fmt x) = r ->
       match jgeom fmt x with JNull => Panic | _ => dec_geometry n (jgeom fmt x) end = r).
    { intros r <-. destruct (jgeom fmt x); [easy|..]; reflexivity. }
    destruct (no_nil_dec x S1) as [Nx|Nx].
    - rewrite (Em (Ok (closed x))) by (apply dec_geometry_ok; auto). cbn [bind]. rewrite IHl; auto.
      intros y I. apply B. now right.
    - rewrite (Em Panic) by (apply I1; auto). reflexivity.
  Qed.

  Theorem nil_feature_panics f : written_ok f -> ~ no_nil (snd (fst f)) ->
    exists j, marshal fmt coerce (VFeature f) = Ok j /\ unmarshal j = Panic.
  Proof.
    intros W N. exists (jfeature f). split; [now apply enc_feature_ok|].
    rewrite unmarshal_feature. pose proof (jfeature_size f) as Sz. destruct f as [[id g] props].
    destruct W as (A & B & C & D). cbn [fst snd] in *.
    rewrite dec_feature_panic; [reflexivity|]. apply nil_panics; auto. lia.
  Qed.
End Feat.

(** ** Panics of the decoder *)
Lemma get_in k ms v : get k ms = Some v -> In (k, v) ms.
Proof.
  induction ms as [|[k' v'] ms IH]; cbn [get]; [discriminate|].
  destruct (get k ms) as [w|] eqn:E; [intros [= <-]; right; now apply IH|].
  destruct (bytes_eq k k') eqn:B; [|discriminate]. intros [= <-]. apply bytes_eq_iff in B. subst. now left.
Qed.
(** A panic ([true]) or [Fuel]. *)
Definition bad {A} (b : bool) : res gj_err A := if b then Panic else Err Fuel.
Lemma bind_bad {A B} (m : res gj_err A) (f : A -> res gj_err B) b : bind m f = bad b -> m = bad b \/ exists a, m = Ok a /\ f a = bad b.
Proof.
  destruct m; cbn [bind]; [eauto| |]; destruct b; cbn [bad]; try discriminate; try (intros [= ->]); auto.
Qed.
Lemma bind_last {A B} (m : res gj_err A) (f : A -> B) b : bind m (fun a => Ok (f a)) = bad b -> m = bad b.
Proof. intros H. apply bind_bad in H. destruct H as [H|(a & _ & H)]; [assumption|destruct b; discriminate]. Qed.
Lemma map_m_bad {A B} (f : A -> res gj_err B) l b : map_m f l = bad b -> exists x, In x l /\ f x = bad b.
Proof.
  induction l as [|x l IH]; [destruct b; discriminate|]. cbn [map_m]. intros H. apply bind_bad in H.
  destruct H as [H|(y & _ & H)]; [exists x; split; [now left|assumption]|]. apply bind_last in H.
  destruct (IH H) as (z & I & E). exists z. split; [now right|assumption].
Qed.

(** No panic, no [Fuel]. *)
Definition calm {A} (r : res gj_err A) : Prop := forall b, r <> bad b.
Lemma calm_ok {A} (x : A) : calm (Ok x). Proof. intros []; discriminate. Qed.
Lemma calm_mismatch {A} : calm (A := A) (Err Mismatch). Proof. intros []; discriminate. Qed.
Lemma calm_bind {A B} (m : res gj_err A) (f : A -> res gj_err B) : calm m -> (forall a, calm (f a)) -> calm (bind m f).
Proof. intros H1 H b E. apply bind_bad in E. destruct E as [E|(a & _ & E)]; [exact (H1 b E)|exact (H a b E)]. Qed.
Lemma calm_num j : calm (dec_num j).
Proof. destruct j; cbn; try (apply calm_ok || apply calm_mismatch). destruct (parse_float lit); (apply calm_ok || apply calm_mismatch). Qed.
Lemma calm_pt j : calm (dec_pt j).
Proof.
  destruct j as [| | | |[|x [|y l]]|]; try (apply calm_ok || apply calm_mismatch).
  - cbn [dec_pt]. apply calm_bind; [apply calm_num|]. intros. apply calm_ok.
  - cbn [dec_pt]. apply calm_bind; [apply calm_num|]. intros a. apply calm_bind; [apply calm_num|]. intros. apply calm_ok.
Qed.
Lemma calm_slice {A} (dec : json -> res gj_err A) : (forall x, calm (dec x)) -> forall j, calm (dec_slice dec j).
Proof.
  intros H j. destruct j; cbn [dec_slice]; try (apply calm_ok || apply calm_mismatch). apply calm_bind; [|intros; apply calm_ok].
  intros b E. apply map_m_bad in E. destruct E as (x & _ & E). exact (H x b E).
Qed.
Lemma calm_type j : calm (dec_type j).
Proof. destruct j; (apply calm_ok || apply calm_mismatch). Qed.

Lemma field_bad {A} k ms (dec : json -> res gj_err A) b : (forall x, calm (dec x)) -> field k ms dec = bad b ->
  b = true /\ In (key k, JNull) ms.
Proof.
  intros C. unfold field. destruct (get (key k) ms) as [v|] eqn:G; [|destruct b; discriminate]. apply get_in in G.
  destruct v; intros H; try (exfalso; exact (C _ _ H)). destruct b; [auto|discriminate].
Qed.

Lemma dec_members_bad geo b ms : forall f e, dec_members geo ms f e = bad b -> exists k v, In (k, v) ms /\ geo v = bad b.
Proof.
  induction ms as [|[k v] ms IH]; intros [[id g] props] e; cbn [dec_members]; [destruct e, b; discriminate|].
  assert (Tl : forall f e, dec_members geo ms f e = bad b -> exists k0 v0, In (k0, v0) ((k, v) :: ms) /\ geo v0 = bad b).
  { intros f' b' H. destruct (IH _ _ H) as (k0 & v0 & I & E). exists k0, v0. split; [now right|assumption]. }
  destruct (named "id" k); [destruct (dec_id v); apply Tl|].
  destruct (named "geometry" k).
  - intros H. apply bind_bad in H. destruct H as [H|(g' & _ & H)]; [|now apply Tl in H]. exists k, v. split; [now left|assumption].
  - destruct (named "properties" k); [destruct (dec_props props v); apply Tl|apply Tl].
Qed.

(** The value given to UnmarshalJSON of a geometry lies below the one read. *)
Inductive below (v : json) : json -> Prop :=
| b_member k ms : In (k, v) ms -> below v (JObj ms)
| b_deep k ms x l : In (k, JArr l) ms -> In x l -> below v x -> below v (JObj ms).

Lemma dec_feature_bad geo j b : dec_feature geo j = bad b -> exists v, below v j /\ geo v = bad b.
Proof.
  intros H. destruct j; cbn [dec_feature] in H; try (destruct b; discriminate).
  apply dec_members_bad in H. destruct H as (k & v & I & E). exists v. split; [now apply (b_member _ k)|auto].
Qed.
Lemma dec_collection_bad geo b ms : forall fs, dec_collection geo ms fs = bad b ->
  exists k l x v, In (k, JArr l) ms /\ In x l /\ below v x /\ geo v = bad b.
Proof.
  induction ms as [|[k v] ms IH]; intros fs H; cbn [dec_collection] in H; [destruct b; discriminate|].
  assert (Tl : forall fs, dec_collection geo ms fs = bad b -> exists k0 l x v0, In (k0, JArr l) ((k, v) :: ms) /\ In x l /\ below v0 x
     /\ geo v0 = bad b).
  { intros fs' H'. destruct (IH _ H') as (k0 & l & x & v0 & I & I2 & B & E). exists k0, l, x, v0. split; [now right|auto]. }
  destruct (named "features" k); [|now apply (Tl fs)].
  apply bind_bad in H. destruct H as [E|(a & _ & H)]; [|now apply (Tl a)].
  destruct v as [| | | |l|]; cbn [dec_slice] in E; try (destruct b; discriminate).
  apply bind_last in E. apply map_m_bad in E. destruct E as (x & I & E).
  destruct (dec_feature_bad geo x b E) as (v0 & B & E3). exists k, l, x, v0. split; [now left|auto].
Qed.
Lemma dec_fc_bad geo j b : dec_fc geo j = bad b -> exists v, below v j /\ geo v = bad b.
Proof.
  intros H. destruct j; cbn [dec_fc] in H; try (destruct b; discriminate).
  destruct (dec_collection_bad _ _ _ _ H) as (k & l0 & x & v & I & I2 & B & E).
  exists v. split; [|assumption]. now apply (b_deep _ k _ x l0).
Qed.

Lemma below_occurs v j : below v j -> occurs v j.
Proof.
  intros B. induction B as [k ms I|k ms x l I I2 B IH].
  - apply (o_obj _ _ k v); [assumption|constructor].
  - apply (o_obj _ _ k (JArr l)); [assumption|]. now apply (o_arr _ _ x).
Qed.
Lemma below_size v j : below v j -> (json_size v < json_size j)%nat.
Proof.
  intros B. induction B as [k ms I|k ms x l I I2 B IH].
  - now apply (member_size k).
  - pose proof (member_size _ _ _ I). pose proof (element_size _ _ I2). lia.
Qed.
Lemma occurs_trans a b c : occurs a b -> occurs b c -> occurs a c.
Proof.
  intros A B. induction B as [|l x I B IH|ms k x I B IH]; [assumption| |].
  - apply (o_arr _ _ x); auto.
  - apply (o_obj _ _ k x); auto.
Qed.
Lemma null_occurs v j : occurs v j -> has_null_member v -> has_null_member j.
Proof. intros B (ms & O & H). exists ms. split; [|assumption]. now apply (occurs_trans _ v). Qed.

(** A null member, or too little fuel. *)
Definition reason (b : bool) (n : nat) (j : json) : Prop := if b then has_null_member j else (n < json_size j)%nat.
Lemma reason_below b n v j : below v j -> reason b n v -> reason b (S n) j.
Proof.
  intros B R. destruct b; cbn [reason] in *.
  - apply (null_occurs v); [now apply below_occurs|assumption].
  - pose proof (below_size _ _ B). lia.
Qed.

Lemma dec_geometry_bad n : forall j b, dec_geometry n j = bad b -> reason b n j.
Proof.
  induction n as [|n IH]; intros j b H.
  { cbn in H. destruct b; [discriminate|]. cbn. destruct j; cbn [json_size]; lia. }
  cbn [dec_geometry] in H. destruct j as [| | | | |ms]; try (destruct b; discriminate).
  assert (Here : b = true -> (In (key "type", JNull) ms \/ In (key "coordinates", JNull) ms \/ In (key "geometries", JNull) ms \/
     exists l, In (key "geometries", JArr l) ms /\ In JNull l) -> reason b (S n) (JObj ms)).
  { intros -> X. exists ms. split; [constructor|exact X]. }
  assert (Co : forall A (dec : json -> res gj_err A) (f : A -> gj), (forall x, calm (dec x)) ->
     bind (field "coordinates" ms dec) (fun c => Ok (f c)) = bad b -> reason b (S n) (JObj ms)).
  { intros A dec f C E. apply bind_last in E. apply field_bad in E; [|assumption]. apply Here; tauto. }
  apply bind_bad in H. destruct H as [H|(t & _ & H)].
  { apply field_bad in H; [|apply calm_type]. apply Here; tauto. }
  destruct (bytes_eq t (key "Point")); [revert H; apply Co; apply calm_pt|].
  destruct (bytes_eq t (key "Polygon")); [revert H; apply Co; apply calm_slice, calm_slice, calm_pt|].
  destruct (bytes_eq t (key "LineString")); [revert H; apply Co; apply calm_slice, calm_pt|].
  destruct (bytes_eq t (key "MultiPoint")); [revert H; apply Co; apply calm_slice, calm_pt|].
  destruct (bytes_eq t (key "MultiLineString")); [revert H; apply Co; apply calm_slice, calm_slice, calm_pt|].
  destruct (bytes_eq t (key "MultiPolygon")); [revert H; apply Co; apply calm_slice, calm_slice, calm_slice, calm_pt|].
  destruct (bytes_eq t (key "GeometryCollection")).
  { destruct (get (key "geometries") ms) as [v|] eqn:G; [|destruct b; discriminate]. apply get_in in G.
    destruct v as [| | | |l|]; try (destruct b; discriminate).
    - destruct b; [|discriminate]. apply Here; auto.
    - apply bind_last in H. apply map_m_bad in H. destruct H as (x & I & E).
      assert (Hx : x = JNull /\ b = true \/ dec_geometry n x = bad b) by (destruct x; auto; destruct b; [auto|discriminate]).
      destruct Hx as [[-> ->]|Hx]; [apply Here; eauto 7|].
      pose proof (IH x b Hx) as R. pose proof (element_size _ _ I). pose proof (member_size _ _ _ G).
      destruct b; cbn [reason] in *.
      + revert R. apply null_occurs. apply (o_obj _ _ (key "geometries") (JArr l)); [assumption|].
        apply (o_arr _ _ x); [assumption|constructor].
      + lia. }
  destruct (bytes_eq t (key "Feature")).
  { apply bind_last in H. apply dec_feature_bad in H. destruct H as (v & B & E). apply (reason_below b n v); auto. }
  destruct (bytes_eq t (key "FeatureCollection")).
  { apply bind_last in H. apply dec_fc_bad in H. destruct H as (v & B & E). apply (reason_below b n v); auto. }
  destruct b; discriminate.
Qed.

Lemma top_calm ms : forall t, calm (top_type ms t).
Proof.
  induction ms as [|[k v] ms IH]; intros t; cbn [top_type]; [apply calm_ok|].
  destruct (named "type" k); [|apply IH]. destruct v; try apply IH; apply calm_mismatch.
Qed.

Lemma unmarshal_bad j b : unmarshal j = bad b -> b = true /\ has_null_member j.
Proof.
  intros H. destruct j as [| | | | |ms]; cbn [unmarshal] in H; try (destruct b; discriminate).
  apply bind_bad in H. destruct H as [H|(t & _ & H)]; [exfalso; exact (top_calm _ _ _ H)|].
  set (n := S (json_size (JObj ms))) in *. cbv zeta in H.
  assert (Hb : forall v, below v (JObj ms) -> dec_geometry n v = bad b -> b = true /\ has_null_member (JObj ms)).
  { intros v B E. apply dec_geometry_bad in E. pose proof (below_size _ _ B).
    destruct b; cbn [reason] in E; [|exfalso; unfold n in *; lia]. split; [reflexivity|].
    apply (null_occurs v); [now apply below_occurs|assumption]. }
  destruct (named "feature" t).
  { apply bind_last in H. apply dec_feature_bad in H. destruct H as (v & B & E). now apply (Hb v). }
  destruct (named "featurecollection" t).
  { apply bind_last in H. apply dec_fc_bad in H. destruct H as (v & B & E). now apply (Hb v). }
  destruct b; discriminate.
Qed.

Theorem unmarshal_panics j : unmarshal j = Panic -> has_null_member j.
Proof. intros H. now apply (unmarshal_bad j true). Qed.
Theorem unmarshal_fuel j : unmarshal j <> Err Fuel.
Proof. intros H. destruct (unmarshal_bad j false H). discriminate. Qed.

(** ** Corollaries and examples *)
Theorem geometry_roundtrip fmt coerce g : good_feature fmt coerce (None, g, None) ->
  exists j, marshal fmt coerce g = Ok j /\ unmarshal j = Ok (VFeature (None, closed g, None)).
Proof.
  intros G. destruct (feature_roundtrip fmt coerce _ G) as (j & E & D). exists j. split; [|exact D].
  rewrite <- E. destruct G as (_ & S & _). inversion S; reflexivity.
Qed.

Theorem null_panics :
  unmarshal (typed "Feature" [(key "geometry", typed "Point" [(key "coordinates", JNull)])]) = Panic /\
  unmarshal (typed "Feature" [(key "geometry", JObj [(key "type", JNull)])]) = Panic /\
  unmarshal (typed "Feature" [(key "geometry", typed "GeometryCollection" [(key "geometries", JNull)])]) = Panic /\
  unmarshal (typed "Feature" [(key "geometry", typed "GeometryCollection" [(key "geometries", JArr [JNull])])]) = Panic.
Proof. repeat split; vm_compute; reflexivity. Qed.

Theorem null_geometry : (forall fmt coerce id props, enc_feature fmt coerce (id, VNil, props) = Err UnknownGeometry) /\
  unmarshal (typed "Feature" []) = Ok (VFeature (None, VNil, None)) /\
  unmarshal (typed "Feature" [(key "geometry", JNull)]) = Err MissingField.
Proof. repeat split. Qed.
