From Coq Require Import ZArith Bool List String Lia Permutation.
From Coq Require Import ZifyBool ZifyNat.
From Verif Require Import Base_F64 Base_F64Arith Base_Geom Base_Res Base_Bytes P_F64 P_List
  M_Winding S_Winding M_Mvt S_Mvt P_Mvt P_Mvt2 M_MvtLayer S_MvtLayer P_MvtLayer.
Import ListNotations.
Open Scope Z_scope.

Lemma Forall2_In_l {A B} (R : A -> B -> Prop) la lb a : Forall2 R la lb -> In a la -> exists b, In b lb /\ R a b.
Proof.
  induction 1 as [|x y la lb H _ IH]; intros []; [subst; exists y; split; [now left | exact H]|].
  destruct (IH H0) as (b & ? & ?). exists b. split; [now right | assumption].
Qed.

Lemma Forall2_flip {A B} (R : A -> B -> Prop) la lb : Forall2 R la lb -> Forall2 (fun b a => R a b) lb la.
Proof. induction 1; constructor; auto. Qed.

Theorem tags_lossless maps first keys vals :
  Forall2 (@Permutation _) maps first -> keyval_maps [] [] first = Ok (keys, vals) ->
  small_table keys -> small_table vals -> Forall (Forall (fun kv => word_value (snd kv))) maps ->
  forall m order, In m maps -> Permutation m order -> Forall (fun kv => ~ is_nan_value (snd kv)) m ->
  exists tags out, keyval_tags keys vals order = Ok tags /\ lookup keys vals tags = Some out /\
    Forall2 (fun a b => fst a = fst b /\ equal_value (snd a) (snd b)) (non_nil order) out.
Proof.
  intros P E Sk Sv W m order Hm Po Hn.
  destruct (keyval_maps_ok _ _ _ _ _ E tables_nil) as (T & _ & _ & F & _ & V).
  assert (Wf : forall es kv, In es first -> In kv es -> word_value (snd kv)).
  { intros es kv Hes Hkv. apply Forall2_flip in P. destruct (Forall2_In_l _ _ _ _ P Hes) as (m' & Hm' & Pm).
    rewrite Forall_forall in W. specialize (W m' Hm'). rewrite Forall_forall in W. apply W.
    eapply Permutation_in; [apply Permutation_sym; exact Pm | exact Hkv]. }
  destruct (Forall2_In_l _ _ _ _ P Hm) as (f & Hf & Pf).
  apply keyval_tags_ok; auto.
  - apply Forall_forall. intros v Hv. destruct (V v Hv) as [[]|(es & k & ? & ?)]. apply (Wf es (k, v)); assumption.
  - rewrite Forall_forall in F. specialize (F f Hf). apply Forall_forall. intros kv Hkv. rewrite Forall_forall in F. apply F.
    eapply Permutation_in; [|exact Hkv]. eapply Permutation_trans; [apply Permutation_sym; exact Po | exact Pf].
  - apply Forall_forall. intros kv Hkv. apply (Permutation_in _ (Permutation_sym Po)) in Hkv. split.
    + rewrite Forall_forall in W. specialize (W m Hm). rewrite Forall_forall in W. now apply W.
    + rewrite Forall_forall in Hn. now apply Hn.
Qed.

Theorem tables_distinct first keys vals : keyval_maps [] [] first = Ok (keys, vals) ->
  NoDup keys /\ forall i j a b, nth_error vals i = Some a -> nth_error vals j = Some b -> same_value a b = true -> i = j.
Proof. intros E. destruct (keyval_maps_ok _ _ _ _ _ E tables_nil) as ([? ?] & _). auto. Qed.

Lemma no_dup_same_iff (a b : tagval) : word_value a -> word_value b ->
  same_value a b = true <-> (equal_value a b /\ a <> VNil /\ supported a /\ ~ is_nan_value a).
Proof.
  intros Ha Hb. split.
  - intros H. rewrite same_value_sym in H. destruct (same_value_nonnil _ _ H) as (? & ? & ?).
    split; [|auto]. now apply same_value_equal in H.
  - intros (H & Hn & Hs & Hnan). destruct H as [<-|H]; [now apply same_value_refl|].
    destruct a, b; try contradiction; cbn in *.
    + unfold f32_eq, f32_is_nan, f32_mag, is_zero32 in *. destruct H as [[->| ->] [->| ->]]; reflexivity.
    + unfold is_zero64 in *. destruct H as [[->| ->] [->| ->]]; reflexivity.
Qed.

Theorem tables_tight first keys vals : keyval_maps [] [] first = Ok (keys, vals) ->
  (forall k, In k keys <-> exists es v, In es first /\ In (k, v) es) /\
  (forall v, In v vals -> exists es k, In es first /\ In (k, v) es).
Proof.
  intros E. destruct (keyval_maps_ok _ _ _ _ _ E tables_nil) as (_ & _ & _ & F & O & V). split.
  - intros k. split.
    + intros Hk. destruct (O k Hk) as [[]|H]. exact H.
    + intros (es & v & Hes & Hkv). rewrite Forall_forall in F. specialize (F es Hes). rewrite Forall_forall in F.
      apply (F (k, v) Hkv).
  - intros v Hv. destruct (V v Hv) as [[]|H]. exact H.
Qed.

Lemma keyval_maps_ok2 fs : forall keys vals keys' vals', keyval_maps keys vals fs = Ok (keys', vals') ->
  tables_ok keys vals -> (forall v, In v vals -> supported v /\ v <> VNil) ->
  tables_ok keys' vals' /\ (forall v, In v vals' -> supported v /\ v <> VNil).
Proof.
  assert (K : forall es keys vals keys' vals', add_tags keys vals es = Ok (keys', vals') -> tables_ok keys vals ->
    (forall v, In v vals -> supported v /\ v <> VNil) -> tables_ok keys' vals' /\ (forall v, In v vals' -> supported v /\ v <> VNil)).
  { induction es as [|kv es IH]; intros keys vals keys' vals' E T H; cbn [add_tags] in E.
    - injection E as <- <-. auto.
    - destruct (add_tag keys vals kv) as [[k1 v1]|e|] eqn:E1; cbn [bind] in E; try discriminate.
      destruct (add_tag_ok _ _ _ _ _ E1 T) as (T1 & _ & _ & _ & _ & _ & P1 & S1).
      apply (IH _ _ _ _ E T1). intros v Hv. destruct (P1 v Hv) as [?|[-> ?]]; auto. }
  induction fs as [|es fs IH]; intros keys vals keys' vals' E T H; cbn [keyval_maps] in E.
  - injection E as <- <-. auto.
  - destruct (add_tags keys vals es) as [[k1 v1]|e|] eqn:E1; cbn [bind] in E; try discriminate.
    destruct (K _ _ _ _ _ E1 T H) as [T1 H1]. eapply IH; eauto.
Qed.

Lemma tags_need_no_nan keys vals es k v : is_nan_value v -> In (k, v) es ->
  forall tags, keyval_tags keys vals es <> Ok tags.
Proof.
  intros Hn. induction es as [|[k' v'] es IH]; intros Hin tags E; [destruct Hin|].
  cbn [keyval_tags] in E. destruct (find_index (fun mk => String.eqb mk k') keys); [|discriminate].
  assert (R : forall t, keyval_tags keys vals es = Ok t -> In (k, v) es -> False) by (intros t Ht Hi; exact (IH Hi t Ht)).
  destruct Hin as [Heq|Hin].
  - injection Heq as -> ->.
    assert (X : find_index (fun mv => same_value mv v) vals = None).
    { destruct (find_index (fun mv => same_value mv v) vals) as [i|] eqn:Ei; [|reflexivity].
      destruct (find_index_some _ _ _ Ei) as (x & _ & Hx). now destruct (same_value_nonnil _ _ Hx) as (_ & _ & []). }
    rewrite X in E. destruct v; try contradiction; discriminate.
  - destruct v'; try discriminate;
      try (destruct (find_index _ vals); [|discriminate];
           destruct (keyval_tags keys vals es) eqn:Ek; cbn [bind] in E; try discriminate; eapply R; eauto).
    eapply R; eauto.
Qed.

(** ** Values *)
Lemma value_kept v : supported v -> v <> VNil -> (forall z, v <> VInt KInt z) -> (forall z, v <> VInt KUint z) ->
  exists fld, vector_tile_value v = [fld] /\ carries fld v.
Proof.
  intros Hs Hn Hi Hu. destruct v; cbn; try congruence; eauto; try (eexists; split; [reflexivity | reflexivity]).
  destruct k; try (eexists; split; [reflexivity | reflexivity]); [now destruct (Hi z) | now destruct (Hu z)].
Qed.

(** ** Layers of a tile *)

Lemma name_taken t n : existsb (fun l => String.eqb (l_name l) n) t = true <-> In n (names t).
Proof.
  rewrite existsb_exists. unfold names. rewrite in_map_iff. split.
  - intros (l & Hl & E). apply String.eqb_eq in E. eauto.
  - intros (l & <- & Hl). exists l. split; [exact Hl | apply String.eqb_refl].
Qed.

Lemma add_layers_shape ls : forall t, 
  (snd (add_layers t ls) = true -> fst (add_layers t ls) = t ++ somes ls) /\
  (snd (add_layers t ls) = false -> exists pre nl post, ls = pre ++ Some nl :: post /\
     fst (add_layers t ls) = t ++ somes pre /\ In (l_name nl) (names (t ++ somes pre))) /\
  (NoDup (names t) -> NoDup (names (fst (add_layers t ls)))) /\
  (NoDup (names t) -> (snd (add_layers t ls) = true <-> NoDup (names (t ++ somes ls)))).
Proof.
  induction ls as [|[nl|] ls IH]; intros t; cbn [add_layers somes].
  - cbn [fst snd]. rewrite app_nil_r. repeat split; auto; discriminate.
  - destruct (existsb _ t) eqn:E; cbn [fst snd].
    + apply name_taken in E. split; [discriminate|]. split.
      * intros _. exists [], nl, ls. cbn [somes app]. rewrite app_nil_r. auto.
      * split; [auto|]. intros _. split; [discriminate|]. intros H. exfalso.
        unfold names in H. rewrite map_app in H. cbn [map] in H. apply NoDup_remove_2 in H. apply H.
        apply in_or_app. now left.
    + destruct (IH (t ++ [nl])) as (I1 & I2 & I3 & I4).
      assert (N : NoDup (names t) -> NoDup (names (t ++ [nl]))).
      { intros H. unfold names. rewrite map_app. cbn [map]. apply NoDup_snoc; [exact H|].
        intros Q. apply name_taken in Q. congruence. }
      rewrite <- app_assoc in I1, I4. cbn [app] in I1, I4. split; [exact I1|]. split; [|split].
      * intros H. destruct (I2 H) as (pre & nl' & post & -> & E2 & E3). exists (Some nl :: pre), nl', post.
        cbn [somes]. rewrite <- app_assoc in E2, E3. auto.
      * auto.
      * auto.
  - destruct (IH t) as (I1 & I2 & I3 & I4). split; [exact I1|]. split; [|auto].
    intros H. destruct (I2 H) as (pre & nl' & post & -> & E2 & E3). exists (None :: pre), nl', post. auto.
Qed.

Lemma history_distinct calls : forall t, NoDup (names t) -> NoDup (names (after_calls t calls)).
Proof. induction calls as [|c calls IH]; intros t H; [exact H|]. cbn. apply IH. now apply add_layers_shape. Qed.

Lemma kept_without {A} idxs (l : list A) : forall i,
  map snd (filter (fun p => negb (existsb (Z.eqb (Z.of_nat (fst p))) idxs)) (combine (seq i (List.length l)) l)) =
  without (Z.of_nat i) idxs l.
Proof.
  induction l as [|x l IH]; intros i; [reflexivity|]. cbn [List.length seq combine filter fst without].
  replace (Z.of_nat i + 1) with (Z.of_nat (S i)) by lia. rewrite <- IH.
  assert (E : existsb (Z.eqb (Z.of_nat i)) idxs = true <-> In (Z.of_nat i) idxs).
  { rewrite existsb_exists. split; [intros (y & Hy & Q); assert (Z.of_nat i = y) as -> by lia; exact Hy | intros H; exists (Z.of_nat i); split; [exact H | lia]]. }
  destruct (in_dec Z.eq_dec (Z.of_nat i) idxs) as [D|D].
  - apply E in D. rewrite D. reflexivity.
  - assert (X : existsb (Z.eqb (Z.of_nat i)) idxs = false) by (apply not_true_is_false; intros Q; now apply E in Q).
    rewrite X. reflexivity.
Qed.

(** ** Whole tiles *)

Lemma survives_enc g g' : survives g g' -> exists b ty,
  encode_geometry g = Ok (b, ty) /\ decode_geometry ty b = Ok (Some g') /\ b <> [].
Proof.
  assert (K : forall (X : exists b ty, encode_geometry g = Ok (b, ty) /\ decode_geometry ty b = Ok (Some g')),
    exists b ty, encode_geometry g = Ok (b, ty) /\ decode_geometry ty b = Ok (Some g') /\ b <> []).
  { intros (b & ty & E & D). exists b, ty. split; [exact E|]. split; [exact D|]. intros ->.
    destruct ty; vm_compute in D; discriminate. }
  intros H. apply K. destruct H as [p H|ps Hn Hc Hf|l Hg Hf|ls Hn Hg Hf|rs Hg Hf|pls Hn Hg Hf].
  - destruct (decode_one_point_enc p H) as (b & ? & ?). eauto.
  - destruct (decode_multipoint_enc ps Hc Hf Hn) as (b & ? & ?). eauto.
  - destruct (decode_line_enc l Hg Hf) as (b & ? & ?). eauto.
  - destruct (decode_lines_enc ls Hg Hf Hn) as (b & ? & ?). eauto.
  - destruct (decode_polygon_enc rs Hg Hf) as (b & ? & ?). eauto.
  - destruct (decode_polygons_enc pls Hn Hg Hf) as (b & ? & ?). eauto.
Qed.

Lemma features_roundtrip keys vals fs :
  Forall (fun p => (exists tags, keyval_tags keys vals (fst p) = Ok tags) /\ exists g', survives (f_geom (snd p)) g') fs ->
  exists vfs fs', vtile_features keys vals fs = Ok vfs /\ decode_features vfs = Ok fs' /\
    Forall2 feature_survives (map snd fs) fs'.
Proof.
  induction fs as [|[es f] fs IH]; intros H.
  - exists [], []. repeat split. constructor.
  - apply Forall_cons_iff in H. destruct H as [[[tags Ht] [g' Hg]] H]. cbn [fst snd] in *.
    destruct (IH H) as (vfs & fs' & E1 & E2 & E3). destruct (survives_enc _ _ Hg) as (b & ty & Eb & Db & Nb).
    exists (VtFeature (f_id f) tags (Some ty) b :: vfs), (Feature (f_id f) [] g' :: fs').
    split; [|split].
    + cbn [vtile_features]. unfold vtile_feature. rewrite Ht, Eb. cbn [lift_tag lift_geom bind].
      destruct b as [|b0 bs]; [contradiction|]. cbn [bind]. now rewrite E1.
    + cbn [decode_features]. unfold decode_feature. cbn [vf_type vf_geometry vf_id]. rewrite Db. cbn [bind]. now rewrite E2.
    + cbn [map snd]. constructor; [|exact E3]. split; [reflexivity | exact Hg].
Qed.

Lemma combine_map_snd {A B} (la : list A) (lb : list B) : List.length la = List.length lb -> map snd (combine la lb) = lb.
Proof. revert lb. induction la; destruct lb; cbn; intros H; try discriminate; [reflexivity|]. now rewrite IHla by congruence. Qed.

Lemma layer_roundtrip orders l : layer_ready (orders, l) ->
  exists vl l', vtile_layer orders l = Ok vl /\ decode_layer vl = Ok l' /\ layer_survives l l'.
Proof.
  intros (P & G & S & X & T).
  destruct (proj2 (keyval_maps_total (map f_tags (l_features l)) [] [])) as [[keys vals] E].
  { apply Forall_map. eapply Forall_impl; [|exact G]. intros f H. eapply Forall_impl; [|exact H]. tauto. }
  destruct (T keys vals E) as [Tk Tv].
  assert (Len : List.length orders = List.length (l_features l)).
  { apply Forall2_len in P. rewrite map_length in P. symmetry. exact P. }
  destruct (features_roundtrip keys vals (combine orders (l_features l))) as (vfs & fs' & E1 & E2 & E3).
  { apply Forall_forall. intros [es f] Hin. cbn [fst snd]. split.
    - assert (Pf : In f (l_features l) /\ Permutation (f_tags f) es).
      { clear - P Hin. revert orders P Hin. induction (l_features l) as [|x fs IH]; intros orders P Hin; destruct orders as [|o os]; cbn [combine map] in *; try contradiction.
        - inversion P; subst. destruct Hin as [Hin|Hin].
          + injection Hin as -> ->. split; [now left | assumption].
          + destruct (IH os) as [? ?]; auto. split; [now right | assumption]. }
      destruct Pf as [Hf Pf]. rewrite Forall_forall in G. pose proof (G f Hf) as Gf.
      destruct (tags_lossless (map f_tags (l_features l)) (map f_tags (l_features l)) keys vals) with (m := f_tags f) (order := es)
        as (tags & out & Et & _); auto.
      + clear. induction (map f_tags (l_features l)); constructor; auto.
      + apply Forall_map, Forall_forall. intros f' Hf'. eapply Forall_impl; [|exact (G f' Hf')]. tauto.
      + now apply in_map.
      + eapply Forall_impl; [|exact Gf]. tauto.
      + eauto.
    - apply in_combine_r in Hin. rewrite Forall_forall in S. now apply S. }
  rewrite combine_map_snd in E3 by exact Len.
  eexists. exists (Layer (l_name l) fs' (Some (get_extent l))). split; [|split].
  - unfold vtile_layer. rewrite E. cbn [lift_tag bind]. rewrite E1. cbn [bind]. reflexivity.
  - cbn [decode_layer vl_name vl_extent vl_features]. rewrite E2. cbn [bind]. rewrite u32_id by exact X. reflexivity.
  - repeat split. exact E3.
Qed.

Theorem tile_roundtrip t : Forall layer_ready t ->
  exists vls t', vtile t = Ok vls /\ decode_tile vls = Ok t' /\ Forall2 layer_survives (map snd t) t'.
Proof.
  induction t as [|[o l] t IH]; intros H.
  - exists [], []. repeat split. constructor.
  - apply Forall_cons_iff in H. destruct H as [Hl H]. destruct (IH H) as (vls & t' & E1 & E2 & E3).
    destruct (layer_roundtrip o l Hl) as (vl & l' & F1 & F2 & F3).
    exists (vl :: vls), (l' :: t'). cbn [vtile decode_tile map snd]. rewrite F1, F2. cbn [bind]. rewrite E1, E2. repeat split; auto.
Qed.

Lemma decode_tile_tags vls : forall t, decode_tile vls = Ok t ->
  Forall (fun l => Forall (fun f => f_tags f = []) (l_features l)) t.
Proof.
  assert (F : forall vfs fs, decode_features vfs = Ok fs -> Forall (fun f => f_tags f = []) fs).
  { induction vfs as [|vf vfs IH]; intros fs H; cbn [decode_features] in H.
    - injection H as <-. constructor.
    - unfold decode_feature in H. destruct (vf_type vf); [|discriminate].
      destruct (decode_geometry g (vf_geometry vf)); cbn [bind] in H; try discriminate.
      destruct (decode_features vfs) as [fs'| |]; cbn [bind] in H; try discriminate. injection H as <-.
      constructor; [reflexivity | auto]. }
  induction vls as [|vl vls IH]; intros t H; cbn [decode_tile] in H.
  - injection H as <-. constructor.
  - unfold decode_layer in H. destruct (vl_name vl); [|discriminate]. destruct (vl_extent vl); [|discriminate].
    destruct (decode_features (vl_features vl)) as [fs| |] eqn:Ef; cbn [bind] in H; try discriminate.
    destruct (decode_tile vls) as [ls| |]; cbn [bind] in H; try discriminate. injection H as <-.
    constructor; [cbn; eauto | auto].
Qed.

Theorem values_distinct first keys vals : keyval_maps [] [] first = Ok (keys, vals) ->
  Forall (Forall (fun kv => word_value (snd kv))) first ->
  NoDup keys /\
  forall i j a b, nth_error vals i = Some a -> nth_error vals j = Some b ->
    equal_value a b -> ~ is_nan_value a -> i = j.
Proof.
  intros E W. destruct (tables_distinct _ _ _ E) as [Hk Hv]. split; [exact Hk|].
  assert (Wv : forall v, In v vals -> word_value v /\ supported v /\ v <> VNil).
  { destruct (keyval_maps_ok2 _ _ _ _ _ E tables_nil ltac:(intros v [])) as [N S].
    intros v Hv'. destruct (proj2 (tables_tight _ _ _ E) v Hv') as (es & k & Hes & Hkv).
    rewrite Forall_forall in W. specialize (W es Hes). rewrite Forall_forall in W. specialize (W _ Hkv). auto. }
  intros i j a b Hi Hj Heq Hn. apply (Hv i j a b Hi Hj).
  apply nth_error_In in Hi, Hj. destruct (Wv _ Hi) as (? & ? & ?), (Wv _ Hj) as (? & ? & ?).
  apply no_dup_same_iff; auto.
Qed.

Definition l0 (fs : list feature) : layer := Layer "a" fs None.
Lemma remove_feature_keeps : exists l idxs,
  features (remove_feature l idxs) <> without 0 idxs (features l).
Proof.
  exists (l0 [Feature (Some 1) [] (GPoint (0, 0))]), [0]. cbn. discriminate.
Qed.
Lemma decoded_duplicates : exists vls t, decode_tile vls = Ok t /\ ~ NoDup (names t).
Proof.
  pose (v := VtLayer (Some 2) (Some "roads"%string) [] [] [] (Some 4096)).
  exists [v; v]. eexists. split; [reflexivity|]. cbn. intros H. inversion H as [|? ? N _]. apply N. now left.
Qed.
Lemma decode_tile_panics :
  (exists l, vl_name l <> None /\ vl_extent l = None /\ decode_tile [l] = Panic) /\
  (exists l, vl_name l <> None /\ vl_extent l <> None /\
     (exists f, vl_features l = [f] /\ vf_type f = None) /\ decode_tile [l] = Panic).
Proof.
  split.
  - exists (VtLayer (Some 2) (Some "roads"%string) [] [] [] None). repeat split. discriminate.
  - exists (VtLayer (Some 2) (Some "roads"%string) [VtFeature None [] None [9; 0; 0]] [] [] (Some 4096)).
    repeat split; try discriminate. eexists. split; reflexivity.
Qed.
Lemma int_lost z : supported (VInt KInt z) /\ supported (VInt KUint z) /\
  vector_tile_value (VInt KInt z) = [] /\ vector_tile_value (VInt KUint z) = [].
Proof. repeat split; discriminate. Qed.
Lemma add_features_exact l fs : features (add_features l fs) = features l ++ fs /\
  get_extent (add_features l fs) = get_extent l /\ l_name (add_features l fs) = l_name l.
Proof. repeat split. Qed.
Lemma decode_tile_panic_cases vls : decode_tile vls = Panic ->
  exists l, In l vls /\ (vl_name l = None \/ vl_extent l = None \/
    exists f, In f (vl_features l) /\
      match vf_type f with None => True | Some ty => decode_geometry ty (vf_geometry f) = Panic end).
Proof.
  assert (F : forall vfs, decode_features vfs = Panic -> exists f, In f vfs /\
      match vf_type f with None => True | Some ty => decode_geometry ty (vf_geometry f) = Panic end).
  { induction vfs as [|f vfs IH]; intros H; cbn [decode_features] in H; [discriminate|].
    destruct (decode_feature f) as [x|e|] eqn:E; cbn [bind] in H; try discriminate.
    - destruct (decode_features vfs) as [y|e|]; cbn [bind] in H; try discriminate.
      destruct (IH eq_refl) as (g & ? & ?). exists g. split; [now right | assumption].
    - exists f. split; [now left|]. unfold decode_feature in E. destruct (vf_type f); [|exact I].
      destruct (decode_geometry g (vf_geometry f)); cbn [bind] in E; congruence. }
  induction vls as [|l vls IH]; intros H; cbn [decode_tile] in H; [discriminate|].
  destruct (decode_layer l) as [x|e|] eqn:E; cbn [bind] in H; try discriminate.
  - destruct (decode_tile vls) as [y|e|]; cbn [bind] in H; try discriminate.
    destruct (IH eq_refl) as (l' & ? & ?). exists l'. split; [now right | assumption].
  - exists l. split; [now left|]. unfold decode_layer in E. destruct (vl_name l); [|auto]. destruct (vl_extent l); [|auto].
    right. right. apply F. destruct (decode_features (vl_features l)); cbn [bind] in E; congruence.
Qed.
