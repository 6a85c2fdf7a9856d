From Coq Require Import ZArith Bool List String Lia Permutation.
From Coq Require Import ZifyBool ZifyNat.
From Verif Require Import Base_F64 Base_F64Arith Base_Geom Base_Res Base_Bytes P_F64 P_List
  M_Winding S_Winding M_Mvt S_Mvt P_Mvt P_Mvt2 M_MvtLayer S_MvtLayer.
Import ListNotations.
Open Scope Z_scope.

Lemma NoDup_snoc {A} (l : list A) x : NoDup l -> ~ In x l -> NoDup (l ++ [x]).
Proof.
  intros H N. induction H as [|y l Hy H IH]; cbn [app]; [constructor; [exact N | constructor]|].
  constructor; [|apply IH; intros Q; apply N; now right].
  intros Q. apply in_app_or in Q. destruct Q as [Q|[<-|[]]]; [contradiction | apply N; now left].
Qed.
Lemma classic_nil v : v = VNil \/ v <> VNil.
Proof. destruct v; auto; right; discriminate. Qed.

(** ** Value comparison *)

Lemma ikind_eqb_eq a b : ikind_eqb a b = true <-> a = b.
Proof. destruct a, b; cbn; split; congruence. Qed.

Lemma key_inj a b : 0 <= a < 2 ^ 64 -> 0 <= b < 2 ^ 64 -> f64_key a = f64_key b ->
  a = b \/ is_zero64 a /\ is_zero64 b.
Proof. 
  unfold f64_key, f64_sign, f64_mag, is_zero64, two63. intros Ha Hb H. change (2 ^ 64) with 18446744073709551616 in *.
  change (2 ^ 63) with 9223372036854775808 in *.
  destruct (Z.leb_spec 9223372036854775808 a), (Z.leb_spec 9223372036854775808 b); lia. Qed.

Lemma same_value_refl v : supported v -> v <> VNil -> ~ is_nan_value v -> same_value v v = true.
Proof.
  intros Hs Hn Hnan. destruct v; cbn in *; try congruence.
  - apply String.eqb_refl.
  - apply String.eqb_refl.
  - rewrite Z.eqb_refl. now destruct k.
  - unfold f32_eq. rewrite Z.eqb_refl. destruct (f32_is_nan w); [now destruct Hnan | reflexivity].
  - unfold f64_eq. rewrite Z.eqb_refl. destruct (f64_isnan w); [now destruct Hnan | reflexivity].
  - apply Bool.eqb_reflx.
Qed.

Lemma same_value_equal a b : word_value a -> word_value b -> same_value a b = true -> equal_value b a.
Proof.
  intros Ha Hb H. unfold equal_value. destruct a, b; cbn in *; try discriminate.
  - apply String.eqb_eq in H. left. congruence.
  - apply String.eqb_eq in H. left. congruence.
  - apply andb_true_iff in H. destruct H as [H1 H2]. apply ikind_eqb_eq in H1. left. f_equal; [congruence | lia].
  - unfold f32_eq in H. rewrite !andb_true_iff, orb_true_iff in H. destruct H as [_ [H|H]].
    + left. f_equal. lia.
    + right. unfold f32_mag, is_zero32 in *. lia.
  - apply eq_inv in H. destruct H as (_ & _ & H). destruct (key_inj _ _ Ha Hb H) as [->|[? ?]]; auto.
  - apply eqb_prop in H. left. congruence.
Qed.

Lemma same_value_nonnil a b : same_value a b = true -> b <> VNil /\ supported b /\ ~ is_nan_value b.
Proof.
  unfold supported. destruct a, b; cbn; intros H; try discriminate; (split; [|split]); try discriminate; try tauto.
  - unfold f32_eq in H. destruct (f32_is_nan w0); [|discriminate]. now rewrite andb_false_r in H.
  - apply eq_inv in H. destruct H as (_ & H & _). unfold nn in H. congruence.
Qed.

Lemma same_value_sym a b : same_value a b = same_value b a.
Proof.
  destruct a, b; cbn; try reflexivity.
  - apply String.eqb_sym.
  - apply String.eqb_sym.
  - rewrite Z.eqb_sym. f_equal. now destruct k, k0.
  - unfold f32_eq. rewrite Z.eqb_sym, (andb_comm (f32_mag w =? 0)), (andb_comm (negb (f32_is_nan w))). reflexivity.
  - unfold f64_eq. rewrite Z.eqb_sym. now destruct (f64_isnan w), (f64_isnan w0).
  - now destruct b0, b.
Qed.

(** ** Building the tables *)

(** [v'] can stand for [v] in the value table. *)
Definition has_key (keys : list string) (k : string) := In k keys.
Definition has_val (vals : list tagval) (v : tagval) :=
  v = VNil \/ is_nan_value v \/ exists v', In v' vals /\ same_value v' v = true.

Definition no_dup_vals (vals : list tagval) : Prop :=
  forall i j a b, nth_error vals i = Some a -> nth_error vals j = Some b -> same_value a b = true -> i = j.

Record tables_ok (keys : list string) (vals : list tagval) : Prop := {
  to_keys : NoDup keys;
  to_vals : no_dup_vals vals }.

Lemma existsb_eqb k keys : existsb (String.eqb k) keys = true <-> In k keys.
Proof.
  rewrite existsb_exists. split.
  - intros (x & Hx & E). apply String.eqb_eq in E. now subst.
  - intros H. exists k. split; [exact H | apply String.eqb_refl].
Qed.

Lemma no_dup_vals_snoc vals v : no_dup_vals vals -> existsb (fun mv => same_value mv v) vals = false ->
  no_dup_vals (vals ++ [v]).
Proof.
  intros H E i j a b Hi Hj Hs.
  assert (N : forall x, In x vals -> same_value x v = false).
  { intros x Hx. apply not_true_is_false. intros Q.
    assert (existsb (fun mv => same_value mv v) vals = true) by (apply existsb_exists; eauto). congruence. }
  assert (K : forall n x, nth_error (vals ++ [v]) n = Some x ->
    (n < List.length vals)%nat /\ nth_error vals n = Some x \/ n = List.length vals /\ x = v).
  { intros n x Hn. destruct (Nat.lt_ge_cases n (List.length vals)) as [L|L].
    - left. split; [exact L|]. now rewrite nth_error_app1 in Hn.
    - right. rewrite nth_error_app2 in Hn by exact L. destruct (n - List.length vals)%nat eqn:D; cbn in Hn.
      + split; [lia | congruence].
      + destruct n0; discriminate. }
  destruct (K _ _ Hi) as [[Li Hi']|[-> ->]], (K _ _ Hj) as [[Lj Hj']|[-> ->]].
  - eapply H; eauto.
  - rewrite (N a) in Hs; [discriminate | eapply nth_error_In; eauto].
  - rewrite same_value_sym, (N b) in Hs; [discriminate | eapply nth_error_In; eauto].
  - reflexivity.
Qed.

Lemma add_tag_ok keys vals kv keys' vals' : add_tag keys vals kv = Ok (keys', vals') ->
  tables_ok keys vals ->
  tables_ok keys' vals' /\ incl keys keys' /\ incl vals vals' /\
  has_key keys' (fst kv) /\ has_val vals' (snd kv) /\
  (forall k, In k keys' -> In k keys \/ k = fst kv) /\ (forall v, In v vals' -> In v vals \/ v = snd kv /\ v <> VNil) /\
  supported (snd kv).
Proof.
  destruct kv as [k v]. cbn [fst snd]. intros E [Hk Hv]. unfold add_tag in E.
  set (keys1 := if existsb (String.eqb k) keys then keys else keys ++ [k]) in *.
  assert (A : NoDup keys1 /\ incl keys keys1 /\ has_key keys1 k /\ (forall x, In x keys1 -> In x keys \/ x = k)).
  { subst keys1. destruct (existsb (String.eqb k) keys) eqn:X.
    - apply existsb_eqb in X. repeat split; auto using incl_refl.
    - assert (~ In k keys) by (intros Q; apply existsb_eqb in Q; congruence).
      repeat split.
      + now apply NoDup_snoc.
      + apply incl_appl, incl_refl.
      + apply in_or_app. right. now left.
      + intros x Hx. apply in_app_or in Hx. destruct Hx as [?|[<-|[]]]; auto. }
  destruct A as (A1 & A2 & A3 & A4).
  assert (B : forall vals1, vals1 = (if existsb (fun mv => same_value mv v) vals then vals else vals ++ [v]) ->
    v <> VNil -> supported v ->
    no_dup_vals vals1 /\ incl vals vals1 /\ has_val vals1 v /\ (forall x, In x vals1 -> In x vals \/ x = v /\ x <> VNil)).
  { intros vals1 -> Hn Hs. destruct (existsb (fun mv => same_value mv v) vals) eqn:X.
    - apply existsb_exists in X. split; [exact Hv|]. split; [apply incl_refl|]. split; [right; right; exact X | auto].
    - split; [now apply no_dup_vals_snoc|]. split; [apply incl_appl, incl_refl|]. split.
      + assert (D : is_nan_value v \/ ~ is_nan_value v) by (destruct v; cbn; auto; match goal with |- ?b = true \/ _ => destruct b; auto end).
        destruct D as [D|D]; [right; left; exact D|]. right. right. exists v. split; [apply in_or_app; right; now left|].
        now apply same_value_refl.
      + intros x Hx. apply in_app_or in Hx. destruct Hx as [?|[<-|[]]]; auto. }
  destruct v; try discriminate;
    try (injection E as <- <-; destruct (B _ eq_refl) as (B1 & B2 & B3 & B4); [discriminate | discriminate |];
         split; [now constructor|]; split; [exact A2|]; split; [exact B2|]; split; [exact A3|]; split; [exact B3|];
         split; [exact A4|]; split; [exact B4 | discriminate]).
  injection E as <- <-.
  split; [now constructor|]; split; [exact A2|]; split; [apply incl_refl|]; split; [exact A3|]; split; [now left|];
    split; [exact A4|]; split; [auto | discriminate].
Qed.

Lemma has_val_incl vals vals' v : incl vals vals' -> has_val vals v -> has_val vals' v.
Proof. intros I [H|[H|(x & H & E)]]; [now left | right; now left | right; right; exists x; auto]. Qed.

Lemma add_tags_ok es : forall keys vals keys' vals', add_tags keys vals es = Ok (keys', vals') ->
  tables_ok keys vals ->
  tables_ok keys' vals' /\ incl keys keys' /\ incl vals vals' /\
  Forall (fun kv => has_key keys' (fst kv) /\ has_val vals' (snd kv) /\ supported (snd kv)) es /\
  (forall k, In k keys' -> In k keys \/ exists v, In (k, v) es) /\
  (forall v, In v vals' -> In v vals \/ exists k, In (k, v) es).
Proof.
  induction es as [|kv es IH]; intros keys vals keys' vals' E Ht; cbn [add_tags] in E.
  - injection E as <- <-. repeat split; auto using incl_refl; apply Ht.
  - destruct (add_tag keys vals kv) as [[keys1 vals1]|e|] eqn:E1; cbn [bind] in E; try discriminate.
    destruct (add_tag_ok _ _ _ _ _ E1 Ht) as (T1 & I1 & J1 & K1 & V1 & O1 & P1 & S1).
    destruct (IH _ _ _ _ E T1) as (T2 & I2 & J2 & F2 & O2 & P2).
    split; [exact T2|]. split; [eapply incl_tran; eauto|]. split; [eapply incl_tran; eauto|].
    split; [constructor; [|exact F2]|split].
    + split; [apply I2, K1|]. split; [eapply has_val_incl; eauto | exact S1].
    + intros k Hk. destruct (O2 k Hk) as [H|[v H]]; [|right; exists v; now right].
      destruct (O1 k H) as [?| ->]; [now left|]. right. exists (snd kv). left. now destruct kv.
    + intros v Hv. destruct (P2 v Hv) as [H|[k H]]; [|right; exists k; now right].
      destruct (P1 v H) as [?|[-> _]]; [now left|]. right. exists (fst kv). left. now destruct kv.
Qed.

Lemma keyval_maps_ok fs : forall keys vals keys' vals', keyval_maps keys vals fs = Ok (keys', vals') ->
  tables_ok keys vals ->
  tables_ok keys' vals' /\ incl keys keys' /\ incl vals vals' /\
  Forall (Forall (fun kv => has_key keys' (fst kv) /\ has_val vals' (snd kv) /\ supported (snd kv))) fs /\
  (forall k, In k keys' -> In k keys \/ exists es v, In es fs /\ In (k, v) es) /\
  (forall v, In v vals' -> In v vals \/ exists es k, In es fs /\ In (k, v) es).
Proof.
  induction fs as [|es fs IH]; intros keys vals keys' vals' E Ht; cbn [keyval_maps] in E.
  - injection E as <- <-. repeat split; auto using incl_refl; apply Ht.
  - destruct (add_tags keys vals es) as [[keys1 vals1]|e|] eqn:E1; cbn [bind] in E; try discriminate.
    destruct (add_tags_ok _ _ _ _ _ E1 Ht) as (T1 & I1 & J1 & F1 & O1 & P1).
    destruct (IH _ _ _ _ E T1) as (T2 & I2 & J2 & F2 & O2 & P2).
    split; [exact T2|]. split; [eapply incl_tran; eauto|]. split; [eapply incl_tran; eauto|].
    split; [constructor; [|exact F2]|split].
    + eapply Forall_impl; [|exact F1]. intros kv (? & ? & ?).
      split; [now apply I2|]. split; [eapply has_val_incl; eauto | assumption].
    + intros k Hk. destruct (O2 k Hk) as [H|(es' & v & ? & ?)]; [|right; exists es', v; split; [now right | assumption]].
      destruct (O1 k H) as [?|[v ?]]; [now left|]. right. exists es, v. split; [now left | assumption].
    + intros v Hv. destruct (P2 v Hv) as [H|(es' & k & ? & ?)]; [|right; exists es', k; split; [now right | assumption]].
      destruct (P1 v H) as [?|[k ?]]; [now left|]. right. exists es, k. split; [now left | assumption].
Qed.

Lemma tables_nil : tables_ok [] [].
Proof. split; [constructor|]. intros i j a b H. destruct i; discriminate. Qed.

Lemma add_tag_total keys vals kv : (exists r, add_tag keys vals kv = Ok r) <-> supported (snd kv).
Proof.
  destruct kv as [k v]. unfold add_tag, supported. cbn [snd]. split.
  - intros [r H]. destruct v; discriminate.
  - destruct v; eauto; congruence.
Qed.
Lemma add_tags_total es : forall keys vals, (exists r, add_tags keys vals es = Ok r) <-> Forall (fun kv => supported (snd kv)) es.
Proof.
  induction es as [|kv es IH]; intros keys vals; cbn [add_tags]; [split; eauto|].
  rewrite Forall_cons_iff, <- (add_tag_total keys vals kv).
  destruct (add_tag keys vals kv) as [[k1 v1]|e|]; cbn [bind].
  - rewrite IH. split; [intros; split; eauto | tauto].
  - split; [intros [r H]; discriminate | intros [[r H] _]; discriminate].
  - split; [intros [r H]; discriminate | intros [[r H] _]; discriminate].
Qed.
Lemma keyval_maps_total fs : forall keys vals, (exists r, keyval_maps keys vals fs = Ok r) <->
  Forall (Forall (fun kv => supported (snd kv))) fs.
Proof.
  induction fs as [|es fs IH]; intros keys vals; cbn [keyval_maps]; [split; eauto|].
  rewrite Forall_cons_iff, <- (add_tags_total es keys vals).
  destruct (add_tags keys vals es) as [[k1 v1]|e|]; cbn [bind].
  - rewrite IH. split; [intros; split; eauto | tauto].
  - split; [intros [r H]; discriminate | intros [[r H] _]; discriminate].
  - split; [intros [r H]; discriminate | intros [[r H] _]; discriminate].
Qed.

(** ** Reading the tables *)

Lemma find_index_some {A} (f : A -> bool) l i : find_index f l = Some i ->
  exists x, nth_error l i = Some x /\ f x = true.
Proof.
  revert i. induction l as [|y l IH]; intros i H; [discriminate|]. cbn [find_index] in H.
  destruct (f y) eqn:F; [injection H as <-; exists y; auto|].
  destruct (find_index f l) as [j|]; [|discriminate]. injection H as <-. cbn. now apply IH.
Qed.
Lemma find_index_none {A} (f : A -> bool) l : find_index f l = None -> forall x, In x l -> f x = false.
Proof.
  induction l as [|y l IH]; intros H x []; cbn [find_index] in H; destruct (f y) eqn:F; try discriminate;
    destruct (find_index f l); try discriminate; subst; auto.
Qed.

Lemma keyval_tags_ok keys vals es : small_table keys -> small_table vals -> Forall word_value vals ->
  Forall (fun kv => has_key keys (fst kv) /\ has_val vals (snd kv) /\ supported (snd kv)) es ->
  Forall (fun kv => word_value (snd kv) /\ ~ is_nan_value (snd kv)) es ->
  exists tags out, keyval_tags keys vals es = Ok tags /\ lookup keys vals tags = Some out /\
    Forall2 (fun a b => fst a = fst b /\ equal_value (snd a) (snd b)) (non_nil es) out.
Proof.
  intros Sk Sv Wv. induction es as [|[k v] es IH]; intros H1 H2.
  - exists [], []. repeat split. constructor.
  - apply Forall_cons_iff in H1. destruct H1 as [(Hk & Hv & Hs) H1]. apply Forall_cons_iff in H2. destruct H2 as [[Hw Hn] H2].
    cbn [fst snd] in *. destruct (IH H1 H2) as (tags & out & E1 & E2 & E3).
    cbn [keyval_tags]. destruct (find_index (fun mk => String.eqb mk k) keys) as [ki|] eqn:Ek.
    2: { exfalso. pose proof (find_index_none _ _ Ek k Hk) as X. cbv beta in X. rewrite String.eqb_refl in X. discriminate. }
    apply find_index_some in Ek. destruct Ek as (k' & Nk & Ek). apply String.eqb_eq in Ek. subst k'.
    destruct (classic_nil v) as [->|Nn]; [exists tags, out; repeat split; assumption|].
    assert (Fv : exists vi v', find_index (fun mv => same_value mv v) vals = Some vi /\ nth_error vals vi = Some v' /\ same_value v' v = true).
    { destruct (find_index (fun mv => same_value mv v) vals) as [vi|] eqn:Ev.
      - destruct (find_index_some _ _ _ Ev) as (v' & ? & ?). eauto.
      - exfalso. destruct Hv as [?|[?|(v' & Hi & Hsv)]]; [contradiction | contradiction |].
        rewrite (find_index_none _ _ Ev v' Hi) in Hsv. discriminate. }
    destruct Fv as (vi & v' & Fv & Nv & Sv').
    assert (Ck : u32 (Z.of_nat ki) = Z.of_nat ki).
    { apply u32_id. unfold small_table, uint32 in *. assert (ki < List.length keys)%nat by (apply nth_error_Some; congruence). lia. }
    assert (Cv : u32 (Z.of_nat vi) = Z.of_nat vi).
    { apply u32_id. unfold small_table, uint32 in *. assert (vi < List.length vals)%nat by (apply nth_error_Some; congruence). lia. }
    exists (Z.of_nat ki :: Z.of_nat vi :: tags), ((k, v') :: out). split; [|split].
    + rewrite Fv, E1, Ck, Cv. destruct v; try reflexivity; congruence.
    + cbn [lookup]. rewrite !Nat2Z.id, Nk, Nv, E2. reflexivity.
    + unfold non_nil. cbn [filter snd]. fold (non_nil es).
      replace (match v with VNil => false | _ => true end) with true by (destruct v; congruence).
      constructor; [|exact E3]. split; [reflexivity|]. cbn [snd]. apply same_value_equal; auto.
      rewrite Forall_forall in Wv. apply Wv. eapply nth_error_In; eauto.
Qed.

(** ** TileGeomCollection *)
Lemma collection_all t : exists gs, tile_geom_collection t = GCollection gs /\
  List.length gs = list_sum (map (fun l => List.length (l_features l)) t) /\
  forall t1 l t2 fs1 f fs2, t = t1 ++ l :: t2 -> l_features l = fs1 ++ f :: fs2 ->
    nth_error gs (list_sum (map (fun l => List.length (l_features l)) t1) + List.length fs1)%nat = Some (f_geom f).
Proof.
  eexists. split; [reflexivity|].
  assert (L : forall t, List.length (flat_map (fun l => map f_geom (l_features l)) t) = list_sum (map (fun l => List.length (l_features l)) t)).
  { clear. induction t as [|l t IH]; cbn [flat_map map]; [reflexivity|]. rewrite app_length, map_length, IH. reflexivity. }
  split; [apply L|].
  intros t1 l t2 fs1 f fs2 -> E. rewrite flat_map_app. cbn [flat_map]. rewrite E, map_app. cbn [map].
  rewrite nth_error_app2 by (rewrite L; apply Nat.le_add_r). rewrite L.
  replace (list_sum (map (fun l => List.length (l_features l)) t1) + List.length fs1 - list_sum (map (fun l => List.length (l_features l)) t1))%nat with (List.length fs1)
    by (rewrite Nat.add_comm, Nat.add_sub; reflexivity).
  rewrite <- app_assoc. rewrite nth_error_app2 by (rewrite map_length; apply Nat.le_refl). rewrite map_length, Nat.sub_diag. reflexivity.
Qed.
