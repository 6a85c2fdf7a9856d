(** Proofs about GeoJSON: the round trip. *)
From Coq Require Import String ZArith Bool List Lia ZifyBool.
From Verif Require Import Base_F64 Base_Geom Base_Res M_Cmp M_Wkt M_Strconv P_F64Flocq P_F64
  P_Extent2 P_Strconv3 M_Wkt M_Geojson M_GeojsonAlias S_Geojson P_GeojsonNum.
Import ListNotations.
Open Scope Z_scope.

(** ** Induction *)
Fixpoint pval_ind' (P : pval -> Prop)
  (H1 : P PNull) (H2 : forall b, P (PBool b)) (H3 : forall w, P (PFloat w)) (H4 : forall z, P (PInt z))
  (H5 : forall s, P (PStr s)) (H6 : P (PList None)) (H7 : forall l, Forall P l -> P (PList (Some l)))
  (H8 : P (PMap None)) (H9 : forall m, Forall (fun kv => P (snd kv)) m -> P (PMap (Some m))) (v : pval) : P v :=
  let go := pval_ind' P H1 H2 H3 H4 H5 H6 H7 H8 H9 in
  match v with
  | PNull => H1 | PBool b => H2 b | PFloat w => H3 w | PInt z => H4 z | PStr s => H5 s
  | PList None => H6
  | PList (Some l) => H7 l ((fix f l : Forall P l := match l with [] => Forall_nil _ | x :: l' => Forall_cons _ (go x) (f l') end) l)
  | PMap None => H8
  | PMap (Some m) => H9 m ((fix f m : Forall (fun kv => P (snd kv)) m :=
       match m with [] => Forall_nil _ | x :: m' => Forall_cons x (go (snd x)) (f m') end) m)
  end.

Fixpoint gj_ind' (P : gj -> Prop)
  (H1 : forall p, P (VPoint p)) (H2 : forall s, P (VMultiPoint s)) (H3 : forall s, P (VLine s))
  (H4 : forall s, P (VMultiLine s)) (H5 : forall s, P (VPoly s)) (H6 : forall s, P (VMultiPoly s))
  (H7 : P (VColl None)) (H8 : forall l, Forall P l -> P (VColl (Some l)))
  (H9 : forall f, P (VFeature f)) (H10 : forall f, P (VFC f)) (H11 : P VNil) (H12 : P VNilPtr) (g : gj) : P g :=
  let go := gj_ind' P H1 H2 H3 H4 H5 H6 H7 H8 H9 H10 H11 H12 in
  match g with
  | VPoint p => H1 p | VMultiPoint s => H2 s | VLine s => H3 s | VMultiLine s => H4 s | VPoly s => H5 s | VMultiPoly s => H6 s
  | VColl None => H7
  | VColl (Some l) => H8 l ((fix f l : Forall P l := match l with [] => Forall_nil _ | x :: l' => Forall_cons _ (go x) (f l') end) l)
  | VFeature f => H9 f | VFC f => H10 f | VNil => H11 | VNilPtr => H12
  end.

(** ** Keys *)
Lemma bytes_eq_refl a : bytes_eq a a = true.
Proof. induction a; [reflexivity|]. cbn. now rewrite Z.eqb_refl. Qed.
Lemma bytes_eq_iff a : forall b, bytes_eq a b = true <-> a = b.
Proof.
  induction a as [|x a IH]; intros [|y b]; cbn; split; intros H; try easy.
  - apply andb_prop in H. destruct H as [E H]. apply Z.eqb_eq in E. apply IH in H. now subst.
  - inversion H; subst. now rewrite Z.eqb_refl, bytes_eq_refl.
Qed.

Lemma key_cmp_eq a : forall b, key_cmp a b = Eq -> a = b.
Proof.
  induction a as [|x a IH]; intros [|y b]; cbn; try easy.
  destruct (Z.compare_spec x y); try easy. intros H1. subst. now rewrite (IH _ H1).
Qed.
Lemma key_cmp_anti a : forall b, key_cmp a b = Lt -> key_cmp b a = Gt.
Proof.
  induction a as [|x a IH]; intros [|y b]; cbn; try easy.
  destruct (Z.compare_spec x y); try easy.
  - subst. rewrite Z.compare_refl. apply IH.
  - intros _. destruct (Z.compare_spec y x); try lia; reflexivity.
Qed.
Lemma key_cmp_trans a : forall b c, key_cmp a b = Lt -> key_cmp b c = Lt -> key_cmp a c = Lt.
Proof.
  induction a as [|x a IH]; intros [|y b] [|z c]; cbn; try easy.
  destruct (Z.compare_spec x y), (Z.compare_spec y z), (Z.compare_spec x z); try easy; try lia; subst.
  apply IH.
Qed.

Lemma ascending_head k ks k' : ascending (k :: ks) -> In k' ks -> key_cmp k k' = Lt.
Proof.
  revert k. induction ks as [|k2 ks IH]; intros k A I; [destruct I|]. destruct A as [A1 A2].
  destruct I as [<-|I]; [assumption|]. apply (key_cmp_trans k k2); [assumption|]. now apply IH.
Qed.
Lemma ascending_tail k ks : ascending (k :: ks) -> ascending ks.
Proof. destruct ks; cbn; tauto. Qed.

Lemma put_last k v m : ascending (map fst (m ++ [(k, v)])) -> put k v m = m ++ [(k, v)].
Proof.
  induction m as [|[k' v'] m IH]; intros A; [reflexivity|]. cbn [put app].
  rewrite (key_cmp_anti k' k).
  - rewrite IH; [reflexivity|]. cbn [map app fst] in A. now apply ascending_tail in A.
  - cbn [map app fst] in A. apply (ascending_head _ _ _ A). rewrite map_app, in_app_iff. right. now left.
Qed.

Lemma put_all m : forall acc, ascending (map fst (acc ++ m)) ->
  fold_left (fun o kv => put (fst kv) (snd kv) o) m acc = acc ++ m.
Proof.
  induction m as [|[k v] m IH]; intros acc A; [now rewrite app_nil_r|].
  cbn [fold_left fst snd].
  assert (A2 : ascending (map fst (acc ++ [(k, v)]))).
  { revert A. replace (acc ++ (k, v) :: m) with ((acc ++ [(k, v)]) ++ m) by now rewrite <- app_assoc.
    generalize (acc ++ [(k, v)]). intros l. rewrite map_app. generalize (map fst m). clear.
    generalize (map fst l). clear. intros l l2. induction l as [|a l IH]; [easy|].
    intros H. destruct l as [|b l]; [exact I|]. cbn in H. split; [apply H|]. apply IH. exact (proj2 H). }
  rewrite put_last by assumption. rewrite IH; rewrite <- app_assoc; [reflexivity|]. exact A.
Qed.

(** ** map_m *)
Lemma map_m_ok {A B} (f : A -> res gj_err B) h l : (forall x, In x l -> f x = Ok (h x)) -> map_m f l = Ok (map h l).
Proof.
  induction l as [|x l IH]; intros H; [reflexivity|]. cbn [map_m map].
  rewrite H by now left. cbn [bind]. rewrite IH; [reflexivity|]. intros y I. apply H. now right.
Qed.
Lemma map_m_inv {A B} (f : A -> res gj_err B) l r : map_m f l = Ok r -> forall x, In x l -> exists y, f x = Ok y.
Proof.
  revert r. induction l as [|x l IH]; intros r H y I; [destruct I|]. cbn [map_m] in H.
  destruct (f x) as [b| |] eqn:E; try discriminate. cbn [bind] in H.
  destruct (map_m f l) as [bs| |] eqn:E2; try discriminate.
  destruct I as [<-|I]; [eauto|]. now apply (IH bs).
Qed.

(** ** Properties *)
Section Props.
  Variable fmt : f64 -> list Z.
  Variable coerce : list Z -> list Z.

  (** What is written. *)
  Fixpoint jval (v : pval) : json :=
    match v with
    | PNull => JNull | PBool b => JBool b | PFloat w => JNum (fmt w) | PInt z => JNum (fmt_int z)
    | PStr s => JStr (coerce s)
    | PList None => JNull | PList (Some l) => JArr (map jval l)
    | PMap None => JNull | PMap (Some m) => JObj (map (fun kv => (coerce (fst kv), jval (snd kv))) m)
    end.

  Lemma finite_enc w : f64_finite w = true -> enc_num fmt w = Ok (JNum (fmt w)).
  Proof.
    intros H. unfold enc_num. apply finite_nn in H as N. unfold nn in N. rewrite N.
    now rewrite finite_inf.
  Qed.
  Lemma enc_finite w j : f64_wf w = true -> enc_num fmt w = Ok j -> f64_finite w = true.
  Proof.
    unfold enc_num. intros W. destruct (f64_isnan w || f64_isinf w) eqn:E; [discriminate|]. intros _.
    apply orb_false_elim in E. destruct E as [E1 E2].
    destruct (finite_or_inf w) as [F|[->| ->]]; [split; assumption|assumption|discriminate|discriminate].
  Qed.

  Lemma enc_pval_ok v : plain fmt coerce v -> enc_pval fmt coerce v = Ok (jval v).
  Proof.
    induction v as [|b|w|z|s| |l IH| |m IH] using pval_ind'; intros P; inversion P; subst; cbn [enc_pval jval]; try reflexivity.
    - now apply finite_enc.
    - rewrite (map_m_ok _ jval); [reflexivity|]. intros x I.
      eapply Forall_forall in IH; [|exact I]. apply IH. now eapply Forall_forall in H0; [|exact I].
    - rewrite (map_m_ok _ (fun kv => (coerce (fst kv), jval (snd kv)))); [reflexivity|]. intros [k x] I.
      eapply Forall_forall in IH; [|exact I]. cbn [snd fst] in *. rewrite IH; [reflexivity|].
      now eapply Forall_forall in H2; [|exact I].
  Qed.

  Lemma dec_arr l vs : Forall2 (fun j v => dec_pval j = Some v) l vs ->
    dec_pval (JArr l) = Some (PList (Some vs)).
  Proof.
    intros H. cbn [dec_pval].
    match goal with |- context [match ?F l with _ => _ end] => assert (E : F l = Some vs); [|now rewrite E] end.
    induction H as [|j v l vs E H IH]; [reflexivity|]. now rewrite E, IH.
  Qed.
  Lemma dec_obj ms kvs : Forall2 (fun kj kv => fst kj = fst kv /\ dec_pval (snd kj) = Some (snd kv)) ms kvs ->
    ascending (map fst kvs) ->
    dec_pval (JObj ms) = Some (PMap (Some kvs)).
  Proof.
    intros H A. cbn [dec_pval].
    match goal with |- context [match ?F ms [] with _ => _ end] =>
      assert (E : forall acc, F ms acc = Some (fold_left (fun o kv => put (fst kv) (snd kv) o) kvs acc)) end.
    { clear A. induction H as [|[k j] [k' v] ms kvs [E1 E2] H IH]; intros acc; [reflexivity|].
      cbn [fst snd] in *. subst k'. rewrite E2. rewrite IH. reflexivity. }
    rewrite E. rewrite (put_all kvs []) by exact A. reflexivity.
  Qed.

  Lemma map_reread_keys m : map fst (map (fun kv : list Z * pval => (fst kv, reread (snd kv))) m) = map fst m.
  Proof. rewrite map_map. reflexivity. Qed.

  Lemma dec_pval_ok v : plain fmt coerce v -> dec_pval (jval v) = Some (reread v).
  Proof.
    induction v as [|b|w|z|s| |l IH| |m IH] using pval_ind'; intros P; inversion P; subst; cbn [jval reread]; try reflexivity.
    - cbn [dec_pval]. now rewrite H1.
    - cbn [dec_pval]. now rewrite parse_int_fmt.
    - cbn [dec_pval]. now rewrite H0.
    - apply dec_arr. clear P. induction l as [|x l IHl]; [constructor|].
      inversion IH; inversion H0; subst. cbn [map]. constructor; auto.
    - apply dec_obj; [|now rewrite map_reread_keys]. clear P H0. induction m as [|[k x] m IHm]; [constructor|].
      inversion IH; inversion H1; inversion H2; subst. cbn [map fst snd] in *. constructor; [cbn [fst snd]; auto|auto].
  Qed.

  Lemma dec_props_ok m : plain fmt coerce (PMap m) -> dec_props None (jval (PMap m)) = Some (reread_props m).
  Proof.
    intros P. destruct m as [m|]; [|reflexivity].
    pose proof (dec_pval_ok _ P) as D. cbn [jval reread] in *. cbn [dec_props]. rewrite D.
    inversion P; subst. rewrite put_all; [reflexivity|]. cbn [app]. now rewrite map_reread_keys.
  Qed.

  (** ** Coordinates *)
  Definition good (w : f64) : Prop := f64_finite w = true /\ parse_float (fmt w) = Some w.
  Definition goodp (p : pt) : Prop := good (fst p) /\ good (snd p).
  Definition jpt (p : pt) : json := JArr [JNum (fmt (fst p)); JNum (fmt (snd p))].
  Definition jslice {A} (h : A -> json) (s : slice A) : json :=
    match s with None => JNull | Some l => JArr (map h l) end.

  Lemma enc_pt_ok p : goodp p -> enc_pt fmt p = Ok (jpt p).
  Proof. intros [[A _] [B _]]. unfold enc_pt. now rewrite !finite_enc. Qed.
  Lemma dec_pt_ok p : goodp p -> dec_pt (jpt p) = Ok p.
  Proof. destruct p as [x y]. intros [[_ A] [_ B]]. cbn in *. now rewrite A, B. Qed.

  Lemma enc_slice_ok {A} (enc : A -> res gj_err json) h s :
    (forall x, In x (all s) -> enc x = Ok (h x)) -> enc_slice enc s = Ok (jslice h s).
  Proof.
    intros H. destruct s as [l|]; [|reflexivity]. cbn [enc_slice jslice]. rewrite (map_m_ok _ h); [reflexivity|exact H].
  Qed.
  Lemma dec_slice_ok {A} (dec : json -> res gj_err A) h s :
    (forall x, In x (all s) -> dec (h x) = Ok x) -> dec_slice dec (jslice h s) = Ok s.
  Proof.
    intros H. destruct s as [l|]; [|reflexivity]. cbn [dec_slice jslice].
    assert (E : map_m dec (map h l) = Ok l); [|now rewrite E].
    cbn [all] in H. induction l as [|x l IH]; [reflexivity|]. cbn [map map_m]. rewrite H by now left. cbn [bind].
    rewrite IH; [reflexivity|]. intros y I. apply H. now right.
  Qed.

  Lemma good_pts ps : Forall good (pts_coords ps) -> forall p, In p ps -> goodp p.
  Proof.
    intros H p I. unfold pts_coords in H. rewrite Forall_flat_map in H. eapply Forall_forall in H; [|exact I].
    inversion H as [|? ? A B]; subst. inversion B; subst. now split.
  Qed.
  Lemma good_rings rs : Forall good (flat_map (fun r => pts_coords (all r)) rs) ->
    forall r, In r rs -> forall p, In p (all r) -> goodp p.
  Proof.
    intros H r I. rewrite Forall_flat_map in H. eapply Forall_forall in H; [|exact I]. now apply good_pts.
  Qed.
  Lemma good_polys pls : Forall good (flat_map (fun pl => flat_map (fun r => pts_coords (all r)) (all pl)) pls) ->
    forall pl, In pl pls -> forall r, In r (all pl) -> forall p, In p (all r) -> goodp p.
  Proof.
    intros H r I. rewrite Forall_flat_map in H. eapply Forall_forall in H; [|exact I]. now apply good_rings.
  Qed.

  Lemma last_In {A} (l : list A) d : l <> [] -> In (last l d) l.
  Proof. induction l as [|x l IH]; [easy|]. intros _. destruct l; [now left|]. right. apply IH. discriminate. Qed.

  Lemma close_ring_eq r : close_ring r = option_map closed_ring r.
  Proof. destruct r as [[|p r]|]; try reflexivity. cbn. destruct (pt_eq p (last r p)); reflexivity. Qed.
  Lemma closed_ring_in r p : In p (closed_ring r) -> In p r.
  Proof.
    destruct r as [|q r]; [easy|]. cbn [closed_ring]. destruct (pt_eq q (last r q)); [easy|].
    rewrite in_app_iff. intros [H|[<-|[]]]; [assumption|now left].
  Qed.
  Lemma close_ring_in r p : In p (all (close_ring r)) -> In p (all r).
  Proof. rewrite close_ring_eq. destruct r; [apply closed_ring_in|easy]. Qed.

  Lemma close_polygon_in rs r : In r (all (close_polygon rs)) -> exists r0, In r0 (all rs) /\ r = close_ring r0.
  Proof.
    destruct rs as [l|]; [|intros []]. cbn [close_polygon option_map all]. rewrite in_map_iff.
    intros (r0 & <- & I). eauto.
  Qed.

  Definition jpts := jslice jpt.
  Definition jrings := jslice jpts.
  Definition jpolys := jslice jrings.
  Definition jtyped t c := typed t [(key "coordinates", c)].

  (** What is written for a geometry. *)
  Fixpoint jgeom (g : gj) : json :=
    match g with
    | VPoint p => jtyped "Point" (jpt p)
    | VMultiPoint ps => jtyped "MultiPoint" (jpts ps)
    | VLine ps => jtyped "LineString" (jpts ps)
    | VMultiLine ls => jtyped "MultiLineString" (jrings ls)
    | VPoly rs => jtyped "Polygon" (jrings (close_polygon rs))
    | VMultiPoly pls => jtyped "MultiPolygon" (jpolys (option_map (map close_polygon) pls))
    | VColl (Some (g1 :: gs)) => typed "GeometryCollection" [(key "geometries", JArr (map jgeom (g1 :: gs)))]
    | VColl _ => typed "GeometryCollection" []
    | _ => JNull
    end.

  Lemma enc_pts_ok ps : (forall p, In p (all ps) -> goodp p) -> enc_slice (enc_pt fmt) ps = Ok (jpts ps).
  Proof. intros H. apply enc_slice_ok. intros p I. apply enc_pt_ok. auto. Qed.
  Lemma enc_rings_ok rs : (forall r, In r (all rs) -> forall p, In p (all r) -> goodp p) ->
    enc_slice (enc_slice (enc_pt fmt)) rs = Ok (jrings rs).
  Proof. intros H. apply enc_slice_ok. intros r I. apply enc_pts_ok. eauto. Qed.
  Lemma enc_polys_ok pls : (forall pl, In pl (all pls) -> forall r, In r (all pl) -> forall p, In p (all r) -> goodp p) ->
    enc_slice (enc_slice (enc_slice (enc_pt fmt))) pls = Ok (jpolys pls).
  Proof. intros H. apply enc_slice_ok. intros r I. apply enc_rings_ok. eauto. Qed.
  Lemma dec_pts_ok ps : (forall p, In p (all ps) -> goodp p) -> dec_slice dec_pt (jpts ps) = Ok ps.
  Proof. intros H. apply dec_slice_ok. intros p I. apply dec_pt_ok. auto. Qed.
  Lemma dec_rings_ok rs : (forall r, In r (all rs) -> forall p, In p (all r) -> goodp p) ->
    dec_slice (dec_slice dec_pt) (jrings rs) = Ok rs.
  Proof. intros H. apply dec_slice_ok. intros r I. apply dec_pts_ok. eauto. Qed.
  Lemma dec_polys_ok pls : (forall pl, In pl (all pls) -> forall r, In r (all pl) -> forall p, In p (all r) -> goodp p) ->
    dec_slice (dec_slice (dec_slice dec_pt)) (jpolys pls) = Ok pls.
  Proof. intros H. apply dec_slice_ok. intros r I. apply dec_rings_ok. eauto. Qed.

  Lemma good_closed rs : (forall r, In r (all rs) -> forall p, In p (all r) -> goodp p) ->
    (forall r, In r (all (close_polygon rs)) -> forall p, In p (all r) -> goodp p).
  Proof.
    intros H r I p Ip. apply close_polygon_in in I. destruct I as (r0 & I & ->). apply close_ring_in in Ip. eauto.
  Qed.
  Lemma good_closed2 pls : (forall pl, In pl (all pls) -> forall r, In r (all pl) -> forall p, In p (all r) -> goodp p) ->
    (forall pl, In pl (all (option_map (map close_polygon) pls)) -> forall r, In r (all pl) -> forall p, In p (all r) -> goodp p).
  Proof.
    intros H pl I. destruct pls as [l|]; [|destruct I]. cbn [option_map all] in I. apply in_map_iff in I.
    destruct I as (pl0 & <- & I). apply good_closed. eauto.
  Qed.

  Lemma enc_geometry_ok g : supported g -> Forall good (coordinates g) -> enc_geometry fmt g = Ok (jgeom g).
  Proof.
    induction g as [p|s|s|s|s|s| |l IH|f|f| |] using gj_ind'; intros S G; inversion S; subst; cbn [enc_geometry jgeom coordinates] in *.
    - rewrite enc_pt_ok; [reflexivity|]. apply (good_pts [p] G). now left.
    - rewrite enc_pts_ok; [reflexivity|]. now apply good_pts.
    - rewrite enc_pts_ok; [reflexivity|]. now apply good_pts.
    - rewrite enc_rings_ok; [reflexivity|]. now apply good_rings.
    - rewrite enc_rings_ok; [reflexivity|]. apply good_closed. now apply good_rings.
    - rewrite enc_polys_ok; [reflexivity|]. apply good_closed2. now apply good_polys.
    - reflexivity.
    - destruct l as [|g1 gs]; [reflexivity|].
      assert (E : map_m (enc_geometry fmt) (g1 :: gs) = Ok (map jgeom (g1 :: gs))).
      { apply map_m_ok. intros x I. eapply Forall_forall in IH; [|exact I]. apply IH.
        - now eapply Forall_forall in H0; [|exact I].
        - rewrite Forall_flat_map in G. now eapply Forall_forall in G; [|exact I]. }
      unfold bind. change (match map_m (enc_geometry fmt) (g1 :: gs) with
         | Ok a => Ok (typed "GeometryCollection" [(key "geometries", JArr a)])
         | Err e => Err e | Panic => Panic end = Ok (typed "GeometryCollection" [(key "geometries", JArr (map jgeom (g1 :: gs)))])).
      now rewrite E.
  Qed.

  Lemma jslice_some {A} (h : A -> json) l : jslice h (Some l) = JArr (map h l). Proof. reflexivity. Qed.

  Lemma field_some {A} k ms (dec : json -> res gj_err A) j : get (key k) ms = Some j -> j <> JNull -> field k ms dec = dec j.
  Proof. unfold field. intros -> N. destruct j; easy. Qed.

  Lemma jgeom_not_null g : supported g -> jgeom g <> JNull.
  Proof. intros H. inversion H; subst; try easy. destruct gs; easy. Qed.

  Lemma sum_in (l : list nat) n : In n l -> (n <= list_sum l)%nat.
  Proof. intros H. induction l as [|x l IH]; [destruct H|]. change (list_sum (x :: l)) with (x + list_sum l)%nat. destruct H as [->|H]; [lia|]. apply IH in H. lia. Qed.

  Ltac ty := rewrite (field_some (A := list Z) "type" _ dec_type (JStr (key _))) by (reflexivity || discriminate).

  Lemma closed_poly l : VPoly (close_polygon (Some l)) = closed (VPoly (Some l)).
  Proof. cbn. do 2 f_equal. apply map_ext. intros r. apply close_ring_eq. Qed.
  Lemma closed_mpoly l : VMultiPoly (option_map (map close_polygon) (Some l)) = closed (VMultiPoly (Some l)).
  Proof.
    cbn. do 2 f_equal. apply map_ext. intros [pl|]; [|reflexivity]. cbn. f_equal. apply map_ext. intros r. apply close_ring_eq.
  Qed.

  Lemma no_size j : ~ (json_size j <= 0)%nat.
  Proof. destruct j; cbn [json_size]; lia. Qed.

  Lemma dec_geometry_ok g : supported g -> no_nil g -> Forall good (coordinates g) ->
    forall n, (json_size (jgeom g) <= n)%nat -> dec_geometry n (jgeom g) = Ok (closed g).
  Proof.
    induction g as [p|s|s|s|s|s| |l IH|f|f| |] using gj_ind'; intros S N G n Hn; inversion S; inversion N; subst;
      cbn [coordinates] in *; (destruct n as [|n]; [exfalso; eapply no_size; exact Hn|]); cbn [jgeom] in *.
    - change (dec_geometry (Datatypes.S n) (jtyped "Point" (jpt p))) with (bind (dec_pt (jpt p)) (fun p => Ok (VPoint p))).
      rewrite dec_pt_ok; [reflexivity|]. apply (good_pts [p] G). now left.
    - change (dec_geometry (Datatypes.S n) (jtyped "MultiPoint" (jpts (Some l))))
        with (bind (dec_slice dec_pt (jpts (Some l))) (fun c => Ok (VMultiPoint c))).
      rewrite dec_pts_ok; [reflexivity|]. now apply good_pts.
    - change (dec_geometry (Datatypes.S n) (jtyped "LineString" (jpts (Some l))))
        with (bind (dec_slice dec_pt (jpts (Some l))) (fun c => Ok (VLine c))).
      rewrite dec_pts_ok; [reflexivity|]. now apply good_pts.
    - change (dec_geometry (Datatypes.S n) (jtyped "MultiLineString" (jrings (Some l))))
        with (bind (dec_slice (dec_slice dec_pt) (jrings (Some l))) (fun c => Ok (VMultiLine c))).
      rewrite dec_rings_ok; [reflexivity|]. now apply good_rings.
    - change (dec_geometry (Datatypes.S n) (jtyped "Polygon" (jrings (close_polygon (Some l)))))
        with (bind (dec_slice (dec_slice dec_pt) (jrings (close_polygon (Some l)))) (fun c => Ok (VPoly c))).
      rewrite dec_rings_ok; [cbn [bind]; now rewrite closed_poly|]. apply good_closed. now apply good_rings.
    - change (dec_geometry (Datatypes.S n) (jtyped "MultiPolygon" (jpolys (option_map (map close_polygon) (Some l)))))
        with (bind (dec_slice (dec_slice (dec_slice dec_pt)) (jpolys (option_map (map close_polygon) (Some l)))) (fun c => Ok (VMultiPoly c))).
      rewrite dec_polys_ok; [cbn [bind]; now rewrite closed_mpoly|]. apply good_closed2. now apply good_polys.
    - reflexivity.
    - destruct l as [|g1 gs]; [reflexivity|].
      set (l := g1 :: gs) in *.
      change (dec_geometry (Datatypes.S n) (typed "GeometryCollection" [(key "geometries", JArr (map jgeom l))]))
        with (bind (map_m (fun v => match v with JNull => Panic | _ => dec_geometry n v end) (map jgeom l))
                (fun gs => Ok (VColl (Some gs)))).
      assert (E : map_m (fun v => match v with JNull => Panic | _ => dec_geometry n v end) (map jgeom l) = Ok (map closed l));
        [|now rewrite E].
      assert (B : forall x, In x l -> (json_size (jgeom x) <= n)%nat).
      { intros x I. assert (Hs : (json_size (jgeom x) <= list_sum (map json_size (map jgeom l)))%nat).
        { apply sum_in. rewrite map_map. now apply in_map_iff; eauto. }
        assert (Hn' : (json_size (typed "GeometryCollection" [(key "geometries", JArr (map jgeom l))]) <= Datatypes.S n)%nat) by exact Hn.
        unfold typed in Hn'. cbn [json_size map snd list_sum fold_right] in Hn'.
        change (fold_right Nat.add 0%nat (map json_size (map jgeom l))) with (list_sum (map json_size (map jgeom l))) in Hn'. lia. }
      clearbody l. clear Hn S N. induction l as [|x l IHl]; [reflexivity|].
      inversion IH as [|? ? I1 I2]; inversion H0 as [|? ? S1 S2]; inversion H2 as [|? ? N1 N2]; subst.
      cbn [flat_map] in G. apply Forall_app in G. destruct G as [G1 G2].
      cbn [map map_m]. pose proof (I1 S1 N1 G1 n (B x (or_introl eq_refl))) as Ex.
      pose proof (jgeom_not_null x S1) as NN.
      assert (Em : match jgeom x with JNull => Panic | _ => dec_geometry n (jgeom x) end = Ok (closed x)).
      { destruct (jgeom x); [easy|..]; exact Ex. }
      rewrite Em. cbn [bind]. rewrite IHl; auto. intros y I. apply B. now right.
  Qed.
End Props.
