(** Proofs about well-known text: final statements, totality of the decoder. *)
From Coq Require Import String ZArith Bool List Lia.
From Coq Require Import ZifyBool ZifyNat.
From Verif Require Import Base_F64 Base_Geom Base_Res Base_Bytes M_Extent M_Cmp M_Gpkg M_Wkt S_Wkt S_Cmp P_F64 P_Cmp
  P_Wkt P_Wkt2 P_Wkt3 P_Wkt4 P_Wkt5.
Import ListNotations.
Open Scope Z_scope.

(** ** Round trip *)

Lemma encode_string_ok fmt strict v tx :
  encode_string fmt strict v = Ok tx <-> enc_g fmt strict (geom_of v) = (tx, None).
Proof.
  unfold encode_string. rewrite encode_enc. destruct (enc_g fmt strict (geom_of v)) as [bs [e|]].
  - split; discriminate.
  - split; intros H; congruence.
Qed.

Lemma decode_goes fmt parse rt c strict v tx suffix : positive c -> number_io fmt parse rt (geom_of v) ->
  encode_string fmt strict v = Ok tx ->
  (readable (geom_of v) /\ decode parse c (tx ++ suffix) = Ok (map_geom rt (kept (geom_of v)))) \/
  (~ readable (geom_of v) /\ is_err (decode parse c (tx ++ suffix)) = true).
Proof.
  intros Pc (Ev & Eq & NE) H. apply encode_string_ok in H. unfold decode.
  destruct (geo_read fmt parse rt c strict Pc Eq NE (geom_of v) tx Ev H (2 * len (tx ++ suffix) + 2)%nat suffix) as [[R ->]|[R E]].
  - rewrite app_length. lia.
  - left. split; [assumption|reflexivity].
  - right. split; [assumption|]. now apply err_bind.
Qed.

Theorem roundtrip fmt parse rt c strict v suffix : positive c -> number_io fmt parse rt (geom_of v) ->
  readable (geom_of v) -> (strict = true -> clean (geom_of v) = true) ->
  exists tx, encode_string fmt strict v = Ok tx /\
    decode parse c (tx ++ suffix) = Ok (map_geom rt (kept (geom_of v))).
Proof.
  intros Pc N R C. destruct (enc_exists fmt (fun w => w) strict (fun a b _ _ H => H) (geom_of v) R C) as [tx E]. exists tx.
  apply encode_string_ok in E. split; [assumption|].
  destruct (decode_goes fmt parse rt c strict v tx suffix Pc N E) as [[_ H]|[W _]]; [assumption|contradiction].
Qed.

Theorem only_readable fmt parse rt c strict v tx g : positive c -> number_io fmt parse rt (geom_of v) ->
  encode_string fmt strict v = Ok tx -> decode parse c tx = Ok g ->
  readable (geom_of v) /\ g = map_geom rt (kept (geom_of v)).
Proof.
  intros Pc N E D. destruct (decode_goes fmt parse rt c strict v tx [] Pc N E) as [[R H]|[_ W]]; rewrite app_nil_r in *.
  - split; [assumption|]. congruence.
  - rewrite D in W. discriminate.
Qed.

(** ** Empty geometries *)

Lemma no_points ls : existsb has_point ls = false -> filter has_point ls = [].
Proof. induction ls as [|l ls IH]; [reflexivity|]. cbn. destruct (has_point l); [discriminate|exact IH]. Qed.

Lemma nothing_unreadable g : nothing g = true -> ~ readable g.
Proof.
  assert (K : forall ps, has_point ps = false -> vertices_kept ps = []) by (intros; now apply kept_nil).
  induction g as [p|ps|ps|ls|rs|pls|gs IH|] using geom_ind'; intros N.
  - cbn in *. destruct (real p); easy.
  - cbn in *. apply negb_true_iff in N. intros [A B]. destruct ps as [|p ps]; [easy|].
    cbn in N. inversion B as [|? ? Rp _]; subst. rewrite Rp in N. discriminate.
  - cbn in *. apply negb_true_iff in N. rewrite (K _ N). cbn. lia.
  - cbn in *. apply negb_true_iff in N. intros [A B]. destruct ls as [|p ps]; [easy|].
    cbn in N. apply orb_false_iff in N. inversion B as [|? ? Rp _]; subst. rewrite (K _ (proj1 N)) in Rp. cbn in Rp. lia.
  - cbn in *. apply negb_true_iff, no_points in N. intros [A _]. contradiction.
  - cbn in *. apply negb_true_iff in N. intros [A B]. destruct pls as [|p ps]; [easy|].
    cbn in N. apply orb_false_iff in N. inversion B as [|? ? [Rp _] _]; subst. now rewrite (no_points _ (proj1 N)) in Rp.
  - rewrite coll_readable. intros [A B]. destruct gs as [|g gs]; [easy|]. cbn in N. apply andb_true_iff in N.
    inversion IH as [|? ? H _]; subst. inversion B; subst. now apply H.
  - discriminate.
Qed.

Lemma nothing_every P g : nothing g = true -> every P g.
Proof.
  assert (K0 : forall p, real p = false -> good_point P p) by (unfold good_point; congruence).
  assert (K : forall ps, has_point ps = false -> Forall (good_point P) ps).
  { induction ps as [|p ps IH]; [constructor|]. cbn. intros H. apply orb_false_iff in H. constructor; [now apply K0|now apply IH]. }
  assert (K2 : forall ls, existsb has_point ls = false -> Forall (Forall (good_point P)) ls).
  { induction ls as [|p ps IH]; [constructor|]. cbn. intros H. apply orb_false_iff in H. constructor; [now apply K|now apply IH]. }
  induction g as [p|ps|ps|ls|rs|pls|gs IH|] using geom_ind'; intros N; cbn in N; try apply negb_true_iff in N.
  - now apply K0.
  - now apply K.
  - now apply K.
  - now apply K2.
  - now apply K2.
  - cbn. induction pls as [|p ps IH]; [constructor|]. cbn in N. apply orb_false_iff in N. constructor; [now apply K2|now apply IH].
  - apply coll_every. rewrite forallb_forall in N. rewrite Forall_forall in *. auto.
  - exact I.
Qed.

Lemma nothing_encodes fmt g : nothing g = true -> exists tx, enc_g fmt false g = (tx, None).
Proof.
  assert (K : forall t ps, has_point ps = false -> is_mp t = false -> pts_ok fmt false t ps (str "EMPTY")).
  { intros t ps H M. apply points_ok. split; [discriminate|]. unfold ptext, sel. rewrite M.
    fold (vertices_kept ps). apply kept_nil in H. now rewrite H. }
  assert (K2 : forall t ls, existsb has_point ls = false -> is_ring t = true -> exists tx, encode_lines fmt false ls t = (tx, None)).
  { intros t ls H Rg. exists (brack []). apply lines_ok. split; [discriminate|]. exists []. split; [|reflexivity].
    unfold sel_lines. assert (Ml : is_ml t = false) by (destruct t; easy). rewrite Ml, no_points by assumption. constructor. }
  induction g as [p|ps|ps|ls|rs|pls|gs IH|] using geom_ind'; intros N; cbn in N; try apply negb_true_iff in N; cbn [enc_g].
  - apply tag_exist. unfold encode_point. rewrite empty_real, N. eexists. reflexivity.
  - apply tag_exist. rewrite points_eq by (intros _ W; discriminate).
    unfold sel. cbn [is_mp]. destruct ps; eexists; [reflexivity|]. cbn [big_enough is_ring is_line andb negb]. reflexivity.
  - apply tag_exist. eexists. apply (K lsType ps N eq_refl).
  - apply tag_exist. exists (brack (map (fun _ => str "EMPTY") ls)). apply lines_ok. split; [discriminate|].
    exists (map (fun _ => str "EMPTY") ls). split; [|reflexivity]. unfold sel_lines. cbn [is_ml].
    induction ls as [|l ls IH]; [constructor|]. cbn in N. apply orb_false_iff in N. cbn [map].
    constructor; [now apply K|now apply IH].
  - apply tag_exist. now apply K2.
  - apply tag_exist. apply polys_exist. induction pls as [|p ps IH]; [constructor|]. cbn in N. apply orb_false_iff in N.
    constructor; [now apply K2|now apply IH].
  - apply coll_exist. rewrite forallb_forall in N. rewrite Forall_forall in *. auto.
  - discriminate.
Qed.

Theorem nothing_lost fmt parse c v : positive c -> parse (str "E") = None -> nothing (geom_of v) = true ->
  exists tx, encode_string fmt false v = Ok tx /\ is_err (decode parse c tx) = true.
Proof.
  intros Pc NE N. destruct (nothing_encodes fmt _ N) as [tx E]. exists tx. apply encode_string_ok in E.
  split; [assumption|].
  destruct (decode_goes fmt parse (fun w => w) c false v tx [] Pc) as [[R _]|[_ W]].
  - split; [|split; [auto|assumption]]. now apply nothing_every.
  - assumption.
  - now apply nothing_unreadable in R.
  - now rewrite app_nil_r in W.
Qed.

(** ** The decoder is total *)

Definition fine {A} (P : A -> Prop) (d : nat) (s : list Z) (m : dres A) : Prop :=
  match m with
  | Ok (x, s') => P x /\ (len s' + d <= len s)%nat
  | Err e => e <> EFuel
  | Panic => False
  end.

Lemma fine_bind {A B} (P : A -> Prop) (Q : B -> Prop) d d2 s (m : dres A) (f : A * list Z -> dres B) :
  fine P d s m -> (forall x s', P x -> (len s' + d <= len s)%nat -> fine Q d2 s (f (x, s'))) ->
  fine Q d2 s (bind m f).
Proof. destruct m as [[x s']|e|]; cbn; [intros [H L] K; now apply K|auto|contradiction]. Qed.

Lemma fine_weak {A} (P : A -> Prop) d s s2 d2 m : fine P d s m -> (len s + d2 <= len s2 + d)%nat -> fine P d2 s2 m.
Proof. destruct m as [[x s']|e|]; cbn; [intros [H L] K; split; [assumption|lia]|auto|contradiction]. Qed.

Lemma fine_byte s : fine (fun _ => True) 1 s (read_byte s).
Proof. destruct s; cbn; [discriminate|split; [exact I|lia]]. Qed.

Lemma fine_while f s : fine (fun tok => exists s', read_while f s = Ok (tok, s') /\ (len tok + len s' = len s)%nat) 0 s (read_while f s).
Proof.
  induction s as [|b s IH]; [discriminate|]. cbn [read_while]. destruct (f b).
  - destruct (read_while f s) as [[tok s']|e|]; cbn in *.
    + destruct IH as [(s2 & E & L) K]. injection E as <-. split; [|lia]. exists s'. split; [reflexivity|lia].
    + assumption.
    + assumption.
  - cbn. split; [|lia]. exists (b :: s). split; [reflexivity|cbn; lia].
Qed.
Lemma fine_ws s : fine (fun did => did = true -> exists s', read_whitespace s = Ok (did, s') /\ (len s' + 1 <= len s)%nat) 0 s (read_whitespace s).
Proof.
  unfold read_whitespace. pose proof (fine_while is_space s) as H. destruct (read_while is_space s) as [[tok s']|e|]; cbn in *; auto.
  destruct H as [(s2 & E & L) K]. injection E as <-. split; [|lia]. intros D. exists s'. split; [reflexivity|].
  destruct tok; cbn in *; [discriminate|lia].
Qed.
Lemma fine_ws0 s : fine (fun _ => True) 0 s (read_whitespace s).
Proof. pose proof (fine_ws s) as H. destruct (read_whitespace s) as [[b s']|e|]; cbn in *; tauto. Qed.
Lemma fine_expect b s : fine (fun _ => True) 1 s (expect b s).
Proof. unfold expect. destruct s as [|x s]; cbn; [discriminate|]. destruct (x =? b); cbn; [split; [exact I|lia]|discriminate]. Qed.

Lemma fine_elements {A} (R : list Z -> dres A) (P : A -> Prop) : (forall s, fine P 1 s (R s)) ->
  forall n s, (len s <= n)%nat -> (1 <= n)%nat -> fine (fun l => Forall P l /\ l <> []) 1 s (elements R n s).
Proof.
  intros HR. induction n as [|n IH]; intros s L N; [lia|]. cbn [elements].
  eapply fine_bind; [apply HR|]. intros x s1 Px L1. cbn beta iota.
  eapply fine_bind; [eapply fine_weak; [apply fine_ws0|]; instantiate (1 := 1%nat); lia|]. intros _ s2 _ L2. cbn beta iota.
  eapply fine_bind; [eapply fine_weak; [apply fine_byte|]; instantiate (1 := 2%nat); lia|]. intros b s3 _ L3. cbn beta iota.
  destruct (b =? 44).
  - eapply fine_bind; [eapply fine_weak; [apply fine_ws0|]; instantiate (1 := 2%nat); lia|]. intros _ s4 _ L4. cbn beta iota.
    eapply fine_bind; [eapply fine_weak; [apply IH; lia|]; instantiate (1 := 2%nat); lia|]. intros xs s5 [Pxs _] L5. cbn.
    split; [split; [now constructor|discriminate]|lia].
  - destruct (b =? 41); cbn; [|discriminate]. split; [|lia]. split; [now constructor|discriminate].
Qed.

Lemma fine_bracketed {A} (R : list Z -> dres A) (P : A -> Prop) : (forall s, fine P 1 s (R s)) ->
  forall s, fine (Forall P) 1 s (bracketed R s).
Proof.
  intros HR s. unfold bracketed.
  eapply fine_bind; [apply fine_expect|]. intros _ s1 _ L1. cbn beta iota.
  eapply fine_bind; [eapply fine_weak; [apply fine_ws0|]; instantiate (1 := 1%nat); lia|]. intros _ s2 _ L2. cbn beta iota.
  destruct s2 as [|b s3]; [discriminate|]. cbn [read_byte bind]. destruct (b =? 41).
  - cbn in *. split; [constructor|lia].
  - pose proof (fine_elements R P HR (len (b :: s3)) (b :: s3) (le_n _) ltac:(cbn; lia)) as H.
    destruct (elements R (len (b :: s3)) (b :: s3)) as [[x s']|e|]; [cbn in *|exact H|exact H]. split; [tauto|lia].
Qed.

Lemma in_elements_trim {A} (P : A -> Prop) l : Forall P l -> Forall P (removelast l).
Proof. intros H. induction H as [|x l Hx H IH]; cbn; [constructor|]. destruct l; [constructor|now constructor]. Qed.

Section Total.
  Variables (parse : list Z -> option f64) (c : compare) (Q : f64 -> Prop).
  Hypothesis HQ : forall s w, parse s = Some w -> Q w.
  Let Qp (p : pt) : Prop := Q (fst p) /\ Q (snd p).

  Lemma fine_float s : fine Q 0 s (read_float parse s).
  Proof.
    unfold read_float. eapply fine_bind; [apply fine_while|]. intros tok s' _ L. cbn beta iota.
    destruct (parse tok) eqn:E; cbn; [split; [eapply HQ; eassumption|lia]|discriminate].
  Qed.
  Lemma fine_point s : fine Qp 1 s (read_point parse s).
  Proof.
    unfold read_point. eapply fine_bind; [apply fine_float|]. intros x s1 Qx L1. cbn beta iota.
    pose proof (fine_ws s1) as W. destruct (read_whitespace s1) as [[did s2]|e|]; [|exact W|exact W].
    cbn [bind]. destruct W as [W L2]. destruct did; cbn [negb]; [|discriminate].
    destruct (W eq_refl) as (s2' & E & L3). injection E as <-.
    eapply fine_bind; [eapply fine_weak; [apply fine_float|]; instantiate (1 := 1%nat); lia|].
    intros y s3 Qy L4. cbn. split; [split; assumption|lia].
  Qed.
  Lemma fine_points s : fine (Forall Qp) 1 s (read_points parse s).
  Proof. apply fine_bracketed, fine_point. Qed.
  Lemma fine_lines s : fine (Forall (Forall Qp)) 1 s (read_lines parse s).
  Proof. apply fine_bracketed, fine_points. Qed.
  Lemma fine_polys s : fine (Forall (Forall (Forall Qp))) 1 s (read_polys parse s).
  Proof. apply fine_bracketed, fine_lines. Qed.

  (** Results that do not read. *)
  Definition fine0 {A} (P : A -> Prop) (m : res dec_err A) : Prop :=
    match m with Ok x => P x | Err e => e <> EFuel | Panic => False end.
  Definition ring (r : list pt) : Prop := (3 <=? len r)%nat = true /\ Forall Qp r.
  Lemma fine_open v : Forall Qp v -> fine0 ring (open_ring c v).
  Proof.
    intros H. unfold open_ring. destruct (Nat.ltb_spec (len v) 4); [discriminate|]. destruct v as [|p v]; [cbn in *; lia|].
    destruct (negb _); [discriminate|]. cbn [fine0]. split; [|now apply in_elements_trim].
    rewrite removelast_firstn_len, firstn_length. apply Nat.leb_le. lia.
  Qed.
  Lemma fine_map {A B} (f : A -> res dec_err B) (P0 : A -> Prop) (P : B -> Prop) l : (forall x, P0 x -> fine0 P (f x)) -> Forall P0 l ->
    fine0 (fun ys => Forall P ys /\ len ys = len l) (map_ok f l).
  Proof.
    intros H H0. induction H0 as [|x l Hx H0 IH]; cbn [map_ok]; [split; [constructor|reflexivity]|]. specialize (H x Hx).
    destruct (f x) as [y|e|]; cbn in *; [|assumption|assumption].
    destruct (map_ok f l) as [ys|e|]; cbn in *; [|assumption|assumption]. split; [constructor; tauto|lia].
  Qed.
  Lemma fine0_bind {A B} (P : A -> Prop) (P2 : B -> Prop) d s (m : res dec_err A) (f : A -> dres B) :
    fine0 P m -> (forall x, P x -> fine P2 d s (f x)) -> fine P2 d s (bind m f).
  Proof. destruct m; cbn; [auto|auto|contradiction]. Qed.

  Definition shaped (g : geom f64) : Prop := well_shaped g = true /\ Forall Q (coordinates g).
  Lemma Q_xys ps : Forall Qp ps -> Forall Q (xys ps).
  Proof. intros H. unfold xys. apply Forall_flat_map. eapply Forall_impl; [|exact H]. intros p [A B]. repeat constructor; assumption. Qed.
  Lemma Q_concat (ls : list (list pt)) : Forall (Forall Qp) ls -> Forall Qp (concat ls).
  Proof. intros H. now apply Forall_concat. Qed.
  Lemma ring_all rs : Forall ring rs -> forallb (fun l => (3 <=? len l)%nat) rs = true /\ Forall (Forall Qp) rs.
  Proof.
    intros H. split.
    - apply forallb_forall. rewrite Forall_forall in H. intros r Hr. now apply H.
    - eapply Forall_impl; [|exact H]. intros r [_ K]. exact K.
  Qed.

  Lemma fine_geometry n : 
    (forall s, (2 * len s + 1 <= n)%nat -> fine shaped 1 s (read_geometry parse c n s)) /\
    (forall s, (2 * len s + 2 <= n)%nat -> fine (Forall shaped) 1 s (read_members parse c n s)).
  Proof.
    induction n as [|n [IHg IHm]]; [split; intros; lia|]. split.
    - intros s L. cbn [read_geometry].
      unfold read_tag.
      assert (T : fine (fun _ => True) 0 s (do (_, s0) <- read_whitespace s; do (tok, s1) <- read_while is_alpha s0; Ok (map lower tok, s1))).
      { eapply fine_bind; [apply fine_ws0|]. intros _ s1 _ L1. cbn beta iota.
        eapply fine_bind; [eapply fine_weak; [apply fine_while|]; instantiate (1 := 0%nat); lia|]. intros tok s2 _ L2. cbn.
        split; [exact I|lia]. }
      eapply fine_bind; [exact T|]. clear T. intros tag s1 _ L1. cbn beta iota.
      eapply fine_bind; [eapply fine_weak; [apply fine_ws0|]; instantiate (1 := 0%nat); lia|]. intros _ s2 _ L2. cbn beta iota.
      destruct (list_eq_dec Z.eq_dec tag (str "point")).
      { eapply fine_bind; [eapply fine_weak; [apply fine_points|]; instantiate (1 := 1%nat); lia|]. intros pts s3 Hq L3. cbn beta iota.
        destruct pts as [|p [|q pts]]; [discriminate| |discriminate]. split; [|lia]. split; [reflexivity|]. now apply Q_xys. }
      destruct (list_eq_dec Z.eq_dec tag (str "multipoint")).
      { eapply fine_bind; [eapply fine_weak; [apply fine_points|]; instantiate (1 := 1%nat); lia|]. intros pts s3 Hq L3. cbn beta iota.
        split; [|lia]. split; [reflexivity|now apply Q_xys]. }
      destruct (list_eq_dec Z.eq_dec tag (str "linestring")).
      { eapply fine_bind; [eapply fine_weak; [apply fine_points|]; instantiate (1 := 1%nat); lia|]. intros pts s3 Hq L3. cbn beta iota.
        destruct (Nat.ltb_spec (len pts) 2) as [X|X]; [discriminate|]. split; [|lia]. split; [apply Nat.leb_le; lia|now apply Q_xys]. }
      destruct (list_eq_dec Z.eq_dec tag (str "multilinestring")).
      { eapply fine_bind; [eapply fine_weak; [apply fine_lines|]; instantiate (1 := 1%nat); lia|]. intros ls s3 Hq L3. cbn beta iota.
        destruct (Nat.ltb_spec (len ls) 1) as [X|X]; [discriminate|].
        destruct (existsb (fun v : list pt => (len v <? 2)%nat) ls) eqn:X2; [discriminate|]. split; [|lia].
        split; [|now apply Q_xys, Q_concat]. cbn [well_shaped]. apply andb_true_iff. split; [apply Nat.leb_le; lia|].
        clear - X2. induction ls as [|l ls IH]; [reflexivity|]. cbn in X2. apply orb_false_iff in X2. destruct X2 as [A B].
        cbn [forallb]. rewrite (IH B), andb_true_r. apply Nat.leb_le. apply Nat.leb_gt in A. lia. }
      destruct (list_eq_dec Z.eq_dec tag (str "polygon")).
      { eapply fine_bind; [eapply fine_weak; [apply fine_lines|]; instantiate (1 := 1%nat); lia|]. intros ls s3 Hq L3. cbn beta iota.
        destruct (Nat.ltb_spec (len ls) 1) as [X|X]; [discriminate|].
        eapply fine0_bind; [apply (fine_map _ (Forall Qp) ring); [apply fine_open|exact Hq]|]. intros rs [F E].
        apply ring_all in F. destruct F as [F F2].
        split; [|lia]. split; [|now apply Q_xys, Q_concat]. cbn [well_shaped]. rewrite F, andb_true_r. apply Nat.leb_le. lia. }
      destruct (list_eq_dec Z.eq_dec tag (str "multipolygon")).
      { eapply fine_bind; [eapply fine_weak; [apply fine_polys|]; instantiate (1 := 1%nat); lia|]. intros ls s3 Hq L3. cbn beta iota.
        destruct (Nat.ltb_spec (len ls) 1) as [X|X]; [discriminate|].
        eapply fine0_bind.
        { apply (fine_map _ (Forall (Forall Qp)) (fun rs => forallb (fun r => (3 <=? len r)%nat) rs = true /\ Forall (Forall Qp) rs)) with (2 := Hq). intros v Hv.
          pose proof (fine_map (open_ring c) (Forall Qp) ring v fine_open Hv) as K.
          destruct (map_ok (open_ring c) v); cbn in *; [|assumption|assumption]. now apply ring_all. }
        intros rs [F E].
        split; [|lia]. split.
        - cbn [well_shaped]. apply andb_true_iff. split; [apply Nat.leb_le; lia|]. apply forallb_forall. rewrite Forall_forall in F.
          intros r Hr. now apply F.
        - apply Q_xys, Q_concat. apply Forall_concat. eapply Forall_impl; [|exact F]. intros r [_ K]. exact K. }
      destruct (list_eq_dec Z.eq_dec tag (str "geometrycollection")).
      { eapply fine_bind; [eapply fine_weak; [apply fine_expect|]; instantiate (1 := 1%nat); lia|]. intros _ s3 _ L3. cbn beta iota.
        eapply fine_bind; [eapply fine_weak; [apply fine_ws0|]; instantiate (1 := 1%nat); lia|]. intros _ s4 _ L4. cbn beta iota.
        eapply fine_bind; [eapply fine_weak; [apply IHm; lia|]; instantiate (1 := 1%nat); lia|]. intros gs s5 F L5. cbn beta iota.
        destruct (Nat.ltb_spec (len gs) 1) as [X|X]; [discriminate|]. split; [|lia]. split.
        - cbn [well_shaped]. apply andb_true_iff. split; [apply Nat.leb_le; lia|].
          apply forallb_forall. rewrite Forall_forall in F. intros g Hg. now apply F.
        - cbn [coordinates]. apply Forall_flat_map. eapply Forall_impl; [|exact F]. intros g [_ K]. exact K. }
      discriminate.
    - intros s L. cbn [read_members]. destruct s as [|b s]; [discriminate|]. cbn [read_byte bind].
      destruct (b =? 41); [cbn; split; [constructor|lia]|].
      eapply fine_bind; [apply IHg; lia|]. intros g s1 Pg L1. cbn beta iota.
      eapply fine_bind; [eapply fine_weak; [apply fine_ws0|]; instantiate (1 := 1%nat); lia|]. intros _ s2 _ L2. cbn beta iota.
      destruct s2 as [|b2 s3]; [discriminate|]. cbn [read_byte bind].
      destruct (b2 =? 41).
      + eapply fine_bind; [eapply fine_weak; [apply IHm; cbn [List.length] in *; lia|]; instantiate (1 := 1%nat); lia|]. intros gs s5 F L5. cbn.
        cbn [List.length] in L5. split; [now constructor|lia].
      + destruct (b2 =? 44); [|discriminate]. cbn [List.length] in L2.
        eapply fine_bind; [eapply fine_weak; [apply fine_ws0|]; instantiate (1 := 2%nat); cbn [List.length]; lia|]. intros _ s4 _ L4. cbn beta iota.
        eapply fine_bind; [eapply fine_weak; [apply IHm; cbn [List.length] in *; lia|]; instantiate (1 := 1%nat); lia|]. intros gs s5 F L5. cbn.
        cbn [List.length] in *. split; [now constructor|lia].
  Qed.

  Theorem decode_total s : match decode parse c s with
    | Ok g => well_shaped g = true /\ Forall Q (coordinates g)
    | Err e => e <> EFuel
    | Panic => False
    end.
  Proof.
    unfold decode. pose proof (proj1 (fine_geometry (2 * len s + 2)%nat) s ltac:(lia)) as H.
    destruct (read_geometry parse c (2 * len s + 2)%nat s) as [[g s']|e|]; cbn in *; tauto.
  Qed.
End Total.
