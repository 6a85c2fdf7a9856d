(** Proofs about well-known text: bytes after the geometry do not matter; numbers
    printed by strconv. *)
From Coq Require Import String ZArith Bool List Lia Reals.
From Coq Require Import ZifyBool ZifyNat.
From Flocq Require Core.Core IEEE754.BinarySingleNaN IEEE754.Binary IEEE754.Bits.
From Verif Require Import Base_F64 Base_Geom Base_Res Base_Bytes M_Extent M_Cmp M_Wkt M_Strconv S_Wkt S_Strconv S_Cmp P_F64 P_F64Flocq P_F64Round P_Cmp
  P_Wkt P_Wkt2 P_Wkt3 P_Wkt4 P_Wkt5 P_WktTop P_Strconv3 P_Strconv4.
Import ListNotations.
Open Scope Z_scope.

Definition extends {A} (R R2 : list Z -> dres A) : Prop :=
  forall s x s' t, R s = Ok (x, s') -> R2 (s ++ t) = Ok (x, s' ++ t).

Lemma bind_ok {E A B} (m : res E A) (f : A -> res E B) y : bind m f = Ok y -> exists x, m = Ok x /\ f x = Ok y.
Proof. destruct m; cbn; [eauto|discriminate|discriminate]. Qed.

Ltac step H x s K :=
  apply bind_ok in H; destruct H as ([x s] & K & H); cbn beta iota in H.

Ltac rec1 Q :=
  let E := fresh in pose proof Q as E;
  match type of E with _ = ?r => match goal with |- bind ?X _ = _ => replace X with r by (symmetry; exact E) end end;
  clear E; cbn [bind].

Lemma ext_byte : extends read_byte read_byte.
Proof. intros [|b s] x s' t H; cbn in *; [discriminate|]. congruence. Qed.
Lemma ext_while f : extends (read_while f) (read_while f).
Proof.
  intros s. induction s as [|b s IH]; intros x s' t H; cbn [read_while app] in *; [discriminate|].
  destruct (f b).
  - step H tok s1 K. rewrite (IH _ _ t K). cbn. congruence.
  - injection H as <- <-. reflexivity.
Qed.
Lemma ext_ws : extends read_whitespace read_whitespace.
Proof. intros s x s' t H. unfold read_whitespace in *. step H tok s1 K. rewrite (ext_while _ _ _ _ t K). cbn in *. congruence. Qed.
Lemma ext_expect b : extends (expect b) (expect b).
Proof.
  intros s x s' t H. unfold expect in *. step H c s1 K. rewrite (ext_byte _ _ _ t K). cbn [bind].
  destruct (c =? b); [|discriminate]. congruence.
Qed.
Lemma ext_tag : extends read_tag read_tag.
Proof.
  intros s x s' t H. unfold read_tag in *. step H u s1 K. rewrite (ext_ws _ _ _ t K). cbn [bind].
  step H v s2 K2. rewrite (ext_while _ _ _ _ t K2). cbn [bind]. congruence.
Qed.

Lemma ext_elements {A} (R : list Z -> dres A) : extends R R ->
  forall n m, (n <= m)%nat -> extends (elements R n) (elements R m).
Proof.
  intros HR. induction n as [|n IH]; intros m L s x s' t H; cbn [elements] in H; [discriminate|].
  destruct m as [|m]; [lia|]. cbn [elements].
  step H y s1 K. rewrite (HR _ _ _ t K). cbn [bind].
  step H u s2 K2. rewrite (ext_ws _ _ _ t K2). cbn [bind].
  step H b s3 K3. rewrite (ext_byte _ _ _ t K3). cbn [bind].
  destruct (b =? 44).
  - step H v s4 K4. rewrite (ext_ws _ _ _ t K4). cbn [bind].
    step H xs s5 K5. rewrite (IH m ltac:(lia) _ _ _ t K5). cbn [bind]. congruence.
  - destruct (b =? 41); [|discriminate]. congruence.
Qed.
Lemma ext_bracketed {A} (R : list Z -> dres A) : extends R R -> extends (bracketed R) (bracketed R).
Proof.
  intros HR s x s' t H. unfold bracketed in *.
  step H u s1 K. rewrite (ext_expect _ _ _ _ t K). cbn [bind].
  step H v s2 K2. rewrite (ext_ws _ _ _ t K2). cbn [bind].
  step H b s3 K3. rewrite (ext_byte _ _ _ t K3). cbn [bind].
  destruct (b =? 41); [congruence|].
  apply (ext_elements R HR (len s2)); [rewrite app_length; lia|assumption].
Qed.

Section Ext.
  Variables (parse : list Z -> option f64) (c : compare).

  Lemma ext_float : extends (read_float parse) (read_float parse).
  Proof.
    intros s x s' t H. unfold read_float in *. step H tok s1 K. rewrite (ext_while _ _ _ _ t K). cbn [bind].
    destruct (parse tok); [|discriminate]. congruence.
  Qed.
  Lemma ext_point : extends (read_point parse) (read_point parse).
  Proof.
    intros s x s' t H. unfold read_point in *. step H a s1 K. rewrite (ext_float _ _ _ t K). cbn [bind].
    step H d s2 K2. rewrite (ext_ws _ _ _ t K2). cbn [bind]. destruct (negb d); [discriminate|].
    step H b s3 K3. rewrite (ext_float _ _ _ t K3). cbn [bind]. injection H as <- <-. reflexivity.
  Qed.
  Lemma ext_points : extends (read_points parse) (read_points parse).
  Proof. apply ext_bracketed, ext_point. Qed.
  Lemma ext_lines : extends (read_lines parse) (read_lines parse).
  Proof. apply ext_bracketed, ext_points. Qed.
  Lemma ext_polys : extends (read_polys parse) (read_polys parse).
  Proof. apply ext_bracketed, ext_lines. Qed.

  Lemma ext_geometry n : 
    (forall m, (n <= m)%nat -> extends (read_geometry parse c n) (read_geometry parse c m)) /\
    (forall m, (n <= m)%nat -> extends (read_members parse c n) (read_members parse c m)).
  Proof.
    induction n as [|n [IHg IHm]]; [split; intros m L s x s' t H; discriminate|]. split; intros m L s x s' t H; (destruct m as [|m]; [lia|]).
    - cbn [read_geometry] in *. step H tag s1 K. rewrite (ext_tag _ _ _ t K). cbn [bind].
      step H u s2 K2. rewrite (ext_ws _ _ _ t K2). cbn [bind].
      destruct (list_eq_dec Z.eq_dec tag (str "point")).
      { step H ps s3 K3. rewrite (ext_points _ _ _ t K3). cbn [bind]. destruct ps as [|p [|q ps]]; try discriminate. congruence. }
      destruct (list_eq_dec Z.eq_dec tag (str "multipoint")).
      { step H ps s3 K3. rewrite (ext_points _ _ _ t K3). cbn [bind]. congruence. }
      destruct (list_eq_dec Z.eq_dec tag (str "linestring")).
      { step H ps s3 K3. rewrite (ext_points _ _ _ t K3). cbn [bind]. destruct (len ps <? 2)%nat; [discriminate|]. congruence. }
      destruct (list_eq_dec Z.eq_dec tag (str "multilinestring")).
      { step H ps s3 K3. rewrite (ext_lines _ _ _ t K3). cbn [bind]. destruct (len ps <? 1)%nat; [discriminate|].
        destruct (existsb _ ps); [discriminate|]. congruence. }
      destruct (list_eq_dec Z.eq_dec tag (str "polygon")).
      { step H ps s3 K3. rewrite (ext_lines _ _ _ t K3). cbn [bind]. destruct (len ps <? 1)%nat; [discriminate|].
        destruct (map_ok (open_ring c) ps); cbn in *; try discriminate. congruence. }
      destruct (list_eq_dec Z.eq_dec tag (str "multipolygon")).
      { step H ps s3 K3. rewrite (ext_polys _ _ _ t K3). cbn [bind]. destruct (len ps <? 1)%nat; [discriminate|].
        destruct (map_ok (map_ok (open_ring c)) ps); cbn in *; try discriminate. congruence. }
      destruct (list_eq_dec Z.eq_dec tag (str "geometrycollection")); [|discriminate].
      step H v s3 K3. rewrite (ext_expect _ _ _ _ t K3). cbn [bind].
      step H v2 s4 K4. rewrite (ext_ws _ _ _ t K4). cbn [bind].
      step H gs s5 K5. rec1 (IHm m ltac:(lia) _ _ _ t K5).
      destruct (len gs <? 1)%nat; [discriminate|]. congruence.
    - cbn [read_members] in *. step H b s1 K. rewrite (ext_byte _ _ _ t K). cbn [bind].
      destruct (b =? 41); [congruence|].
      step H g s2 K2. rec1 (IHg m ltac:(lia) _ _ _ t K2).
      step H u s3 K3. rewrite (ext_ws _ _ _ t K3). cbn [bind].
      step H b2 s4 K4. rewrite (ext_byte _ _ _ t K4). cbn [bind].
      destruct (b2 =? 41).
      + step H gs s5 K5. rec1 (IHm m ltac:(lia) _ _ _ t K5). congruence.
      + destruct (b2 =? 44); [|discriminate].
        step H v s5 K5. rewrite (ext_ws _ _ _ t K5). cbn [bind].
        step H gs s6 K6. rec1 (IHm m ltac:(lia) _ _ _ t K6). congruence.
  Qed.

  Theorem decode_prefix s g t : decode parse c s = Ok g -> decode parse c (s ++ t) = Ok g.
  Proof.
    unfold decode. intros H. step H g' s' K. injection H as ->.
    rewrite (proj1 (ext_geometry (2 * len s + 2)%nat) (2 * len (s ++ t) + 2)%nat ltac:(rewrite app_length; lia) _ _ _ t K). reflexivity.
  Qed.
End Ext.

(** ** Numbers *)

Lemma good_mono (P Q : f64 -> Prop) : (forall w, P w -> Q w) -> forall p, good_point P p -> good_point Q p.
Proof. unfold good_point. intros H p K R. destruct (K R). auto. Qed.
Lemma every_mono (P Q : f64 -> Prop) : (forall w, P w -> Q w) -> forall g, every P g -> every Q g.
Proof.
  intros H. pose proof (good_mono P Q H) as H1.
  assert (H2 : forall l, Forall (good_point P) l -> Forall (good_point Q) l) by (intros l; apply Forall_impl, H1).
  assert (H3 : forall l, Forall (Forall (good_point P)) l -> Forall (Forall (good_point Q)) l) by (intros l; apply Forall_impl, H2).
  induction g as [p|ps|ps|ls|rs|pls|gs IH|] using geom_ind'; try (cbn; auto; fail).
  - cbn. apply Forall_impl, H3.
  - rewrite !coll_every. intros K. rewrite Forall_forall in *. auto.
Qed.

Lemma eq_words a b : f64_wf a = true -> f64_wf b = true -> f64_eq a b = true ->
  a = b \/ ((a = 0 \/ a = two63) /\ (b = 0 \/ b = two63)).
Proof.
  intros Wa Wb H. apply eq_inv in H. destruct H as (_ & _ & K).
  assert (T : two64 = 2 * two63) by reflexivity. assert (P : 0 < two63) by reflexivity.
  unfold f64_wf, f64_key, f64_sign, f64_mag in *. generalize dependent two64. generalize dependent two63. intros t K P t2 Wa Wb T.
  assert (A : 0 <= a < 2 * t) by lia. assert (B : 0 <= b < 2 * t) by lia.
  assert (M : forall x, 0 <= x < 2 * t -> x mod t = if t <=? x then x - t else x).
  { intros x Hx. destruct (Z.leb_spec t x); [symmetry; apply (Z.mod_unique x t 1 (x - t)); lia|apply Z.mod_small; lia]. }
  rewrite (M a A), (M b B) in K. destruct (Z.leb_spec t a), (Z.leb_spec t b); lia.
Qed.

Lemma ofZ2_nn q e : nn (f64_ofZ2 q e).
Proof.
  pose proof (Binary.binary_normalize_correct 53 1024 eq_refl eq_refl BinarySingleNaN.mode_NE q e false) as H.
  unfold f64_ofZ2. destruct (Binary.binary_normalize 53 1024 eq_refl eq_refl BinarySingleNaN.mode_NE q e false) as [s|s|s pl ee|s m ee Hb] eqn:E.
  - now destruct s.
  - now destruct s.
  - destruct (Raux.Rlt_bool _ _) in H; [destruct H as (_ & H & _); discriminate|]. cbn in H. discriminate.
  - apply finite_nn. rewrite finite_of_bits. reflexivity.
Qed.
Lemma nearest_num m x : f64_wf (nearest m x) = true /\ nn (nearest m x).
Proof.
  unfold nearest. destruct (m =? 0); [split; reflexivity|]. split; [apply bits_wf|apply ofZ2_nn].
Qed.
Lemma num_finite w : f64_wf w = true -> nn w -> f64_isinf w = false -> f64_finite w = true.
Proof.
  unfold nn, f64_wf, f64_isnan, f64_isinf, f64_ispinf, f64_isninf, f64_finite. intros W N I.
  apply orb_false_iff in I. destruct I as [I1 I2]. apply Z.eqb_neq in I1, I2. apply Z.ltb_ge in N. apply Z.ltb_lt.
  assert (f64_mag w <> f64_pinf); [|lia]. intros E. unfold f64_mag in E.
  assert (P : 0 <= w < 2 * two63) by (change (2 * two63) with two64; lia).
  assert (M : w mod two63 = if two63 <=? w then w - two63 else w).
  { clear - P. assert (0 < two63) by reflexivity. destruct (Z.leb_spec two63 w); [symmetry; apply (Z.mod_unique w two63 1 (w - two63)); lia|apply Z.mod_small; lia]. }
  rewrite M in E. change f64_ninf with (f64_pinf + two63) in I2. destruct (two63 <=? w); lia.
Qed.
Lemma parse_finite s w : parse_float s = Some w -> f64_wf w = true /\ f64_finite w = true.
Proof.
  unfold parse_float. destruct (match s with [] => (false, []) | c :: s' => if c =? 43 then (false, s') else if c =? 45 then (true, s') else (false, s) end) as [neg s1].
  destruct (span_digits s1) as [ip s2].
  destruct (match s2 with [] => ([], []) | c :: s' => if c =? 46 then span_digits s' else ([], s2) end) as [fp s3].
  destruct (len (ip ++ fp) =? 0)%nat; [discriminate|]. destruct (parse_exp s3) as [e|]; [|discriminate].
  destruct (nearest_num (value (ip ++ fp)) (e - Z.of_nat (len fp))) as [W N]. set (v := nearest (value (ip ++ fp)) (e - Z.of_nat (len fp))) in *.
  destruct (f64_isinf v) eqn:I; [discriminate|]. intros H. injection H as <-.
  pose proof (num_finite v W N I) as F.
  destruct neg; [|auto]. split; [now apply neg_word|now rewrite neg_finite].
Qed.

Lemma reread_num p w : f64_wf w = true -> nn w -> nn (reread p w).
Proof.
  intros W N. unfold reread. destruct (parse_float (format_g p w)) as [r|] eqn:E; [|exact N].
  apply parse_finite in E. now apply finite_nn.
Qed.
Lemma reread_eq p a b : f64_wf a = true -> f64_wf b = true -> f64_eq a b = true -> f64_eq (reread p a) (reread p b) = true.
Proof.
  intros Wa Wb H. destruct (eq_words a b Wa Wb H) as [->|[A B]].
  - apply eq_inv in H. destruct H as (N & _ & _). pose proof (reread_num p b Wb N) as K. rewrite eq_key by exact K. apply Z.eqb_refl.
  - assert (E0 : reread p 0 = 0) by reflexivity. assert (E1 : reread p two63 = two63) by reflexivity.
    destruct A as [->| ->], B as [->| ->]; rewrite ?E0, ?E1; reflexivity.
Qed.

Theorem ordinary_io p g : 1 <= p <= 15 -> every (ordinary p) g -> number_io (format_g p) parse_float (reread p) g.
Proof.
  intros Hp H. split; [|split; [apply reread_eq|reflexivity]]. eapply every_mono; [|exact H]. intros w O. cbn beta.
  destruct (ordinary_prints p w Hp O) as (P & S & _). destruct (short_exact p _ Hp S) as ((W & _) & _).
  split; [apply O|]. split; assumption.
Qed.
Theorem short_io p g : 1 <= p <= 15 -> every (short p) g -> number_io (format_g p) parse_float (fun w => w) g.
Proof.
  intros Hp H. split; [|split; [auto|reflexivity]]. eapply every_mono; [|exact H]. intros w S. cbn beta.
  destruct (short_exact p w Hp S) as ((W & _) & P). split; [assumption|]. split; assumption.
Qed.
Lemma map_pt_id p : map_pt (fun w => w) p = p. Proof. now destruct p. Qed.
Lemma map_geom_id g : map_geom (fun w => w) g = g.
Proof.
  assert (M1 : forall l, map (map_pt (fun w => w)) l = l) by (intros l; induction l as [|x l IH]; cbn; [reflexivity|]; now rewrite map_pt_id, IH).
  assert (M2 : forall l, map (map (map_pt (fun w => w))) l = l) by (intros l; induction l as [|x l IH]; cbn; [reflexivity|]; now rewrite M1, IH).
  assert (M3 : forall l, map (map (map (map_pt (fun w => w)))) l = l) by (intros l; induction l as [|x l IH]; cbn; [reflexivity|]; now rewrite M2, IH).
  induction g as [p|ps|ps|ls|rs|pls|gs IH|] using geom_ind'; cbn [map_geom]; rewrite ?map_pt_id, ?M1, ?M2, ?M3; try reflexivity.
  f_equal. induction IH as [|g gs Hg IH2 IH']; [reflexivity|]. cbn. now rewrite Hg, IH'.
Qed.

Theorem short_roundtrip p c strict v suffix : 1 <= p <= 15 -> positive c -> every (short p) (geom_of v) ->
  readable (geom_of v) -> (strict = true -> clean (geom_of v) = true) ->
  exists text, encode_string (format_g p) strict v = Ok text /\
    decode parse_float c (text ++ suffix) = Ok (kept (geom_of v)).
Proof.
  intros Hp Hc He Hr Hs.
  destruct (roundtrip _ _ _ c strict v suffix Hc (short_io p _ Hp He) Hr Hs) as (tx & E & D).
  exists tx. split; [assumption|]. rewrite map_geom_id in D. assumption.
Qed.

(** A decoded geometry has no empty ring, and all its points are real. *)
Lemma finite_real p : f64_finite (fst p) = true -> f64_finite (snd p) = true -> real p = true.
Proof.
  intros A B. unfold real. apply finite_nn in A, B. rewrite !eq_key by assumption. now rewrite !Z.eqb_refl.
Qed.
Lemma xys_real ps : Forall (fun w => f64_wf w = true /\ f64_finite w = true) (xys ps) -> forallb real ps = true.
Proof.
  intros H. induction ps as [|p ps IH]; [reflexivity|]. cbn in *. inversion H as [|? ? A H2]; subst. inversion H2 as [|? ? B H3]; subst.
  rewrite IH by assumption. rewrite finite_real by tauto. reflexivity.
Qed.
Lemma xys_app a b : xys (a ++ b) = xys a ++ xys b.
Proof. unfold xys. apply flat_map_app. Qed.
Lemma decoded_clean g : well_shaped g = true -> Forall (fun w => f64_wf w = true /\ f64_finite w = true) (coordinates g) ->
  clean g = true.
Proof.
  assert (L : forall ls, Forall (fun w => f64_wf w = true /\ f64_finite w = true) (xys (List.concat ls)) -> forallb clean_points ls = true).
  { induction ls as [|l ls IH]; [reflexivity|]. cbn. rewrite xys_app. intros H. apply Forall_app in H. unfold clean_points at 1. rewrite xys_real, IH by tauto. reflexivity. }
  assert (R : forall ls, forallb (fun l : list pt => (3 <=? len l)%nat) ls = true ->
     Forall (fun w => f64_wf w = true /\ f64_finite w = true) (xys (List.concat ls)) -> forallb clean_ring ls = true).
  { induction ls as [|l ls IH]; [reflexivity|]. cbn [forallb List.concat]. rewrite xys_app. intros S H. apply andb_true_iff in S. destruct S as [S1 S2].
    apply Forall_app in H. rewrite IH by tauto. unfold clean_ring. rewrite xys_real by tauto. cbn [andb]. rewrite andb_true_r.
    destruct l as [|p l]; [discriminate|]. cbn. destruct H as [H _]. apply xys_real in H. cbn in H. apply andb_true_iff in H. now rewrite (proj1 H). }
  induction g as [p|ps|ps|ls|rs|pls|gs IH|] using geom_ind'; intros S H; cbn [clean]; try reflexivity.
  - now apply xys_real.
  - now apply L.
  - cbn [well_shaped coordinates] in S, H. apply andb_true_iff in S. apply R; tauto.
  - cbn [well_shaped coordinates] in S, H. apply andb_true_iff in S. destruct S as [_ S]. clear - R S H.
    induction pls as [|rs pls IH]; [reflexivity|]. cbn [forallb List.concat] in *. apply andb_true_iff in S.
    rewrite concat_app, xys_app in H. apply Forall_app in H. rewrite IH, R by tauto. reflexivity.
  - cbn [well_shaped coordinates] in S, H. apply andb_true_iff in S. destruct S as [_ S]. rewrite forallb_forall in *.
    intros g Hg. rewrite Forall_forall in IH. apply IH; [assumption|now apply S|].
    apply Forall_flat_map in H. rewrite Forall_forall in H. now apply H.
Qed.

Theorem reencode p c c2 strict s g v : 1 <= p <= 15 -> positive c2 ->
  decode parse_float c s = Ok g -> geom_of v = g -> every (ordinary p) g -> readable g ->
  exists text, encode_string (format_g p) strict v = Ok text /\
    decode parse_float c2 text = Ok (map_geom (reread p) (kept g)).
Proof.
  intros Hp Hc D E He Hr. subst g. pose proof (decode_total parse_float c _ parse_finite s) as T. rewrite D in T. cbn beta in T.
  destruct (roundtrip _ _ _ c2 strict v [] Hc (ordinary_io p _ Hp He) Hr) as (tx & Ex & Dx).
  - intros _. now apply decoded_clean.
  - exists tx. rewrite app_nil_r in Dx. split; assumption.
Qed.
