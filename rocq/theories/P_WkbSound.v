(** The WKB decoder accepts only well-formed files. *)
From Coq Require Import ZArith Bool List Lia.
From Coq Require Import ZifyBool ZifyNat.
From Verif Require Import Base_Res Base_F64 Base_Geom Base_Bytes P_List P_Bytes M_Wkb S_Wkb P_Wkb P_WkbWire.
Import ListNotations.
Open Scope Z_scope.

Definition bytes (bs : list Z) : Prop := Forall (fun b => byte_ok b = true) bs.

(** [d] consumes exactly a prefix related to its result. *)
Definition sound {A} (d : dec A) (R : A -> list Z -> Prop) : Prop :=
  forall bs a rest, bytes bs -> d bs = Ok (a, rest) -> exists pre, bs = pre ++ rest /\ R a pre.

Lemma bytes_app a b : bytes (a ++ b) <-> bytes a /\ bytes b.
Proof. apply Forall_app. Qed.

Lemma sound_read_full n : (0 < n)%nat ->
  sound (read_full n) (fun b pre => pre = b /\ length b = n /\ bytes b).
Proof.
  intros Hn bs a rest Hb H. unfold read_full in H. destruct bs as [|x bs]; [discriminate|].
  destruct (length (x :: bs) <? n)%nat eqn:L; [discriminate|].
  injection H as <- <-. exists (firstn n (x :: bs)). rewrite firstn_skipn.
  split; [reflexivity|]. split; [reflexivity|]. split.
  - rewrite firstn_length. lia.
  - rewrite <- (firstn_skipn n (x :: bs)) in Hb. apply bytes_app in Hb. tauto.
Qed.

Lemma Ok_pair {E A B} (a a' : A) (b b' : B) : @Ok E _ (a, b) = Ok (a', b') -> a = a' /\ b = b'.
Proof. intros H. injection H as -> ->. split; reflexivity. Qed.

Lemma sound_u32 bo : sound (read_u32 bo) (fun v pre => pre = put_uint bo 4 v /\ 0 <= v < 2 ^ 32).
Proof.
  intros bs v rest Hb H. unfold read_u32 in H.
  destruct (read_full 4 bs) as [[b r]|e|] eqn:E; cbn [bind] in H; try discriminate.
  injection H as <- <-. destruct (sound_read_full 4 ltac:(lia) bs b r Hb E) as (pre & -> & -> & L & B).
  exists b. split; [reflexivity|]. pose proof (put_get bo b B) as P. rewrite L in P.
  pose proof (get_uint_bound bo b B) as G. rewrite L in G. split; [now rewrite P | exact G].
Qed.

Lemma sound_xy bo : sound (read_xy bo) (fun p pre => pre = wire_xy bo p /\ pt_wf p = true).
Proof.
  intros bs p rest Hb H. unfold read_xy in H.
  destruct (read_full 16 bs) as [[b r]|e|] eqn:E; cbn [bind] in H; try discriminate.
  apply Ok_pair in H. destruct H as [<- <-]. destruct (sound_read_full 16 ltac:(lia) bs b r Hb E) as (pre & -> & -> & L & B).
  exists b. split; [reflexivity|].
  rewrite <- (firstn_skipn 8 b) in B. apply bytes_app in B. destruct B as [B1 B2].
  pose proof (put_get bo _ B1) as P1. pose proof (put_get bo _ B2) as P2.
  pose proof (get_uint_bound bo _ B1) as G1. pose proof (get_uint_bound bo _ B2) as G2.
  rewrite firstn_length, L in P1, G1. rewrite skipn_length, L in P2, G2.
  change (Nat.min 8 16) with 8%nat in *. change (16 - 8)%nat with 8%nat in *.
  change (256 ^ Z.of_nat 8) with (2 ^ 64) in *.
  split.
  - unfold wire_xy. cbn [fst snd]. rewrite P1, P2. symmetry. apply firstn_skipn.
  - unfold pt_wf, f64_wf, two64. cbn [fst snd]. lia.
Qed.

Lemma sound_bot : sound byte_order_type
  (fun bt pre => pre = wire_header (fst bt) (snd bt) /\ 0 <= snd bt < 2 ^ 32).
Proof.
  intros bs [bo t] rest Hb H. unfold byte_order_type in H. destruct bs as [|b bs]; [discriminate|].
  inversion Hb as [|? ? _ Hbs]; subst.
  destruct (b =? 0) eqn:E0; [|destruct (b =? 1) eqn:E1; [|discriminate]];
  match type of H with context [read_u32 ?o bs] =>
    destruct (read_u32 o bs) as [[t' r]|e|] eqn:E; cbn [bind] in H; try discriminate;
    injection H as <- <- <-; destruct (sound_u32 o bs t' r Hbs E) as (pre & -> & -> & R)
  end;
  eexists (b :: put_uint _ 4 t'); (split; [reflexivity|]); cbn [fst snd]; unfold wire_header, mark;
  split; try exact R; f_equal; lia.
Qed.

Lemma sound_many {A} (d : dec A) R : sound d R -> forall fuel n bs l rest, bytes bs ->
  dec_many d fuel n bs = Ok (l, rest) ->
  exists bss, bs = concat bss ++ rest /\ Forall2 R l bss /\ Z.of_nat (length l) = Z.max 0 n.
Proof.
  intros Hd. induction fuel as [|fuel IH]; intros n bs l rest Hb H; cbn [dec_many] in H.
  - destruct (n <=? 0) eqn:En; [|discriminate]. injection H as <- <-. exists [].
    split; [reflexivity|]. split; [constructor|]. cbn. lia.
  - destruct (n <=? 0) eqn:En.
    + injection H as <- <-. exists []. split; [reflexivity|]. split; [constructor|]. cbn. lia.
    + destruct (d bs) as [[a b1]|e|] eqn:E1; cbn [bind] in H; try discriminate.
      destruct (dec_many d fuel (n - 1) b1) as [[l2 b2]|e|] eqn:E2; cbn [bind] in H; try discriminate.
      injection H as <- <-. destruct (Hd _ _ _ Hb E1) as (pre & -> & Hr).
      apply bytes_app in Hb. destruct (IH _ _ _ _ (proj2 Hb) E2) as (bss & -> & Hf & Hl).
      exists (pre :: bss). cbn [concat length]. rewrite <- app_assoc. split; [reflexivity|].
      split; [constructor; assumption|]. lia.
Qed.

Lemma sound_counted {A} bo (d : dec A) R fuel : sound d R ->
  sound (dec_counted bo d fuel)
    (fun l pre => exists bss, pre = wire_count bo l ++ concat bss /\ Forall2 R l bss /\
       file_count l = true).
Proof.
  intros Hd bs l rest Hb H. unfold dec_counted in H.
  destruct (read_u32 bo bs) as [[n b1]|e|] eqn:E; cbn [bind] in H; try discriminate.
  destruct (sound_u32 bo _ _ _ Hb E) as (pre & -> & -> & Rn). apply bytes_app in Hb.
  destruct (sound_many d R Hd _ _ _ _ _ (proj2 Hb) H) as (bss & -> & Hf & Hl).
  exists (put_uint bo 4 n ++ concat bss). rewrite <- app_assoc. split; [reflexivity|].
  exists bss. unfold wire_count, file_count. replace (Z.of_nat (length l)) with n by lia.
  split; [reflexivity|]. split; [exact Hf|]. lia.
Qed.

Lemma sound_tagged {A} t (d : byte_order -> dec A) (R : byte_order -> A -> list Z -> Prop) :
  (forall bo, sound (d bo) (R bo)) ->
  sound (dec_tagged t d) (fun a pre => exists bo b, pre = wire_header bo t ++ b /\ R bo a b).
Proof.
  intros Hd bs a rest Hb H. unfold dec_tagged in H.
  destruct (byte_order_type bs) as [[[bo t'] b1]|e|] eqn:E; cbn [bind fst snd] in H; try discriminate.
  destruct (sound_bot _ _ _ Hb E) as (pre & -> & -> & _). cbn [fst snd].
  destruct (t' =? t) eqn:Et; [|discriminate]. assert (t' = t) as -> by lia.
  apply bytes_app in Hb. destruct (Hd bo _ _ _ (proj2 Hb) H) as (p2 & -> & Hr).
  exists (wire_header bo t ++ p2). rewrite <- app_assoc. split; [reflexivity|]. eauto.
Qed.

Lemma Forall2_wire_xy bo ps bss :
  Forall2 (fun p pre => pre = wire_xy bo p /\ pt_wf p = true) ps bss ->
  concat bss = flat_map (wire_xy bo) ps /\ forallb pt_wf ps = true.
Proof.
  intros H. induction H as [|p b ps bss [-> Hp] _ [IH1 IH2]]; [split; reflexivity|].
  cbn. rewrite IH1, Hp, IH2. split; reflexivity.
Qed.

Lemma sound_seq bo fuel : sound (dec_counted bo (read_xy bo) fuel)
  (fun ps pre => pre = wire_seq bo ps /\ file_pts ps = true).
Proof.
  intros bs ps rest Hb H.
  destruct (sound_counted bo _ _ fuel (sound_xy bo) _ _ _ Hb H) as (pre & -> & bss & -> & Hf & Hc).
  apply Forall2_wire_xy in Hf. destruct Hf as [Hf1 Hf2].
  exists (wire_seq bo ps). unfold wire_seq. rewrite Hf1. split; [reflexivity|].
  split; [reflexivity|]. unfold file_pts. rewrite Hc, Hf2. reflexivity.
Qed.

Lemma sound_ring bo fuel : sound (dec_ring bo fuel)
  (fun r pre => exists r0, r = lib_ring r0 /\ pre = wire_seq bo r0 /\ file_pts r0 = true).
Proof.
  intros bs r rest Hb H. unfold dec_ring in H.
  destruct (dec_counted bo (read_xy bo) fuel bs) as [[r0 b1]|e|] eqn:E; cbn [bind] in H; try discriminate.
  injection H as <- <-. destruct (sound_seq bo fuel _ _ _ Hb E) as (pre & -> & -> & Hr).
  exists (wire_seq bo r0). split; [reflexivity|]. exists r0. rewrite lib_ring_open. auto.
Qed.

Lemma Forall2_rings bo rs bss :
  Forall2 (fun r pre => exists r0, r = lib_ring r0 /\ pre = wire_seq bo r0 /\ file_pts r0 = true) rs bss ->
  exists rs0, rs = map lib_ring rs0 /\ concat bss = flat_map (wire_seq bo) rs0 /\
    forallb file_pts rs0 = true.
Proof.
  intros H. induction H as [|r b rs bss (r0 & -> & -> & Hr) _ (rs0 & -> & E & F)].
  - exists []. repeat split.
  - exists (r0 :: rs0). cbn. rewrite E, Hr, F. repeat split.
Qed.

Lemma sound_polygon bo fuel : sound (dec_polygon bo fuel)
  (fun rs pre => exists rs0, rs = map lib_ring rs0 /\
     pre = wire_count bo rs0 ++ flat_map (wire_seq bo) rs0 /\
     file_count rs0 && forallb file_pts rs0 = true).
Proof.
  intros bs rs rest Hb H. unfold dec_polygon in H.
  destruct (sound_counted bo _ _ fuel (sound_ring bo fuel) _ _ _ Hb H) as (pre & -> & bss & -> & Hf & Hc).
  apply Forall2_rings in Hf. destruct Hf as (rs0 & -> & E & F).
  eexists. split; [reflexivity|]. exists rs0. rewrite E.
  unfold wire_count, file_count in *. rewrite map_length in *. rewrite Hc, F. repeat split.
Qed.

(** Element by element: the decoded value, the file's value and its bytes. *)
Lemma Forall2_ex {A B C} (R : A -> B -> C -> Prop) (la : list A) (lc : list C) :
  Forall2 (fun a c => exists b, R a b c) la lc ->
  exists lb, Forall2 (fun a b => exists c, R a b c) la lb /\
             Forall2 (fun b c => exists a, R a b c) lb lc.
Proof.
  intros H. induction H as [|a c la lc (b & Hr) _ (lb & H1 & H2)].
  - exists []. split; constructor.
  - exists (b :: lb). split; constructor; eauto.
Qed.

Definition reads (g : geom f64) (pre : list Z) : Prop :=
  exists g0, g = map_rings lib_ring g0 /\ wire g0 pre /\ file_ok g0 = true.

Lemma Forall2_reads gs bss : Forall2 reads gs bss ->
  exists gs0, gs = map (map_rings lib_ring) gs0 /\ Forall2 wire gs0 bss /\ forallb file_ok gs0 = true.
Proof.
  intros H. induction H as [|g b gs bss (g0 & -> & Hw & Ho) _ (gs0 & -> & F & O)].
  - exists []. repeat split. constructor.
  - exists (g0 :: gs0). cbn. rewrite Ho, O. repeat split. constructor; assumption.
Qed.

Lemma sound_as_geom {A} (c : A -> geom f64) (d : dec A) (R : A -> list Z -> Prop) (Q : geom f64 -> list Z -> Prop) :
  sound d R -> (forall a pre, R a pre -> Q (c a) pre) -> sound (as_geom c d) Q.
Proof.
  intros Hd Hc bs g rest Hb H. unfold as_geom in H.
  destruct (d bs) as [[a b1]|e|] eqn:E; cbn [bind] in H; try discriminate.
  injection H as <- <-. destruct (Hd _ _ _ Hb E) as (pre & -> & Hr). eauto.
Qed.

(** A body of type [t]: with its header in front it is a file. *)
Lemma sound_body fuel : forall bad t bo,
  sound (dec_body fuel bad t bo) (fun g pre => reads g (wire_header bo t ++ pre)).
Proof.
  induction fuel as [fuel IH] using lt_wf_ind. intros bad t bo.
  assert (U : forall bs, dec_body fuel bad t bo bs =
    if t =? tPoint then as_geom GPoint (dec_point bo) bs
    else if t =? tMultiPoint then as_geom GMultiPoint (dec_multipoint bo fuel) bs
    else if t =? tLineString then as_geom GLineString (dec_linestring bo fuel) bs
    else if t =? tMultiLineString then as_geom GMultiLineString (dec_multilinestring bo fuel) bs
    else if t =? tPolygon then as_geom GPolygon (dec_polygon bo fuel) bs
    else if t =? tMultiPolygon then as_geom GMultiPolygon (dec_multipolygon bo fuel) bs
    else if t =? tCollection then
      match fuel with
      | O => Err EOutOfFuel
      | S f => as_geom GCollection
          (dec_counted bo (fun bs' => do (bt, bs1) <- byte_order_type bs';
             dec_body f EInvalidType (snd bt) (fst bt) bs1) f) bs
      end
    else Err (bad t)) by (intros; destruct fuel; reflexivity).
  intros bs g rest Hb H. rewrite U in H. clear U.
  destruct (t =? tPoint) eqn:T1.
  { assert (t = 1) as -> by (unfold tPoint in T1; lia).
    revert bs g rest Hb H. apply (sound_as_geom _ _ _ _ (sound_xy bo)).
    intros p pre [-> W]. exists (GPoint p). split; [reflexivity|]. split; [constructor|exact W]. }
  destruct (t =? tMultiPoint) eqn:T2.
  { assert (t = 4) as -> by (unfold tMultiPoint in T2; lia).
    revert bs g rest Hb H.
    apply (sound_as_geom _ _ _ _ (sound_counted bo _ _ fuel (sound_tagged tPoint _ _ sound_xy))).
    intros ps pre (bss & -> & Hf & Hc). exists (GMultiPoint ps). split; [reflexivity|]. split.
    - constructor. eapply Forall2_weaken; [|exact Hf]. cbn beta. intros p b (bo' & b' & -> & -> & _).
      constructor.
    - cbn [file_ok]. unfold file_pts. rewrite Hc. cbn [andb]. clear Hc.
      induction Hf as [|p b ps bss (bo' & b' & _ & _ & W) _ IHf]; [reflexivity|]. cbn. now rewrite W, IHf. }
  destruct (t =? tLineString) eqn:T3.
  { assert (t = 2) as -> by (unfold tLineString in T3; lia).
    revert bs g rest Hb H. apply (sound_as_geom _ _ _ _ (sound_seq bo fuel)).
    intros ps pre [-> W]. exists (GLineString ps). split; [reflexivity|]. split; [constructor|exact W]. }
  destruct (t =? tMultiLineString) eqn:T4.
  { assert (t = 5) as -> by (unfold tMultiLineString in T4; lia).
    revert bs g rest Hb H.
    apply (sound_as_geom _ _ _ _ (sound_counted bo _ _ fuel
             (sound_tagged tLineString _ _ (fun bo' => sound_seq bo' fuel)))).
    intros ls pre (bss & -> & Hf & Hc). exists (GMultiLineString ls). split; [reflexivity|]. split.
    - constructor. eapply Forall2_weaken; [|exact Hf]. cbn beta. intros p b (bo' & b' & -> & -> & _).
      constructor.
    - cbn [file_ok]. rewrite Hc. cbn [andb]. clear Hc.
      induction Hf as [|p b ps bss (bo' & b' & _ & _ & W) _ IHf]; [reflexivity|]. cbn. now rewrite W, IHf. }
  destruct (t =? tPolygon) eqn:T5.
  { assert (t = 3) as -> by (unfold tPolygon in T5; lia).
    revert bs g rest Hb H. apply (sound_as_geom _ _ _ _ (sound_polygon bo fuel)).
    intros rs pre (rs0 & -> & -> & W). exists (GPolygon rs0). split; [reflexivity|].
    split; [constructor|exact W]. }
  destruct (t =? tMultiPolygon) eqn:T6.
  { assert (t = 6) as -> by (unfold tMultiPolygon in T6; lia).
    revert bs g rest Hb H.
    apply (sound_as_geom _ _ _ _ (sound_counted bo _ _ fuel
             (sound_tagged tPolygon _ _ (fun bo' => sound_polygon bo' fuel)))).
    intros pls pre (bss & -> & Hf & Hc).
    assert (X : exists pls0, pls = map (map lib_ring) pls0 /\
      Forall2 (fun pl b => wire (GPolygon pl) b) pls0 bss /\
      forallb (fun rs => file_count rs && forallb file_pts rs) pls0 = true).
    { clear Hc. induction Hf as [|p b ps bss (bo' & b' & -> & rs0 & -> & -> & W) _ (pls0 & -> & F & O)].
      - exists []. repeat split. constructor.
      - exists (rs0 :: pls0). cbn [map forallb]. rewrite W, O. repeat split. constructor; [constructor|exact F]. }
    destruct X as (pls0 & -> & F & O). exists (GMultiPolygon pls0). split; [reflexivity|].
    unfold wire_count, file_count in *. rewrite map_length in *. split.
    - apply (W_MultiPolygon bo pls0 bss F).
    - cbn [file_ok]. unfold file_count at 1. rewrite Hc. exact O. }
  destruct (t =? tCollection) eqn:T7; [|discriminate].
  assert (t = 7) as -> by (unfold tCollection in T7; lia).
  destruct fuel as [|f]; [discriminate|].
  revert bs g rest Hb H.
  apply (sound_as_geom _ _
    (fun l pre => exists bss, pre = wire_count bo l ++ concat bss /\ Forall2 reads l bss /\ file_count l = true)).
  - apply sound_counted. intros bs g rest Hb H.
    destruct (byte_order_type bs) as [[[bo' t'] b1]|e|] eqn:E; cbn [bind fst snd] in H; try discriminate.
    destruct (sound_bot _ _ _ Hb E) as (pre & -> & -> & _). cbn [fst snd]. apply bytes_app in Hb.
    destruct (IH f ltac:(lia) _ _ _ _ _ _ (proj2 Hb) H) as (p2 & -> & Hr).
    eexists. split; [|exact Hr]. now rewrite <- app_assoc.
  - intros gs pre (bss & -> & Hf & Hc). apply Forall2_reads in Hf. destruct Hf as (gs0 & -> & F & O).
    exists (GCollection gs0). split; [reflexivity|].
    unfold wire_count, file_count in *. rewrite map_length in *. split.
    + apply (W_Collection bo gs0 bss F).
    + cbn [file_ok]. unfold file_count. rewrite Hc. exact O.
Qed.

Theorem wkb_decode_sound bs g rest : Forall (fun b => byte_ok b = true) bs ->
  decode bs = Ok (g, rest) ->
  exists g0 pre, bs = pre ++ rest /\ wire g0 pre /\ file_ok g0 = true /\ g = map_rings lib_ring g0.
Proof.
  intros Hb H. unfold decode, decode_with in H.
  destruct (byte_order_type bs) as [[[bo t] b1]|e|] eqn:E; cbn [bind fst snd] in H; try discriminate.
  destruct (sound_bot _ _ _ Hb E) as (pre & -> & -> & _). cbn [fst snd] in *. apply bytes_app in Hb.
  destruct (sound_body _ _ _ _ _ _ _ (proj2 Hb) H) as (p2 & -> & g0 & -> & Hw & Ho).
  exists g0, (wire_header bo t ++ p2). rewrite <- app_assoc. auto.
Qed.
