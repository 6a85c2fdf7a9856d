(** Proofs about simplification. *)
From Coq Require Import ZArith Bool List Lia.
From Coq Require Import ZifyBool ZifyNat.
From Verif Require Import Base_F64 Base_F64Arith Base_Geom Base_Res M_Geom M_Simplify S_Simplify P_F64 P_List.
Import ListNotations.

Section DPProofs.
  Variable dist : line -> pt -> f64.
  Variable tolerance : f64.
  Notation far := (farthest dist).
  Notation dp := (dp dist tolerance).

  Lemma gt_trans a b c : f64_gt a b = true -> f64_gt b c = true -> f64_gt a c = true.
  Proof. unfold f64_gt. intros H1 H2. apply f64_lt_le_trans with b; auto using f64_lt_le. Qed.

  Lemma gt_through a b c : nn c -> f64_gt a c = true -> f64_gt b c = false ->
    f64_gt a b = true \/ f64_isnan b = true.
  Proof.
    unfold f64_gt. intros N H1 H2. destruct (f64_isnan b) eqn:Nb; [auto|left].
    apply lt_inv in H1. destruct H1 as (_ & Na & K). rewrite lt_key in H2 by assumption.
    rewrite lt_key by assumption. lia.
  Qed.

  Lemma farthest_spec l rest : forall i dmax idx, nn dmax ->
    let '(d, k) := far l i dmax idx rest in
    nn d /\
    ((d = dmax /\ k = idx /\ Forall (fun u => f64_gt (dist l u) dmax = false) rest) \/
     (exists a v b, rest = a ++ v :: b /\ k = (i + length a)%nat /\ d = dist l v /\
        f64_gt (dist l v) dmax = true /\ first_farthest dist l a v b)).
  Proof.
    induction rest as [|p tl IH]; intros i dmax idx N; cbn [farthest].
    - split; auto.
    - destruct (f64_gt (dist l p) dmax) eqn:G.
      + assert (Np : nn (dist l p)) by (apply lt_inv in G; tauto).
        specialize (IH (S i) (dist l p) i Np).
        destruct (far l (S i) (dist l p) i tl) as [d k]. destruct IH as [Nd C]. split; [exact Nd|]. right.
        destruct C as [(-> & -> & F)|(a & v & b & -> & -> & -> & G' & F1 & F2)].
        * exists [], p, tl. cbn. repeat split; auto.
        * exists (p :: a), v, b. cbn. repeat split; auto; try lia.
          eapply gt_trans; eauto.
      + specialize (IH (S i) dmax idx N).
        destruct (far l (S i) dmax idx tl) as [d k]. destruct IH as [Nd C]. split; [exact Nd|].
        destruct C as [(-> & -> & F)|(a & v & b & -> & -> & -> & G' & F1 & F2)].
        * left. auto.
        * right. exists (p :: a), v, b. cbn. repeat split; auto; try lia.
          constructor; auto. eapply gt_through; eauto.
  Qed.

  (** ** rdp *)

  Lemma rdp_ends l s : rdp dist tolerance l s ->
    forall d, last s d = last l d /\ hd d s = hd d l /\ (l <> [] -> s <> []).
  Proof.
    induction 1 as [l L|p mid q NE F|p mid1 v mid2 q s1 s2 G FF _ IH1 _ IH2]; intros d.
    - auto.
    - cbn [hd]. rewrite !last_cons. cbn [last]. rewrite last_last. repeat split; auto. discriminate.
    - destruct (IH1 d) as (L1 & H1 & _). destruct (IH2 d) as (L2 & H2 & N2).
      assert (N2' : s2 <> []) by (apply N2; discriminate).
      split; [|split].
      + destruct (exists_last N2') as (s2' & x & ->). rewrite app_assoc, last_last.
        rewrite last_last in L2. rewrite L2.
        rewrite !last_cons, app_comm_cons, app_assoc, !last_last. reflexivity.
      + cbn [hd] in *. destruct s1 as [|x s1]; cbn [app hd] in *; [|exact H1].
        rewrite H2. cbn [hd]. exact H1.
      + intros _ E. apply app_eq_nil in E. tauto.
  Qed.

  Lemma keeps_ends l s : keeps dist tolerance l s -> l <> [] -> exists p s', s = p :: s' /\ hd p l = p.
  Proof. destruct 1; intros N; [congruence| |]; cbn; eauto. Qed.

  Lemma keeps_app l s : keeps dist tolerance l s -> l <> [] -> forall d l2 s2,
    keeps dist tolerance (last l d :: l2) (last l d :: s2) ->
    keeps dist tolerance (l ++ l2) (s ++ s2).
  Proof.
    induction 1 as [|p|p sk q rest r F K IH]; intros N d l2 s2 H; [congruence| |].
    - exact H.
    - cbn [app]. rewrite <- app_assoc. cbn [app].
      apply keeps_segment; [exact F|]. apply (IH ltac:(discriminate) d).
      assert (E : last (p :: sk ++ q :: rest) d = last (q :: rest) d).
      { rewrite app_comm_cons. clear. generalize (p :: sk). intros l.
        destruct (exists_last (l := q :: rest) ltac:(discriminate)) as (x & y & E). rewrite E.
        rewrite app_assoc. now rewrite !last_last. }
      now rewrite <- E.
  Qed.

  Lemma keeps_refl l : keeps dist tolerance l l.
  Proof.
    induction l as [|p l IH]; [constructor|]. destruct l as [|q l]; [constructor|].
    apply (keeps_segment dist tolerance p [] q l l); [constructor|exact IH].
  Qed.

  Lemma rdp_keeps l s : rdp dist tolerance l s -> keeps dist tolerance l s.
  Proof.
    induction 1 as [l L|p mid q NE F|p mid1 v mid2 q s1 s2 G FF R1 IH1 R2 IH2].
    - apply keeps_refl.
    - apply (keeps_segment dist tolerance p mid q [] []); [exact F|constructor].
    - destruct (keeps_ends _ _ IH2 ltac:(discriminate)) as (x & s2' & -> & E). cbn in E. subst x.
      replace (p :: mid1 ++ v :: mid2 ++ [q]) with ((p :: mid1 ++ [v]) ++ (mid2 ++ [q]))
        by (cbn; now rewrite <- app_assoc).
      replace (s1 ++ v :: s2') with ((s1 ++ [v]) ++ s2') by (now rewrite <- app_assoc).
      apply (keeps_app _ _ IH1 ltac:(discriminate) v).
      rewrite (last_cons p), last_last. exact IH2.
  Qed.

  (** ** The algorithm *)

  Lemma poll_spec c : let '(e, c') := poll c in
    (e = true -> c' = Some O) /\ (e = false -> c <> Some O).
  Proof. destruct c as [[|n]|]; cbn; split; congruence. Qed.

  Definition good (c : ctx) (ls ret r : list pt) (e : bool) (c' : ctx) : Prop :=
    (e = true -> c' = Some O) /\
    (e = false -> exists s, r = ret ++ s /\
        (f64_le tolerance f64_zero = true /\ s = ls \/
         f64_le tolerance f64_zero = false /\ rdp dist tolerance ls s)) /\
    (c = None -> c' = None).

  Lemma poll_none c : c = None -> snd (poll c) = None.
  Proof. now intros ->. Qed.

  Lemma dp_spec fuel : forall c ls ret, (length ls < fuel)%nat ->
    exists r e c', dp fuel c ls ret = Ok (r, e, c') /\ good c ls ret r e c'.
  Proof.
    induction fuel as [|n IH]; intros c ls ret L; [lia|]. cbn [M_Simplify.dp].
    destruct (f64_le tolerance f64_zero || (length ls <=? 2)%nat) eqn:Sh.
    { exists (ret ++ ls), false, c. split; [reflexivity|]. split; [discriminate|]. split; [|auto].
      intros _. exists ls. split; [reflexivity|].
      destruct (f64_le tolerance f64_zero); [left|right]; split; auto. apply rdp_short. cbn in Sh. lia. }
    apply orb_false_iff in Sh. destruct Sh as [Tz Len].
    destruct ls as [|p tl]; [discriminate|].
    assert (NE : tl <> []) by (intros ->; discriminate).
    destruct (exists_last NE) as (mid & q & ->). rewrite last_last, removelast_last.
    assert (NM : mid <> []) by (intros ->; discriminate).
    pose proof (farthest_spec (p, q) mid 1 f64_zero 0 eq_refl) as FS.
    destruct (far (p, q) 1 f64_zero 0 mid) as [dmax idx]. destruct FS as [Nd FS].
    destruct (f64_gt dmax tolerance) eqn:G.
    - destruct FS as [(-> & -> & F)|(a & v & b & -> & -> & -> & G' & FF)].
      { exfalso. unfold f64_gt in G. apply lt_inv in G. destruct G as (N1 & N2 & K).
        unfold f64_le in Tz. rewrite N1 in Tz. change (f64_isnan f64_zero) with false in Tz. cbn [negb andb] in Tz. lia. }
      rewrite <- (app_assoc a) in *. cbn [app] in *.
      destruct (length (p :: a ++ v :: b ++ [q]) <=? 3)%nat eqn:L3.
      { exists (ret ++ p :: a ++ v :: b ++ [q]), false, c. split; [reflexivity|]. split; [discriminate|]. split; [|auto].
        intros _. eexists. split; [reflexivity|]. right. split; [exact Tz|].
        assert (a = [] /\ b = []) as [-> ->].
        { cbn in L3. rewrite app_length in L3. cbn in L3. rewrite app_length in L3. cbn in L3.
          destruct a, b; cbn in L3; auto; lia. }
        cbn. apply (rdp_split dist tolerance p [] v [] q [p] [v; q]); auto; apply rdp_short; cbn; lia. }
      assert (E1 : firstn (1 + length a + 1) (p :: a ++ v :: b ++ [q]) = p :: a ++ [v]).
      { replace (1 + length a + 1)%nat with (S (length a + 1)) by lia. cbn [firstn]. f_equal.
        rewrite firstn_app_2. reflexivity. }
      assert (E2 : skipn (1 + length a) (p :: a ++ v :: b ++ [q]) = v :: b ++ [q]).
      { cbn [Nat.add skipn]. rewrite skipn_app, skipn_all, Nat.sub_diag. reflexivity. }
      rewrite E1, E2.
      assert (Lt1 : (length (p :: a ++ [v]) < n)%nat).
      { unfold point in *. cbn in *. rewrite !app_length in *. cbn in *. rewrite !app_length in *. cbn in *. lia. }
      assert (Lt2 : (length (v :: b ++ [q]) < n)%nat).
      { unfold point in *. cbn in *. rewrite !app_length in *. cbn in *. rewrite !app_length in *. cbn in *. lia. }
      pose proof (poll_spec c) as Pc. pose proof (poll_none c) as Pn.
      destruct (poll c) as [e1 c1]. destruct Pc as [P1 P2]. cbn [snd] in Pn.
      destruct e1.
      { exists [], true, c1. split; [reflexivity|]. split; [auto|]. split; [discriminate|auto]. }
      destruct (IH c1 (p :: a ++ [v]) ret Lt1) as (r1 & e2 & c2 & -> & G1a & G1b & G1c). cbn [bind].
      pose proof (poll_spec c2) as Pc. pose proof (poll_none c2) as Pn2.
      destruct (poll c2) as [e3 c3]. destruct Pc as [P3 P4]. cbn [snd] in Pn2.
      destruct e3.
      { exists [], true, c3. split; [reflexivity|]. split; [auto|]. split; [discriminate|auto]. }
      destruct e2; [specialize (G1a eq_refl); specialize (P4 eq_refl); congruence|].
      destruct (G1b eq_refl) as (s1 & -> & C1). destruct C1 as [[C1 _]|[_ R1]]; [congruence|].
      assert (N1 : s1 <> []) by (apply (rdp_ends _ _ R1 v); discriminate).
      destruct (exists_last N1) as (s1' & x & ->).
      assert (x = v).
      { destruct (rdp_ends _ _ R1 v) as (El & _). now rewrite app_comm_cons, !last_last in El. }
      subst x. rewrite (app_assoc ret).
      destruct (IH c3 (v :: b ++ [q]) (ret ++ s1') Lt2) as (r2 & e4 & c4 & D2 & G2a & G2b & G2c).
      pose proof (poll_spec c4) as Pc. pose proof (poll_none c4) as Pn4.
      destruct (poll c4) as [e5 c5] eqn:Po. destruct Pc as [P5 P6]. cbn [snd] in Pn4.
      exists r2, e5, c5. split.
      + destruct ((ret ++ s1') ++ [v]) as [|y ys] eqn:Q.
        { apply app_eq_nil in Q. destruct Q. discriminate. }
        rewrite <- Q, removelast_last, D2. cbn [bind]. now rewrite Po.
      + split; [exact P5|]. split; [|auto 10]. intros ->. specialize (P6 eq_refl).
        destruct e4; [specialize (G2a eq_refl); congruence|].
        destruct (G2b eq_refl) as (s2 & -> & C2). destruct C2 as [[C2 _]|[_ R2]]; [congruence|].
        exists (s1' ++ s2). split; [now rewrite <- app_assoc|]. right. split; [exact Tz|].
        now apply rdp_split.
    - exists (ret ++ [p; q]), false, c. split; [reflexivity|]. split; [discriminate|]. split; [|auto].
      intros _. eexists. split; [reflexivity|]. right. split; [exact Tz|].
      apply rdp_flat; [exact NM|].
      assert (Gn : forall u, f64_gt u dmax = false -> f64_gt u tolerance = false).
      { intros u Hu. apply not_true_is_false. intros Q. unfold f64_gt in *.
        apply lt_inv in Q. destruct Q as (N1 & N2 & K). rewrite lt_key in Hu, G by assumption. lia. }
      destruct FS as [(-> & -> & F)|(a & v & b & -> & -> & -> & G' & F1 & F2)].
      + eapply Forall_impl; [|exact F]. cbn. auto.
      + apply Forall_app. split; [|constructor].
        * eapply Forall_impl; [|exact F1]. cbn. intros u [H|H].
          -- apply Gn. unfold f64_gt in *. apply lt_inv in H. destruct H as (N1 & N2 & K).
             rewrite lt_key by assumption. lia.
          -- unfold f64_gt, f64_lt. rewrite H. now rewrite andb_false_r.
        * exact G.
        * eapply Forall_impl; [|exact F2]. cbn. auto.
  Qed.

  Notation DPS := (douglas_peucker dist tolerance).

  Theorem dp_total c ls : exists r e c', DPS c ls = Ok (r, e, c').
  Proof. destruct (dp_spec (length ls + 1) c ls [] ltac:(lia)) as (r & e & c' & H & _). eauto. Qed.

  Theorem dp_keeps c ls r c' : DPS c ls = Ok (r, false, c') -> keeps dist tolerance ls r.
  Proof.
    intros H. destruct (dp_spec (length ls + 1) c ls [] ltac:(lia)) as (r' & e & c'' & H' & _ & G & _).
    unfold douglas_peucker in H. rewrite H' in H. injection H as -> -> ->.
    destruct (G eq_refl) as (s & -> & [[_ ->]|[_ R]]); [apply keeps_refl|now apply rdp_keeps].
  Qed.

  Theorem dp_rdp c ls r c' : f64_le tolerance f64_zero = false ->
    DPS c ls = Ok (r, false, c') -> rdp dist tolerance ls r.
  Proof.
    intros T H. destruct (dp_spec (length ls + 1) c ls [] ltac:(lia)) as (r' & e & c'' & H' & _ & G & _).
    unfold douglas_peucker in H. rewrite H' in H. injection H as -> -> ->.
    destruct (G eq_refl) as (s & -> & [[Q _]|[_ R]]); [congruence|exact R].
  Qed.

  Theorem dp_off c ls : f64_le tolerance f64_zero = true -> DPS c ls = Ok (ls, false, c).
  Proof.
    intros T. unfold douglas_peucker. rewrite Nat.add_1_r. cbn [M_Simplify.dp]. now rewrite T.
  Qed.

  Theorem dp_uncancelled ls : exists r, DPS None ls = Ok (r, false, None).
  Proof.
    destruct (dp_spec (length ls + 1) None ls [] ltac:(lia)) as (r & e & c' & H & G1 & G2 & G3).
    specialize (G3 eq_refl). subst c'. destruct e; [now specialize (G1 eq_refl)|]. exists r. exact H.
  Qed.

  Theorem dp_error c ls r c' : DPS c ls = Ok (r, true, c') -> c' = Some O.
  Proof.
    intros H. destruct (dp_spec (length ls + 1) c ls [] ltac:(lia)) as (r' & e & c'' & H' & G & _).
    unfold douglas_peucker in H. rewrite H' in H. injection H as -> -> ->. auto.
  Qed.
End DPProofs.

(** What keeping means for the points. *)
Lemma keeps_length dist t l s : keeps dist t l s -> (length s <= length l)%nat.
Proof. induction 1; cbn in *; auto. rewrite app_length. cbn. lia. Qed.

Lemma sub_drops {A} (l m k : list A) : subsequence l m -> subsequence l (k ++ m).
Proof. induction k; cbn; intros; auto using sub_drop. Qed.

Lemma keeps_subsequence dist t l s : keeps dist t l s -> subsequence s l.
Proof.
  induction 1 as [|p|p sk q rest r F K IH]; repeat constructor. now apply sub_drops.
Qed.

Lemma keeps_first_last dist t l s d : keeps dist t l s -> hd d s = hd d l /\ last s d = last l d.
Proof.
  intros K. induction K as [|p|p sk q rest r F K IH]; auto. split; [reflexivity|].
  destruct IH as [_ IH]. rewrite last_cons in IH.
  destruct (exists_last (l := q :: rest) ltac:(discriminate)) as (x & y & E).
  assert (E' : last (p :: sk ++ q :: rest) d = y).
  { rewrite E. rewrite app_comm_cons, app_assoc, last_last. reflexivity. }
  rewrite E'. rewrite last_cons. rewrite last_cons. rewrite last_cons in IH.
  rewrite <- (last_cons q rest d), E, last_last in IH.
  exact IH.
Qed.

(** ** simplify.go *)

Section SimplifyProofs.
  Context {St : Type} (simp : St -> list pt -> bool -> St * option (list pt)).
  Variable R : bool -> list pt -> list pt -> Prop.
  Hypothesis HR : forall s l b s' r, simp s l b = (s', Some r) -> R b l r.

  Lemma simplify_rings_ok s rs b s' rs' : simplify_rings simp s rs b = (s', Some rs') ->
    Forall2 (if b then ring_result R else R false) rs rs'.
  Proof.
    revert s s' rs'. induction rs as [|r rs IH]; intros s s' rs' H; cbn [simplify_rings] in H.
    - injection H as <- <-. constructor.
    - destruct (simp s r b) as [s1 [ls|]] eqn:E; [|discriminate].
      destruct (simplify_rings simp s1 rs b) as [s2 [rs2|]] eqn:E2; [|discriminate].
      injection H as <- <-. constructor; [|eapply IH; eauto].
      apply HR in E. destruct b; cbn [negb orb].
      + rewrite orb_false_r. destruct (2 <? length ls)%nat eqn:L.
        * left. split; [exact E|lia].
        * right. split; [reflexivity|]. exists ls. split; [exact E|lia].
      + rewrite orb_true_r. exact E.
  Qed.

  Lemma simplify_polygons_ok s ps s' ps' : simplify_polygons simp s ps = (s', Some ps') ->
    Forall2 (Forall2 (ring_result R)) ps ps'.
  Proof.
    revert s s' ps'. induction ps as [|p ps IH]; intros s s' ps' H; cbn in H.
    - injection H as <- <-. constructor.
    - destruct (simplify_rings simp s p true) as [s1 [p1|]] eqn:E; [|discriminate].
      destruct (simplify_polygons simp s1 ps) as [s2 [ps2|]] eqn:E2; [|discriminate].
      injection H as <- <-. constructor; [|eapply IH; eauto].
      now apply simplify_rings_ok in E.
  Qed.

  Theorem simplify_structure g : forall s s' g', simplify simp s g = (s', Some g') ->
    same_structure (R false) (ring_result R) g g'.
  Proof.
    induction g as [p|ps|ps|ls|rs|pls|gs IH|] using geom_ind'; intros s s' g' H; cbn [simplify] in H.
    - injection H as <- <-. constructor.
    - injection H as <- <-. constructor.
    - destruct (simp s ps false) as [s1 [l|]] eqn:E; [|discriminate]. injection H as <- <-.
      constructor. eapply HR; eauto.
    - destruct (simplify_rings simp s ls false) as [s1 [l|]] eqn:E; [|discriminate]. injection H as <- <-.
      constructor. now apply simplify_rings_ok in E.
    - destruct (simplify_rings simp s rs true) as [s1 [l|]] eqn:E; [|discriminate]. injection H as <- <-.
      constructor. now apply simplify_rings_ok in E.
    - destruct (simplify_polygons simp s pls) as [s1 [l|]] eqn:E; [|discriminate]. injection H as <- <-.
      constructor. eapply simplify_polygons_ok; eauto.
    - match type of H with (let '(_, _) := ?f s gs in _) = _ => set (go := f) in H end.
      destruct (go s gs) as [s1 [l|]] eqn:E; [|discriminate]. injection H as <- <-.
      constructor. revert s s1 l E. induction IH as [|x gs Hx _ IH]; intros s s1 l E; cbn in E.
      + injection E as <- <-. constructor.
      + destruct (simplify simp s x) as [s2 [x'|]] eqn:Ex; [|discriminate].
        fold go in E. destruct (go s2 gs) as [s3 [tl'|]] eqn:Et; [|discriminate].
        injection E as <- <-. constructor; eauto.
    - injection H as <- <-. constructor.
  Qed.
End SimplifyProofs.
