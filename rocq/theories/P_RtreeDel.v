(** * Deletion from the R-tree *)
From Coq Require Import ZArith Bool List Permutation Lia ZifyBool ZifyNat.
From Verif Require Import Base_F64 Base_F64Arith Base_Res P_F64 M_Rtree S_Rtree P_Rtree.
Import ListNotations.

Section Del.
  Context {A : Type} (bounds : A -> rect).
  Local Notation node := (node A).
  Local Notation entry := (entry A).
  Variables (min max : nat).
  Hypothesis Hmax : (2 <= max)%nat.
  Hypothesis Hmin : (1 <= min)%nat.
  Variable d : nat.
  Variable cmp : A -> A -> bool.
  Local Notation good := (good bounds max 1 (rect_ok d)).
  Local Notation ge := (ge bounds max 1 (rect_ok d)).
  Local Notation tree_good := (tree_good bounds max 1 (rect_ok d)).

  Let Hlo : (1 <= 1 \/ 1 <= min /\ 2 * min <= max + 1)%nat := or_introl (le_n 1).

  (** The loop over the entries of an inner node. *)
  Fixpoint del_scan (obj : A) (level : Z) (before rest : list entry) : res unit (option (node * list node)) :=
    match rest with
    | [] => Ok None
    | (bb, s) :: tl =>
        if contains_rect bb (bounds obj) then
          match s with
          | inr _ => Panic
          | inl c =>
              do found <- delete_at bounds min cmp obj c;
              match found with
              | None => del_scan obj level (before ++ [(bb, s)]) tl
              | Some (c, gone) =>
                  if (length (n_entries c) <? min)%nat then
                    let gone := if (0 <? length (n_entries c))%nat then gone ++ [c] else gone in
                    Ok (Some (Node false level (before ++ tl), gone))
                  else
                    do bb <- compute_bb (n_entries c);
                    Ok (Some (Node false level (before ++ (bb, inl c) :: tl), gone))
              end
          end
        else del_scan obj level (before ++ [(bb, s)]) tl
    end.

  Lemma delete_at_eq obj leaf level es : delete_at bounds min cmp obj (Node leaf level es) =
    if leaf then
      match last_match cmp obj 0 None es with
      | None => Ok None
      | Some i => Ok (Some (Node leaf level (firstn i es ++ skipn (i + 1) es), []))
      end
    else del_scan obj level [] es.
  Proof.
    cbn [delete_at]. destruct leaf; [reflexivity|].
    match goal with |- ?go [] es = _ => assert (H : forall rest before, go before rest = del_scan obj level before rest) end.
    { induction rest as [|[bb [c|a]] rest IH]; intros before; [reflexivity| |].
      - cbn [del_scan]. destruct (contains_rect bb (bounds obj)); [|apply IH].
        destruct (delete_at bounds min cmp obj c) as [[[c' gone]|]| |]; try reflexivity. cbn [bind]. apply IH.
      - cbn [del_scan]. destruct (contains_rect bb (bounds obj)); [reflexivity|apply IH]. }
    apply H.
  Qed.

  Lemma last_match_spec obj es : forall i found, match last_match cmp obj i found es with
    | None => found = None /\ Forall (fun e => match snd e with inr a => cmp a obj = false | inl _ => True end) es
    | Some j => found = Some j \/ exists k r a, j = (i + k)%nat /\ nth_error es k = Some (r, inr a) /\ cmp a obj = true
    end.
  Proof.
    induction es as [|[r [c|a]] es IH]; intros i found; cbn [last_match].
    - destruct found; auto.
    - specialize (IH (S i) found). destruct (last_match cmp obj (S i) found es) as [j|].
      + destruct IH as [IH|(k & r' & a & -> & Hk & Ha)]; [now left|]. right. exists (S k), r', a. split; [lia|]. now split.
      + destruct IH. split; [assumption|]. constructor; [exact I|assumption].
    - destruct (cmp a obj) eqn:C.
      + specialize (IH (S i) (Some i)). destruct (last_match cmp obj (S i) (Some i) es) as [j|].
        * destruct IH as [IH|(k & r' & b & -> & Hk & Ha)].
          -- injection IH as <-. right. exists 0%nat, r, a. split; [lia|]. now split.
          -- right. exists (S k), r', b. split; [lia|]. now split.
        * destruct IH. discriminate.
      + specialize (IH (S i) found). destruct (last_match cmp obj (S i) found es) as [j|].
        * destruct IH as [IH|(k & r' & b & -> & Hk & Ha)]; [now left|]. right. exists (S k), r', b. split; [lia|]. now split.
        * destruct IH. split; [assumption|]. constructor; [exact C|assumption].
  Qed.

  (** What a successful deletion below a node gives. *)
  Definition removed (obj : A) (leaf : bool) (level : Z) (count : nat) (content : list A) (n' : node) (gone : list node) : Prop :=
    n_leaf n' = leaf /\ n_level n' = level /\ good n' /\ (length (n_entries n') <= count)%nat /\
    (exists a, cmp a obj = true /\ Permutation (a :: objs n' ++ flat_map objs gone) content) /\
    Forall (fun c => good c /\ (1 <= length (n_entries c) <= max)%nat /\ (n_level c < level)%Z) gone.

  Lemma scan_spec obj level es : (1 <= level)%Z -> level <> 1%Z ->
    Forall (fun e => match snd e with
      | inl c => good c -> (length (n_entries c) <= max)%nat -> forall n' gone, delete_at bounds min cmp obj c = Ok (Some (n', gone)) ->
                 removed obj (n_leaf c) (n_level c) (length (n_entries c)) (objs c) n' gone
      | inr _ => True end) es ->
    Forall (ge false level) es -> forall before, Forall (ge false level) before ->
    forall n' gone, del_scan obj level before es = Ok (Some (n', gone)) ->
    removed obj false level (length (before ++ es)) (flat_map e_objs (before ++ es)) n' gone.
  Proof.
    intros Hl1 Hl2 IH H. induction H as [|[bb [c|b]] es He H IHes]; intros before Hb n' gone E; cbn [del_scan] in E; [discriminate| |].
    - apply Forall_inv in IH as IHc. apply Forall_inv_tail in IH. cbn [snd] in IHc.
      assert (Skip : forall n' gone, del_scan obj level (before ++ [(bb, inl c)]) es = Ok (Some (n', gone)) ->
        removed obj false level (length (before ++ (bb, inl c) :: es)) (flat_map e_objs (before ++ (bb, inl c) :: es)) n' gone).
      { intros n1 g1 E1. specialize (IHes IH (before ++ [(bb, inl c)])). rewrite <- app_assoc in IHes. cbn [app] in IHes.
        apply IHes; [|exact E1]. apply Forall_app. split; [exact Hb|]. now constructor. }
      destruct (contains_rect bb (bounds obj)); [|now apply Skip].
      apply bind_ok in E. destruct E as ([[c' g']|] & Ec & E); [|now apply Skip].
      pose proof He as [_ (_ & Lc & Cc & _ & Gc)]. cbn [snd] in *.
      destruct (IHc Gc ltac:(lia) _ _ Ec) as (R1 & R2 & R3 & R4 & (a & Ra & Rp) & R5).
      assert (Hg' : Forall (fun x => good x /\ (1 <= length (n_entries x) <= max)%nat /\ (n_level x < level)%Z) g').
      { eapply Forall_impl; [|exact R5]. intros x (X1 & X2 & X3). split; [exact X1|]. split; [exact X2|]. lia. }
      destruct (length (n_entries c') <? min)%nat eqn:Cm.
      + injection E as <- <-.
        split; [reflexivity|]. split; [reflexivity|]. split; [|split; [|split]].
        * apply good_eq. split; [exact Hl1|]. split; [lia|]. apply Forall_app. split; [exact Hb|exact H].
        * cbn [n_entries]. rewrite !app_length. cbn. lia.
        * exists a. split; [exact Ra|]. rewrite objs_node, !flat_map_app. cbn [flat_map].
          change (e_objs (bb, inl c)) with (objs c). rewrite <- Rp.
          assert (Pg : Permutation (flat_map objs (if (0 <? length (n_entries c'))%nat then g' ++ [c'] else g')) (objs c' ++ flat_map objs g')).
          { destruct (0 <? length (n_entries c'))%nat eqn:C0.
            - rewrite flat_map_app. cbn [flat_map]. rewrite app_nil_r. apply Permutation_app_comm.
            - destruct c' as [lf lv es']. cbn [n_entries] in C0. destruct es'; [|cbn in C0; lia]. reflexivity. }
          rewrite Pg. cbn [app].
          rewrite (Permutation_app_comm (flat_map e_objs before ++ flat_map e_objs es)).
          rewrite <- Permutation_middle. constructor. rewrite <- !app_assoc.
          rewrite (Permutation_app_swap_app (flat_map e_objs before) (objs c')).
          apply Permutation_app_head. rewrite (Permutation_app_swap_app (flat_map e_objs before)). reflexivity.
        * destruct (0 <? length (n_entries c'))%nat eqn:C0; [|exact Hg'].
          apply Forall_app. split; [exact Hg'|]. constructor; [|constructor]. split; [exact R3|]. split; [lia|]. lia.
      + apply bind_ok in E. destruct E as (bb' & Eb & E). injection E as <- <-.
        split; [reflexivity|]. split; [reflexivity|]. split; [|split; [|split]].
        * apply good_eq. split; [exact Hl1|]. split; [lia|]. apply Forall_app. split; [exact Hb|]. constructor; [|exact H].
          apply (child_good bounds max 1 d (rect_ok d) (fun r Hr => Hr) (bounding_box_ok d)); [exact R3|lia|lia|exact Eb].
        * cbn [n_entries]. rewrite !app_length. cbn. lia.
        * exists a. split; [exact Ra|]. rewrite objs_node, !flat_map_app. cbn [flat_map].
          change (e_objs (bb, inl c)) with (objs c). change (e_objs (bb', inl c')) with (objs c'). rewrite <- Rp. cbn [app].
          rewrite <- Permutation_middle. constructor. rewrite <- !app_assoc. apply Permutation_app_head.
          apply Permutation_app_head. apply Permutation_app_comm.
        * exact Hg'.
    - destruct He as [_ [E' _]]. discriminate.
  Qed.

  Lemma delete_at_spec obj : forall n, good n -> (length (n_entries n) <= max)%nat ->
    forall n' gone, delete_at bounds min cmp obj n = Ok (Some (n', gone)) ->
    removed obj (n_leaf n) (n_level n) (length (n_entries n)) (objs n) n' gone.
  Proof.
    induction n as [leaf level es IH] using node_ind'. intros G L n' gone E. rewrite delete_at_eq in E.
    apply good_eq in G. destruct G as (G1 & G2 & G3). destruct leaf.
    - pose proof (last_match_spec obj es 0 None) as M. destruct (last_match cmp obj 0 None es) as [i|]; [|discriminate].
      injection E as <- <-. destruct M as [M|(k & r & a & -> & Hk & Ha)]; [discriminate|]. cbn [Nat.add].
      pose proof (nth_split _ _ _ Hk) as Es.
      assert (F : Forall (ge true level) (firstn k es ++ skipn (k + 1) es)).
      { rewrite Es in G3. apply Forall_app in G3. destruct G3 as [F1 F2]. apply Forall_app. split; [exact F1|]. now inversion F2. }
      split; [reflexivity|]. split; [reflexivity|]. split; [now apply good_eq|]. split; [|split; [|constructor]].
      + cbn [n_entries]. rewrite Es at 3. rewrite !app_length. cbn. lia.
      + exists a. split; [exact Ha|]. cbn [flat_map]. rewrite app_nil_r, !objs_node, flat_map_app. rewrite Es at 3.
        rewrite flat_map_app. cbn [flat_map]. change (e_objs (r, inr a)) with [a]. cbn [app]. apply Permutation_middle.
    - apply (scan_spec obj level es G1 ltac:(lia) IH G3 [] (Forall_nil _) _ _ E).
  Qed.

  Lemma reinsert_spec gone : forall t t', tree_good t ->
    Forall (fun c => good c /\ (1 <= length (n_entries c) <= max)%nat /\ (n_level c < n_level (root t))%Z) gone ->
    reinsert min max t gone = Ok t' ->
    tree_good t' /\ Permutation (objs (root t')) (objs (root t) ++ flat_map objs gone) /\ t_size t' = t_size t.
  Proof.
    induction gone as [|c gone IH]; intros t t' G H E; cbn [reinsert] in E.
    - injection E as <-. cbn. rewrite app_nil_r. auto.
    - inversion H as [|? ? (C1 & C2 & C3) H']; subst. apply bind_ok in E. destruct E as (bb & Eb & E).
      apply bind_ok in E. destruct E as (t1 & E1 & E).
      assert (Lc : (1 <= n_level c)%Z) by (destruct c; now apply good_eq in C1).
      destruct (insert_entry_spec bounds min max 1 Hmax Hlo d (rect_ok d) (fun r Hr => Hr) (bounding_box_ok d)
        t (bb, inl c) (n_level c + 1) t1) as (G1 & P1 & S1 & L1 & _); auto; [lia| |lia|].
      { replace (n_level c + 1 =? 1)%Z with false by lia.
        apply (child_good bounds max 1 d (rect_ok d) (fun r Hr => Hr) (bounding_box_ok d)); [exact C1|lia|lia|exact Eb]. }
      destruct (IH t1 t' G1) as (G2 & P2 & S2); [|exact E|].
      { eapply Forall_impl; [|exact H']. intros x (X1 & X2 & X3). split; [exact X1|]. split; [exact X2|]. lia. }
      split; [exact G2|]. split; [|congruence]. rewrite P2, P1. cbn [flat_map]. change (e_objs (bb, inl c)) with (objs c).
      rewrite <- app_assoc. rewrite (Permutation_app_swap_app (objs (root t)) (objs c)). reflexivity.
  Qed.

  Lemma delete_spec t obj t' : tree_good t -> delete bounds min max cmp t obj = Ok (t', true) ->
    tree_good t' /\ t_size t' = (t_size t - 1)%Z /\
    exists a, cmp a obj = true /\ Permutation (a :: objs (root t')) (objs (root t)).
  Proof.
    intros G E. unfold delete in E. apply bind_ok in E. destruct E as ([[r gone]|] & Er & E); [|discriminate].
    destruct G as (G & L & Hh).
    destruct (delete_at_spec obj (root t) G L _ _ Er) as (R1 & R2 & R3 & R4 & (a & Ra & Rp) & R5).
    apply bind_ok in E. destruct E as (t1 & E1 & E).
    destruct (reinsert_spec gone (Rtree r (t_size t) (height t)) t1) as (G1 & P1 & S1).
    - split; [exact R3|]. split; [cbn [root]; lia|]. cbn [height root]. congruence.
    - cbn [root]. rewrite R2. exact R5.
    - exact E1.
    - cbn [root t_size] in *. injection E as <-. cbn [root t_size].
      assert (Pa : Permutation (a :: objs (root t1)) (objs (root t))) by (rewrite P1; exact Rp).
      split; [|split; [lia|]].
      + destruct G1 as (G1 & L1 & H1). unfold tree_good, P_Rtree.tree_good. cbn [root height].
        destruct (root t1) as [[] lv [|[bb [c|b]] [|e2 es]]]; try (split; [exact G1|split; [exact L1|reflexivity]]).
        apply good_eq in G1. destruct G1 as (_ & _ & F). apply Forall_inv in F. destruct F as [_ (_ & _ & Lc & _ & Gc)]. cbn [snd] in *.
        split; [exact Gc|]. split; [lia|reflexivity].
      + exists a. split; [exact Ra|]. rewrite <- Pa. constructor.
        destruct (root t1) as [[] lv [|[bb [c|b]] [|e2 es]]]; try reflexivity.
        rewrite objs_node. cbn [flat_map]. change (e_objs (bb, inl c)) with (objs c). now rewrite app_nil_r.
  Qed.

  (** ** Nothing found *)
  Hypothesis cmp_bounds : forall a b, cmp a b = true -> bounds a = bounds b.

  Lemma contains_in r R : rect_ok d r -> rect_ok d R -> rect_in r R -> contains_rect R r = true.
  Proof.
    intros [_ Hr] [_ HR] H. unfold contains_rect. induction H as [|i I r R [L1 L2] H IH]; [reflexivity|].
    inversion Hr as [|? ? [N1 N2] Hr']; subst. inversion HR as [|? ? [M1 M2] HR']; subst. cbn [combine forallb fst snd].
    rewrite (IH Hr' HR'), andb_true_r. unfold f64_gt.
    rewrite le_key in L1, L2 by assumption. rewrite !lt_key by assumption. lia.
  Qed.

  Lemma good_objs_ok (n : node) : good n -> forall a, In a (objs n) -> rect_ok d (bounds a).
  Proof.
    induction n as [leaf level es IH] using node_ind'. intros G a Ha. apply good_eq in G. destruct G as (_ & _ & G).
    rewrite objs_node in Ha. apply in_flat_map in Ha. destruct Ha as ([r s] & He & Ha).
    rewrite Forall_forall in IH, G. specialize (IH _ He). destruct (G _ He) as [Hr Hs]. destruct s as [c|b]; cbn in *.
    - apply IH; [apply Hs|exact Ha].
    - destruct Hs as [_ ->], Ha as [->|[]]. exact Hr.
  Qed.

  Lemma delete_none obj : forall n, good n -> delete_at bounds min cmp obj n = Ok None ->
    Forall (fun a => cmp a obj = false) (objs n).
  Proof.
    induction n as [leaf level es IH] using node_ind'. intros G E. rewrite delete_at_eq in E.
    apply good_eq in G. destruct G as (G1 & G2 & G3). rewrite objs_node. destruct leaf.
    - pose proof (last_match_spec obj es 0 None) as M. destruct (last_match cmp obj 0 None es) as [i|]; [discriminate|].
      destruct M as [_ M]. apply Forall_flat_map. clear - M G3. induction M as [|[r [c|a]] es M0 M IH]; constructor.
      + destruct (Forall_inv G3) as [_ [E _]]. discriminate.
      + apply IH. now inversion G3.
      + constructor; [exact M0|constructor].
      + apply IH. now inversion G3.
    - assert (forall before, del_scan obj level before es = Ok None -> Forall (fun a => cmp a obj = false) (flat_map e_objs es)) as Hs; [|eauto].
      clear E. induction G3 as [|[bb [c|b]] es He H IHes]; intros before E; cbn [del_scan] in E; [constructor| |].
      + apply Forall_inv in IH as IHc. apply Forall_inv_tail in IH. cbn [snd] in IHc. cbn [flat_map].
        change (e_objs (bb, inl c)) with (objs c).
        destruct He as [Hbb (_ & _ & _ & Hin & Gc)]. cbn [fst snd] in *.
        destruct (contains_rect bb (bounds obj)) eqn:Cr.
        * apply bind_ok in E. destruct E as ([[c' g']|] & Ec & E).
          { destruct (length (n_entries c') <? min)%nat; [discriminate|]. apply bind_ok in E. now destruct E as (? & _ & E). }
          apply Forall_app. split; [now apply IHc|]. eapply IHes; eauto.
        * apply Forall_app. split; [|eapply IHes; eauto].
          apply Forall_forall. intros a Ha. destruct (cmp a obj) eqn:Ca; [|reflexivity]. exfalso.
          apply cmp_bounds in Ca. rewrite <- Ca in Cr. rewrite contains_in in Cr; [discriminate| |exact Hbb|now apply Hin].
          eapply good_objs_ok; eassumption.
      + destruct He as [_ [E' _]]. discriminate.
  Qed.

  Lemma delete_not_found t obj t' : tree_good t -> delete bounds min max cmp t obj = Ok (t', false) ->
    t' = t /\ Forall (fun a => cmp a obj = false) (objs (root t)).
  Proof.
    intros (G & _) E. unfold delete in E. apply bind_ok in E. destruct E as ([[r gone]|] & Er & E).
    - apply bind_ok in E. destruct E as (t1 & _ & E). discriminate.
    - injection E as <-. split; [reflexivity|]. now apply delete_none.
  Qed.

  (** ** Histories *)
  Hypothesis cmp_eq : forall a b, cmp a b = true <-> a = b.

  Lemma remove_one_spec a l : match remove_one cmp a l with
    | None => ~ In a l
    | Some l' => Permutation (a :: l') l
    end.
  Proof.
    induction l as [|b l IH]; cbn; [auto|]. destruct (cmp b a) eqn:C.
    - apply cmp_eq in C. subst. reflexivity.
    - destruct (remove_one cmp a l) as [l'|].
      + rewrite perm_swap. now constructor.
      + intros [->|H]; [|now apply IH]. rewrite (proj2 (cmp_eq a a) eq_refl) in C. discriminate.
  Qed.

  Lemma run_spec ops : forall t l t' answers, tree_good t -> t_size t = Z.of_nat (length l) -> Permutation (objs (root t)) l ->
    Forall (fun o => rect_ok d (bounds (op_obj o))) ops ->
    run bounds min max cmp t ops = Ok (t', answers) ->
    tree_good t' /\ Permutation (objs (root t')) (fst (expected cmp l ops)) /\ answers = snd (expected cmp l ops) /\
    t_size t' = Z.of_nat (length (objs (root t'))).
  Proof.
    induction ops as [|[a|a] ops IH]; intros t l t' answers G S P H E; cbn [run expected] in *.
    - injection E as <- <-. cbn [fst snd]. split; [exact G|]. split; [exact P|]. split; [reflexivity|]. apply Permutation_length in P. lia.
    - apply bind_ok in E. destruct E as (t1 & E1 & E). inversion H as [|? ? Ha H']; subst.
      destruct (insert_spec bounds min max 1 Hmax Hlo d (rect_ok d) (fun r Hr => Hr) (bounding_box_ok d) t a t1 G Ha E1) as (G1 & P1 & S1 & _).
      apply (IH t1 (a :: l)); auto; [cbn; lia|]. rewrite P1. now constructor.
    - apply bind_ok in E. destruct E as ([t1 found] & E1 & E). apply bind_ok in E. destruct E as ([t2 ans] & E2 & E). injection E as <- <-.
      inversion H as [|? ? Ha H']; subst. pose proof (remove_one_spec a l) as R. destruct found.
      + destruct (delete_spec t a t1 G E1) as (G1 & S1 & b & Cb & Pb). apply cmp_eq in Cb. subst b.
        destruct (remove_one cmp a l) as [l'|].
        * assert (P' : Permutation (objs (root t1)) l').
          { apply (Permutation_cons_inv (a := a)). now rewrite Pb, P, R. }
          destruct (IH t1 l' t2 ans G1) as (I1 & I2 & I3 & I4); auto.
          { apply Permutation_length in R. cbn in R. lia. }
          destruct (expected cmp l' ops) as [l2 a2]. cbn [fst snd] in *. subst. auto.
        * exfalso. apply R. apply (Permutation_in _ P), (Permutation_in _ Pb). now left.
      + destruct (delete_not_found t a t1 G E1) as (-> & F).
        destruct (remove_one cmp a l) as [l'|].
        * exfalso. assert (Ha' : In a (objs (root t))).
          { apply (Permutation_in _ (Permutation_sym P)), (Permutation_in _ R). now left. }
          rewrite Forall_forall in F. specialize (F _ Ha'). rewrite (proj2 (cmp_eq a a) eq_refl) in F. discriminate.
        * destruct (IH t l t2 ans G) as (I1 & I2 & I3 & I4); auto.
          destruct (expected cmp l ops) as [l2 a2]. cbn [fst snd] in *. subst. auto.
  Qed.
End Del.
