(** * Proofs about quad-edges: Splice, Delete, Connect and Swap on rings *)
From Coq Require Import Bool List Arith Lia Permutation.
From Verif Require Import Base_Res M_Quadedge S_Quadedge P_Quadedge P_Quadedge2.
Import ListNotations.

Section Mem.
  Context {P : Type}.
  Implicit Types (m : mem P) (e a b : edge).

  Lemma kind_refl e : same_kind e e.
  Proof. reflexivity. Qed.
  (** The members of a ring are edges of one kind. *)
  Lemma chain_members f m x l e : (forall y, exists_in m y -> exists_in m (f y) /\ same_kind (f y) y) ->
    exists_in m e -> chain f x (e :: l) -> forall y, In y (e :: l) -> exists_in m y /\ same_kind y e.
  Proof.
    intros S. revert e. induction l as [|z l IH]; intros e E C y I.
    - destruct I as [<-|[]]. split; [exact E|apply kind_refl].
    - destruct C as [C1 C2]. destruct I as [<-|I]; [split; [exact E|apply kind_refl]|].
      destruct (S e E) as [S1 S2]. rewrite C1 in S1, S2.
      destruct (IH z S1 C2 y I) as [Q1 Q2]. split; [exact Q1|eapply kind_trans; eassumption].
  Qed.
  Lemma cycle_members f m l e : (forall y, exists_in m y -> exists_in m (f y) /\ same_kind (f y) y) ->
    exists_in m e -> cycle f l -> In e l -> forall y, In y l -> exists_in m y /\ same_kind y e.
  Proof.
    intros S E C I y Y. destruct (cycle_cut f l e C I) as (l1 & l2 & -> & C').
    destruct C' as [_ C']. apply (chain_members f m e (l2 ++ l1) e S E C').
    rewrite in_app_iff in Y. cbn [In] in *. rewrite in_app_iff. tauto.
  Qed.
  Lemma step_onext m : wf m -> forall y, exists_in m y -> exists_in m (onext m y) /\ same_kind (onext m y) y.
  Proof. intros W y Y. split; [apply (wf_ex m W y Y)|apply (wf_kind m W y Y)]. Qed.
  Lemma step_lnext m : wf m -> forall y, exists_in m y -> exists_in m (lnext m y) /\ same_kind (lnext m y) y.
  Proof. intros W y Y. split; [apply lnext_ex|apply lnext_kind]; assumption. Qed.

  (** ONext, LNext and OPrev of the edges of the kind of [a] and [b]. *)
  Lemma splice_onext m a b x : wf m -> exists_in m a -> exists_in m b -> same_kind a b -> exists_in m x -> same_kind x a ->
    onext (splice m a b) x = if edge_eqb x a then onext m b else if edge_eqb x b then onext m a else onext m x.
  Proof.
    intros W A B K X KX. unfold onext.
    destruct (edge_dec x a) as [->|Na]; [rewrite eqb_refl; apply splice_a; assumption|rewrite eqb_neq by exact Na].
    destruct (edge_dec x b) as [->|Nb]; [rewrite eqb_refl; apply splice_b; assumption|rewrite eqb_neq by exact Nb].
    apply splice_other; try assumption.
    - apply kind_neq. rewrite (dual_kind m a W A), negb_involutive. exact KX.
    - apply kind_neq. rewrite (dual_kind m b W B), negb_involutive, <- K. exact KX.
  Qed.
  Lemma lprev_kind m e : wf m -> exists_in m e -> same_kind (lprev m e) e.
  Proof.
    intros W E. unfold lprev, onext. eapply kind_trans; [apply sym_kind, (wf_ex m W e E)|apply (wf_kind m W e E)].
  Qed.
  Lemma splice_lnext m a b x : wf m -> exists_in m a -> exists_in m b -> same_kind a b -> exists_in m x -> same_kind x a ->
    lnext (splice m a b) x = if edge_eqb x (lprev m a) then b else if edge_eqb x (lprev m b) then a else lnext m x.
  Proof.
    intros W A B K X KX. pose proof (ex_inv m x X) as IX. unfold lnext at 1. unfold onext.
    rewrite (splice_phi m a b W A B K (invrot x) IX).
    assert (D : forall y, exists_in m y -> edge_eqb (invrot x) (rot (next m y)) = edge_eqb x (lprev m y)).
    { intros y Y. pose proof (wf_ex m W y Y) as EN. apply eq_iff_eq_true. rewrite !eqb_spec. unfold lprev, onext. split.
      - intros Q. rewrite <- (rot_inv x) by apply X. rewrite Q. apply rot_rot, EN.
      - intros ->. apply inv_sym, EN. }
    rewrite (D a A), (D b B).
    assert (NK : forall y, same_kind x y -> invrot x <> y).
    { intros y Y. apply kind_neq. rewrite inv_even by apply X. rewrite Y. reflexivity. }
    rewrite (eqb_neq (invrot x) a) by (apply NK, KX).
    rewrite (eqb_neq (invrot x) b) by (apply NK; eapply kind_trans; eassumption).
    reflexivity.
  Qed.
  Lemma lnext_inj m x y : wf m -> exists_in m x -> exists_in m y -> lnext m x = lnext m y -> x = y.
  Proof. intros W X Y Q. rewrite <- (lprev_lnext m x W X), <- (lprev_lnext m y W Y), Q. reflexivity. Qed.
  Lemma onext_inj m x y : wf m -> exists_in m x -> exists_in m y -> onext m x = onext m y -> x = y.
  Proof. intros W X Y Q. rewrite <- (oprev_onext m x W X), <- (oprev_onext m y W Y), Q. reflexivity. Qed.

  Section Rings.
    Variables (m : mem P) (a b : edge).
    Hypothesis W : wf m.
    Hypothesis A : exists_in m a.
    Hypothesis B : exists_in m b.
    Hypothesis K : same_kind a b.

    Lemma splice_on_a : onext (splice m a b) a = onext m b.
    Proof. rewrite splice_onext by (assumption || reflexivity). rewrite eqb_refl. reflexivity. Qed.
    Lemma splice_on_b : onext (splice m a b) b = onext m a.
    Proof.
      rewrite splice_onext by (assumption || apply kind_sym, K).
      destruct (edge_dec b a) as [->|N]; [rewrite eqb_refl; reflexivity|rewrite (eqb_neq b a N), eqb_refl; reflexivity].
    Qed.
    Lemma splice_on_other l e : cycle (onext m) l -> In e l -> exists_in m e -> same_kind e a ->
      forall x, In x l -> x <> a -> x <> b -> onext (splice m a b) x = onext m x.
    Proof.
      intros C I E KE x X Na Nb.
      destruct (cycle_members (onext m) m l e (step_onext m W) E C I x X) as [Q1 Q2].
      rewrite splice_onext by (assumption || (eapply kind_trans; eassumption)).
      rewrite (eqb_neq x a Na), (eqb_neq x b Nb). reflexivity.
    Qed.

    Lemma merge_origins la lb : around_origin m (a :: la) -> around_origin m (b :: lb) -> apart (a :: la) (b :: lb) ->
      around_origin (splice m a b) (a :: lb ++ b :: la).
    Proof.
      intros CA CB D. apply (exchange_merge (onext m)); try assumption; [apply splice_on_a|apply splice_on_b|].
      intros e [I|I].
      - apply (splice_on_other (a :: la) a CA); [left; reflexivity|exact A|reflexivity|exact I].
      - apply (splice_on_other (b :: lb) b CB); [left; reflexivity|exact B|apply kind_sym, K|exact I].
    Qed.
    Lemma split_origins l1 l2 : around_origin m (a :: l1 ++ b :: l2) ->
      around_origin (splice m a b) (a :: l2) /\ around_origin (splice m a b) (b :: l1).
    Proof.
      intros C. apply (exchange_split (onext m)); [apply splice_on_a|apply splice_on_b| |exact C].
      intros e I. apply (splice_on_other (a :: l1 ++ b :: l2) a C); [left; reflexivity|exact A|reflexivity|exact I].
    Qed.
    Lemma other_origins l e : around_origin m l -> In e l -> exists_in m e -> same_kind e a -> ~ In a l -> ~ In b l ->
      around_origin (splice m a b) l.
    Proof.
      intros C I E KE Na Nb. apply (cycle_ext (onext m)); [|exact C]. intros x X. symmetry.
      apply (splice_on_other l e C I E KE x X); intros ->; contradiction.
    Qed.

    Lemma splice_ln_a : lnext (splice m a b) (lprev m a) = b.
    Proof.
      rewrite splice_lnext by (assumption || (apply lprev_ex; assumption) || (apply lprev_kind; assumption)).
      rewrite eqb_refl. reflexivity.
    Qed.
    Lemma splice_ln_b : lnext (splice m a b) (lprev m b) = a.
    Proof.
      rewrite splice_lnext; try assumption; [|apply lprev_ex; assumption|].
      - destruct (edge_dec (lprev m b) (lprev m a)) as [Q|N].
        + rewrite Q, eqb_refl. rewrite <- (lnext_lprev m b W B), Q. apply lnext_lprev; assumption.
        + rewrite (eqb_neq _ _ N), eqb_refl. reflexivity.
      - eapply kind_trans; [apply lprev_kind; assumption|apply kind_sym, K].
    Qed.
    Lemma splice_ln_other l e : cycle (lnext m) l -> In e l -> exists_in m e -> same_kind e a ->
      forall x, In x l -> x <> lprev m a -> x <> lprev m b -> lnext (splice m a b) x = lnext m x.
    Proof.
      intros C I E KE x X Na Nb.
      destruct (cycle_members (lnext m) m l e (step_lnext m W) E C I x X) as [Q1 Q2].
      rewrite splice_lnext by (assumption || (eapply kind_trans; eassumption)).
      rewrite (eqb_neq x _ Na), (eqb_neq x _ Nb). reflexivity.
    Qed.
    Lemma lnext_uniq l e x : cycle (lnext m) l -> In e l -> exists_in m e -> exists_in m x ->
      forall y, In y l -> lnext m y = x -> y = lprev m x.
    Proof.
      intros C I E X y Y Q. destruct (cycle_members (lnext m) m l e (step_lnext m W) E C I y Y) as [Q1 Q2].
      rewrite <- Q. symmetry. apply lprev_lnext; assumption.
    Qed.
    Lemma merge_faces la lb : around_face m (a :: la) -> around_face m (b :: lb) -> apart (a :: la) (b :: lb) ->
      around_face (splice m a b) (a :: la ++ b :: lb).
    Proof.
      intros CA CB D. apply (before_merge (lnext m) _ (lprev m a) (lprev m b)); try assumption.
      - apply lnext_lprev; assumption.
      - apply lnext_lprev; assumption.
      - apply splice_ln_a.
      - apply splice_ln_b.
      - apply (lnext_uniq (a :: la) a); try assumption. left. reflexivity.
      - apply (lnext_uniq (b :: lb) b); try assumption. left. reflexivity.
      - intros e [I|I].
        + apply (splice_ln_other (a :: la) a CA); [left; reflexivity|exact A|reflexivity|exact I].
        + apply (splice_ln_other (b :: lb) b CB); [left; reflexivity|exact B|apply kind_sym, K|exact I].
    Qed.
    Lemma split_faces l1 l2 : around_face m (a :: l1 ++ b :: l2) ->
      around_face (splice m a b) (a :: l1) /\ around_face (splice m a b) (b :: l2).
    Proof.
      intros C. apply (before_split (lnext m) _ (lprev m a) (lprev m b)).
      - apply lnext_lprev; assumption.
      - apply lnext_lprev; assumption.
      - apply splice_ln_a.
      - apply splice_ln_b.
      - apply (lnext_uniq (a :: l1 ++ b :: l2) a); try assumption. left. reflexivity.
      - apply (lnext_uniq (a :: l1 ++ b :: l2) a); try assumption. left. reflexivity.
      - intros e I. apply (splice_ln_other (a :: l1 ++ b :: l2) a C); [left; reflexivity|exact A|reflexivity|exact I].
      - exact C.
    Qed.
    Lemma other_faces l e : around_face m l -> In e l -> exists_in m e -> same_kind e a -> ~ In a l -> ~ In b l ->
      around_face (splice m a b) l.
    Proof.
      intros C I E KE Na Nb. apply (cycle_ext (lnext m)); [|exact C]. intros x X. symmetry.
      apply (splice_ln_other l e C I E KE x X); intros ->.
      - apply Na. rewrite <- (lnext_lprev m a W A). apply (cycle_in (lnext m) l _ C X).
      - apply Nb. rewrite <- (lnext_lprev m b W B). apply (cycle_in (lnext m) l _ C X).
    Qed.
  End Rings.

  (** Splicing twice. *)
  Lemma splice_splice m a b x : wf m -> exists_in m a -> exists_in m b -> same_kind a b -> exists_in m x ->
    next (splice (splice m a b) a b) x = next m x.
  Proof.
    intros W A B K X.
    pose proof (splice_wf m a b W A B K) as W1.
    set (m1 := splice m a b) in *.
    assert (Q : rot (next (splice m1 a b) x) = rot (next m x)).
    { rewrite (splice_phi m1 a b W1 A B K x X).
      assert (Ea : next m1 a = next m b) by (apply splice_a; assumption).
      assert (Eb : next m1 b = next m a) by (apply splice_b; assumption).
      rewrite Ea, Eb.
      destruct (edge_dec x a) as [->|Na]; [rewrite eqb_refl; reflexivity|rewrite (eqb_neq x a Na)].
      destruct (edge_dec x b) as [->|Nb]; [rewrite eqb_refl; reflexivity|rewrite (eqb_neq x b Nb)].
      destruct (edge_dec x (rot (next m b))) as [->|N1]; [rewrite eqb_refl; symmetry; apply (wf_phi m b W B)|rewrite (eqb_neq _ _ N1)].
      destruct (edge_dec x (rot (next m a))) as [->|N2]; [rewrite eqb_refl; symmetry; apply (wf_phi m a W A)|rewrite (eqb_neq _ _ N2)].
      unfold m1. rewrite (splice_phi m a b W A B K x X), (eqb_neq _ _ Na), (eqb_neq _ _ Nb), (eqb_neq _ _ N1), (eqb_neq _ _ N2). reflexivity. }
    apply (f_equal invrot) in Q. rewrite !inv_rot in Q; [exact Q|apply (wf_ex m W x X)|].
    apply (wf_ex (splice m1 a b)); [apply splice_wf; assumption|exact X].
  Qed.

  (** The rings exist. *)
  Definition all_edges m : list edge := flat_map (fun q => [(q, 0); (q, 1); (q, 2); (q, 3)]) (seq 0 (count m)).
  Lemma all_edges_in m e : In e (all_edges m) <-> exists_in m e.
  Proof.
    unfold all_edges, exists_in. rewrite in_flat_map. destruct e as [q n]. cbn [fst snd]. split.
    - intros (x & X & I). apply in_seq in X. cbn in I.
      repeat destruct I as [I|I]; try (injection I as -> <-; lia); contradiction.
    - intros [Q N]. exists q. split; [apply in_seq; lia|].
      destruct n as [|[|[|[|n]]]]; cbn; auto; lia.
  Qed.
  Lemma on_ring m e : wf m -> exists_in m e -> exists l, around_origin m (e :: l).
  Proof.
    intros W E. apply (finite_cycle (all_edges m)); [| |apply all_edges_in, E].
    - intros x X. rewrite all_edges_in in *. apply (wf_ex m W x X).
    - intros x y X Y. rewrite all_edges_in in *. apply onext_inj; assumption.
  Qed.
  Lemma on_face m e : wf m -> exists_in m e -> exists l, around_face m (e :: l).
  Proof.
    intros W E. apply (finite_cycle (all_edges m)); [| |apply all_edges_in, E].
    - intros x X. rewrite all_edges_in in *. apply lnext_ex; assumption.
    - intros x y X Y. rewrite all_edges_in in *. apply lnext_inj; assumption.
  Qed.

  (** OPrev follows the ring backwards. *)
  Lemma cycle_rev f g l : (forall x, In x l -> g (f x) = x) -> cycle f l -> cycle g (rev l).
  Proof.
    intros G C.
    destruct l as [|a l]; [destruct C|]. destruct C as [N C].
    assert (H : forall l a x, chain f x (a :: l) -> (forall y, In y (a :: l) -> g (f y) = y) ->
      exists r z, rev (a :: l) = r ++ [a] /\ rev (a :: l) = z :: tl (rev (a :: l)) /\ f z = x /\
        forall w, g a = w -> chain g w (rev (a :: l))).
    { clear. induction l as [|b l IH]; intros a x C G.
      - exists [], a. cbn. repeat split; auto. apply C.
      - destruct C as [C1 C2]. destruct (IH b x C2) as (r & z & E1 & E2 & E3 & E4); [intros y Y; apply G; right; exact Y|].
        exists (rev (b :: l)), z. cbn [rev] in *. split; [reflexivity|].
        split; [rewrite E2; reflexivity|]. split; [exact E3|]. intros w Ew.
        apply chain_app. split; [|split; [exact Ew|exact I]].
        apply E4. rewrite <- C1. apply G. left. reflexivity. }
    destruct (H l a a C G) as (r & z & E1 & E2 & E3 & E4).
    destruct (rev (a :: l)) as [|z' t] eqn:E; [discriminate E2|]. injection E2 as ->.
    split.
    - rewrite <- E. apply NoDup_rev, N.
    - apply E4. rewrite <- E3. apply G. apply in_rev. rewrite E. left. reflexivity.
  Qed.
  Lemma ring_oprev m l e : wf m -> around_origin m l -> In e l -> exists_in m e -> cycle (oprev m) (rev l).
  Proof.
    intros W C I E. apply (cycle_rev (onext m)); [|exact C]. intros x X.
    apply oprev_onext; [exact W|]. apply (cycle_members (onext m) m l e (step_onext m W) E C I x X).
  Qed.
End Mem.
