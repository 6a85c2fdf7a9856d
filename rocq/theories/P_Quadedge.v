(** * Proofs about quad-edges: the invariant and the algebra *)
From Coq Require Import Bool List Arith Lia.
From Verif Require Import Base_Res M_Quadedge S_Quadedge.
Import ListNotations.

Lemma eqb_spec (a b : edge) : edge_eqb a b = true <-> a = b.
Proof.
  unfold edge_eqb. destruct a as [a i], b as [b j]. cbn [fst snd].
  rewrite andb_true_iff, !Nat.eqb_eq. split; [intros [-> ->]; reflexivity|intros E; inversion E; auto].
Qed.
Lemma eqb_refl (a : edge) : edge_eqb a a = true.
Proof. apply eqb_spec. reflexivity. Qed.
Lemma eqb_neq (a b : edge) : a <> b -> edge_eqb a b = false.
Proof. intros N. destruct (edge_eqb a b) eqn:E; [|reflexivity]. apply eqb_spec in E. contradiction. Qed.
Lemma edge_dec (a b : edge) : {a = b} + {a <> b}.
Proof. destruct (edge_eqb a b) eqn:E; [left; apply eqb_spec, E|right; intros H; apply eqb_spec in H; congruence]. Qed.
Lemma upd_same {A} (f : edge -> A) e x : upd f e x e = x.
Proof. unfold upd. rewrite eqb_refl. reflexivity. Qed.
Lemma upd_other {A} (f : edge -> A) e x e' : e' <> e -> upd f e x e' = f e'.
Proof. intros N. unfold upd. rewrite eqb_neq by exact N. reflexivity. Qed.

Ltac nums := repeat match goal with
  | e : edge |- _ => destruct e as [?q ?n]; cbn [fst snd] in *
  end;
  repeat match goal with
  | H : ?n < 4 |- _ => destruct n as [|[|[|[|n]]]]; [clear H..|exfalso; lia]
  end.
Lemma rot4 e : snd e < 4 -> rot (rot (rot (rot e))) = e.
Proof. intros. nums; reflexivity. Qed.
Lemma rot_rot e : snd e < 4 -> rot (rot e) = sym e.
Proof. intros. nums; reflexivity. Qed.
Lemma rot_inv e : snd e < 4 -> rot (invrot e) = e.
Proof. intros. nums; reflexivity. Qed.
Lemma inv_rot e : snd e < 4 -> invrot (rot e) = e.
Proof. intros. nums; reflexivity. Qed.
Lemma sym_sym e : snd e < 4 -> sym (sym e) = e.
Proof. intros. nums; reflexivity. Qed.
Lemma sym_neq e : sym e <> e.
Proof. destruct e as [q n]. unfold sym. cbn [fst snd]. destruct (Nat.ltb_spec n 2); intros E; inversion E; lia. Qed.
Lemma rot_sym e : snd e < 4 -> rot (sym e) = invrot e.
Proof. intros. nums; reflexivity. Qed.
Lemma inv_sym e : snd e < 4 -> invrot (sym e) = rot e.
Proof. intros. nums; reflexivity. Qed.
Lemma sym_rot e : snd e < 4 -> sym (rot e) = invrot e.
Proof. intros. nums; reflexivity. Qed.
Lemma sym_inv e : snd e < 4 -> sym (invrot e) = rot e.
Proof. intros. nums; reflexivity. Qed.
Lemma inv_inv e : snd e < 4 -> invrot (invrot e) = sym e.
Proof. intros. nums; reflexivity. Qed.
Lemma rot_lt e : snd e < 4 -> snd (rot e) < 4.
Proof. intros. nums; cbn; lia. Qed.
Lemma inv_lt e : snd e < 4 -> snd (invrot e) < 4.
Proof. intros. nums; cbn; lia. Qed.
Lemma sym_lt e : snd e < 4 -> snd (sym e) < 4.
Proof. intros. nums; cbn; lia. Qed.
Lemma rot_even e : snd e < 4 -> Nat.even (snd (rot e)) = negb (Nat.even (snd e)).
Proof. intros. nums; reflexivity. Qed.
Lemma inv_even e : snd e < 4 -> Nat.even (snd (invrot e)) = negb (Nat.even (snd e)).
Proof. intros. nums; reflexivity. Qed.
Lemma sym_even e : snd e < 4 -> Nat.even (snd (sym e)) = Nat.even (snd e).
Proof. intros. nums; reflexivity. Qed.
Lemma rot_fst e : fst (rot e) = fst e.
Proof. unfold rot. destruct (Nat.eqb _ _); reflexivity. Qed.
Lemma inv_fst e : fst (invrot e) = fst e.
Proof. unfold invrot. destruct (Nat.eqb _ _); reflexivity. Qed.
Lemma sym_fst e : fst (sym e) = fst e.
Proof. unfold sym. destruct (Nat.ltb _ _); reflexivity. Qed.
Lemma same_quad (a b : edge) : snd a < 4 -> snd b < 4 -> same_kind a b -> fst a = fst b -> b = a \/ b = sym a.
Proof.
  unfold same_kind. intros A B K Q. destruct a as [q n], b as [q' n']. cbn [fst snd] in *. subst q'.
  destruct n as [|[|[|[|n]]]]; try lia; destruct n' as [|[|[|[|n']]]]; try lia; try discriminate K; (left; reflexivity) || (right; reflexivity).
Qed.

Section Mem.
  Context {P : Type}.
  Implicit Types (m : mem P) (e a b : edge).

  Lemma ex_rot m e : exists_in m e -> exists_in m (rot e).
  Proof. intros [A B]. split; [rewrite rot_fst; exact A|apply rot_lt, B]. Qed.
  Lemma ex_inv m e : exists_in m e -> exists_in m (invrot e).
  Proof. intros [A B]. split; [rewrite inv_fst; exact A|apply inv_lt, B]. Qed.
  Lemma ex_sym m e : exists_in m e -> exists_in m (sym e).
  Proof. intros [A B]. split; [rewrite sym_fst; exact A|apply sym_lt, B]. Qed.

  Record wf m : Prop := {
    wf_ex e : exists_in m e -> exists_in m (next m e);
    wf_kind e : exists_in m e -> same_kind (next m e) e;
    wf_rot e : exists_in m e -> next m (rot (next m (rot e))) = e
  }.

  Lemma wf_phi m e : wf m -> exists_in m e -> rot (next m (rot (next m e))) = e.
  Proof.
    intros W E. pose proof (wf_rot m W (invrot e) (ex_inv m e E)) as H.
    rewrite rot_inv in H by apply E. rewrite H. apply rot_inv, E.
  Qed.

  Lemma empty_wf : wf (@empty P).
  Proof. split; intros e [E _]; cbn in E; lia. Qed.

  Lemma new_count m : count (fst (new m)) = S (count m).
  Proof. reflexivity. Qed.
  Lemma new_next_old m e : fst e < count m -> next (fst (new m)) e = next m e.
  Proof.
    intros H. unfold new, set_next. cbn [fst next].
    rewrite !upd_other by (intros ->; cbn in H; lia). reflexivity.
  Qed.
  Lemma new_next m n : n < 4 -> next (fst (new m)) (count m, n)
    = match n with 0 => (count m, 0) | 1 => (count m, 3) | 2 => (count m, 2) | _ => (count m, 1) end.
  Proof.
    intros H. unfold new, set_next, upd, edge_eqb. cbn [fst snd next].
    rewrite Nat.eqb_refl. destruct n as [|[|[|[|n]]]]; try lia; reflexivity.
  Qed.
  Lemma new_wf m : wf m -> wf (fst (new m)).
  Proof.
    intros W.
    assert (C : forall e, exists_in (fst (new m)) e -> exists_in m e \/ exists n, n < 4 /\ e = (count m, n)).
    { intros [q n] [A B]. rewrite new_count in A. cbn [fst snd] in *.
      destruct (Nat.eq_dec q (count m)) as [->|N]; [right; exists n; auto|left; split; cbn; lia]. }
    assert (I : forall e, exists_in m e -> exists_in (fst (new m)) e).
    { intros e [A B]. split; [rewrite new_count; lia|exact B]. }
    split; intros e E; destruct (C e E) as [O|(n & L & ->)].
    - rewrite new_next_old by apply O. apply I, (wf_ex m W), O.
    - rewrite new_next by exact L. split; [|destruct n as [|[|[|[|n]]]]; cbn; lia].
      rewrite new_count. destruct n as [|[|[|[|n]]]]; cbn; lia.
    - rewrite new_next_old by apply O. apply (wf_kind m W), O.
    - rewrite new_next by exact L. destruct n as [|[|[|[|n]]]]; try reflexivity; lia.
    - pose proof (ex_rot m e O) as O1. rewrite (new_next_old m (rot e)) by apply O1.
      pose proof (ex_rot m _ (wf_ex m W _ O1)) as O2. rewrite new_next_old by apply O2. apply (wf_rot m W), O.
    - destruct n as [|[|[|[|n]]]]; try lia; cbn [rot fst snd Nat.eqb Nat.add];
        rewrite new_next by lia; cbn [rot fst snd Nat.eqb Nat.add]; rewrite new_next by lia; reflexivity.
  Qed.

  Lemma points_wf m e o d : wf m -> wf (end_points m e o d).
  Proof. intros W. split; apply W. Qed.

  (** Splice exchanges the Next of [a] and [b] and of their duals. *)
  Lemma kind_neq (x y : edge) : Nat.even (snd x) = negb (Nat.even (snd y)) -> x <> y.
  Proof. intros H ->. destruct (Nat.even (snd y)); discriminate H. Qed.
  Lemma dual_kind m e : wf m -> exists_in m e -> Nat.even (snd (rot (next m e))) = negb (Nat.even (snd e)).
  Proof. intros W E. rewrite rot_even by apply (wf_ex m W e E). rewrite (wf_kind m W e E). reflexivity. Qed.

  Lemma splice_count m a b : count (splice m a b) = count m.
  Proof. reflexivity. Qed.
  Lemma splice_vertex m a b e : vertex (splice m a b) e = vertex m e.
  Proof. reflexivity. Qed.
  Lemma splice_ex m a b e : exists_in (splice m a b) e <-> exists_in m e.
  Proof. reflexivity. Qed.

  Section Splice.
    Variables (m : mem P) (a b : edge).
    Hypothesis W : wf m.
    Hypothesis A : exists_in m a.
    Hypothesis B : exists_in m b.
    Hypothesis K : same_kind a b.
    Let al := rot (next m a).
    Let be := rot (next m b).

    Lemma dual_neqs : al <> a /\ al <> b /\ be <> a /\ be <> b /\ (al = be -> a = b).
    Proof.
      unfold al, be. pose proof (dual_kind m a W A) as KA. pose proof (dual_kind m b W B) as KB.
      split; [apply kind_neq, KA|]. split; [apply kind_neq; rewrite KA, K; reflexivity|].
      split; [apply kind_neq; rewrite KB, K; reflexivity|]. split; [apply kind_neq, KB|].
      intros E. rewrite <- (wf_phi m a W A), <- (wf_phi m b W B). rewrite E. reflexivity.
    Qed.
    Lemma splice_a : next (splice m a b) a = next m b.
    Proof.
      destruct dual_neqs as (N1 & N2 & N3 & N4 & N5). unfold splice, set_next. cbn [next].
      change (onext m) with (next m). fold al be.
      rewrite upd_other by congruence. rewrite upd_other by congruence.
      destruct (edge_dec a b) as [->|N]; [apply upd_same|]. rewrite upd_other by exact N. apply upd_same.
    Qed.
    Lemma splice_b : next (splice m a b) b = next m a.
    Proof.
      destruct dual_neqs as (N1 & N2 & N3 & N4 & N5). unfold splice, set_next. cbn [next].
      change (onext m) with (next m). fold al be.
      rewrite upd_other by congruence. rewrite upd_other by congruence. apply upd_same.
    Qed.
    Lemma splice_al : next (splice m a b) al = next m be.
    Proof.
      destruct dual_neqs as (N1 & N2 & N3 & N4 & N5). unfold splice, set_next. cbn [next].
      change (onext m) with (next m). fold al be.
      destruct (edge_dec al be) as [E|N]; [rewrite E; apply upd_same|]. rewrite upd_other by exact N. apply upd_same.
    Qed.
    Lemma splice_be : next (splice m a b) be = next m al.
    Proof.
      unfold splice, set_next. cbn [next]. change (onext m) with (next m). fold al be. apply upd_same.
    Qed.
    Lemma splice_other e : e <> a -> e <> b -> e <> al -> e <> be -> next (splice m a b) e = next m e.
    Proof.
      intros H1 H2 H3 H4. unfold splice, set_next. cbn [next]. change (onext m) with (next m). fold al be.
      rewrite !upd_other by assumption. reflexivity.
    Qed.
    Lemma ex_al : exists_in m al.
    Proof. apply ex_rot, (wf_ex m W), A. Qed.
    Lemma ex_be : exists_in m be.
    Proof. apply ex_rot, (wf_ex m W), B. Qed.

    (** Rot of Next after the splice. *)
    Lemma splice_phi e : exists_in m e ->
      rot (next (splice m a b) e) = if edge_eqb e a then be else if edge_eqb e b then al
        else if edge_eqb e al then b else if edge_eqb e be then a else rot (next m e).
    Proof.
      intros E.
      destruct (edge_dec e a) as [->|Na]; [rewrite splice_a, eqb_refl; reflexivity|rewrite (eqb_neq e a Na)].
      destruct (edge_dec e b) as [->|Nb]; [rewrite splice_b, eqb_refl; reflexivity|rewrite (eqb_neq e b Nb)].
      destruct (edge_dec e al) as [->|Nl]; [rewrite splice_al, eqb_refl|rewrite (eqb_neq e al Nl)].
      { unfold be. apply (wf_phi m b W B). }
      destruct (edge_dec e be) as [->|Ne]; [rewrite splice_be, eqb_refl|rewrite (eqb_neq e be Ne)].
      { unfold al. apply (wf_phi m a W A). }
      rewrite splice_other by assumption. reflexivity.
    Qed.

    Lemma splice_invol e : exists_in m e -> rot (next (splice m a b) (rot (next (splice m a b) e))) = e.
    Proof.
      intros E. destruct dual_neqs as (N1 & N2 & N3 & N4 & N5).
      rewrite (splice_phi e E).
      destruct (edge_dec e a) as [->|Na]; [rewrite eqb_refl|rewrite (eqb_neq e a Na)].
      { rewrite (splice_phi be ex_be), (eqb_neq be a), (eqb_neq be b) by assumption.
        destruct (edge_dec be al) as [Q|Q]; [rewrite Q, eqb_refl; symmetry; apply N5; symmetry; exact Q|].
        rewrite (eqb_neq be al Q), eqb_refl. reflexivity. }
      destruct (edge_dec e b) as [->|Nb]; [rewrite eqb_refl|rewrite (eqb_neq e b Nb)].
      { rewrite (splice_phi al ex_al), (eqb_neq al a), (eqb_neq al b), eqb_refl by assumption. reflexivity. }
      destruct (edge_dec e al) as [->|Nl]; [rewrite eqb_refl|rewrite (eqb_neq e al Nl)].
      { rewrite (splice_phi b B). destruct (edge_dec b a) as [Q|Q].
        - rewrite Q, eqb_refl. unfold be, al. rewrite Q. reflexivity.
        - rewrite (eqb_neq b a Q), eqb_refl. reflexivity. }
      destruct (edge_dec e be) as [->|Ne]; [rewrite eqb_refl|rewrite (eqb_neq e be Ne)].
      { rewrite (splice_phi a A), eqb_refl. reflexivity. }
      assert (E' : exists_in m (rot (next m e))) by (apply ex_rot, (wf_ex m W), E).
      assert (inj : forall x, exists_in m x -> rot (next m e) = rot (next m x) -> e = x).
      { intros x X Q. rewrite <- (wf_phi m e W E), <- (wf_phi m x W X), Q. reflexivity. }
      rewrite (splice_phi _ E').
      rewrite (eqb_neq (rot (next m e)) a), (eqb_neq (rot (next m e)) b), (eqb_neq (rot (next m e)) al), (eqb_neq (rot (next m e)) be).
      - apply (wf_phi m e W E).
      - intros Q. apply Nb. apply inj; [exact B|exact Q].
      - intros Q. apply Na. apply inj; [exact A|exact Q].
      - intros Q. apply Ne. rewrite <- (wf_phi m e W E). rewrite Q. reflexivity.
      - intros Q. apply Nl. rewrite <- (wf_phi m e W E). rewrite Q. reflexivity.
    Qed.

    Lemma splice_next_ex e : exists_in m e -> exists_in m (next (splice m a b) e).
    Proof.
      intros E.
      destruct (edge_dec e a) as [->|Na]; [rewrite splice_a; apply (wf_ex m W), B|].
      destruct (edge_dec e b) as [->|Nb]; [rewrite splice_b; apply (wf_ex m W), A|].
      destruct (edge_dec e al) as [->|Nl]; [rewrite splice_al; apply (wf_ex m W), ex_be|].
      destruct (edge_dec e be) as [->|Ne]; [rewrite splice_be; apply (wf_ex m W), ex_al|].
      rewrite splice_other by assumption. apply (wf_ex m W), E.
    Qed.

    Lemma splice_wf : wf (splice m a b).
    Proof.
      split; intros e E; rewrite splice_ex in E.
      - apply splice_next_ex, E.
      - destruct (edge_dec e a) as [->|Na].
        { rewrite splice_a. unfold same_kind in *. rewrite (wf_kind m W b B). symmetry. exact K. }
        destruct (edge_dec e b) as [->|Nb].
        { rewrite splice_b. unfold same_kind in *. rewrite (wf_kind m W a A). exact K. }
        assert (KD : same_kind al be).
        { unfold same_kind, al, be. rewrite (dual_kind m a W A), (dual_kind m b W B), K. reflexivity. }
        destruct (edge_dec e al) as [->|Nl].
        { rewrite splice_al. unfold same_kind in *. rewrite (wf_kind m W be ex_be). symmetry. exact KD. }
        destruct (edge_dec e be) as [->|Ne].
        { rewrite splice_be. unfold same_kind in *. rewrite (wf_kind m W al ex_al). exact KD. }
        rewrite splice_other by assumption. apply (wf_kind m W), E.
      - pose proof (splice_invol (rot e) (ex_rot m e E)) as H.
        apply (f_equal invrot) in H. rewrite inv_rot in H; [rewrite inv_rot in H by apply E; exact H|].
        apply splice_next_ex, ex_rot, splice_next_ex, ex_rot, E.
    Qed.
  End Splice.

  (** The relations between the operators in a well-formed memory. *)
  Lemma oprev_ex m e : wf m -> exists_in m e -> exists_in m (oprev m e).
  Proof. intros W E. apply ex_rot, (wf_ex m W), ex_rot, E. Qed.
  Lemma oprev_kind m e : wf m -> exists_in m e -> same_kind (oprev m e) e.
  Proof.
    intros W E. unfold same_kind, oprev. change (onext m) with (next m).
    pose proof (ex_rot m e E) as E'. rewrite rot_even by apply (wf_ex m W _ E'). rewrite (wf_kind m W _ E').
    rewrite rot_even by apply E. apply negb_involutive.
  Qed.
  Lemma lnext_ex m e : wf m -> exists_in m e -> exists_in m (lnext m e).
  Proof. intros W E. apply ex_rot, (wf_ex m W), ex_inv, E. Qed.
  Lemma lnext_kind m e : wf m -> exists_in m e -> same_kind (lnext m e) e.
  Proof.
    intros W E. unfold same_kind, lnext. change (onext m) with (next m).
    pose proof (ex_inv m e E) as E'. rewrite rot_even by apply (wf_ex m W _ E'). rewrite (wf_kind m W _ E').
    rewrite inv_even by apply E. apply negb_involutive.
  Qed.
  Lemma lprev_ex m e : wf m -> exists_in m e -> exists_in m (lprev m e).
  Proof. intros W E. apply ex_sym, (wf_ex m W), E. Qed.
  Lemma kind_trans (x y z : edge) : same_kind x y -> same_kind y z -> same_kind x z.
  Proof. unfold same_kind. congruence. Qed.
  Lemma kind_sym (x y : edge) : same_kind x y -> same_kind y x.
  Proof. unfold same_kind. congruence. Qed.
  Lemma sym_kind e : snd e < 4 -> same_kind (sym e) e.
  Proof. intros H. unfold same_kind. apply sym_even, H. Qed.

  Lemma onext_oprev m e : wf m -> exists_in m e -> onext m (oprev m e) = e.
  Proof. intros W E. apply (wf_rot m W), E. Qed.
  Lemma oprev_onext m e : wf m -> exists_in m e -> oprev m (onext m e) = e.
  Proof. intros W E. apply (wf_phi m e W E). Qed.
  Lemma lnext_lprev m e : wf m -> exists_in m e -> lnext m (lprev m e) = e.
  Proof.
    intros W E. unfold lnext, lprev, onext. rewrite inv_sym by apply (wf_ex m W e E). apply (wf_phi m e W E).
  Qed.
  Lemma lprev_lnext m e : wf m -> exists_in m e -> lprev m (lnext m e) = e.
  Proof.
    intros W E. unfold lnext, lprev, onext.
    pose proof (wf_rot m W (sym e) (ex_sym m e E)) as H. rewrite rot_sym in H by apply E.
    rewrite H. apply sym_sym, E.
  Qed.
  Lemma dnext_dprev m e : wf m -> exists_in m e -> dnext m (dprev m e) = e.
  Proof.
    intros W E. unfold dnext, dprev, onext. pose proof (wf_ex m W _ (ex_inv m e E)) as E'.
    rewrite sym_inv by apply E'. pose proof (wf_rot m W (sym e) (ex_sym m e E)) as H. rewrite rot_sym in H by apply E.
    rewrite H. apply sym_sym, E.
  Qed.
  Lemma dprev_dnext m e : wf m -> exists_in m e -> dprev m (dnext m e) = e.
  Proof.
    intros W E. unfold dnext, dprev, onext. pose proof (wf_ex m W _ (ex_sym m e E)) as E'.
    rewrite inv_sym by apply E'.
    pose proof (wf_rot m W (rot e) (ex_rot m e E)) as H. rewrite rot_rot in H by apply E. rewrite H. apply inv_rot, E.
  Qed.
  Lemma rnext_rprev m e : wf m -> exists_in m e -> rnext m (rprev m e) = e.
  Proof.
    intros W E. unfold rnext, rprev, onext.
    pose proof (wf_rot m W (rot e) (ex_rot m e E)) as H. rewrite rot_rot in H by apply E. rewrite H. apply inv_rot, E.
  Qed.
  Lemma rprev_rnext m e : wf m -> exists_in m e -> rprev m (rnext m e) = e.
  Proof.
    intros W E. unfold rnext, rprev, onext. pose proof (wf_ex m W _ (ex_rot m e E)) as E'.
    rewrite sym_inv by apply E'. apply (wf_rot m W), E.
  Qed.

  (** Histories. *)
  Lemma swap_wf m e : wf m -> exists_in m e -> wf (swap m e).
  Proof.
    intros W E. unfold swap. apply points_wf.
    assert (S : exists_in m (sym e)) by (apply ex_sym, E).
    assert (Ka : same_kind e (oprev m e)) by (apply kind_sym, oprev_kind; assumption).
    assert (Kb : same_kind (sym e) (oprev m (sym e))) by (apply kind_sym, oprev_kind; assumption).
    assert (Ea : exists_in m (oprev m e)) by (apply oprev_ex; assumption).
    assert (Eb : exists_in m (oprev m (sym e))) by (apply oprev_ex; assumption).
    set (a := oprev m e) in *. set (b := oprev m (sym e)) in *. clearbody a b.
    assert (W1 : wf (splice m e a)) by (apply splice_wf; assumption).
    set (m1 := splice m e a) in *.
    assert (W2 : wf (splice m1 (sym e) b)) by (apply splice_wf; assumption).
    set (m2 := splice m1 (sym e) b) in *.
    assert (W3 : wf (splice m2 e (lnext m2 a))).
    { apply splice_wf; try assumption; [apply (lnext_ex m2); assumption|].
      eapply kind_trans; [exact Ka|]. apply kind_sym. apply lnext_kind; assumption. }
    set (m3 := splice m2 e (lnext m2 a)) in *.
    apply splice_wf; try assumption; [apply (lnext_ex m3); assumption|].
    eapply kind_trans; [exact Kb|]. apply kind_sym. apply lnext_kind; assumption.
  Qed.
  Lemma delete_wf m e : wf m -> exists_in m e -> wf (delete m e).
  Proof.
    intros W E. unfold delete.
    assert (W1 : wf (splice m e (oprev m e))).
    { apply splice_wf; try assumption; [apply oprev_ex; assumption|apply kind_sym, oprev_kind; assumption]. }
    set (m1 := splice m e (oprev m e)) in *.
    apply splice_wf; try assumption.
    - apply (ex_sym m e E).
    - apply oprev_ex; [exact W1|apply (ex_sym m e E)].
    - apply kind_sym, oprev_kind; [exact W1|apply (ex_sym m e E)].
  Qed.
  Lemma history_wf m : history m -> wf m.
  Proof.
    induction 1.
    - apply empty_wf.
    - apply new_wf. assumption.
    - apply points_wf. assumption.
    - apply splice_wf; assumption.
    - unfold connect in *. destruct (dest m a) as [d|] eqn:D; [|discriminate].
      destruct (new m) as [m0 e0] eqn:N. cbv zeta in *.
      assert (W0 : wf m0) by (replace m0 with (fst (new m)) by (rewrite N; reflexivity); apply new_wf; assumption).
      assert (C0 : count m0 = S (count m)) by (replace m0 with (fst (new m)) by (rewrite N; reflexivity); reflexivity).
      assert (Q0 : e0 = (count m, 0)) by (replace e0 with (snd (new m)) by (rewrite N; reflexivity); reflexivity).
      assert (Up : forall x, exists_in m x -> exists_in m0 x) by (intros x [X Y]; split; [lia|exact Y]).
      assert (E0 : exists_in m0 e0) by (subst e0; split; cbn; lia).
      assert (K0 : same_kind e0 a) by (subst e0; unfold same_kind; cbn; symmetry; assumption).
      match goal with H : Ok _ = Ok _ |- _ => injection H as HM HE end.
      set (m1 := end_points m0 e0 _ _) in *.
      assert (W1 : wf m1) by (apply points_wf, W0).
      assert (W2 : wf (splice m1 e0 (lnext m1 a))).
      { apply splice_wf; [exact W1|exact E0|apply lnext_ex; [exact W1|apply Up; assumption]|].
        eapply kind_trans; [exact K0|]. apply kind_sym, lnext_kind; [exact W1|apply Up; assumption]. }
      destruct (resolve m b d) as [bb|] eqn:R; [|subst m'; exact W2].
      destruct (H2 d bb R) as [X Y]. subst m'. apply splice_wf; [exact W2|apply (ex_sym m0 e0 E0)|apply Up; exact X|].
      eapply kind_trans; [apply sym_kind, E0|]. eapply kind_trans; [exact K0|exact Y].
    - apply swap_wf; assumption.
    - apply delete_wf; assumption.
  Qed.
End Mem.
