(** * Proofs about quad-edges: walks and searches around a vertex *)
From Coq Require Import Bool List Arith Lia Permutation.
From Verif Require Import Base_Res M_Quadedge S_Quadedge P_Quadedge P_Quadedge2 P_Quadedge3 P_Quadedge4.
Import ListNotations.

Lemma walk_prefix fuel step fn seen e l x : NoDup (map fst (e :: l)) -> (forall q, In q (map fst (e :: l)) -> In q seen -> False) ->
  chain step x (e :: l) -> In (fst x) (seen ++ map fst (e :: l)) -> length (e :: l) < fuel ->
  walk fuel step fn seen e = Some (up_to fn (e :: l)).
Proof.
  revert fuel seen e. induction l as [|e' l IH]; intros fuel seen e N D C X F;
    (destruct fuel as [|fuel]; [cbn in F; lia|]); cbn [walk].
  - destruct (existsb (Nat.eqb (fst e)) seen) eqn:Q.
    + exfalso. apply existsb_exists in Q. destruct Q as (q & Q1 & Q2). apply Nat.eqb_eq in Q2. subst q. apply (D (fst e)); [left; reflexivity|exact Q1].
    + destruct C as [C _]. rewrite C. cbn [up_to]. destruct (fn e); cbn [negb]; [|reflexivity].
      destruct fuel as [|fuel]; [cbn in F; lia|]. cbn [walk].
      assert (existsb (Nat.eqb (fst x)) (fst e :: seen) = true) as ->; [|reflexivity].
      apply existsb_exists. exists (fst x). split; [|apply Nat.eqb_refl].
      rewrite in_app_iff in X. cbn [map In] in *. tauto.
  - destruct (existsb (Nat.eqb (fst e)) seen) eqn:Q.
    + exfalso. apply existsb_exists in Q. destruct Q as (q & Q1 & Q2). apply Nat.eqb_eq in Q2. subst q. apply (D (fst e)); [left; reflexivity|exact Q1].
    + destruct C as [C C']. rewrite C. cbn [up_to]. destruct (fn e); cbn [negb]; [|reflexivity].
      rewrite (IH fuel (fst e :: seen) e').
      * reflexivity.
      * inversion N; assumption.
      * intros q Hq [<-|Hs]; [inversion N; subst; contradiction|]. apply (D q); [right; exact Hq|exact Hs].
      * exact C'.
      * rewrite in_app_iff in *. cbn [map In] in *. tauto.
      * cbn [length] in *. lia.
Qed.

Lemma chain_rev_cycle f g x l : cycle f (x :: l) -> (forall y, In y (x :: l) -> g (f y) = y) -> cycle g (x :: rev l).
Proof.
  intros C G. apply (cycle_rev f g) in C; [|exact G]. cbn [rev] in C. apply cycle_rotate in C. exact C.
Qed.

Section Mem.
  Context {P : Type}.
  Implicit Types (m : mem P) (e : edge).

  Lemma quads_bound m l : NoDup (map fst l) -> (forall y, In y l -> exists_in m y) -> length l <= count m.
  Proof.
    intros N H. rewrite <- (map_length fst l). rewrite <- (seq_length (count m) 0). apply NoDup_incl_length; [exact N|].
    intros q Q. apply in_map_iff in Q. destruct Q as (y & <- & Y). apply in_seq. specialize (H y Y). destruct H. lia.
  Qed.
  Lemma walk_onext m fn e l : wf m -> exists_in m e -> around_origin m (e :: l) -> NoDup (map fst (e :: l)) ->
    walk_all_onext m fn e = Some (up_to fn (e :: l)).
  Proof.
    intros W E C N. unfold walk_all_onext. apply (walk_prefix _ _ _ _ _ _ e).
    - exact N.
    - intros q _ [].
    - apply C.
    - left. reflexivity.
    - apply Nat.lt_succ_r, (quads_bound m); [exact N|]. intros y Y. apply (cycle_members (onext m) m _ e (step_onext m W) E C (or_introl eq_refl) y Y).
  Qed.
  Lemma walk_oprev m fn e l : wf m -> exists_in m e -> around_origin m (e :: l) -> NoDup (map fst (e :: l)) ->
    walk_all_oprev m fn e = Some (up_to fn (e :: rev l)).
  Proof.
    intros W E C N. unfold walk_all_oprev.
    pose proof (cycle_members (onext m) m _ e (step_onext m W) E C (or_introl eq_refl)) as Mem.
    assert (C' : cycle (oprev m) (e :: rev l)).
    { apply (chain_rev_cycle (onext m)); [exact C|]. intros y Y. apply oprev_onext; [exact W|apply Mem, Y]. }
    assert (N' : NoDup (map fst (e :: rev l))).
    { apply (Permutation_NoDup (l := map fst (e :: l))); [|exact N]. apply Permutation_map. apply perm_skip, Permutation_rev. }
    apply (walk_prefix _ _ _ _ _ _ e).
    - exact N'.
    - intros q _ [].
    - apply C'.
    - left. reflexivity.
    - apply Nat.lt_succ_r, (quads_bound m); [exact N'|]. intros y Y. apply Mem. destruct Y as [<-|Y]; [left; reflexivity|right; apply in_rev; exact Y].
  Qed.
  (** The walk always ends. *)
  Lemma walk_total m step fn : (forall x, exists_in m x -> exists_in m (step x)) ->
    forall fuel seen e, exists_in m e -> NoDup seen -> (forall q, In q seen -> q < count m) -> count m < length seen + fuel ->
    walk fuel step fn seen e <> None.
  Proof.
    intros Cl. induction fuel as [|fuel IH]; intros seen e E N L F.
    - exfalso. assert (length seen <= count m); [|lia].
      rewrite <- (seq_length (count m) 0). apply NoDup_incl_length; [exact N|]. intros q Q. apply in_seq. specialize (L q Q). lia.
    - cbn [walk]. destruct (existsb _ seen) eqn:Q; [discriminate|]. destruct (fn e); cbn [negb]; [|discriminate].
      destruct (walk fuel step fn (fst e :: seen) (step e)) eqn:Wk; [discriminate|].
      exfalso. revert Wk. apply IH.
      + apply Cl, E.
      + constructor; [|exact N]. intros I. assert (existsb (Nat.eqb (fst e)) seen = true); [|congruence].
        apply existsb_exists. exists (fst e). split; [exact I|apply Nat.eqb_refl].
      + intros q [<-|I]; [apply E|apply L, I].
      + cbn [length]. lia.
  Qed.
  Lemma walks_end m fn e : wf m -> exists_in m e -> walk_all_onext m fn e <> None /\ walk_all_oprev m fn e <> None.
  Proof.
    intros W E. split; apply (walk_total m).
    - apply (wf_ex m W).
    - exact E.
    - constructor.
    - intros q [].
    - cbn [length]. lia.
    - intros x X. apply oprev_ex; assumption.
    - exact E.
    - constructor.
    - intros q [].
    - cbn [length]. lia.
  Qed.

  (** The search. *)
  Fixpoint first_dest (eq : P -> P -> bool) m p (l : list edge) : option edge :=
    match l with
    | [] => None
    | e :: l => match dest m e with Some d => if eq p d then Some e else first_dest eq m p l | None => None end
    end.
  Lemma find_from_spec eq m p e : forall l fuel ne, chain (onext m) e (ne :: l) -> ~ In e (ne :: l) ->
    (forall y, In y (ne :: l) -> dest m y <> None) -> length (ne :: l) < fuel ->
    find_from eq fuel m p e ne = Ok (first_dest eq m p (ne :: l)).
  Proof.
    induction l as [|n' l IH]; intros fuel ne C N D F; (destruct fuel as [|fuel]; [cbn in F; lia|]); cbn [find_from first_dest];
      rewrite eqb_neq by (intros ->; apply N; left; reflexivity);
      (destruct (dest m ne) as [d|] eqn:Q; [|exfalso; apply (D ne); [left; reflexivity|exact Q]]); (destruct (eq p d); [reflexivity|]).
    - destruct C as [C _]. rewrite C. destruct fuel as [|fuel]; [cbn in F; lia|]. cbn [find_from]. rewrite eqb_refl. reflexivity.
    - destruct C as [C C']. rewrite C. apply IH; [exact C'| | |cbn [length] in *; lia].
      + intros I. apply N. right. exact I.
      + intros y Y. apply D. right. exact Y.
  Qed.
  Lemma find_spec eq m p e l : wf m -> exists_in m e -> around_origin m (e :: l) -> (forall y, In y (e :: l) -> dest m y <> None) ->
    find_onext_dest eq m p e = Ok (first_dest eq m p (e :: l)).
  Proof.
    intros W E C D. unfold find_onext_dest. cbn [first_dest].
    destruct (dest m e) as [d|] eqn:Q; [|exfalso; apply (D e); [left; reflexivity|exact Q]]. destruct (eq p d); [reflexivity|].
    assert (B : length (e :: l) <= 4 * count m).
    { rewrite <- (map_length (fun x => x)). replace (4 * count m) with (length (all_edges m)).
      - apply NoDup_incl_length; [rewrite map_id; apply C|]. intros x X. rewrite map_id in X. apply all_edges_in.
        apply (cycle_members (onext m) m _ e (step_onext m W) E C (or_introl eq_refl) x X).
      - unfold all_edges. clear. assert (K : forall n s, length (flat_map (fun q : nat => [(q, 0); (q, 1); (q, 2); (q, 3)]) (seq s n)) = 4 * n);
        [|apply K]. induction n as [|n IH]; intros s; [reflexivity|]. cbn [seq flat_map app length]. rewrite IH. lia. }
    destruct C as [N [C C']]. destruct l as [|ne l].
    - rewrite C. rewrite Nat.add_comm. cbn [Nat.add find_from]. rewrite eqb_refl. reflexivity.
    - rewrite C. apply find_from_spec; [exact C'|inversion N; assumption| |cbn [length] in *; lia].
      intros y Y. apply D. right. exact Y.
  Qed.
  Lemma first_dest_some eq m p l x : first_dest eq m p l = Some x -> In x l /\ exists d, dest m x = Some d /\ eq p d = true.
  Proof.
    induction l as [|e l IH]; [discriminate|]. cbn [first_dest]. destruct (dest m e) as [d|] eqn:Q; [|discriminate].
    destruct (eq p d) eqn:Eq; [intros [= <-]; split; [left; reflexivity|exists d; auto]|]. intros H. destruct (IH H) as [I J]. split; [right; exact I|exact J].
  Qed.
  Lemma first_dest_none eq m p l : (forall y, In y l -> dest m y <> None) -> first_dest eq m p l = None ->
    forall x d, In x l -> dest m x = Some d -> eq p d = false.
  Proof.
    induction l as [|e l IH]; [intros _ _ x d []|]. intros D. cbn [first_dest]. destruct (dest m e) as [d|] eqn:Q; [|exfalso; apply (D e); [left; reflexivity|exact Q]].
    destruct (eq p d) eqn:Eq; [discriminate|]. intros H x d' [<-|I] X.
    - rewrite X in Q. injection Q as ->. exact Eq.
    - apply (IH (fun y Y => D y (or_intror Y)) H x d' I X).
  Qed.

  Lemma find_correct eq m p e l : history m -> exists_in m e -> around_origin m (e :: l) -> (forall y, In y (e :: l) -> dest m y <> None) ->
    match find_onext_dest eq m p e with
    | Ok (Some x) => In x (e :: l) /\ exists d, dest m x = Some d /\ eq p d = true
    | Ok None => forall x d, In x (e :: l) -> dest m x = Some d -> eq p d = false
    | _ => False
    end.
  Proof.
    intros H E C D. rewrite (find_spec eq m p e l (history_wf m H) E C D).
    destruct (first_dest eq m p (e :: l)) as [x|] eqn:F; [apply (first_dest_some _ _ _ _ _ F)|apply (first_dest_none _ _ _ _ D F)].
  Qed.
End Mem.
