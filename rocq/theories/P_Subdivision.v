(** * Proofs about WalkAllEdges *)
From Coq Require Import Bool List Arith Lia.
From Verif Require Import Base_Res M_Quadedge S_Quadedge P_Quadedge P_Quadedge2 P_Quadedge3 P_QuadedgeTop M_Subdivision S_Subdivision.
Import ListNotations.

Lemma cycle_closed (f : edge -> edge) (Q : edge -> Prop) l a :
  cycle f l -> In a l -> Q a -> (forall x, In x l -> Q x -> Q (f x)) -> forall b, In b l -> Q b.
Proof.
  intros C A HA St b B. destruct (cycle_cut f l a C A) as (l1 & l2 & E & C').
  assert (B' : In b (a :: l2 ++ l1)).
  { rewrite E in B. apply in_app_or in B. destruct B as [B|[B|B]]; [right; apply in_or_app; auto|left; exact B|right; apply in_or_app; auto]. }
  assert (Sub : forall x, In x (a :: l2 ++ l1) -> In x l).
  { intros x [X|X]; [subst x; exact A|]. rewrite E. apply in_app_or in X. apply in_or_app. cbn. tauto. }
  clear A B C E. destruct C' as [_ C']. cbn [cycle] in C'.
  assert (G : forall k x, chain f a (x :: k) -> (forall y, In y (x :: k) -> In y l) -> Q x -> forall b, In b (x :: k) -> Q b).
  { clear - St. intros k. induction k as [|y k IH]; intros x Ch Su Hx b [B|B].
    - subst b; exact Hx. - contradiction B. - subst b; exact Hx.
    - destruct Ch as [H Ch]. apply (IH y Ch); [intros z Z; apply Su; right; exact Z| |exact B].
      rewrite <- H. apply St; [apply Su; left; reflexivity|exact Hx]. }
  exact (G _ _ C' Sub HA b B').
Qed.

Section Walk.
  Context {P : Type}.
  Implicit Types m : mem P.

  Lemma primal_onext m e : wf m -> primal m e -> primal m (onext m e).
  Proof. intros W [E K]. destruct (step_onext m W e E) as [E' K']. split; [exact E'|]. unfold same_kind in K'. congruence. Qed.
  Lemma primal_sym m e : primal m e -> primal m (sym e).
  Proof. intros [E K]. split; [apply ex_sym, E|]. rewrite sym_even by apply E. exact K. Qed.
  Lemma primal_oprev m e : wf m -> primal m e -> primal m (oprev m e).
  Proof. intros W [E K]. split; [apply oprev_ex; assumption|]. pose proof (oprev_kind m e W E) as H. unfold same_kind in H. congruence. Qed.

  (** Connected edges are edges between vertices. *)
  Lemma connected_primal m a b : wf m -> connected m a b -> (primal m a <-> primal m b).
  Proof.
    intros W. induction 1 as [a|a E|a E|a b _ IH|a b c _ IH1 _ IH2].
    - reflexivity.
    - split; [apply primal_onext, W|]. intros H. split; [exact E|].
      pose proof (step_onext m W a E) as [_ K]. unfold same_kind in K. rewrite <- K. apply H.
    - split; [apply primal_sym|]. intros H. split; [exact E|]. rewrite <- (sym_even a) by apply E. apply H.
    - symmetry; exact IH.
    - rewrite IH1. exact IH2.
  Qed.
  Lemma connected_oprev m a : wf m -> exists_in m a -> connected m a (oprev m a).
  Proof.
    intros W E. apply c_back. rewrite <- (onext_oprev m a W E) at 2. apply c_onext. apply oprev_ex; assumption.
  Qed.

  (** A set of edges closed under ONext and Sym is closed under connection. *)
  Lemma connected_closed m (Q : edge -> Prop) : history m ->
    (forall x, primal m x -> Q x -> Q (onext m x)) -> (forall x, primal m x -> Q x -> Q (sym x)) ->
    forall a b, connected m a b -> primal m a -> (Q a <-> Q b).
  Proof.
    intros H QO QS a b C. pose proof (history_wf m H) as W.
    induction C as [a|a E|a E|a b C IH|a b c C1 IH1 C2 IH2]; intros Pa.
    - reflexivity.
    - split; [apply QO, Pa|]. intros Qa.
      destruct (rings m H a E) as ((l & [R _]) & _).
      apply (cycle_closed (onext m) (fun x => Q x /\ primal m x) (a :: l) (onext m a)).
      + exact R.
      + apply (cycle_in _ _ _ R). left; reflexivity.
      + split; [exact Qa|apply primal_onext; assumption].
      + intros x _ [Qx Px]. split; [apply QO; assumption|apply primal_onext; assumption].
      + left; reflexivity.
    - split; [apply QS, Pa|]. intros Qa. rewrite <- (sym_sym a) by apply E. apply QS; [apply primal_sym, Pa|exact Qa].
    - symmetry. apply IH. apply (connected_primal m b a W (c_back m _ _ C)). exact Pa.
    - rewrite (IH1 Pa). apply IH2. apply (connected_primal m a b W C1). exact Pa.
  Qed.

  (** ** The order of the walk *)
  Fixpoint order (fuel : nat) m (visited stack : list edge) : option (list edge) :=
    match fuel with
    | O => None
    | S fuel =>
        match stack with
        | [] => Some []
        | e :: stack =>
            if existsb (edge_eqb e) visited then order fuel m visited stack
            else match order fuel m (sym e :: e :: visited) (onext m (sym e) :: onext m e :: stack) with
                 | Some l => Some (e :: l)
                 | None => None
                 end
        end
    end.
  Lemma walk_order {E} fuel m (fn : edge -> outcome E) visited stack l :
    order fuel m visited stack = Some l -> walk_loop fuel m fn visited stack = Some (calls_on fn l).
  Proof.
    revert visited stack l. induction fuel as [|fuel IH]; intros visited stack l H; [discriminate H|].
    cbn [order walk_loop] in *. destruct stack as [|e stack]; [injection H as <-; reflexivity|].
    destruct (existsb (edge_eqb e) visited); [apply IH, H|].
    destruct (order fuel m _ _) as [l'|] eqn:O; [|discriminate H]. injection H as <-.
    cbn [calls_on]. destruct (fn e); [|reflexivity|reflexivity]. rewrite (IH _ _ _ O). destruct (calls_on fn l'); reflexivity.
  Qed.

  Lemma existsb_in (e : edge) l : existsb (edge_eqb e) l = true <-> In e l.
  Proof.
    rewrite existsb_exists. split.
    - intros (x & I & H). apply eqb_spec in H. subst x. exact I.
    - intros I. exists e. split; [exact I|apply eqb_refl].
  Qed.

  (** The quad-edges which are not in a list. *)
  Definition fresh m (v : list edge) : nat :=
    length (filter (fun q => negb (existsb (Nat.eqb q) (map fst v))) (seq 0 (count m))).
  Lemma fresh_le m v : fresh m v <= count m.
  Proof.
    unfold fresh. rewrite <- (seq_length (count m) 0) at 2. induction (seq 0 (count m)) as [|x l IH]; [reflexivity|].
    cbn [filter]. destruct (negb _); cbn [length]; lia.
  Qed.
  Lemma filter_less {A} (f g : A -> bool) l x : In x l -> f x = true -> g x = false ->
    (forall y, g y = true -> f y = true) -> length (filter g l) < length (filter f l).
  Proof.
    intros I Fx Gx Su. induction l as [|y l IH]; [contradiction I|]. cbn [filter].
    assert (Le : length (filter g l) <= length (filter f l)).
    { clear - Su. induction l as [|y l IH]; [reflexivity|]. cbn [filter]. destruct (g y) eqn:G.
      - rewrite (Su y G). cbn. lia. - destruct (f y); cbn; lia. }
    destruct I as [->|I].
    - rewrite Fx, Gx. cbn. lia.
    - specialize (IH I). destruct (g y) eqn:G; [rewrite (Su y G); cbn; lia|]. destruct (f y); cbn; lia.
  Qed.
  Lemma fresh_drop m v e : fst e < count m -> ~ In (fst e) (map fst v) -> fresh m (sym e :: e :: v) < fresh m v.
  Proof.
    intros L N. unfold fresh. apply filter_less with (x := fst e).
    - apply in_seq. lia.
    - apply negb_true_iff. apply not_true_is_false. rewrite existsb_exists. intros (q & I & Q).
      apply Nat.eqb_eq in Q. subst q. exact (N I).
    - apply negb_false_iff. cbn [map existsb]. rewrite (Nat.eqb_refl (fst e)). rewrite orb_true_l. apply orb_true_r.
    - intros y. cbn [map existsb]. destruct (existsb (Nat.eqb y) (map fst v)); [|reflexivity].
      rewrite !orb_true_r. intros X; exact X.
  Qed.

  (** Both directions of the edges of a list. *)
  Definition both (l : list edge) (x : edge) : Prop := In x l \/ In (sym x) l.

  Lemma order_spec m se : wf m -> forall fuel visited stack,
    (forall x, In x visited -> primal m x) -> (forall x, In x visited -> In (sym x) visited) ->
    (forall x, In x stack -> primal m x /\ connected m se x) ->
    length stack + 2 * fresh m visited < fuel ->
    exists l, order fuel m visited stack = Some l
      /\ NoDup (map fst l) /\ (forall x, In x l -> primal m x /\ connected m se x)
      /\ (forall x, In x l -> In (fst x) (map fst visited) -> False)
      /\ (forall x, In x stack -> In x visited \/ both l x)
      /\ (forall x, primal m x -> both l x -> In (onext m x) visited \/ both l (onext m x)).
  Proof.
    intros W. induction fuel as [|fuel IH]; intros visited stack Vp Vs Sp F; [lia|].
    destruct stack as [|e stack]; cbn [order].
    - exists []. split; [reflexivity|]. split; [constructor|]. split; [intros x []|]. split; [intros x []|].
      split; [intros x []|]. intros x _ [[]|[]].
    - destruct (existsb (edge_eqb e) visited) eqn:V.
      + apply existsb_in in V. destruct (IH visited stack Vp Vs) as (l & O & L1 & L2 & L3 & L4 & L5).
        * intros x X. apply Sp. right; exact X.
        * cbn [length] in F. lia.
        * exists l. split; [exact O|]. split; [exact L1|]. split; [exact L2|]. split; [exact L3|]. split; [|exact L5].
          intros x [<-|X]; [left; exact V|apply L4, X].
      + assert (V' : ~ In e visited) by (rewrite <- existsb_in, V; discriminate). clear V.
        destruct (Sp e (or_introl eq_refl)) as [Pe Ce].
        assert (Nq : ~ In (fst e) (map fst visited)).
        { intros I. apply in_map_iff in I. destruct I as (x & X & I). destruct (Vp x I) as [Ex Kx]. destruct Pe as [Ee Ke].
          destruct (same_quad x e) as [->| ->]; [apply Ex|apply Ee|unfold same_kind; congruence|exact X|exact (V' I)|exact (V' (Vs x I))]. }
        assert (Fd : fresh m (sym e :: e :: visited) < fresh m visited) by (apply fresh_drop; [apply Pe|exact Nq]).
        destruct (IH (sym e :: e :: visited) (onext m (sym e) :: onext m e :: stack)) as (l & O & L1 & L2 & L3 & L4 & L5).
        * intros x [<-|[<-|X]]; [apply primal_sym, Pe|exact Pe|apply Vp, X].
        * intros x [<-|[<-|X]]; [rewrite sym_sym by apply Pe; right; left; reflexivity|left; reflexivity|right; right; apply Vs, X].
        * intros x [<-|[<-|X]].
          -- split; [apply primal_onext, primal_sym, Pe; exact W|]. eapply c_trans; [exact Ce|].
             eapply c_trans; [apply c_sym, Pe|]. apply c_onext, ex_sym, Pe.
          -- split; [apply primal_onext, Pe; exact W|]. eapply c_trans; [exact Ce|apply c_onext, Pe].
          -- apply Sp. right; exact X.
        * cbn [length] in F |- *. lia.
        * rewrite O. exists (e :: l). split; [reflexivity|]. split.
          { cbn [map]. constructor; [|exact L1]. intros I. apply in_map_iff in I. destruct I as (x & X & I).
            apply (L3 x I). rewrite X. cbn [map]. right; left; reflexivity. }
          split. { intros x [<-|X]; [split; assumption|apply L2, X]. }
          split. { intros x [<-|X] I; [exact (Nq I)|]. apply (L3 x X). cbn [map]. right; right; exact I. }
          assert (Tr : forall x, primal m x -> In x (sym e :: e :: visited) \/ both l x -> In x visited \/ both (e :: l) x).
          { intros x Px [[<-|[<-|X]]|[X|X]].
            - right. right. rewrite sym_sym by apply Pe. left; reflexivity.
            - right. left. left; reflexivity.
            - left; exact X.
            - right. left. right; exact X.
            - right. right. right; exact X. }
          split.
          { intros x [<-|X]; [right; left; left; reflexivity|]. apply Tr; [apply (proj1 (Sp x (or_intror X)))|].
            apply L4. right; right; exact X. }
          intros x Px B. apply Tr; [apply primal_onext; assumption|].
          assert (B' : x = e \/ x = sym e \/ both l x).
          { destruct B as [[<-|B]|[B|B]]; [left; reflexivity|right; right; left; exact B| |right; right; right; exact B].
            right; left. rewrite B. symmetry. apply sym_sym, Px. }
          destruct B' as [->|[->|B']].
          -- apply L4. right; left; reflexivity.
          -- apply L4. left; reflexivity.
          -- apply L5; assumption.
  Qed.

  (** The walk, for any callback. *)
  Lemma walk_edges m se : history m -> primal m se -> exists l,
    NoDup (map fst l) /\ (forall x, In x l -> connected m se x)
    /\ (forall x, connected m se x -> In x l \/ In (sym x) l)
    /\ forall E (fn : edge -> outcome E), walk_all_edges m fn (Some se) = Some (calls_on fn l).
  Proof.
    intros H Ps. pose proof (history_wf m H) as W.
    destruct (order_spec m se W (4 * count m + 3) [] [se]) as (l & O & L1 & L2 & _ & L4 & L5).
    - intros x []. - intros x []. - intros x [<-|[]]. split; [exact Ps|apply c_refl].
    - pose proof (fresh_le m []). cbn [length]. lia.
    - exists l. split; [exact L1|]. split; [intros x X; apply (L2 x X)|]. split.
      + intros x C. apply (connected_closed m (both l) H) with (a := se).
        * intros y Py B. destruct (L5 y Py B) as [[]|B']. exact B'.
        * intros y Py [B|B]; [right; rewrite sym_sym by apply Py; exact B|left; exact B].
        * exact C. * exact Ps.
        * destruct (L4 se (or_introl eq_refl)) as [[]|B]. exact B.
      + intros E fn. unfold walk_all_edges. apply walk_order, O.
  Qed.
End Walk.
