(** * Proofs about the index of vertices: Remove *)
From Coq Require Import Bool List Arith Lia.
From Verif Require Import Base_Res M_Quadedge S_Quadedge P_Quadedge P_Quadedge2 P_Quadedge3 P_Quadedge4 P_QuadedgeTop
  M_Subdivision S_Subdivision P_Subdivision P_Subdivision2.
Import ListNotations.

Section Remove.
  Context {P : Type}.
  Variable same : P -> P -> bool.
  Variable round : P -> P.
  Hypothesis same_comm : forall a b, same a b = same b a.
  Hypothesis same_trans : forall a b c, same a b = true -> same b c = true -> same a c = true.
  Notation lookup := (lookup same).

  Lemma lookup_same vx k k' : same k k' = true -> lookup vx k = lookup vx k'.
  Proof.
    intros S. induction vx as [|[q x] vx IH]; [reflexivity|]. cbn [M_Subdivision.lookup]. rewrite IH.
    destruct (same k q) eqn:A, (same k' q) eqn:B; [reflexivity| | |reflexivity].
    - rewrite same_comm in S. rewrite (same_trans _ _ _ S A) in B. discriminate.
    - rewrite (same_trans _ _ _ S B) in A. discriminate.
  Qed.
  Lemma drop_other vx v k : same k v = false -> lookup (drop same vx v) k = lookup vx k.
  Proof.
    intros N. induction vx as [|[q x] vx IH]; [reflexivity|]. cbn [drop filter M_Subdivision.lookup].
    destruct (same v q) eqn:A; cbn [negb].
    - rewrite <- IH. unfold drop. destruct (same k q) eqn:B; [|reflexivity].
      rewrite same_comm in A. rewrite (same_trans _ _ _ B A) in N. discriminate.
    - cbn [M_Subdivision.lookup]. destruct (same k q); [reflexivity|exact IH].
  Qed.
  Lemma drop_gone vx v : lookup (drop same vx v) v = None.
  Proof.
    induction vx as [|[q x] vx IH]; [reflexivity|]. cbn [drop filter]. destruct (same v q) eqn:A; cbn [negb]; [exact IH|].
    cbn [M_Subdivision.lookup]. rewrite A. exact IH.
  Qed.

  Variable m : mem P.
  Definition own (e : edge) : list edge := [e; sym e; rot e; sym (rot e)].

  Lemma remove1_other e vx p k : same k (round p) = false -> lookup (vx_remove1 same round m e vx p) k = lookup vx k.
  Proof.
    intros N. unfold vx_remove1. destruct (lookup vx (round p)) as [ve|]; [|reflexivity].
    destruct (existsb _ _); [|reflexivity]. destruct (edge_eqb ve (onext m ve)).
    - apply drop_other, N.
    - cbn [M_Subdivision.lookup]. rewrite N. apply drop_other, N.
  Qed.
  Lemma remove1_here e vx p ve : same (round p) (round p) = true -> lookup vx (round p) = Some ve ->
    lookup (vx_remove1 same round m e vx p) (round p)
    = if existsb (edge_eqb ve) (own e) then if edge_eqb ve (onext m ve) then None else Some (onext m ve) else Some ve.
  Proof.
    intros S L. unfold vx_remove1. rewrite L. fold (own e). destruct (existsb _ _); [|exact L].
    destruct (edge_eqb ve (onext m ve)); [apply drop_gone|]. cbn [M_Subdivision.lookup]. rewrite S. reflexivity.
  Qed.

  Variable se : edge.
  Hypothesis Hist : history m.
  Hypothesis Start : primal m se.
  Hypothesis Lab : labelled m se.
  Hypothesis NoLoop : loop_free m se.
  Hypothesis Dec : decides m se (fun p q => same (round p) (round q)).

  Lemma origin_refl a : exists_in m a -> same_origin m a a.
  Proof. intros E. destruct (rings m Hist a E) as ((l & R & _) & _). exists (a :: l). split; [exact R|]. split; left; reflexivity. Qed.
  Lemma origin_comm a b : same_origin m a b -> same_origin m b a.
  Proof. intros (l & R & A & B). exists l. auto. Qed.
  Lemma origin_onext a b : same_origin m a b -> same_origin m (onext m a) b.
  Proof. intros (l & R & A & B). exists l. split; [exact R|]. split; [|exact B]. exact (cycle_in _ _ _ R A). Qed.

  (** Two edges of a vertex which stay are still at one vertex after Delete. *)
  Lemma origin_delete e x a : primal m e -> primal m x -> same_origin m x a ->
    x <> e -> x <> sym e -> a <> e -> a <> sym e -> same_origin (delete m e) x a.
  Proof.
    intros Pe Px (l & R & X & A) N1 N2 N3 N4.
    destruct (delete_effect m e Hist (proj1 Pe)) as (_ & _ & _ & Ri & _).
    assert (I : forall y, In y l -> y <> e -> y <> sym e -> In y (without (sym e) (without e l))).
    { intros y Y A1 A2. unfold without. apply filter_In. split; [apply filter_In; split; [exact Y|]|];
        rewrite eqb_neq by assumption; reflexivity. }
    exists (without (sym e) (without e l)). split; [|split; apply I; assumption].
    apply (Ri l x R X (proj1 Px)); [unfold same_kind; rewrite (proj2 Px), (proj2 Pe); reflexivity|].
    intros E. pose proof (I x X N1 N2) as H. rewrite E in H. exact H.
  Qed.

  Lemma own_primal e ve : primal m e -> primal m ve -> (existsb (edge_eqb ve) (own e) = true <-> ve = e \/ ve = sym e).
  Proof.
    intros Pe Pv. rewrite existsb_in. unfold own. split.
    - intros [<-|[<-|[H|[H|[]]]]]; [left; reflexivity|right; reflexivity| |]; exfalso.
      + pose proof (rot_even e (proj2 (proj1 Pe))) as K. rewrite H, (proj2 Pv), (proj2 Pe) in K. discriminate.
      + pose proof (rot_even e (proj2 (proj1 Pe))) as K. rewrite <- (sym_even (rot e)) in K by (apply rot_lt, Pe).
        rewrite H, (proj2 Pv), (proj2 Pe) in K. discriminate.
    - intros [->| ->]; [left; reflexivity|right; left; reflexivity].
  Qed.

  (** What Remove leaves under a vertex: [e0] is [e] or [e.Sym()], and leaves it. *)
  Lemma at_end e e0 vx a p ve : connected m se e -> (e0 = e \/ e0 = sym e) ->
    connected m se a -> orig m a = Some p -> orig m e0 = Some p -> a <> e -> a <> sym e ->
    lookup vx (round p) = Some ve -> same_origin m ve a -> connected m se ve ->
    exists x, lookup (vx_remove1 same round m e vx p) (round p) = Some x /\ same_origin (delete m e) x a.
  Proof.
    intros Ce E0 Ca Oa O0 N1 N2 L So Cv.
    pose proof (conn_primal m se Hist Start e Ce) as Pe. pose proof (conn_primal m se Hist Start a Ca) as Pa.
    pose proof (conn_primal m se Hist Start ve Cv) as Pv.
    assert (Sp : same (round p) (round p) = true) by (apply (Dec a a p p Ca Ca Oa Oa); reflexivity).
    rewrite (remove1_here e vx p ve Sp L).
    destruct (existsb (edge_eqb ve) (own e)) eqn:Ow.
    - apply (own_primal e ve Pe Pv) in Ow.
      assert (Na : a <> ve) by (destruct Ow as [->| ->]; assumption).
      assert (Nn : onext m ve <> ve).
      { intros E. destruct So as (l & R & V & A). apply Na.
        apply (cycle_closed (onext m) (fun y => y = ve) l ve R V eq_refl); [|exact A]. intros y _ ->. exact E. }
      rewrite eqb_neq by (intros E; apply Nn; symmetry; exact E).
      exists (onext m ve). split; [reflexivity|].
      assert (Ns : onext m ve <> sym ve).
      { intros E. apply (NoLoop ve Cv). rewrite <- E. apply origin_comm, origin_onext, origin_refl, Pv. }
      assert (Q : onext m ve <> e /\ onext m ve <> sym e).
      { destruct Ow as [->| ->]; [split; assumption|]. rewrite sym_sym in Ns by apply Pe. split; assumption. }
      apply (origin_delete e); [exact Pe|apply primal_onext; [apply history_wf, Hist|exact Pv]|apply origin_onext, So
        |apply Q|apply Q|exact N1|exact N2].
    - exists ve. split; [reflexivity|].
      assert (Nv : ~ (ve = e \/ ve = sym e)) by (rewrite <- (own_primal e ve Pe Pv), Ow; discriminate).
      apply (origin_delete e); try assumption; intros E; apply Nv; [left|right]; exact E.
  Qed.

  Lemma remove_index vx e vx' : connected m se e ->
    (forall a p, connected m se a -> orig m a = Some p ->
       exists x, vx_get same round vx p = Some x /\ same_origin m x a /\ connected m se x) ->
    vx_remove same round m vx e = Ok vx' ->
    (forall a p, connected m se a -> a <> e -> a <> sym e -> orig m a = Some p ->
      exists x, vx_get same round vx' p = Some x /\ same_origin (delete m e) x a)
    /\ (forall p, around_origin m [e] -> orig m e = Some p -> vx_get same round vx' p = None).
  Proof.
    intros Ce Ix R. pose proof (conn_primal m se Hist Start e Ce) as Pe.
    pose proof (conn_sym m se Hist Start e Ce) as Cs.
    unfold vx_remove in R. destruct (orig m e) as [o|] eqn:O; [|discriminate R].
    destruct (dest m e) as [d|] eqn:D; [|discriminate R]. injection R as <-. unfold dest in D.
    assert (Nod : same (round o) (round d) = false).
    { apply not_true_is_false. intros S. apply (NoLoop e Ce). apply (Lab e Ce); [exact Cs|].
      rewrite O, D. f_equal. apply (Dec e (sym e) o d Ce Cs O D). exact S. }
    split.
    - intros a p Ca N1 N2 Oa. destruct (Ix a p Ca Oa) as (x & G & So & Cx). unfold vx_get in *.
      destruct (same (round p) (round d)) eqn:Sd.
      + assert (p = d) by (apply (Dec a (sym e) p d Ca Cs Oa D); exact Sd). subst p.
        apply (at_end e (sym e) _ a d x); auto. rewrite remove1_other; [exact G|]. rewrite same_comm. exact Nod.
      + rewrite remove1_other by exact Sd. destruct (same (round p) (round o)) eqn:So'.
        * assert (p = o) by (apply (Dec a e p o Ca Ce Oa O); exact So'). subst p.
          apply (at_end e e _ a o x); auto.
        * rewrite remove1_other by exact So'. exists x. split; [exact G|].
          pose proof (conn_primal m se Hist Start x Cx) as Px.
          assert (Ox : orig m x = Some p) by (rewrite <- Oa; apply (Lab x Cx); assumption).
          apply (origin_delete e); try assumption.
          -- intros ->. rewrite Ox in O. injection O as <-.
             rewrite (proj2 (Dec e e p p Ce Ce Ox Ox) eq_refl) in So'. discriminate.
          -- intros ->. rewrite Ox in D. injection D as <-.
             rewrite (proj2 (Dec (sym e) (sym e) p p Cs Cs Ox Ox) eq_refl) in Sd. discriminate.
    - intros p Ring Op. injection Op as <-. unfold vx_get. rewrite remove1_other by exact Nod.
      destruct (Ix e o Ce O) as (x & G & So & Cx). unfold vx_get in G.
      assert (x = e).
      { destruct So as (l & R & X & E). symmetry.
        pose proof (cycle_meet (onext m) [e] l e Ring R (or_introl eq_refl) E x X) as [H|[]]. exact H. }
      subst x. rewrite (remove1_here e vx o e); [|apply (proj2 (Dec e e o o Ce Ce O O)); reflexivity|exact G].
      rewrite (proj2 (own_primal e e Pe Pe)) by (left; reflexivity).
      destruct Ring as [_ [Rn _]]. rewrite Rn. rewrite eqb_refl. reflexivity.
  Qed.
End Remove.
