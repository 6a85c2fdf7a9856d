(** * Proofs about InsertSite: meshes

    A set of edges which is closed under Sym and LNext, whose labels fit the faces
    and the rings. *)
From Coq Require Import Bool List Arith Lia.
From Verif Require Import Base_Res M_Quadedge S_Quadedge P_Quadedge P_Quadedge2 P_Quadedge3 P_Quadedge4 P_QuadedgeTop M_Subdivision S_Subdivision
  P_Subdivision P_Subdivision2 P_Subdivision3 P_Subdivision5.
Import ListNotations.

Section Mesh.
  Context {P : Type}.
  Implicit Types m : mem P.

  Lemma primal_ex m a : primal m a -> exists_in m a. Proof. intros H. apply H. Qed.
  Lemma primal_kind m a b : primal m a -> primal m b -> same_kind a b.
  Proof. intros [_ A] [_ B]. unfold same_kind. congruence. Qed.
  Lemma primal_lnext m a : wf m -> primal m a -> primal m (lnext m a).
  Proof. intros W [E K]. split; [apply lnext_ex; assumption|]. pose proof (lnext_kind m a W E) as H. unfold same_kind in H. congruence. Qed.
  Lemma primal_lprev m a : wf m -> primal m a -> primal m (lprev m a).
  Proof. intros W H. unfold lprev. apply primal_sym, primal_onext; assumption. Qed.
  Lemma onext_of_lnext m y z : wf m -> exists_in m y -> lnext m y = z -> onext m z = sym y.
  Proof.
    intros W Y <-. pose proof (lprev_lnext m y W Y) as H. unfold lprev in H. rewrite <- H at 2.
    rewrite sym_sym; [reflexivity|]. apply (step_onext m W _ (lnext_ex m y W Y)).
  Qed.
  Lemma lprev_of m y z : wf m -> exists_in m y -> lnext m y = z -> lprev m z = y.
  Proof. intros W Y <-. apply lprev_lnext; assumption. Qed.

  (** The ring of an edge is an equivalence class. *)
  Lemma origin_trans m a b c : same_origin m a b -> same_origin m b c -> same_origin m a c.
  Proof.
    intros (l & R & A & B) (l' & R' & B' & C). exists l. split; [exact R|]. split; [exact A|].
    apply (cycle_meet (onext m) l l' b R R' B B'), C.
  Qed.
  Lemma origin_next m a : history m -> exists_in m a -> same_origin m a (onext m a).
  Proof.
    intros H E. destruct (origin_refl m H a E) as (l & R & A & _). exists l. split; [exact R|]. split; [exact A|].
    apply (cycle_in _ _ _ R A).
  Qed.
  Lemma connected_onext m a b : onext m a = b -> exists_in m a -> connected m a b.
  Proof. intros <- E. apply c_onext, E. Qed.
  Lemma connected_lnext m a : history m -> exists_in m a -> connected m a (lnext m a).
  Proof.
    intros H E. pose proof (history_wf m H) as W. apply c_back. eapply c_trans; [apply c_onext, lnext_ex; assumption|].
    rewrite (onext_of_lnext m a _ W E eq_refl). apply c_back, c_sym, E.
  Qed.

  (** [D] is a set of edges as in a subdivision. *)
  Record mesh m (D : edge -> Prop) : Prop := {
    me_hist : history m;
    me_prim a : D a -> primal m a;
    me_sym a : D a -> D (sym a);
    me_lnext a : D a -> D (lnext m a);
    me_lab a : D a -> orig m a <> None;
    me_face a : D a -> orig m (lnext m a) = dest m a;
    me_loop a : D a -> orig m a <> dest m a;
    me_same a b : D a -> D b -> orig m a = orig m b -> same_origin m a b;
    me_conn a b : D a -> D b -> connected m a b }.
  (** The left face is a triangle. *)
  Definition tri3 m (a : edge) : Prop := lnext m (lnext m (lnext m a)) = a.

  Section Of.
    Variables (m : mem P) (D : edge -> Prop).
    Hypothesis M : mesh m D.
    Let W : wf m := history_wf m (me_hist m D M).
    Lemma me_ex a : D a -> exists_in m a. Proof. intros H. apply (me_prim m D M a H). Qed.
    Lemma me_ss a : D a -> sym (sym a) = a. Proof. intros H. apply sym_sym, (me_ex a H). Qed.
    Lemma me_lprev a : D a -> D (lprev m a).
    Proof.
      intros Da. destruct (on_face m a W (me_ex a Da)) as (l & F).
      assert (All : forall x, In x (a :: l) -> D x).
      { apply (cycle_closed (lnext m) D (a :: l) a F (or_introl eq_refl) Da). intros x _ Dx. apply (me_lnext m D M), Dx. }
      destruct l as [|b l] using rev_ind.
      - destruct F as [_ (Q & _)]. rewrite (lprev_of m a a W (me_ex a Da) Q). exact Da.
      - destruct F as [_ Ch]. change (a :: l ++ [b]) with ((a :: l) ++ [b]) in Ch. apply chain_last in Ch.
        assert (Db : D b) by (apply All; right; apply in_or_app; right; left; reflexivity).
        rewrite (lprev_of m b a W (me_ex b Db) Ch). exact Db.
    Qed.
    Lemma me_onext a : D a -> D (onext m a).
    Proof.
      intros Da. pose proof (me_sym m D M _ (me_lprev a Da)) as H. unfold lprev in H. rewrite sym_sym in H; [exact H|].
      apply (step_onext m W a (me_ex a Da)).
    Qed.
    Lemma me_orig_onext a : D a -> orig m (onext m a) = orig m a.
    Proof.
      intros Da. pose proof (me_lprev a Da) as Dl. pose proof (me_face m D M _ Dl) as H.
      rewrite lnext_lprev in H by (exact W || apply me_ex, Da). rewrite H. unfold dest, lprev.
      rewrite sym_sym; [reflexivity|]. apply (step_onext m W a (me_ex a Da)).
    Qed.
    Lemma me_ring l a : around_origin m l -> In a l -> D a -> forall b, In b l -> D b /\ orig m b = orig m a.
    Proof.
      intros R A Da. apply (cycle_closed (onext m) (fun b => D b /\ orig m b = orig m a) l a R A); [auto|].
      intros x _ [Dx Ox]. split; [apply me_onext, Dx|rewrite me_orig_onext by exact Dx; exact Ox].
    Qed.
    Lemma me_back a : exists_in m a -> D (onext m a) -> D a.
    Proof.
      intros E H. destruct (on_ring m a W E) as (l & R).
      apply (me_ring (a :: l) (onext m a) R); [apply (cycle_in _ _ _ R); left; reflexivity|exact H|left; reflexivity].
    Qed.
    (** The set is the part which is connected to one of its edges. *)
    Lemma me_all a b : D a -> (connected m a b <-> D b).
    Proof.
      intros Da. split; [|intros Db; apply (me_conn m D M); assumption].
      intros C. apply (connected_closed m D (me_hist m D M)) with (a := a) (b := b); try assumption.
      - intros x _ Dx. apply me_onext, Dx.
      - intros x _ Dx. apply (me_sym m D M), Dx.
      - apply (me_prim m D M), Da.
    Qed.

    (** Another memory with the edges of [D] where [f] puts them. *)
    Lemma origin_map m' (f : edge -> edge) : (forall y, D y -> same_origin m' (f y) (f (onext m y))) ->
      forall a b, D a -> same_origin m a b -> same_origin m' (f a) (f b).
    Proof.
      intros St a b Da (l & R & A & B).
      pose proof (cycle_closed (onext m) (fun x => D x /\ same_origin m' (f a) (f x)) l a R A) as H.
      apply H; [| |exact B].
      - split; [exact Da|]. eapply origin_trans; [apply St, Da|].
        destruct (St a Da) as (k & K & K1 & K2). exists k. auto.
      - intros x _ [Dx Sx]. split; [apply me_onext, Dx|]. eapply origin_trans; [exact Sx|apply St, Dx].
    Qed.
    Lemma connected_map m' (f : edge -> edge) : (forall y, D y -> connected m' (f y) (f (onext m y))) -> (forall y, D y -> connected m' (f y) (f (sym y))) ->
      forall a b, D a -> D b -> connected m' (f a) (f b).
    Proof.
      intros S1 S2 a b Da Db. pose proof (me_conn m D M a b Da Db) as C.
      assert (G : forall a b, connected m a b -> (D a <-> D b) /\ (D a -> connected m' (f a) (f b))).
      { clear a b Da Db C. intros a b. induction 1 as [a|a E|a E|a b C IH|a b c C1 IH1 C2 IH2].
        - split; [reflexivity|intros _; apply c_refl].
        - split; [split; [apply me_onext|apply me_back, E]|apply S1].
        - split; [split; [apply (me_sym m D M)|intros H; apply (me_sym m D M) in H; rewrite sym_sym in H by apply E; exact H]|apply S2].
        - destruct IH as [I1 I2]. split; [symmetry; exact I1|intros H; apply c_back, I2, I1, H].
        - destruct IH1 as [I1 I2], IH2 as [I3 I4]. split; [rewrite I1; exact I3|]. intros H. eapply c_trans; [apply I2, H|apply I4, I1, H]. }
      apply (G a b C), Da.
    Qed.
  End Of.
End Mesh.
