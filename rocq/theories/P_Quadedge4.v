(** * Proofs about quad-edges: Delete, Connect and Swap *)
From Coq Require Import Bool List Arith Lia Permutation.
From Verif Require Import Base_Res M_Quadedge S_Quadedge P_Quadedge P_Quadedge2 P_Quadedge3.
Import ListNotations.

(** Taking one element out of a cycle. *)
Lemma filter_out (l : list edge) e : ~ In e l -> filter (fun x => negb (edge_eqb x e)) l = l.
Proof.
  induction l as [|x l IH]; [reflexivity|]. intros N. cbn [filter]. rewrite eqb_neq by (intros ->; apply N; left; reflexivity).
  cbn [negb]. f_equal. apply IH. intros I. apply N. right. exact I.
Qed.
Lemma remove_cycle f g e p l : f p = e -> g e = e -> g p = f e ->
  (forall x, In x l -> f x = e -> x = p) ->
  (forall x, In x l -> x <> e -> x <> p -> g x = f x) -> cycle f l ->
  let l' := filter (fun x => negb (edge_eqb x e)) l in l' <> [] -> cycle g l'.
Proof.
  intros Fp Ge Gp U G C l' NE. subst l'.
  destruct (in_dec edge_dec e l) as [I|N].
  - destruct (cycle_cut f l e C I) as (l1 & l2 & -> & C').
    rewrite filter_app in *. cbn [filter] in *. rewrite eqb_refl in *. cbn [negb] in *.
    pose proof (cycle_nodup f _ C) as ND. apply NoDup_remove_2 in ND. rewrite in_app_iff in ND.
    rewrite !filter_out in * by tauto.
    apply cycle_rotate.
    assert (NE' : l2 ++ l1 <> []).
    { intros Q. apply app_eq_nil in Q. destruct Q as [-> ->]. apply NE. reflexivity. }
    destruct (exists_last NE') as (t & y & E). rewrite E in *.
    assert (In_t : forall x, In x (t ++ [y]) -> In x (l1 ++ e :: l2)).
    { intros x X. rewrite <- E in X. rewrite in_app_iff in *. cbn [In]. tauto. }
    assert (Fy : f y = e).
    { destruct C' as [_ C']. change (e :: t ++ [y]) with ((e :: t) ++ [y]) in C'. apply chain_app in C'. apply C'. }
    assert (y = p) as -> by (apply U; [apply In_t; rewrite in_app_iff; right; left; reflexivity|exact Fy]).
    change (e :: t ++ [p]) with ((e :: t) ++ [p]) in C'. apply (cycle_rotate f (e :: t) [p]) in C'. cbn [app] in C'.
    destruct (exchange_split f g p e) with (X := @nil edge) (Y := t) as [H _]; try congruence.
    + cbn [app]. intros x X Np Ne. apply G; try assumption. cbn [In] in X. rewrite in_app_iff in *. cbn [In].
      destruct X as [->|[->|X]]; [contradiction|tauto|].
      assert (In x (l2 ++ l1)) by (rewrite E, in_app_iff; left; exact X). rewrite in_app_iff in *. tauto.
    + exact C'.
    + apply (cycle_rotate g [p] t). exact H.
  - rewrite filter_out by exact N. apply (cycle_ext f); [|exact C]. intros x X. symmetry. apply G; [exact X|intros ->; contradiction|].
    intros ->. apply N. rewrite <- Fp. apply (cycle_in f l p C X).
Qed.

Lemma cycle_meet f l l' x : cycle f l -> cycle f l' -> In x l -> In x l' -> forall y, In y l' -> In y l.
Proof.
  intros C C' I I' y Y. destruct (cycle_cut f l' x C' I') as (l1 & l2 & -> & [_ C2]).
  assert (K : forall k z, In z l -> chain f x (z :: k) -> forall w, In w (z :: k) -> In w l).
  { induction k as [|v k IH]; intros z Z Ch w Hw.
    - destruct Hw as [<-|[]]. exact Z.
    - destruct Hw as [<-|Hw]; [exact Z|]. destruct Ch as [Ch1 Ch2]. apply (IH v); [|exact Ch2|exact Hw].
      rewrite <- Ch1. apply (cycle_in f l z C Z). }
  apply (K (l2 ++ l1) x I C2). rewrite in_app_iff in Y. cbn [In] in *. rewrite in_app_iff. tauto.
Qed.

Section Mem.
  Context {P : Type}.
  Implicit Types (m : mem P) (e a b : edge).

  Lemma oprev_lnext m e : exists_in m e -> oprev m e = lnext m (sym e).
  Proof. intros E. unfold oprev, lnext. rewrite inv_sym by apply E. reflexivity. Qed.

  (** Splice with its own OPrev takes an edge out of its ring. *)
  Lemma take_out m e : wf m -> exists_in m e ->
    let m1 := splice m e (oprev m e) in wf m1 /\ onext m1 e = e
    /\ (forall x, exists_in m x -> same_kind x e -> x <> e -> onext m1 x = if edge_eqb x (oprev m e) then onext m e else onext m x)
    /\ forall l x, around_origin m l -> In x l -> exists_in m x -> same_kind x e ->
      filter (fun y => negb (edge_eqb y e)) l <> [] -> around_origin m1 (filter (fun y => negb (edge_eqb y e)) l).
  Proof.
    intros W E m1.
    pose proof (oprev_ex m e W E) as EO. pose proof (oprev_kind m e W E) as KO.
    assert (W1 : wf m1) by (apply splice_wf; try assumption; apply kind_sym, KO).
    assert (Se : onext m1 e = e).
    { unfold m1. rewrite splice_on_a; try assumption; [apply onext_oprev; assumption|apply kind_sym, KO]. }
    assert (So : forall x, exists_in m x -> same_kind x e -> x <> e -> onext m1 x = if edge_eqb x (oprev m e) then onext m e else onext m x).
    { intros x X K N. unfold m1. rewrite splice_onext; try assumption; [|apply kind_sym, KO].
      rewrite (eqb_neq x e N). reflexivity. }
    split; [exact W1|]. split; [exact Se|]. split; [exact So|].
    intros l x C I X K NE.
    pose proof (cycle_members (onext m) m l x (step_onext m W) X C I) as Mem.
    apply (remove_cycle (onext m) _ e (oprev m e)).
    - apply onext_oprev; assumption.
    - exact Se.
    - destruct (edge_dec (oprev m e) e) as [Q|N].
      + rewrite Q, Se. rewrite <- (onext_oprev m e W E) at 1. rewrite Q. reflexivity.
      + rewrite So by assumption. rewrite eqb_refl. reflexivity.
    - intros y Y Q. rewrite <- Q. symmetry. apply oprev_onext; [exact W|]. apply Mem, Y.
    - intros y Y N1 N2. destruct (Mem y Y) as [Y1 Y2].
      rewrite So; [rewrite (eqb_neq _ _ N2); reflexivity|exact Y1|eapply kind_trans; eassumption|exact N1].
    - exact C.
    - exact NE.
  Qed.

  Lemma delete_rings m e : wf m -> exists_in m e ->
    around_origin (delete m e) [e] /\ around_origin (delete m e) [sym e]
    /\ forall l x, around_origin m l -> In x l -> exists_in m x -> same_kind x e ->
      without (sym e) (without e l) <> [] -> around_origin (delete m e) (without (sym e) (without e l)).
  Proof.
    intros W E. destruct (take_out m e W E) as (W1 & E1 & O1 & R1).
    unfold delete. set (m1 := splice m e (oprev m e)) in *.
    pose proof (ex_sym m e E) as Es.
    destruct (take_out m1 (sym e) W1 Es) as (W2 & E2 & O2 & R2).
    set (m2 := splice m1 (sym e) (oprev m1 (sym e))) in *.
    assert (Sn : e <> sym e) by (intros Q; symmetry in Q; revert Q; apply sym_neq).
    split; [|split].
    - split; [repeat constructor; intros []|]. split; [|exact I].
      rewrite O2; [|exact E|apply kind_sym, sym_kind, E|exact Sn].
      destruct (edge_dec e (oprev m1 (sym e))) as [Q|N].
      + exfalso. apply (f_equal (onext m1)) in Q. rewrite E1, onext_oprev in Q by assumption. contradiction.
      + rewrite (eqb_neq _ _ N). exact E1.
    - split; [repeat constructor; intros []|]. split; [exact E2|exact I].
    - intros l x C Ix X K NE.
      assert (NE1 : without e l <> []) by (intros Q; apply NE; rewrite Q; reflexivity).
      pose proof (R1 l x C Ix X K NE1) as C1. fold (without e l) in C1.
      destruct (without e l) as [|y l'] eqn:Q; [contradiction|].
      assert (Iy : In y l).
      { assert (In y (without e l)) by (rewrite Q; left; reflexivity). unfold without in H. apply filter_In in H. apply H. }
      destruct (cycle_members (onext m) m l x (step_onext m W) X C Ix y Iy) as [Y1 Y2].
      apply (R2 (y :: l') y); [exact C1|left; reflexivity|exact Y1| |exact NE].
      eapply kind_trans; [exact Y2|]. eapply kind_trans; [exact K|]. apply kind_sym, sym_kind, E.
  Qed.
  Lemma delete_vertex m e x : vertex (delete m e) x = vertex m x.
  Proof. reflexivity. Qed.

  (** The faces. *)
  Lemma lnext_head m x y l : around_face m (x :: y :: l) -> lnext m x = y.
  Proof. intros [_ [H _]]. exact H. Qed.
  Lemma face_rot m x l : around_face m (x :: l) -> exists h t, h = lnext m x /\ l ++ [x] = h :: t /\ around_face m (h :: t).
  Proof.
    intros C. pose proof (cycle_rotate (lnext m) [x] l C) as C'.
    destruct (l ++ [x]) as [|h t] eqn:Q; [destruct l; discriminate Q|]. exists h, t. split; [|split; [reflexivity|exact C']].
    destruct C as [_ [C _]]. destruct l as [|z l]; cbn in Q; injection Q as <- _; symmetry; exact C.
  Qed.
  Lemma delete_face_step m1 e X : wf m1 -> exists_in m1 e -> X <> [] -> around_face m1 (e :: X ++ [sym e]) ->
    around_face (splice m1 (sym e) (oprev m1 (sym e))) X.
  Proof.
    intros W1 E NE C. destruct X as [|h t]; [contradiction|].
    pose proof (lnext_head m1 e h (t ++ [sym e]) C) as H.
    rewrite oprev_lnext by (apply ex_sym, E). rewrite sym_sym by apply E. rewrite H.
    change (around_face m1 ((e :: h :: t) ++ [sym e])) in C. apply (cycle_rotate (lnext m1)) in C. cbn [app] in C.
    destruct (split_faces m1 (sym e) h W1) with (l1 := [e]) (l2 := t) as [_ F]; try assumption.
    - apply ex_sym, E.
    - rewrite <- H. apply lnext_ex; assumption.
    - rewrite <- H. eapply kind_trans; [apply sym_kind, E|]. apply kind_sym, lnext_kind; assumption.
  Qed.
  Lemma delete_faces_merge m e A B : wf m -> exists_in m e ->
    around_face m (e :: A) -> around_face m (sym e :: B) -> apart (e :: A) (sym e :: B) -> A ++ B <> [] ->
    around_face (delete m e) (A ++ B).
  Proof.
    intros W E CA CB D NE. unfold delete.
    pose proof (oprev_ex m e W E) as EO. pose proof (oprev_kind m e W E) as KO.
    assert (W1 : wf (splice m e (oprev m e))) by (apply splice_wf; try assumption; apply kind_sym, KO).
    apply delete_face_step; try assumption.
    destruct (face_rot m (sym e) B CB) as (h & t & H1 & H2 & H3).
    rewrite <- oprev_lnext in H1 by exact E. rewrite <- app_assoc, H2. subst h.
    apply merge_faces; try assumption; [apply kind_sym, KO|].
    intros x I J. apply (D x); [exact I|]. rewrite <- H2 in J. rewrite in_app_iff in J. cbn [In] in *. tauto.
  Qed.
  Lemma delete_faces_split m e X Y : wf m -> exists_in m e ->
    around_face m (e :: X ++ sym e :: Y) ->
    (X <> [] -> around_face (delete m e) X) /\ (Y <> [] -> around_face (delete m e) Y).
  Proof.
    intros W E C. unfold delete.
    pose proof (oprev_ex m e W E) as EO. pose proof (oprev_kind m e W E) as KO.
    assert (W1 : wf (splice m e (oprev m e))) by (apply splice_wf; try assumption; apply kind_sym, KO).
    assert (Es : exists_in m (sym e)) by (apply ex_sym, E).
    destruct Y as [|y Y].
    - (* the edge before e is e itself *)
      assert (Q : oprev m e = e).
      { rewrite oprev_lnext by exact E. destruct C as [_ C]. change (e :: X ++ [sym e]) with ((e :: X) ++ [sym e]) in C.
        apply chain_app in C. apply C. }
      split; [|intros []; reflexivity]. intros NE. apply delete_face_step; try assumption.
      apply (cycle_ext (lnext m)); [|exact C]. intros x I.
      destruct (cycle_members (lnext m) m _ e (step_lnext m W) E C (or_introl eq_refl) x I) as [X1 X2].
      rewrite Q. symmetry. rewrite splice_lnext; try assumption; [|reflexivity].
      destruct (edge_dec x (lprev m e)) as [->|N]; [rewrite eqb_refl; symmetry; apply lnext_lprev; assumption|].
      rewrite !(eqb_neq _ _ N). reflexivity.
    - assert (Q : oprev m e = y).
      { rewrite oprev_lnext by exact E. destruct C as [_ C]. change (e :: X ++ sym e :: y :: Y) with ((e :: X) ++ sym e :: y :: Y) in C.
        apply chain_app in C. apply C. }
      destruct (split_faces m e y W E) with (l1 := X ++ [sym e]) (l2 := Y) as [F1 F2].
      + rewrite <- Q. exact EO.
      + rewrite <- Q. apply kind_sym, KO.
      + rewrite <- app_assoc. exact C.
      + rewrite <- Q in F1, F2. split; [intros NE; apply delete_face_step; assumption|]. intros _.
        set (m1 := splice m e (oprev m e)) in *. subst y.
        apply (other_faces m1 (sym e) (oprev m1 (sym e)) W1 Es) with (e := oprev m e).
        * apply oprev_ex; assumption.
        * apply kind_sym, oprev_kind; assumption.
        * exact F2.
        * left. reflexivity.
        * exact EO.
        * eapply kind_trans; [exact KO|apply kind_sym, sym_kind, E].
        * intros I. pose proof (cycle_nodup _ _ C) as ND. change (e :: X ++ sym e :: oprev m e :: Y) with ((e :: X) ++ sym e :: oprev m e :: Y) in ND.
          apply NoDup_remove_2 in ND. apply ND. rewrite in_app_iff. right. exact I.
        * (* oprev m1 (sym e) = lnext m1 e lies on the face of e *)
          intros I. rewrite (oprev_lnext m1 (sym e)) in I by exact Es. rewrite sym_sym in I by apply E.
          pose proof (cycle_in _ _ e F1 (or_introl eq_refl)) as J.
          pose proof (cycle_nodup _ _ C) as ND.
          change (e :: X ++ sym e :: oprev m e :: Y) with ((e :: X) ++ [sym e] ++ oprev m e :: Y) in ND. rewrite app_assoc in ND.
          clear - I J ND. 
          assert (D : forall (l l' : list edge), NoDup (l ++ l') -> forall x, In x l -> In x l' -> False).
          { clear. induction l as [|z l IH]; intros l' N x H H'; [destruct H|]; destruct H as [->|H]; cbn [app] in N; inversion N; subst.
            - match goal with H : ~ In _ _ |- _ => apply H end. rewrite in_app_iff. right. exact H'.
            - eapply IH; eassumption. }
          eapply (D _ _ ND); [|exact I]. exact J.
  Qed.
  Lemma delete_isolated m e : wf m -> exists_in m e -> around_face (delete m e) [e; sym e].
  Proof.
    intros W E. pose proof (delete_wf m e W E) as W'. destruct (delete_rings m e W E) as (R1 & R2 & _).
    assert (E' : exists_in (delete m e) e) by exact E. assert (Es : exists_in (delete m e) (sym e)) by (apply ex_sym, E).
    assert (H1 : onext (delete m e) e = e) by apply R1. assert (H2 : onext (delete m e) (sym e) = sym e) by apply R2.
    assert (O1 : oprev (delete m e) e = e) by (pose proof (oprev_onext _ e W' E') as O; rewrite H1 in O; exact O).
    assert (O2 : oprev (delete m e) (sym e) = sym e) by (pose proof (oprev_onext _ (sym e) W' Es) as O; rewrite H2 in O; exact O).
    split; [|split; [|split; [|exact I]]].
    - constructor; [|repeat constructor; intros []]. intros [Q|[]]. revert Q. apply sym_neq.
    - rewrite <- O2. rewrite oprev_lnext by exact Es. rewrite sym_sym by apply E. reflexivity.
    - rewrite <- oprev_lnext by exact E. exact O1.
  Qed.

  (** New. *)
  Lemma new_on m x : exists_in m x -> onext (fst (new m)) x = onext m x.
  Proof. intros X. apply new_next_old, X. Qed.
  Lemma new_ln m x : exists_in m x -> lnext (fst (new m)) x = lnext m x.
  Proof. intros X. unfold lnext. rewrite new_on by (apply ex_inv, X). reflexivity. Qed.
  Lemma new_up m x : exists_in m x -> exists_in (fst (new m)) x.
  Proof. intros [A B]. split; [rewrite new_count; lia|exact B]. Qed.
  Lemma new_ring m l x : wf m -> around_origin m l -> In x l -> exists_in m x -> around_origin (fst (new m)) l.
  Proof.
    intros W C I X. apply (cycle_ext (onext m)); [|exact C]. intros y Y. symmetry. apply new_on.
    apply (cycle_members (onext m) m l x (step_onext m W) X C I y Y).
  Qed.
  Lemma new_face m l x : wf m -> around_face m l -> In x l -> exists_in m x -> around_face (fst (new m)) l.
  Proof.
    intros W C I X. apply (cycle_ext (lnext m)); [|exact C]. intros y Y. symmetry. apply new_ln.
    apply (cycle_members (lnext m) m l x (step_lnext m W) X C I y Y).
  Qed.
  Lemma new_edge m : let e := (count m, 0) in
    snd (new m) = e /\ exists_in (fst (new m)) e /\ ~ exists_in m e
    /\ around_origin (fst (new m)) [e] /\ around_origin (fst (new m)) [sym e] /\ around_face (fst (new m)) [e; sym e].
  Proof.
    assert (N0 : next (fst (new m)) (count m, 0) = (count m, 0)) by (rewrite new_next by lia; reflexivity).
    assert (N1 : next (fst (new m)) (count m, 1) = (count m, 3)) by (rewrite new_next by lia; reflexivity).
    assert (N2 : next (fst (new m)) (count m, 2) = (count m, 2)) by (rewrite new_next by lia; reflexivity).
    assert (N3 : next (fst (new m)) (count m, 3) = (count m, 1)) by (rewrite new_next by lia; reflexivity).
    split; [reflexivity|]. split; [split; [rewrite new_count|]; cbn; lia|]. split; [intros [A _]; cbn in A; lia|].
    split; [split; [repeat constructor; intros []|split; [exact N0|exact I]]|].
    split; [split; [repeat constructor; intros []|split; [exact N2|exact I]]|].
    split; [repeat constructor; intros []; [discriminate|contradiction]|].
    split; [|split; [|exact I]]; unfold lnext, onext, sym, invrot; cbn [fst snd Nat.ltb Nat.leb Nat.eqb Nat.add Nat.sub];
      [rewrite N3|rewrite N1]; reflexivity.
  Qed.

  Lemma connect_inv resolve m a b m' e bb d : dest m a = Some d -> resolve m b d = Some bb ->
    connect resolve m a b = Ok (m', e) ->
    e = (count m, 0) /\ exists m1, count m1 = S (count m) /\ next m1 = next (fst (new m))
      /\ m' = splice (splice m1 e (lnext m1 a)) (sym e) bb
      /\ (forall x, vertex m1 x = if edge_eqb x (sym e) then orig (fst (new m)) bb
                                 else if edge_eqb x e then dest (fst (new m)) a else vertex (fst (new m)) x).
  Proof.
    intros D R C. unfold connect in C. rewrite D, R in C.
    change (new m) with (fst (new m), (count m, 0)) in C.
    injection C as C1 C2. subst e. split; [reflexivity|].
    exists (end_points (fst (new m)) (count m, 0) (dest (fst (new m)) a) (orig (fst (new m)) bb)).
    split; [reflexivity|]. split; [reflexivity|]. split; [symmetry; exact C1|]. intros x. reflexivity.
  Qed.

  Section Connect.
    Variables (resolve : mem P -> edge -> P -> option edge) (m : mem P) (a b : edge) (m' : mem P) (e bb : edge) (d : P).
    Hypothesis W : wf m.
    Hypothesis A : exists_in m a.
    Hypothesis KA : Nat.even (snd a) = true.
    Hypothesis D : dest m a = Some d.
    Hypothesis R : resolve m b d = Some bb.
    Hypothesis BB : exists_in m bb.
    Hypothesis KB : same_kind a bb.
    Hypothesis C : connect resolve m a b = Ok (m', e).

    Lemma connect_facts : exists m1, wf m1 /\ count m1 = S (count m)
      /\ (forall x, onext m1 x = onext (fst (new m)) x) /\ (forall x, lnext m1 x = lnext (fst (new m)) x)
      /\ m' = splice (splice m1 e (lnext m1 a)) (sym e) bb
      /\ exists_in m1 e /\ same_kind e a /\ exists_in m1 (lnext m1 a) /\ same_kind e (lnext m1 a) /\ lnext m1 a = lnext m a
      /\ wf (splice m1 e (lnext m1 a)) /\ wf m'.
    Proof.
      destruct (connect_inv _ _ _ _ _ _ _ _ D R C) as (Ee & m1 & C1 & N1 & M & V).
      assert (W1 : wf m1).
      { pose proof (new_wf m W) as W0. split; intros x X.
        - rewrite N1. assert (X' : exists_in (fst (new m)) x) by (split; [rewrite new_count, <- C1; apply X|apply X]).
          destruct (wf_ex _ W0 x X') as [Q1 Q2]. split; [rewrite C1; exact Q1|exact Q2].
        - rewrite N1. apply (wf_kind _ W0). split; [rewrite new_count, <- C1; apply X|apply X].
        - rewrite N1. apply (wf_rot _ W0). split; [rewrite new_count, <- C1; apply X|apply X]. }
      assert (L : forall x, lnext m1 x = lnext (fst (new m)) x) by (intros x; unfold lnext, onext; rewrite N1; reflexivity).
      assert (Up : forall x, exists_in m x -> exists_in m1 x) by (intros x [X Y]; split; [lia|exact Y]).
      assert (E : exists_in m1 e) by (subst e; split; [rewrite C1|]; cbn; lia).
      assert (KE : same_kind e a) by (subst e; unfold same_kind; rewrite KA; reflexivity).
      assert (El : exists_in m1 (lnext m1 a)) by (apply lnext_ex; [exact W1|apply Up, A]).
      assert (Kl : same_kind e (lnext m1 a)).
      { eapply kind_trans; [exact KE|]. apply kind_sym, lnext_kind; [exact W1|apply Up, A]. }
      assert (W2 : wf (splice m1 e (lnext m1 a))) by (apply splice_wf; assumption).
      exists m1. repeat (split; [assumption || (unfold onext; rewrite N1; reflexivity)|]).
      split; [rewrite L; apply new_ln, A|]. split; [exact W2|].
      rewrite M. apply splice_wf; [exact W2|apply (ex_sym m1 e E)|apply Up, BB|].
      eapply kind_trans; [apply sym_kind, E|]. eapply kind_trans; [exact KE|exact KB].
    Qed.

    Lemma connect_points : orig m' e = dest m a /\ dest m' e = orig m bb /\ forall x, exists_in m x -> orig m' x = orig m x.
    Proof.
      destruct (connect_inv _ _ _ _ _ _ _ _ D R C) as (Ee & m1 & C1 & N1 & M & V).
      assert (Vm : forall x, vertex m' x = vertex m1 x) by (intros x; rewrite M; reflexivity).
      assert (V0 : forall x, exists_in m x -> vertex (fst (new m)) x = vertex m x).
      { intros x [X _]. cbn [new fst vertex set_next]. destruct (Nat.eqb_spec (fst x) (count m)); [lia|reflexivity]. }
      unfold orig, dest, orig. rewrite !Vm, !V, !eqb_refl.
      split; [|split].
      - rewrite eqb_neq by (intros Q; symmetry in Q; revert Q; apply sym_neq).
        apply V0, ex_sym, A.
      - apply V0, BB.
      - intros x X. rewrite Vm, V. rewrite !eqb_neq; [apply V0, X| |]; intros ->; subst e; destruct X as [X _]; cbn in X; lia.
    Qed.

    Lemma not_new x : exists_in m x -> x <> e /\ x <> sym e.
    Proof.
      destruct (connect_inv _ _ _ _ _ _ _ _ D R C) as (Ee & _). intros [X _]. subst e.
      split; intros ->; cbn in X; lia.
    Qed.

    Lemma connect_first : exists m2, wf m2 /\ count m2 = S (count m) /\ m' = splice m2 (sym e) bb
      /\ exists_in m2 e /\ same_kind e a
      /\ (forall X, around_face m (a :: X) -> around_face m2 (a :: e :: sym e :: X))
      /\ (forall l x, around_face m l -> In x l -> exists_in m x -> same_kind x a -> ~ In a l -> around_face m2 l)
      /\ (forall L, around_origin m (lnext m a :: L) -> around_origin m2 (lnext m a :: e :: L))
      /\ (forall l x, around_origin m l -> In x l -> exists_in m x -> same_kind x a -> ~ In (lnext m a) l -> around_origin m2 l)
      /\ around_origin m2 [sym e].
    Proof.
      destruct connect_facts as (m1 & W1 & C1 & On & Ln & M & E & KE & El & Kl & LL & W2 & W').
      rewrite LL in *. set (c := lnext m a) in *.
      pose proof (new_edge m) as (_ & _ & NE & R1 & R2 & F).
      assert (Ee : e = (count m, 0)) by apply (connect_inv _ _ _ _ _ _ _ _ D R C). cbv zeta in *. rewrite <- Ee in *.
      assert (Xo : forall l, around_origin (fst (new m)) l -> around_origin m1 l) by (intros l; apply cycle_ext; intros; symmetry; apply On).
      assert (Xf : forall l, around_face (fst (new m)) l -> around_face m1 l) by (intros l; apply cycle_ext; intros; symmetry; apply Ln).
      assert (Ec : exists_in m c) by (apply lnext_ex; assumption).
      assert (Kc : same_kind c a) by (apply lnext_kind; assumption).
      assert (Mf : forall l x, around_face m l -> In x l -> exists_in m x -> forall y, In y l -> y <> e /\ y <> sym e).
      { intros l x Cl I X y Y. apply not_new. apply (cycle_members (lnext m) m l x (step_lnext m W) X Cl I y Y). }
      assert (Mo : forall l x, around_origin m l -> In x l -> exists_in m x -> forall y, In y l -> y <> e /\ y <> sym e).
      { intros l x Cl I X y Y. apply not_new. apply (cycle_members (onext m) m l x (step_onext m W) X Cl I y Y). }
      assert (Upx : forall x, exists_in m x -> exists_in m1 x) by (intros x [X Y]; split; [lia|exact Y]).
      exists (splice m1 e c). repeat (split; [assumption|]).
      split; [|split; [|split; [|split]]].
      - intros X CX. pose proof (Mf _ _ CX (or_introl eq_refl) A) as MX.
        pose proof (Xf _ (new_face m (a :: X) a W CX (or_introl eq_refl) A)) as CX1.
        destruct (face_rot m1 a X CX1) as (h & t & H1 & H2 & H3). rewrite LL in H1. subst h.
        assert (Mg : around_face (splice m1 e c) ((e :: [sym e]) ++ c :: t)).
        { cbn [app]. apply (merge_faces m1 e c W1 E El Kl [sym e] t); [apply Xf; exact F|exact H3|].
          intros x I J. rewrite <- H2 in J. assert (In x (a :: X)) as J' by (rewrite in_app_iff in J; cbn [In] in *; tauto).
          destruct (MX x J'). cbn [In] in I. destruct I as [<-|[<-|[]]]; contradiction. }
        rewrite <- H2 in Mg. rewrite app_assoc in Mg. apply (cycle_rotate _ _ [a]) in Mg. cbn [app] in Mg. exact Mg.
      - intros l x Cl I X KX Na. apply (other_faces m1 e c W1 E El Kl l x).
        + apply Xf, (new_face m l x W Cl I X).
        + exact I.
        + apply Upx, X.
        + eapply kind_trans; [exact KX|apply kind_sym, KE].
        + intros J. apply (proj1 (Mf l x Cl I X e J)). reflexivity.
        + intros J. apply Na. 
          destruct (cycle_cut (lnext m) l c Cl J) as (l1 & l2 & -> & CC).
          assert (Q : In (lprev m c) (c :: l2 ++ l1)).
          { destruct (exists_last (l := c :: l2 ++ l1)) as (s & y & Ey); [discriminate|].
            assert (Fy : lnext m y = c).
            { destruct CC as [_ CC]. rewrite Ey in CC. apply (chain_last (lnext m) c s y CC). }
            assert (Iy : In y (c :: l2 ++ l1)) by (rewrite Ey, in_app_iff; right; left; reflexivity).
            destruct (cycle_members (lnext m) m _ c (step_lnext m W) Ec CC (or_introl eq_refl) y Iy) as [Y1 _].
            assert (Py : lprev m c = y) by (rewrite <- Fy; apply lprev_lnext; assumption). rewrite Py. exact Iy. }
          assert (Pa : lprev m c = a) by (apply lprev_lnext; assumption). rewrite Pa in Q.
          rewrite in_app_iff. cbn [In] in *. rewrite in_app_iff in Q. tauto.
      - intros L CL. pose proof (Mo _ _ CL (or_introl eq_refl) Ec) as MX.
        pose proof (Xo _ (new_ring m (c :: L) c W CL (or_introl eq_refl) Ec)) as CL1.
        pose proof (merge_origins m1 e c W1 E El Kl [] L (Xo _ R1) CL1) as Mg.
        cbn [app] in Mg. 
        assert (Mg' : around_origin (splice m1 e c) ((e :: L) ++ [c])).
        { apply Mg. intros x [<-|[]] J. destruct (MX e J). contradiction. }
        apply (cycle_rotate _ _ [c]) in Mg'. exact Mg'.
      - intros l x Cl I X KX Na. apply (other_origins m1 e c W1 E El Kl l x).
        + apply Xo, (new_ring m l x W Cl I X).
        + exact I.
        + apply Upx, X.
        + eapply kind_trans; [exact KX|apply kind_sym, KE].
        + intros J. apply (proj1 (Mo l x Cl I X e J)). reflexivity.
        + exact Na.
      - apply (other_origins m1 e c W1 E El Kl [sym e] (sym e)).
        + apply Xo, R2.
        + left. reflexivity.
        + apply ex_sym, E.
        + apply sym_kind, E.
        + intros [Q|[]]. revert Q. apply sym_neq.
        + intros [Q|[]]. destruct (not_new c Ec) as [_ H]. apply H. symmetry. exact Q.
    Qed.

    (** [a] and the resolved edge on one face: the face is cut in two. *)
    Lemma connect_cut X Y : around_face m (a :: X ++ bb :: Y) ->
      around_face m' (a :: e :: bb :: Y) /\ around_face m' (sym e :: X).
    Proof.
      intros F. destruct connect_first as (m2 & W2 & C2 & M & E & KE & Fa & _).
      pose proof (Fa _ F) as F2.
      assert (F3 : around_face m2 (sym e :: X ++ bb :: Y ++ [a; e])).
      { apply (cycle_rotate _ [a; e]) in F2. cbn [app] in F2. rewrite <- app_assoc in F2. exact F2. }
      rewrite M. destruct (split_faces m2 (sym e) bb W2) with (l1 := X) (l2 := Y ++ [a; e]) as [H1 H2].
      - apply ex_sym, E.
      - destruct BB. split; [lia|assumption].
      - eapply kind_trans; [apply sym_kind, E|]. eapply kind_trans; [exact KE|exact KB].
      - exact F3.
      - split; [|exact H1]. apply (cycle_rotate _ (bb :: Y) [a; e]) in H2. exact H2.
    Qed.
    (** The other half of a cut when the resolved edge is [a] itself. *)
    Lemma connect_cut_self X : bb = a -> around_face m (a :: X) ->
      around_face m' [a; e] /\ around_face m' (sym e :: X).
    Proof.
      intros Q F. destruct connect_first as (m2 & W2 & C2 & M & E & KE & Fa & _).
      pose proof (Fa _ F) as F2.
      assert (F3 : around_face m2 (sym e :: X ++ [a; e])).
      { apply (cycle_rotate _ [a; e]) in F2. exact F2. }
      rewrite M. rewrite Q. destruct (split_faces m2 (sym e) a W2) with (l1 := X) (l2 := [e]) as [H1 H2].
      - apply ex_sym, E.
      - destruct A. split; [lia|assumption].
      - eapply kind_trans; [apply sym_kind, E|exact KE].
      - exact F3.
      - split; assumption.
    Qed.
    (** On two faces: they become one. *)
    Lemma connect_join X Y : around_face m (a :: X) -> around_face m (bb :: Y) -> apart (a :: X) (bb :: Y) ->
      around_face m' (a :: e :: bb :: Y ++ sym e :: X).
    Proof.
      intros FA FB Dj. destruct connect_first as (m2 & W2 & C2 & M & E & KE & Fa & Fo & _).
      pose proof (Fa _ FA) as F2.
      assert (F3 : around_face m2 (sym e :: X ++ [a; e])) by (apply (cycle_rotate _ [a; e]) in F2; exact F2).
      assert (F4 : around_face m2 (bb :: Y)).
      { apply (Fo (bb :: Y) bb FB (or_introl eq_refl) BB); [apply kind_sym, KB|]. intros I. apply (Dj a); [left; reflexivity|exact I]. }
      assert (Mg : around_face (splice m2 (sym e) bb) ((sym e :: X) ++ a :: e :: bb :: Y)).
      { replace ((sym e :: X) ++ a :: e :: bb :: Y) with (sym e :: (X ++ [a; e]) ++ bb :: Y) by (cbn [app]; rewrite <- app_assoc; reflexivity).
        apply merge_faces; try assumption.
        - apply ex_sym, E.
        - destruct BB. split; [lia|assumption].
        - eapply kind_trans; [apply sym_kind, E|]. eapply kind_trans; [exact KE|exact KB].
        - intros x I J.
          assert (x <> e /\ x <> sym e) as [N1 N2].
          { apply not_new. apply (cycle_members (lnext m) m _ bb (step_lnext m W) BB FB (or_introl eq_refl) x J). }
          cbn [In] in I. rewrite in_app_iff in I. cbn [In] in I.
          destruct I as [I|[I|[I|[I|[]]]]]; try (subst x; contradiction).
          + apply (Dj x); [right; exact I|exact J].
          + subst x. apply (Dj a); [left; reflexivity|exact J]. }
      rewrite M. apply (cycle_rotate _ (sym e :: X)) in Mg. exact Mg.
    Qed.
    Lemma connect_lnext : lnext m' a = e /\ lnext m' e = bb.
    Proof.
      destruct (on_face m a W A) as (l & F).
      destruct (in_dec edge_dec bb (a :: l)) as [I|N].
      - destruct (edge_dec bb a) as [Q|Q].
        + destruct (connect_cut_self l Q F) as [[_ (H1 & H2 & _)] _]. split; [exact H1|rewrite Q; exact H2].
        + destruct I as [I|I]; [congruence|]. apply in_split in I. destruct I as (X & Y & ->).
          destruct (connect_cut X Y F) as [[_ (H1 & H2 & _)] _]. split; assumption.
      - destruct (on_face m bb W BB) as (l' & F').
        assert (Dj : apart (a :: l) (bb :: l')).
        { intros x I J. apply N.
          apply (cycle_meet (lnext m) (a :: l) (bb :: l') x F F' I J). left. reflexivity. }
        destruct (connect_join l l' F F' Dj) as [_ (H1 & H2 & _)]. split; assumption.
    Qed.
    (** The rings of the two ends. *)
    Lemma connect_rings L L' : around_origin m (lnext m a :: L) -> around_origin m (bb :: L') -> apart (lnext m a :: L) (bb :: L') ->
      around_origin m' (lnext m a :: e :: L) /\ around_origin m' (bb :: sym e :: L').
    Proof.
      intros C1 C2 Dj. destruct connect_first as (m2 & W2 & Cn & M & E & KE & _ & _ & Oa & Oo & Os).
      pose proof (lnext_ex m a W A) as Ec. pose proof (lnext_kind m a W A) as Kc. set (c := lnext m a) in *.
      assert (Up : forall x, exists_in m x -> exists_in m2 x) by (intros x [X Y]; split; [lia|exact Y]).
      pose proof (Oa L C1) as H1.
      assert (H2 : around_origin m2 (bb :: L')).
      { apply (Oo (bb :: L') bb C2 (or_introl eq_refl) BB); [apply kind_sym, KB|]. intros J. apply (Dj c); [left; reflexivity|exact J]. }
      assert (Ks : same_kind (sym e) bb).
      { eapply kind_trans; [apply sym_kind, E|]. eapply kind_trans; [exact KE|exact KB]. }
      assert (MB : forall x, In x (bb :: L') -> x <> e /\ x <> sym e).
      { intros x I. apply not_new. apply (cycle_members (onext m) m _ bb (step_onext m W) BB C2 (or_introl eq_refl) x I). }
      assert (MC : forall x, In x (c :: L) -> x <> e /\ x <> sym e).
      { intros x I. apply not_new. apply (cycle_members (onext m) m _ c (step_onext m W) Ec C1 (or_introl eq_refl) x I). }
      rewrite M. split.
      - apply (other_origins m2 (sym e) bb W2 (ex_sym m2 e E) (Up bb BB) Ks _ c).
        + exact H1.
        + left. reflexivity.
        + apply Up, Ec.
        + eapply kind_trans; [exact Kc|]. apply kind_sym. eapply kind_trans; [apply sym_kind, E|exact KE].
        + intros [I|[I|I]]; [| |].
          * destruct (MC c (or_introl eq_refl)) as [_ H]. contradiction.
          * symmetry in I. revert I. apply sym_neq.
          * destruct (MC _ (or_intror I)) as [_ H]. apply H. reflexivity.
        + intros [I|[I|I]].
          * apply (Dj c); [left; reflexivity|left; symmetry; exact I].
          * destruct (not_new bb BB) as [H _]. apply H. symmetry. exact I.
          * apply (Dj bb); [right; exact I|left; reflexivity].
      - pose proof (merge_origins m2 (sym e) bb W2 (ex_sym m2 e E) (Up bb BB) Ks [] L' Os H2) as Mg.
        assert (Mg' : around_origin (splice m2 (sym e) bb) ((sym e :: L') ++ [bb])).
        { apply Mg. intros x [<-|[]] J. destruct (MB _ J) as [_ H]. apply H. reflexivity. }
        apply (cycle_rotate _ _ [bb]) in Mg'. exact Mg'.
    Qed.
  End Connect.

  (** Swap: two triangles. *)
  Lemma splice_ln m a b x : wf m -> exists_in m a -> exists_in m b -> same_kind a b -> exists_in m x -> same_kind x a ->
    forall y, lnext m x = y -> lnext (splice m a b) x = if edge_eqb y a then b else if edge_eqb y b then a else y.
  Proof.
    intros W A B K X KX y Y. rewrite splice_lnext by assumption. rewrite Y.
    assert (H : forall z, exists_in m z -> edge_eqb x (lprev m z) = edge_eqb y z).
    { intros z Z. apply eq_iff_eq_true. rewrite !eqb_spec. split.
      - intros ->. rewrite <- Y. apply lnext_lprev; assumption.
      - intros <-. rewrite <- Y. symmetry. apply lprev_lnext; assumption. }
    rewrite (H a A), (H b B). reflexivity.
  Qed.
  Lemma swap_triangles m e c d f g : wf m -> exists_in m e ->
    around_face m [e; c; d] -> around_face m [sym e; f; g] -> apart [e; c; d] [sym e; f; g] ->
    around_face (swap m e) [e; d; f] /\ around_face (swap m e) [sym e; g; c]
    /\ (forall l x, around_face m l -> In x l -> exists_in m x -> same_kind x e -> apart l [e; c; d; sym e; f; g] -> around_face (swap m e) l)
    /\ orig (swap m e) e = dest m f /\ dest (swap m e) e = dest m c.
  Proof.
    intros W E F1 F2 D.
    pose proof F1 as [N1 (L1 & L2 & L3 & _)]. pose proof F2 as [N2 (L4 & L5 & L6 & _)].
    pose proof (ex_sym m e E) as Es. pose proof (sym_kind e (proj2 E)) as Ks.
    assert (Mem : forall x, In x [e; c; d; sym e; f; g] -> exists_in m x /\ same_kind x e).
    { intros x I. assert (In x [e; c; d] \/ In x [sym e; f; g]) as [J|J] by (cbn in *; tauto).
      - apply (cycle_members (lnext m) m _ e (step_lnext m W) E F1 (or_introl eq_refl) x J).
      - destruct (cycle_members (lnext m) m _ (sym e) (step_lnext m W) Es F2 (or_introl eq_refl) x J) as [X1 X2].
        split; [exact X1|eapply kind_trans; eassumption]. }
    assert (Oe : oprev m e = f) by (rewrite oprev_lnext by exact E; exact L4).
    assert (Os : oprev m (sym e) = c) by (rewrite oprev_lnext by exact Es; rewrite sym_sym by apply E; exact L1).
    assert (ND : NoDup [e; c; d; sym e; f; g]).
    { change [e; c; d; sym e; f; g] with ([e; c; d] ++ [sym e; f; g]). apply nodup_app; assumption. }
    assert (Mc : exists_in m c /\ same_kind c e) by (apply Mem; cbn; tauto).
    assert (Md : exists_in m d /\ same_kind d e) by (apply Mem; cbn; tauto).
    assert (Mf : exists_in m f /\ same_kind f e) by (apply Mem; cbn; tauto).
    assert (Mg : exists_in m g /\ same_kind g e) by (apply Mem; cbn; tauto).
    unfold swap. rewrite Oe, Os. cbv zeta.
    set (s := sym e) in *.
    assert (Kd : forall x y, same_kind x e -> same_kind y e -> same_kind x y) by (unfold same_kind; congruence).
    assert (St : forall m0 x y, wf m0 -> (forall z, exists_in m0 z <-> exists_in m z) -> exists_in m x -> same_kind x e -> exists_in m y -> same_kind y e ->
      wf (splice m0 x y) /\ (forall z, exists_in (splice m0 x y) z <-> exists_in m z)
      /\ forall z w, exists_in m z -> same_kind z e -> lnext m0 z = w -> lnext (splice m0 x y) z = if edge_eqb w x then y else if edge_eqb w y then x else w).
    { intros m0 x y W0 X0 X KX Y KY. rewrite <- X0 in X, Y.
      split; [apply splice_wf; auto|]. split; [intros z; rewrite splice_ex; apply X0|].
      intros z w Z KZ. apply splice_ln; auto. apply X0, Z. }
    destruct (St m e f W) as (W1 & X1 & S1); try tauto; [reflexivity|].
    set (m1 := splice m e f) in *.
    destruct (St m1 s c W1 X1) as (W2 & X2 & S2); try tauto.
    set (m2 := splice m1 s c) in *.
    assert (Neq : forall x y, In x [e; c; d; s; f; g] -> ~ In x [y] -> True) by auto. clear Neq.
    assert (Dec : forall i j, i < 6 -> j < 6 -> edge_eqb (nth i [e; c; d; s; f; g] e) (nth j [e; c; d; s; f; g] e) = Nat.eqb i j).
    { intros i j Hi Hj. destruct (Nat.eqb_spec i j) as [->|Nij]; [apply eqb_refl|]. apply eqb_neq. intros Q. apply Nij.
      apply (proj1 (NoDup_nth _ e) ND); assumption. }
    pose proof (fun i j (H : (i <? 6) && (j <? 6) = true) => Dec i j (proj1 (Nat.ltb_lt _ _) (proj1 (andb_prop _ _ H))) (proj1 (Nat.ltb_lt _ _) (proj2 (andb_prop _ _ H)))) as DD.
    Ltac dec DD e c d s f g :=
      let idx x := match x with e => constr:(0) | c => constr:(1) | d => constr:(2) | s => constr:(3) | f => constr:(4) | g => constr:(5) end in
      repeat match goal with
      | |- context [edge_eqb ?x ?y] =>
          let i := idx x in let j := idx y in
          let H := fresh in pose proof (DD i j eq_refl) as H; cbn [nth Nat.eqb] in H; rewrite H; clear H
      end; try reflexivity.
    (* after the first splice *)
    assert (A1 : lnext m1 e = c) by (rewrite (S1 e c) by (assumption || reflexivity || tauto); dec DD e c d s f g).
    assert (A2 : lnext m1 c = d) by (rewrite (S1 c d) by (assumption || reflexivity || tauto); dec DD e c d s f g).
    assert (A3 : lnext m1 d = f) by (rewrite (S1 d e) by (assumption || reflexivity || tauto); dec DD e c d s f g).
    assert (A4 : lnext m1 s = e) by (rewrite (S1 s f) by (assumption || reflexivity || tauto); dec DD e c d s f g).
    assert (A5 : lnext m1 f = g) by (rewrite (S1 f g) by (assumption || reflexivity || tauto); dec DD e c d s f g).
    assert (A6 : lnext m1 g = s) by (rewrite (S1 g s) by (assumption || reflexivity || tauto); dec DD e c d s f g).
    assert (B1 : lnext m2 e = s) by (rewrite (S2 e c) by (assumption || reflexivity || tauto); dec DD e c d s f g).
    assert (B2 : lnext m2 c = d) by (rewrite (S2 c d) by (assumption || reflexivity || tauto); dec DD e c d s f g).
    assert (B3 : lnext m2 d = f) by (rewrite (S2 d f) by (assumption || reflexivity || tauto); dec DD e c d s f g).
    assert (B4 : lnext m2 s = e) by (rewrite (S2 s e) by (assumption || reflexivity || tauto); dec DD e c d s f g).
    assert (B5 : lnext m2 f = g) by (rewrite (S2 f g) by (assumption || reflexivity || tauto); dec DD e c d s f g).
    assert (B6 : lnext m2 g = c) by (rewrite (S2 g s) by (assumption || reflexivity || tauto); dec DD e c d s f g).
    rewrite B5.
    destruct (St m2 e g W2 X2) as (W3 & X3 & S3); try tauto; [reflexivity|].
    set (m3 := splice m2 e g) in *.
    assert (C1 : lnext m3 e = s) by (rewrite (S3 e s) by (assumption || reflexivity || tauto); dec DD e c d s f g).
    assert (C2 : lnext m3 c = d) by (rewrite (S3 c d) by (assumption || reflexivity || tauto); dec DD e c d s f g).
    assert (C3 : lnext m3 d = f) by (rewrite (S3 d f) by (assumption || reflexivity || tauto); dec DD e c d s f g).
    assert (C4 : lnext m3 s = g) by (rewrite (S3 s e) by (assumption || reflexivity || tauto); dec DD e c d s f g).
    assert (C5 : lnext m3 f = e) by (rewrite (S3 f g) by (assumption || reflexivity || tauto); dec DD e c d s f g).
    assert (C6 : lnext m3 g = c) by (rewrite (S3 g c) by (assumption || reflexivity || tauto); dec DD e c d s f g).
    rewrite C2.
    destruct (St m3 s d W3 X3) as (W4 & X4 & S4); try tauto.
    set (m4 := splice m3 s d) in *.
    assert (D1 : lnext m4 e = d) by (rewrite (S4 e s) by (assumption || reflexivity || tauto); dec DD e c d s f g).
    assert (D2 : lnext m4 c = s) by (rewrite (S4 c d) by (assumption || reflexivity || tauto); dec DD e c d s f g).
    assert (D3 : lnext m4 d = f) by (rewrite (S4 d f) by (assumption || reflexivity || tauto); dec DD e c d s f g).
    assert (D4 : lnext m4 s = g) by (rewrite (S4 s g) by (assumption || reflexivity || tauto); dec DD e c d s f g).
    assert (D5 : lnext m4 f = e) by (rewrite (S4 f e) by (assumption || reflexivity || tauto); dec DD e c d s f g).
    assert (D6 : lnext m4 g = c) by (rewrite (S4 g c) by (assumption || reflexivity || tauto); dec DD e c d s f g).
    assert (Ln : forall o p x, lnext (end_points m4 e o p) x = lnext m4 x) by reflexivity.
    assert (Sub : forall i j k, i < 6 -> j < 6 -> k < 6 -> i <> j -> i <> k -> j <> k ->
      NoDup [nth i [e; c; d; s; f; g] e; nth j [e; c; d; s; f; g] e; nth k [e; c; d; s; f; g] e]).
    { intros i j k Hi Hj Hk H1 H2 H3. pose proof (proj1 (NoDup_nth _ e) ND) as In6. cbn [length] in In6.
      repeat constructor; cbn [In]; [intros [Q|[Q|[]]]|intros [Q|[]]|intros []].
      - apply H1. symmetry. apply In6; assumption.
      - apply H2. symmetry. apply In6; assumption.
      - apply H3. symmetry. apply In6; assumption. }
    split; [|split; [|split; [|split]]].
    - split; [apply (Sub 0 2 4); lia|]. cbn [chain]. rewrite !Ln. auto.
    - split; [apply (Sub 3 5 1); lia|]. cbn [chain]. rewrite !Ln. auto.
    - intros l x C I X KX Ap. apply (cycle_ext (lnext m)); [|exact C]. intros y Y. rewrite Ln.
      destruct (cycle_members (lnext m) m l x (step_lnext m W) X C I y Y) as [Y1 Y2].
      assert (Ky : same_kind y e) by (eapply kind_trans; eassumption).
      pose proof (cycle_in (lnext m) l y C Y) as Iz.
      assert (Nz : forall w, In w [e; c; d; s; f; g] -> edge_eqb (lnext m y) w = false).
      { intros w Hw. apply eqb_neq. intros Q. rewrite Q in Iz. apply (Ap w Iz Hw). }
      assert (Z1 : lnext m1 y = lnext m y) by (rewrite (S1 y _ Y1 Ky eq_refl), !Nz by (cbn; tauto); reflexivity).
      assert (Z2 : lnext m2 y = lnext m y) by (rewrite (S2 y _ Y1 Ky Z1), !Nz by (cbn; tauto); reflexivity).
      assert (Z3 : lnext m3 y = lnext m y) by (rewrite (S3 y _ Y1 Ky Z2), !Nz by (cbn; tauto); reflexivity).
      rewrite (S4 y _ Y1 Ky Z3), !Nz by (cbn; tauto). reflexivity.
    - unfold orig, end_points, set_vertex. cbn [vertex].
      rewrite upd_other by (unfold s; intros Q; symmetry in Q; revert Q; apply sym_neq). rewrite upd_same. reflexivity.
    - unfold dest, orig, end_points, set_vertex. cbn [vertex]. fold s. rewrite upd_same. reflexivity.
  Qed.
End Mem.
