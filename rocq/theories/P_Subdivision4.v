(** * Proofs about WalkAllTriangles *)
From Coq Require Import Bool List Arith Lia.
From Verif Require Import Base_Res M_Quadedge S_Quadedge P_Quadedge P_Quadedge2 P_Quadedge3 P_Quadedge4 P_Quadedge5 P_QuadedgeTop
  M_Subdivision S_Subdivision P_Subdivision P_Subdivision2 P_Subdivision3.
Import ListNotations.

Lemma lnext_oprev {P} (m : mem P) e : snd e < 4 -> lnext m e = oprev m (sym e).
Proof. intros H. unfold lnext, oprev. rewrite rot_sym by exact H. reflexivity. Qed.

Section Triangles.
  Context {P : Type}.
  Variable eq same : P -> P -> bool.
  Variable m : mem P.
  Variable se : edge.
  Hypothesis Hist : history m.
  Hypothesis Start : primal m se.
  Hypothesis Lab : labelled m se.
  Hypothesis NoLoop : loop_free m se.
  Hypothesis Tri : all_triangles m se.
  Hypothesis DecE : decides m se eq.
  Hypothesis DecS : decides m se same.
  Variable p0 : P.

  Local Notation W := (history_wf m Hist).
  Local Notation conn := (connected m se).
  Local Notation cprimal := (conn_primal m se Hist Start).
  Local Notation csym := (conn_sym m se Hist Start).
  Local Notation conext := (conn_onext m se Hist Start).

  Definition pt (e : edge) : P := match orig m e with Some p => p | None => p0 end.
  Lemma orig_pt a : conn a -> orig m a = Some (pt a).
  Proof. intros C. destruct (Lab a C) as [N _]. unfold pt. destruct (orig m a); [reflexivity|contradiction N; reflexivity]. Qed.
  Lemma dest_pt a : conn a -> dest m a = Some (pt (sym a)).
  Proof. intros C. apply orig_pt, csym, C. Qed.
  Lemma pt_origin a b : conn a -> conn b -> (pt a = pt b <-> same_origin m a b).
  Proof.
    intros A B. destruct (Lab a A) as [_ H]. rewrite <- (H b B), (orig_pt a A), (orig_pt b B). split; [intros ->; reflexivity|].
    intros E; injection E as E; exact E.
  Qed.
  Lemma pt_onext a : conn a -> pt (onext m a) = pt a.
  Proof. intros A. apply pt_origin; [apply conext, A|exact A|]. apply origin_onext, (origin_refl m Hist), cprimal, A. Qed.
  Lemma conn_oprev a : conn a -> conn (oprev m a).
  Proof. intros A. eapply c_trans; [exact A|]. apply connected_oprev; [exact W|apply cprimal, A]. Qed.
  Lemma pt_oprev a : conn a -> pt (oprev m a) = pt a.
  Proof. intros A. rewrite <- (onext_oprev m a W (proj1 (cprimal a A))) at 2. symmetry. apply pt_onext, conn_oprev, A. Qed.
  Lemma pt_loop a : conn a -> pt a <> pt (sym a).
  Proof. intros A E. apply (NoLoop a A). apply pt_origin; [exact A|apply csym, A|exact E]. Qed.
  Lemma conn_lnext a : conn a -> conn (lnext m a).
  Proof. intros A. rewrite lnext_oprev by apply (cprimal a A). apply conn_oprev, csym, A. Qed.
  Lemma pt_lnext a : conn a -> pt (lnext m a) = pt (sym a).
  Proof. intros A. rewrite lnext_oprev by apply (cprimal a A). apply pt_oprev, csym, A. Qed.

  (** The face of an edge: the edge, one from its destination, one back. *)
  Lemma face3 w f : conn w -> around_face m f -> In w f ->
    (forall x, In x f <-> x = w \/ x = lnext m w \/ x = sym (onext m w)) /\ lnext m (lnext m w) = sym (onext m w).
  Proof.
    intros C F I. destruct (Tri w C) as (b & c & [N T]). cbn [chain] in T. destruct T as (T1 & T2 & T3 & _).
    assert (Cb : conn b) by (rewrite <- T1; apply conn_lnext, C).
    assert (Cc : conn c) by (rewrite <- T2; apply conn_lnext, Cb).
    assert (Ec : c = sym (onext m w)).
    { rewrite <- T3. symmetry. apply (lprev_lnext m c W), cprimal, Cc. }
    assert (F3 : around_face m [w; b; c]) by (split; [exact N|cbn [chain]; auto]).
    split; [|rewrite T1, T2; exact Ec]. rewrite T1, <- Ec. intros x. split.
    - intros X. destruct (cycle_meet (lnext m) [w; b; c] f w F3 F (or_introl eq_refl) I x X) as [<-|[<-|[<-|[]]]]; auto.
    - intros X. apply (cycle_meet (lnext m) f [w; b; c] w F F3 I (or_introl eq_refl)). cbn. destruct X as [->|[->| ->]]; auto.
  Qed.
  Lemma face_dest w : conn w -> pt (sym (lnext m w)) = pt (sym (onext m w)).
  Proof.
    intros C. destruct (Tri w C) as (b & c & F). destruct (face3 w _ C F (or_introl eq_refl)) as [_ E].
    rewrite <- E. symmetry. apply pt_lnext, conn_lnext, C.
  Qed.

  (** FindONextDest finds the side of the triangle. *)
  Lemma finds w : conn w -> exists x, find_onext_dest eq m (pt (sym (onext m w))) (sym w) = Ok (Some x).
  Proof.
    intros C. pose proof (csym w C) as Cs. destruct (rings m Hist (sym w) (proj1 (cprimal _ Cs))) as ((l & R & _) & _).
    assert (Cl : forall y, In y (sym w :: l) -> conn y).
    { apply (cycle_closed (onext m) (connected m se) (sym w :: l) (sym w) R); [left; reflexivity|exact Cs|].
      intros y _ Y. apply conext, Y. }
    assert (Nn : forall y, In y (sym w :: l) -> dest m y <> None).
    { intros y Y. rewrite (dest_pt y (Cl y Y)). discriminate. }
    pose proof (find_correct eq m (pt (sym (onext m w))) (sym w) l Hist (proj1 (cprimal _ Cs)) R Nn) as H.
    destruct (find_onext_dest eq m _ (sym w)) as [[x|]|err|]; [exists x; reflexivity| |contradiction|contradiction].
    exfalso. specialize (H (lnext m w) (pt (sym (onext m w)))).
    assert (I : In (lnext m w) (sym w :: l)).
    { rewrite lnext_oprev by apply (cprimal w C).
      destruct (cycle_cut (onext m) _ (sym w) R (or_introl eq_refl)) as (l1 & l2 & E & _).
      pose proof (rings m Hist (sym w) (proj1 (cprimal _ Cs))) as ((l' & R' & R2) & _).
      assert (In (oprev m (sym w)) (sym w :: rev l')) as I by (apply (cycle_in _ _ _ R2); left; reflexivity).
      apply (cycle_meet (onext m) (sym w :: l) (sym w :: l') (sym w) R R' (or_introl eq_refl) (or_introl eq_refl)).
      destruct I as [<-|I]; [left; reflexivity|right; apply in_rev, I]. }
    specialize (H I). rewrite (dest_pt _ (conn_lnext w C)), (face_dest w C) in H. specialize (H eq_refl).
    assert (T : eq (pt (sym (onext m w))) (pt (sym (onext m w))) = true).
    { apply (DecE (sym (onext m w)) (sym (onext m w))); try (apply csym, conext, C); try apply orig_pt, csym, conext, C. reflexivity. }
    rewrite T in H. discriminate H.
  Qed.

  (** ** Around one vertex *)
  Definition active (seen : list P) (w : edge) : bool :=
    negb (existsb (same (pt (sym (onext m w)))) seen || existsb (same (pt (sym w))) seen).
  Definition tri_of (p : P) (w : edge) : P * P * P := (p, pt (sym w), pt (sym (onext m w))).

  Lemma ring_run fn seen p first : conn first -> forall fuel w l stack,
    chain (onext m) first (w :: l) -> ~ In first l -> (forall y, In y (w :: l) -> conn y) -> length l < fuel ->
    let act := filter (active seen) (w :: l) in
    let calls := map (tri_of p) act in
    if forallb fn calls
    then tri_ring eq same fuel m fn seen p first w (onext m w) stack = Ok (rev (map sym act) ++ stack, calls, false)
    else exists stack', tri_ring eq same fuel m fn seen p first w (onext m w) stack = Ok (stack', until fn calls, true).
  Proof.
    intros Cf. induction fuel as [|fuel IH]; intros w l stack Ch Nf Cl Le; [lia|].
    assert (Cw : conn w) by (apply Cl; left; reflexivity).
    assert (Cn : conn (onext m w)) by (apply conext, Cw).
    cbn [tri_ring]. rewrite (dest_pt _ Cn), (dest_pt w Cw). cbn zeta. cbn [filter].
    assert (Act : active seen w = negb (existsb (same (pt (sym (onext m w)))) seen || existsb (same (pt (sym w))) seen)) by reflexivity.
    rewrite Act. clear Act.
    set (b := existsb (same (pt (sym (onext m w)))) seen || existsb (same (pt (sym w))) seen).
    assert (End : l = [] -> onext m w = first) by (intros ->; destruct Ch as [H _]; exact H).
    assert (Step : forall y l', l = y :: l' -> onext m w = y) by (intros y l' ->; destruct Ch as [H _]; exact H).
    assert (Ch' : chain (onext m) first l) by (destruct Ch as [_ H]; exact H).
    assert (Go : forall stack, let calls := map (tri_of p) (filter (active seen) l) in
      let r := if edge_eqb (onext m w) first then Ok (stack, [], false)
        else tri_ring eq same fuel m fn seen p first (onext m w) (onext m (onext m w)) stack in
      if forallb fn calls then r = Ok (rev (map sym (filter (active seen) l)) ++ stack, calls, false)
      else exists stack', r = Ok (stack', until fn calls, true)).
    { intros st. cbn zeta. destruct l as [|y l'].
      - rewrite (End eq_refl), eqb_refl. reflexivity.
      - rewrite (Step y l' eq_refl). rewrite eqb_neq by (intros ->; apply Nf; left; reflexivity).
        apply (IH y l' st Ch'); [intros I; apply Nf; right; exact I|intros z Z; apply Cl; right; exact Z|cbn [length] in Le; lia]. }
    assert (Fin : forall (stack0 : list edge) (c : list (P * P * P)),
      (if edge_eqb (onext m w) first then Ok (stack0, c, false)
       else do rest <- tri_ring eq same fuel m fn seen p first (onext m w) (onext m (onext m w)) stack0 ;
            let '(stack1, calls', stop) := rest in Ok (stack1, c ++ calls', stop))
      = (do rest <- (if edge_eqb (onext m w) first then Ok (stack0, [], false)
            else tri_ring eq same fuel m fn seen p first (onext m w) (onext m (onext m w)) stack0) ;
         let '(stack1, calls', stop) := rest in Ok (stack1, c ++ calls', stop))).
    { intros st c. destruct (edge_eqb (onext m w) first); [cbn [bind]; rewrite app_nil_r|]; reflexivity. }
    destruct b; cbn [negb].
    - cbn [bind]. rewrite Fin. specialize (Go stack). cbn zeta in Go.
      destruct (forallb fn _); [rewrite Go; reflexivity|]. destruct Go as (st' & Go). rewrite Go. exists st'. reflexivity.
    - destruct (finds w Cw) as (x & Fx). rewrite Fx. cbn [bind map rev forallb until].
      fold (tri_of p w). destruct (fn (tri_of p w)) eqn:Fn; cbn [negb andb].
      + rewrite Fin. specialize (Go (sym w :: stack)). cbn zeta in Go.
        destruct (forallb fn _); [rewrite Go; cbn [bind]; rewrite <- app_assoc; reflexivity|].
        destruct Go as (st' & Go). rewrite Go. exists st'. reflexivity.
      + exists (sym w :: stack). reflexivity.
  Qed.

  (** ** The vertices one after the other *)
  Definition vertices (l : list P) : Prop := forall p, In p l -> exists a, conn a /\ pt a = p.
  Lemma seen_in seen a : vertices seen -> conn a -> (existsb (same (pt a)) seen = true <-> In (pt a) seen).
  Proof.
    intros V C. rewrite existsb_exists. split.
    - intros (q & I & S). destruct (V q I) as (b & Cb & <-).
      assert (pt a = pt b) as -> by (apply (DecS a b (pt a) (pt b) C Cb (orig_pt a C) (orig_pt b Cb)); exact S). exact I.
    - intros I. exists (pt a). split; [exact I|]. apply (DecS a a (pt a) (pt a) C C (orig_pt a C) (orig_pt a C)). reflexivity.
  Qed.
  Lemma seen_dec seen a : vertices seen -> conn a -> {In (pt a) seen} + {~ In (pt a) seen}.
  Proof.
    intros V C. destruct (existsb (same (pt a)) seen) eqn:E.
    - left. apply seen_in; assumption. - right. rewrite <- seen_in, E by assumption. discriminate.
  Qed.
  Lemma active_in seen w : vertices seen -> conn w ->
    (active seen w = true <-> ~ In (pt (sym w)) seen /\ ~ In (pt (sym (onext m w))) seen).
  Proof.
    intros V C. unfold active. rewrite negb_true_iff, orb_false_iff.
    rewrite <- (seen_in seen (sym w) V (csym w C)), <- (seen_in seen (sym (onext m w)) V (csym _ (conext w C))).
    rewrite !not_true_iff_false. tauto.
  Qed.

  (** None of the corners of the left face of an edge is in a list. *)
  Definition clear_of (seen : list P) (a : edge) : Prop :=
    ~ In (pt a) seen /\ ~ In (pt (sym a)) seen /\ ~ In (pt (sym (onext m a))) seen.

  (** The edges whose origin is not in a list. *)
  Definition all_edges : list edge := map (fun q => (q, 0)) (seq 0 (count m)) ++ map (fun q => (q, 2)) (seq 0 (count m)).
  Lemma all_nodup : NoDup all_edges.
  Proof.
    unfold all_edges. apply nodup_app.
    - apply FinFun.Injective_map_NoDup; [intros x y E; congruence|apply seq_NoDup].
    - apply FinFun.Injective_map_NoDup; [intros x y E; congruence|apply seq_NoDup].
    - intros x A B. apply in_map_iff in A. apply in_map_iff in B. destruct A as (q & <- & _). destruct B as (r & E & _). discriminate E.
  Qed.
  Lemma all_in a : primal m a -> In a all_edges.
  Proof.
    intros [[L F] K]. destruct a as [q n]. cbn [fst snd] in *. unfold all_edges. apply in_or_app.
    destruct n as [|[|[|[|n]]]]; try discriminate K; [left|right|lia]; apply in_map_iff; exists q; (split; [reflexivity|apply in_seq; lia]).
  Qed.
  Definition unseen (seen : list P) : nat := length (filter (fun a => negb (existsb (same (pt a)) seen)) all_edges).

  Lemma unseen_drop seen p l : NoDup l -> vertices (p :: seen) -> ~ In p seen -> (forall y, In y l -> conn y /\ pt y = p) ->
    length l + unseen (p :: seen) <= unseen seen.
  Proof.
    intros N V Np L. unfold unseen. rewrite <- app_length. apply NoDup_incl_length.
    - apply nodup_app; [exact N|apply NoDup_filter, all_nodup|]. intros x X F. destruct (L x X) as [Cx Px].
      apply filter_In in F. destruct F as [_ F]. apply negb_true_iff in F.
      assert (T : existsb (same (pt x)) (p :: seen) = true) by (apply seen_in; [exact V|exact Cx|left; symmetry; exact Px]).
      rewrite T in F. discriminate F.
    - intros x X. apply in_app_or in X. apply filter_In. destruct X as [X|X].
      + destruct (L x X) as [Cx Px]. split; [apply all_in, cprimal, Cx|]. apply negb_true_iff, not_true_is_false. intros T.
        apply seen_in in T; [|intros q Q; apply V; right; exact Q|exact Cx]. rewrite Px in T. exact (Np T).
      + apply filter_In in X. destruct X as [I F]. split; [exact I|]. apply negb_true_iff in F. cbn [existsb] in F.
        apply orb_false_iff in F. rewrite (proj2 F). reflexivity.
  Qed.

  Lemma until_app {A} (fn : A -> bool) l l' : until fn (l ++ l') = if forallb fn l then l ++ until fn l' else until fn l.
  Proof.
    induction l as [|x l IH]; [reflexivity|]. cbn [app until forallb]. destruct (fn x); cbn [andb]; [|reflexivity].
    rewrite IH. destruct (forallb fn l); reflexivity.
  Qed.
  Lemma until_all {A} (fn : A -> bool) l : forallb fn l = true -> until fn l = l.
  Proof. induction l as [|x l IH]; [reflexivity|]. cbn [until forallb]. destruct (fn x); [|discriminate]. cbn [andb]. intros H. rewrite (IH H). reflexivity. Qed.

  (** A vertex of a triangulation has more than one edge. *)
  Lemma not_alone a : conn a -> a <> onext m a.
  Proof.
    intros C E. pose proof (face_dest a C) as F. rewrite <- E in F.
    apply (pt_loop (lnext m a) (conn_lnext a C)). rewrite F. apply pt_lnext, C.
  Qed.

  Definition calls_of (es : list edge) : list (P * P * P) := map (fun w => tri_of (pt w) w) es.

  Lemma loop_run : forall fuel seen stack,
    vertices seen -> (forall s, In s stack -> conn s) ->
    (forall a, conn a -> ~ In (pt a) seen -> In (pt (sym a)) seen -> exists s, In s stack /\ pt s = pt a) ->
    length stack + unseen seen < fuel ->
    exists F seen', (forall fn, tri_loop eq same fuel m fn seen stack = Ok (until fn (calls_of F)))
      /\ NoDup F /\ (forall f, In f F -> conn f /\ clear_of seen f)
      /\ (forall p, In p seen -> In p seen') /\ (forall s, In s stack -> In (pt s) seen')
      /\ (forall a, conn a -> In (pt (sym a)) seen' -> In (pt a) seen')
      /\ (forall a, conn a -> clear_of seen a -> In (pt a) seen' \/ In (pt (sym a)) seen' \/ In (pt (sym (onext m a))) seen' ->
           exists x, (x = a \/ x = lnext m a \/ x = sym (onext m a)) /\ In x F
             /\ forall y, (y = a \/ y = lnext m a \/ y = sym (onext m a)) -> In y F -> y = x).
  Proof.
    induction fuel as [|fuel IH]; intros seen stack V Sc Cov Le; [lia|].
    destruct stack as [|first stack].
    { exists [], seen. split; [reflexivity|]. split; [constructor|]. split; [intros f []|]. split; [auto|]. split; [intros s []|].
      split.
      - intros a C I. destruct (seen_dec seen a V C) as [Y|N]; [exact Y|]. destruct (Cov a C N I) as (s & [] & _).
      - intros a C (N1 & N2 & N3) [I|[I|I]]; contradiction. }
    assert (Cf : conn first) by (apply Sc; left; reflexivity).
    set (p := pt first).
    destruct (existsb (same p) seen) eqn:Sn.
    { pose proof Sn as Sn'. apply (seen_in seen first V Cf) in Sn. fold p in Sn.
      destruct (IH seen stack V) as (F & seen' & R & N & Fc & Su & St & Cl & Fa).
      - intros s S. apply Sc; right; exact S.
      - intros a C Na I. destruct (Cov a C Na I) as (s & [<-|S] & E); [|exists s; auto]. exfalso. apply Na. rewrite <- E. exact Sn.
      - cbn [length] in Le. lia.
      - exists F, seen'. split; [intros fn; cbn [tri_loop]; rewrite (orig_pt first Cf); fold p; rewrite Sn'; apply R|].
        split; [exact N|]. split; [exact Fc|]. split; [exact Su|]. split; [|split; assumption].
        intros s [<-|S]; [apply Su, Sn|apply St, S]. }
    assert (Np : ~ In p seen).
    { intros I. apply (seen_in seen first V Cf) in I. fold p in I. rewrite Sn in I. discriminate I. }
    assert (V' : vertices (p :: seen)) by (intros q [<-|Q]; [exists first; auto|apply V, Q]).
    destruct (rings m Hist first (proj1 (cprimal first Cf))) as ((l & R & _) & _).
    assert (Rc : forall y, In y (first :: l) -> conn y /\ pt y = p).
    { apply (cycle_closed (onext m) (fun y => conn y /\ pt y = p) (first :: l) first R); [left; reflexivity|auto|].
      intros y _ [C E]. split; [apply conext, C|]. rewrite pt_onext by exact C. exact E. }
    assert (Rin : forall y, conn y -> pt y = p -> In y (first :: l)).
    { intros y C E. apply (pt_origin y first C Cf) in E. destruct E as (l' & R' & Y & Fi).
      exact (cycle_meet (onext m) (first :: l) l' first R R' (or_introl eq_refl) Fi y Y). }
    pose proof (cycle_nodup _ _ R) as Nd. destruct R as [_ Ch].
    set (act := filter (active (p :: seen)) (first :: l)).
    assert (Ain : forall w, In w act <-> conn w /\ pt w = p /\ clear_of seen w).
    { intros w. unfold act. rewrite filter_In. split.
      - intros [I A]. destruct (Rc w I) as [C E]. split; [exact C|]. split; [exact E|]. apply (active_in _ w V' C) in A.
        destruct A as [A1 A2]. split; [rewrite E; exact Np|]. split; [intros X; apply A1; right; exact X|intros X; apply A2; right; exact X].
      - intros (C & E & (N1 & N2 & N3)). split; [apply Rin; assumption|]. apply (active_in _ w V' C). split.
        + intros [X|X]; [|exact (N2 X)]. apply (pt_loop w C). rewrite E. exact X.
        + intros [X|X]; [|exact (N3 X)]. apply (pt_loop (onext m w) (conext w C)). rewrite pt_onext by exact C. rewrite E. exact X. }
    assert (Calls : map (tri_of p) act = calls_of act).
    { unfold calls_of. apply map_ext_in. intros w Hw. destruct (proj1 (Ain w) Hw) as (_ & E & _). rewrite E. reflexivity. }
    assert (Len : length l < 4 * count m + 1).
    { assert (length (first :: l) <= length all_edges) as H.
      { apply NoDup_incl_length; [exact Nd|]. intros y Y. apply all_in, cprimal, (proj1 (Rc y Y)). }
      unfold all_edges in H. rewrite app_length, !map_length, !seq_length in H. cbn [length] in H. lia. }
    pose proof (fun fn => ring_run fn (p :: seen) p first Cf (4 * count m + 1) first l stack Ch) as Ring.
    assert (Ring' := fun fn => Ring fn (proj1 (proj1 (NoDup_cons_iff first l) Nd)) (fun y Y => proj1 (Rc y Y)) Len). cbn zeta in Ring'. fold act in Ring'. rewrite Calls in Ring'. clear Ring.
    set (stack' := rev (map sym act) ++ stack).
    destruct (IH (p :: seen) stack' V') as (F & seen' & Rn & N & Fc & Su & St & Cl & Fa).
    { intros s S. unfold stack' in S. apply in_app_or in S. destruct S as [S|S]; [|apply Sc; right; exact S].
      apply in_rev in S. apply in_map_iff in S. destruct S as (w & <- & Hw). apply csym, (proj1 (Ain w) Hw). }
    { intros a C Na I.
      assert (Na' : ~ In (pt a) seen) by (intros X; apply Na; right; exact X).
      assert (Old : forall a', conn a' -> pt a' = pt a -> In (pt (sym a')) seen -> exists s, In s stack' /\ pt s = pt a).
      { intros a' C' E' I'. destruct (Cov a' C') as (s & [<-|S] & E).
        - rewrite E'; exact Na'. - exact I'.
        - exfalso. apply Na. left. change p with (pt first). rewrite E. exact E'.
        - exists s. split; [unfold stack'; apply in_or_app; right; exact S|rewrite E; exact E']. }
      destruct I as [I|I]; [|apply (Old a C eq_refl I)].
      set (w := sym a). assert (Cw : conn w) by (apply csym, C).
      assert (Sw : sym w = a) by (apply sym_sym, cprimal, C).
      destruct (seen_dec seen (sym (onext m w)) V (csym _ (conext w Cw))) as [Y|Nn].
      - apply (Old (lnext m w)); [apply conn_lnext, Cw|rewrite pt_lnext by exact Cw; rewrite Sw; reflexivity|].
        rewrite (face_dest w Cw). exact Y.
      - exists a. split; [|reflexivity]. unfold stack'. apply in_or_app. left. apply in_rev. rewrite rev_involutive. rewrite <- Sw.
        apply in_map. apply Ain. split; [exact Cw|]. split; [symmetry; exact I|]. split; [change (pt w) with (pt (sym a)); rewrite <- I; exact Np|].
        split; [rewrite Sw; exact Na'|exact Nn]. }
    { unfold stack'. rewrite app_length, rev_length, map_length.
      assert (length act <= length (first :: l)).
      { unfold act. clear. induction (first :: l) as [|x k IHk]; [reflexivity|]. cbn [filter]. destruct (active _ x); cbn [length]; lia. }
      pose proof (unseen_drop seen p (first :: l) Nd V' Np Rc). cbn [length] in *. lia. }
    exists (act ++ F), seen'. split.
    { intros fn. specialize (Ring' fn). cbn [tri_loop]. rewrite (orig_pt first Cf). fold p. rewrite Sn.
      rewrite eqb_neq by (apply not_alone, Cf).
      unfold calls_of in *. rewrite map_app, until_app. destruct (forallb fn _) eqn:Fb.
      - rewrite Ring'. cbn [bind]. fold stack'. rewrite Rn. reflexivity.
      - destruct Ring' as (st & Ring'). rewrite Ring'. reflexivity. }
    split.
    { apply nodup_app; [unfold act; apply NoDup_filter, Nd|exact N|]. intros x A B. destruct (Fc x B) as [_ (N1 & _)].
      apply N1. left. symmetry. apply (proj1 (Ain x) A). }
    assert (Fc' : forall f, In f F -> clear_of seen f).
    { intros f Hf. destruct (Fc f Hf) as [_ (N1 & N2 & N3)]. split; [|split]; intros X; [apply N1|apply N2|apply N3]; right; exact X. }
    split.
    { intros f Hf. apply in_app_or in Hf. destruct Hf as [A|B].
      - split; apply (proj1 (Ain f) A). - split; [apply (Fc f B)|apply Fc', B]. }
    split; [intros q Q; apply Su; right; exact Q|].
    split.
    { intros s [<-|S]; [apply Su; left; reflexivity|]. apply St. unfold stack'. apply in_or_app; right; exact S. }
    split; [exact Cl|].
    intros a C Clr Some_seen.
    (* the corners of the three edges of the face *)
    set (b := lnext m a). set (c := sym (onext m a)).
    assert (Cb : conn b) by (apply conn_lnext, C). assert (Cc : conn c) by (apply csym, conext, C).
    assert (Cn : conn (onext m a)) by (apply conext, C).
    assert (Lbc : lnext m b = c).
    { destruct (Tri a C) as (b' & c' & F3). apply (face3 a _ C F3 (or_introl eq_refl)). }
    assert (Lca : lnext m c = a).
    { unfold c. apply (lnext_lprev m a W), cprimal, C. }
    assert (Pb : pt b = pt (sym a)) by (apply pt_lnext, C).
    assert (Psb : pt (sym b) = pt c) by (rewrite <- Lbc; symmetry; apply pt_lnext, Cb).
    assert (Psc : pt (sym c) = pt a) by (rewrite <- (pt_lnext c Cc), Lca; reflexivity).
    assert (Onb : pt (sym (onext m b)) = pt a) by (rewrite <- (face_dest b Cb), Lbc; exact Psc).
    assert (Onc : pt (sym (onext m c)) = pt b) by (rewrite <- (face_dest c Cc), Lca; symmetry; exact Pb).
    assert (Nab : pt a <> pt b) by (rewrite Pb; apply pt_loop, C).
    assert (Nbc : pt b <> pt c) by (rewrite <- Psb; apply pt_loop, Cb).
    assert (Nca : pt c <> pt a) by (rewrite <- Psc; apply pt_loop, Cc).
    assert (Corner : forall y l, y = a \/ y = b \/ y = c -> (clear_of l y <-> ~ In (pt a) l /\ ~ In (pt b) l /\ ~ In (pt c) l)).
    { intros y k [->|[->| ->]]; unfold clear_of.
      - rewrite <- Pb. fold c. reflexivity. - rewrite Psb, Onb. tauto. - rewrite Psc, Onc. tauto. }
    assert (Cy : forall y, y = a \/ y = b \/ y = c -> conn y) by (intros y [->|[->| ->]]; assumption).
    assert (Case : (exists x, (x = a \/ x = b \/ x = c) /\ pt x = p) \/ (pt a <> p /\ pt b <> p /\ pt c <> p)).
    { assert (D : forall y, conn y -> pt y = p \/ pt y <> p).
      { intros y Y. destruct (seen_dec [p] y) as [[E|[]]|E]; [intros q [<-|[]]; exists first; auto|exact Y|left; symmetry; exact E|].
        right. intros X. apply E. left. symmetry. exact X. }
      destruct (D a C) as [E|Ea]; [left; exists a; auto|]. destruct (D b Cb) as [E|Eb]; [left; exists b; auto|].
      destruct (D c Cc) as [E|Ec]; [left; exists c; auto|]. right; auto. }
    destruct Case as [(x & X & Ex)|(Ea & Eb & Ec)].
    - exists x. split; [exact X|]. split.
      + apply in_or_app; left. apply Ain. split; [apply Cy, X|]. split; [exact Ex|]. apply (Corner x seen X). apply (Corner a seen); auto.
      + intros y Y Hy. apply in_app_or in Hy. destruct Hy as [Hy|Hy].
        * destruct (proj1 (Ain y) Hy) as (_ & Ey & _).
          destruct X as [->|[->| ->]], Y as [->|[->| ->]]; try reflexivity; exfalso; congruence.
        * exfalso. destruct (Fc y Hy) as [_ K]. apply (Corner y (p :: seen) Y) in K. destruct K as (K1 & K2 & K3).
          destruct X as [->|[->| ->]]; [apply K1|apply K2|apply K3]; left; symmetry; exact Ex.
    - destruct (Fa a C) as (x & X & Fx & U).
      + apply (Corner a (p :: seen)); [auto|]. apply (Corner a seen) in Clr; [|auto]. destruct Clr as (N1 & N2 & N3).
        split; [|split]; intros [X|X]; auto.
      + exact Some_seen.
      + fold b c in X, U. exists x. split; [exact X|]. split; [apply in_or_app; right; exact Fx|].
        intros y Y Hy. apply in_app_or in Hy. destruct Hy as [Hy|Hy]; [|apply U; assumption].
        exfalso. destruct (proj1 (Ain y) Hy) as (_ & Ey & _). destruct Y as [->|[->| ->]]; contradiction.
  Qed.

  Lemma unseen_le : unseen [] <= 2 * count m.
  Proof.
    unfold unseen. assert (length all_edges = 2 * count m) as <- by (unfold all_edges; rewrite app_length, !map_length, !seq_length; lia).
    induction all_edges as [|x l IH]; [reflexivity|]. cbn [filter length]. destruct (negb _); cbn [length]; lia.
  Qed.

  Lemma triangles_run : exists F, one_of_each_face m se F
    /\ (forall f, In f F -> corners m f (tri_of (pt f) f))
    /\ forall fn, walk_all_triangles eq same m fn (Some se) = Ok (until fn (calls_of F)).
  Proof.
    destruct (loop_run (4 * count m * (4 * count m + 2) + 3) [] [se]) as (F & seen' & R & N & Fc & _ & St & Cl & Fa).
    - intros p [].
    - intros s [<-|[]]. apply c_refl.
    - intros a _ _ [].
    - pose proof unseen_le. cbn [length]. lia.
    - assert (All : forall a, conn a -> In (pt a) seen').
      { intros a C. apply (connected_closed m (fun x => conn x -> In (pt x) seen') Hist) with (a := se) (b := a); [| |exact C|exact Start| |exact C].
        - intros x Px Q Co. rewrite pt_onext.
          + apply Q. eapply c_trans; [exact Co|]. apply c_back, c_onext, Px.
          + eapply c_trans; [exact Co|]. apply c_back, c_onext, Px.
        - intros x Px Q Co. apply Cl; [exact Co|]. rewrite sym_sym by apply Px. apply Q. eapply c_trans; [exact Co|]. apply c_back, c_sym, Px.
        - intros _. apply St. left; reflexivity. }
      exists F. split; [|split; [|exact R]].
      + split; [exact N|]. split; [intros e E; apply (Fc e E)|]. intros f e Fe I C.
        destruct (face3 e f C Fe I) as [Mem _].
        destruct (Fa e C) as (x & X & Fx & U); [split; [|split]; intros []|left; apply All, C|].
        exists x. split; [apply Mem, X|]. split; [exact Fx|]. intros y Y Hy. apply U; [apply Mem, Y|exact Hy].
      + intros f Hf. destruct (Fc f Hf) as [C _]. unfold corners, tri_of, lprev. split; [apply orig_pt, C|].
        split; [apply dest_pt, C|]. apply orig_pt, csym, conext, C.
  Qed.
End Triangles.

Lemma triangles_each {P} (eq same : P -> P -> bool) (m : mem P) se :
  history m -> primal m se -> labelled m se -> loop_free m se -> all_triangles m se -> decides m se eq -> decides m se same ->
  exists es ts, one_of_each_face m se es /\ Forall2 (corners m) es ts
    /\ (forall fn, walk_all_triangles eq same m fn (Some se) = Ok (until fn ts))
    /\ forall frame, triangles eq same m frame (Some se) true = Ok ts
       /\ triangles eq same m frame (Some se) false
          = Ok (filter (fun t => negb (is_frame_point eq frame [fst (fst t); snd (fst t); snd t])) ts).
Proof.
  intros H S L NL T DE DS. destruct (L se (c_refl m se)) as [N0 _].
  destruct (orig m se) as [p0|] eqn:O; [|contradiction N0; reflexivity].
  destruct (triangles_run eq same m se H S L NL T DE DS p0) as (F & One & Co & R).
  exists F, (calls_of m p0 F). split; [exact One|]. split.
  - clear - Co. unfold calls_of. induction F as [|f F IH]; [constructor|]. cbn [map]. constructor; [apply Co; left; reflexivity|].
    apply IH. intros x X. apply Co. right; exact X.
  - split; [exact R|]. intros frame. unfold triangles. rewrite R. cbn [bind]. rewrite until_all.
    + split; f_equal.
      * clear R. cbn [negb]. induction (calls_of m p0 F) as [|[[a b] c] l IH]; [reflexivity|]. cbn [filter]. rewrite andb_false_r. cbn [negb]. rewrite IH. reflexivity.
      * clear R. cbn [negb]. induction (calls_of m p0 F) as [|[[a b] c] l IH]; [reflexivity|]. cbn [filter fst snd]. rewrite andb_true_r.
        rewrite IH. reflexivity.
    + clear. induction (calls_of m p0 F); [reflexivity|assumption].
Qed.
