(** * Proofs about inserting constraints: insertEdge and InsertConstraint *)
From Coq Require Import Bool List Arith ZArith Lia.
From Verif Require Import Base_F64 Base_F64Arith Base_Res Base_Geom M_Cmp M_Walker M_Winding M_Triangle M_Planar M_Intersect M_Quadedge S_Quadedge P_F64 P_Quadedge P_Quadedge2 P_Quadedge3 P_Quadedge4 P_Quadedge5 P_QuadedgeTop
  M_Subdivision S_Subdivision P_Subdivision M_ResolveEdge M_Insert M_Pseudo M_Constraint S_Constraint P_Constraint.
Import ListNotations.
Local Open Scope nat_scope.

(** ** The index *)
Lemma lookup_put vx k e q r : lookup go_eq (put_new go_eq vx k e) q = Some r -> lookup go_eq vx q = Some r \/ (go_eq q k = true /\ r = e).
Proof.
  unfold put_new. destruct (lookup go_eq vx k); [auto|]. cbn [lookup]. destruct (go_eq q k) eqn:G; [intros [= <-]; auto|auto].
Qed.
Lemma lookup_drop vx v q r : lookup go_eq (drop go_eq vx v) q = Some r -> lookup go_eq vx q = Some r /\ go_eq q v = false.
Proof.
  induction vx as [|[k e] vx IH]; [discriminate|]. cbn [drop filter]. fold (drop go_eq vx v). destruct (go_eq v k) eqn:Vk; cbn [negb lookup].
  - intros L. destruct (IH L) as [A B]. split; [|exact B]. destruct (go_eq q k) eqn:Qk; [|exact A].
    rewrite go_eq_sym in Vk. rewrite (go_eq_trans q k v Qk Vk) in B. discriminate.
  - destruct (go_eq q k) eqn:Qk; [|apply IH]. intros [= <-]. split; [reflexivity|].
    destruct (go_eq q v) eqn:Qv; [|reflexivity]. rewrite go_eq_sym in Qv. rewrite (go_eq_trans v q k Qv Qk) in Vk. discriminate.
Qed.
Lemma add_index m vx e vx' : index_ok m vx -> primal m e -> vx_add go_eq round_pt m vx e = Ok vx' -> index_ok m vx'.
Proof.
  intros I P Q. unfold vx_add in Q. destruct (orig m e) as [o|] eqn:O; [|discriminate]. destruct (dest m e) as [d|] eqn:D; [|discriminate].
  injection Q as <-. intros k r L. apply lookup_put in L. destruct L as [L|[G ->]]; [apply lookup_put in L; destruct L as [L|[G ->]]; [apply I, L|]|].
  - split; [exact P|]. exists o. auto.
  - split; [apply primal_sym, P|]. exists d. split; [exact D|exact G].
Qed.
Lemma remove1_index m vx e p : history m -> uniform m -> index_ok m vx -> index_ok m (vx_remove1 go_eq round_pt m e vx p).
Proof.
  intros H U I. unfold vx_remove1. destruct (lookup go_eq vx (round_pt p)) as [ve|] eqn:L; [|exact I].
  destruct (existsb (edge_eqb ve) _); [|exact I].
  assert (Dr : index_ok m (drop go_eq vx (round_pt p))) by (intros k r Lk; apply I, (lookup_drop _ _ _ _ Lk)).
  destruct (edge_eqb ve (onext m ve)); [exact Dr|]. intros k r Lk. cbn [lookup] in Lk. destruct (go_eq k (round_pt p)) eqn:G; [|apply Dr, Lk].
  injection Lk as <-. destruct (I _ _ L) as (Pv & q & Oq & Gq). split; [apply primal_onext; assumption|].
  exists q. split; [rewrite (U ve Pv); exact Oq|exact (go_eq_trans _ _ _ G Gq)].
Qed.
Lemma remove_index m vx e vx' : history m -> uniform m -> index_ok m vx -> vx_remove go_eq round_pt m vx e = Ok vx' -> index_ok m vx'.
Proof.
  intros H U I Q. unfold vx_remove in Q. destruct (orig m e); [|discriminate]. destruct (dest m e); [|discriminate]. injection Q as <-.
  apply remove1_index; try assumption. apply remove1_index; assumption.
Qed.
Lemma remove_not_fuel m vx e : vx_remove go_eq round_pt m vx e <> Err tt.
Proof. unfold vx_remove. destruct (orig m e), (dest m e); discriminate. Qed.

(** ** insertEdge *)
Definition kept_all (m : mem pt) (m' : mem pt) (vx' : vindex) : Prop := sound m' vx' /\ keeps_points m m'.
Lemma kept_same m vx : sound m vx -> kept_all m m vx.
Proof. intros S. split; [exact S|apply keeps_refl]. Qed.

Lemma bind_nofuel {A B} (m : res unit A) (f : A -> res unit B) : m <> Err tt -> (forall x, m = Ok x -> f x <> Err tt) -> bind m f <> Err tt.
Proof. intros H F. destruct m as [x|[]|]; [apply F; reflexivity|contradiction|discriminate]. Qed.

Lemma insert_edge_sound ypd m vx s t : sound m vx ->
  match insert_edge ypd m vx s t with
  | Ok (m', vx', err) => kept_all m m' vx'
      /\ (err = None -> joined m' s t \/ seen_colinear ypd m vx s t \/ seen_colinear ypd m vx t s)
  | Err _ => False
  | Panic => True
  end.
Proof.
  intros S. pose proof S as (H & U & I). unfold insert_edge. cbv zeta.
  destruct (vx_get go_eq round_pt vx (round_pt s)) as [te|] eqn:G1; [|split; [apply kept_same, S|discriminate]].
  destruct (I _ _ G1) as (Pt & ps & Ops & Gps).
  pose proof (find_ends (point_equal hi_cmp) m (round_pt t) te H (proj1 Pt)) as Fe.
  destruct (find_onext_dest (point_equal hi_cmp) m (round_pt t) te) as [[f|]|[]|] eqn:F; cbn [bind]; [| |contradiction|exact Logic.I].
  { split; [apply kept_same, S|]. intros _. left. destruct (find_in _ m _ _ _ H U Pt F) as (Pf & Of & d & Df & Ed).
    exists f, ps, d. split; [exact Pf|]. split; [congruence|]. split; [exact Df|]. split; [left; exact Gps|right; exact Ed]. }
  pose proof (resolve_ends_fuel ypd m te (round_pt t) H (proj1 Pt)) as R1e.
  destruct (resolve_edge ypd m te (round_pt t)) as [[r1 e1]|[]|] eqn:R1; cbn [bind]; [|contradiction|exact Logic.I].
  destruct e1 as [e1|].
  { destruct r1, e1; (split; [apply kept_same, S|]); intros Q; try discriminate Q; right; left; exists te; eexists; (split; [exact G1|exact R1]). }
  destruct r1 as [from|]; [|split; [apply kept_same, S|discriminate]].
  destruct (vx_get go_eq round_pt vx (round_pt t)) as [tt'|] eqn:G2; [|split; [apply kept_same, S|discriminate]].
  destruct (I _ _ G2) as (Pt2 & pe & Ope & Gpe).
  pose proof (resolve_ends_fuel ypd m tt' (round_pt s) H (proj1 Pt2)) as R2e.
  destruct (resolve_edge ypd m tt' (round_pt s)) as [[r2 e2]|[]|] eqn:R2; cbn [bind]; [|contradiction|exact Logic.I].
  destruct e2 as [e2|].
  { destruct r2, e2; (split; [apply kept_same, S|]); intros Q; try discriminate Q; right; right; exists tt'; eexists; (split; [exact G2|exact R2]). }
  destruct r2 as [to|]; [|split; [apply kept_same, S|discriminate]].
  destruct (resolve_in _ _ _ _ _ _ H U Pt R1) as [Pf Of]. destruct (resolve_in _ _ _ _ _ _ H U Pt2 R2) as [Po Oo].
  assert (Pa : primal m (sym (onext m from))) by (apply primal_sym, primal_onext; assumption).
  assert (Da : dest m (sym (onext m from)) = Some ps).
  { unfold dest. rewrite sym_sym by apply (primal_onext m from H Pf). rewrite (U from Pf). congruence. }
  destruct (connect_at ypd m (sym (onext m from)) to) as [[m' e]|[]|] eqn:C; cbn [bind].
  - destruct (connect_sound _ _ _ _ _ _ H U Pa Po C) as (H' & U' & K & Pe & Oe & De).
    assert (I' := index_ok_keeps m m' vx K I).
    destruct (vx_add go_eq round_pt m' vx e) as [vx'|er|] eqn:A; cbn [bind]; [|unfold vx_add in A; destruct (orig m' e), (dest m' e); discriminate A|exact Logic.I].
    split; [split; [split; [exact H'|]; split; [exact U'|exact (add_index _ _ _ _ I' Pe A)]|exact K]|]. intros _.
    (* the second resolution of Connect *)
    unfold connect_at in C. rewrite Da in C. destruct (resolve_edge ypd m to ps) as [[r er]|er|] eqn:R3; cbn [bind] in C; [|discriminate..].
    unfold vx_add in A. destruct (orig m' e) as [oe|] eqn:Oe'; [|discriminate]. destruct (dest m' e) as [de|] eqn:De'; [|discriminate].
    left. exists e, ps, de. split; [exact Pe|]. split; [congruence|]. split; [exact De'|]. split; [left; exact Gps|].
    destruct r as [r|].
    + pose proof (De ps r er Da R3) as Q. rewrite Oo, Ope in Q. injection Q as ->. left. exact Gpe.
    + exfalso. clear A. pose proof C as Q. unfold connect in Q. rewrite Da in Q. unfold resolve_of in Q. rewrite R3 in Q.
      destruct (new m) as [m1 e1]. injection Q as Qm Qe. subst m' e. unfold dest, orig, splice, set_next, end_points, set_vertex in De'. cbn [vertex] in De'.
      rewrite upd_same in De'. discriminate De'.
  - unfold connect_at in C. rewrite Da in C. pose proof (resolve_ends_fuel ypd m to ps H (proj1 Po)) as R3e.
    destruct (resolve_edge ypd m to ps) as [[r er]|[]|] eqn:R3; cbn [bind] in C; [|contradiction|discriminate].
    unfold connect in C. rewrite Da in C. destruct (new m); discriminate C.
  - exact Logic.I.
Qed.

(** ** Several edges *)
Lemma kept_trans m m1 vx1 m2 vx2 : kept_all m m1 vx1 -> kept_all m1 m2 vx2 -> kept_all m m2 vx2.
Proof. intros [_ K1] [S2 K2]. split; [exact S2|exact (keeps_trans _ _ _ K1 K2)]. Qed.

Definition good (m : mem pt) (r : res unit c_result) : Prop :=
  match r with Ok (m', vx', _) => kept_all m m' vx' | Err _ => False | Panic => True end.
Lemma good_trans m m1 vx1 r : kept_all m m1 vx1 -> good m1 r -> good m r.
Proof. intros K G. destruct r as [[[m2 vx2] e]|[]|]; [exact (kept_trans _ _ _ _ _ K G)|exact G|exact G]. Qed.

Lemma insert_edges_sound ypd : forall es m vx, sound m vx -> good m (insert_edges ypd m vx es).
Proof.
  induction es as [|[p q] es IH]; intros m vx S; [apply kept_same, S|]. cbn [insert_edges].
  pose proof (insert_edge_sound ypd m vx p q S) as A. destruct (insert_edge ypd m vx p q) as [[[m1 vx1] [e|]]|er|]; cbn [bind]; [apply A| |contradiction|exact I].
  destruct A as [A _]. apply (good_trans _ _ _ _ A), IH, A.
Qed.
Lemma insert_side_sound ypd m vx s t c up : sound m vx -> good m (insert_side ypd m vx s t c up).
Proof.
  intros S. unfold insert_side. destruct (pp_edges ypd s t c up); [apply insert_edges_sound, S|apply kept_same, S|exact I].
Qed.

Lemma delete_kept m vx e vx' : sound m vx -> primal m e -> vx_remove go_eq round_pt m vx e = Ok vx' -> kept_all m (delete m e) vx'.
Proof.
  intros (H & U & I) P R. assert (I' := remove_index m vx e vx' H U I R).
  assert (K : keeps_points m (delete m e)) by (split; [intros f F; split; [exact F|reflexivity]|intros f p F O; exists f; split; [exact F|exact O]]).
  split; [|exact K]. split; [apply h_delete; [exact H|apply P]|]. split; [apply uniform_delete; assumption|exact (index_ok_keeps _ _ _ K I')].
Qed.
Lemma remove_edges_sound frame s t : forall es m vx c, sound m vx -> Forall (primal m) es ->
  match remove_edges frame s t m vx c es with Ok (m', vx', _) => kept_all m m' vx' | Err _ => False | Panic => True end.
Proof.
  induction es as [|e es IH]; intros m vx c S F; [apply kept_same, S|]. cbn [remove_edges]. inversion F as [|? ? Pe Fe]; subst.
  unfold is_hard_frame_edge, add_edge. destruct (orig m e) as [o|] eqn:O; [|exact I]. destruct (dest m e) as [d|] eqn:D; [|exact I]. cbn [bind].
  destruct (_ && _).
  - apply IH; assumption.
  - pose proof (remove_not_fuel m vx e) as NF. destruct (vx_remove go_eq round_pt m vx e) as [vx'|[]|] eqn:R; cbn [bind]; [|contradiction|exact I].
    pose proof (delete_kept m vx e vx' S Pe R) as K.
    specialize (IH (delete m e) vx' (add_point s t (add_point s t c o) d) (proj1 K)).
    assert (F' : Forall (primal (delete m e)) es) by (eapply Forall_impl; [|exact Fe]; intros x Px; exact Px).
    specialize (IH F'). destruct (remove_edges frame s t (delete m e) vx' _ es) as [[[m2 vx2] c2]|er|]; [|exact IH|exact I].
    exact (kept_trans _ _ _ _ _ K IH).
Qed.

(** ** FindIntersectingEdges *)
Lemma ok_inj {E A} (a b : A) : @Ok E A a = Ok b -> a = b.
Proof. intros [= <-]. reflexivity. Qed.
Lemma crossing_loop_in ln m last : history m -> forall n w l, primal m w -> crossing_loop n m ln last w = Some l ->
  Forall (fun e => primal m e /\ crosses m ln e) l.
Proof.
  intros H. induction n as [|n IH]; intros w l P Q; [discriminate|]. cbn [crossing_loop] in Q.
  assert (Here : Forall (fun e => primal m e /\ crosses m ln e) (if snd (segment_intersect ln (as_line m w)) then [w] else [])).
  { destruct (snd (segment_intersect ln (as_line m w))) eqn:X; constructor; [split; assumption|constructor]. }
  destruct (fst last =? fst w); [injection Q as <-; exact Here|].
  set (nx := if snd (segment_intersect ln (as_line m (onext m w))) then onext m w else onext m (sym (onext m w))) in Q.
  assert (Pn : primal m nx).
  { unfold nx. destruct (snd _); [apply primal_onext; assumption|]. apply primal_onext; [exact H|]. apply primal_sym, primal_onext; assumption. }
  destruct (crossing_loop n m ln last nx) as [l'|] eqn:C; [|discriminate]. injection Q as <-. apply Forall_app. split; [exact Here|exact (IH _ _ Pn C)].
Qed.
Lemma find_intersecting_sound ypd m se ee : history m -> uniform m ->
  (forall e, se = Some e -> primal m e) -> (forall e, ee = Some e -> primal m e) ->
  find_intersecting ypd m se ee <> Err tt
  /\ forall l, find_intersecting ypd m se ee = Ok (Some l) -> l = [] \/ exists e f s t, se = Some e /\ ee = Some f /\ orig m e = Some s /\ orig m f = Some t
       /\ Forall (fun x => primal m x /\ crosses m (s, t) x) l.
Proof.
  intros H U Ps Pe. unfold find_intersecting. destruct se as [se|]; [|split; [discriminate|intros l [= <-]; auto]].
  destruct ee as [ee|]; [|split; [discriminate|intros l [= <-]; auto]].
  specialize (Ps _ eq_refl). specialize (Pe _ eq_refl).
  destruct (orig m se) as [s|] eqn:Os; [|split; [discriminate|intros l [=]]]. destruct (orig m ee) as [e|] eqn:Oe; [|split; [discriminate|intros l [=]]].
  destruct (f64_eq _ _); [split; [discriminate|intros l [= <-]; auto]|].
  pose proof (resolve_ends_fuel ypd m se e H (proj1 Ps)) as N1. pose proof (resolve_ends_fuel ypd m ee s H (proj1 Pe)) as N2.
  destruct (resolve_edge ypd m se e) as [[r1 e1]|[]|] eqn:R1; cbn [bind]; [|contradiction|split; [discriminate|intros l [=]]].
  destruct (resolve_edge ypd m ee s) as [[r2 e2]|[]|] eqn:R2; cbn [bind]; [|contradiction|split; [discriminate|intros l [=]]].
  cbn [fst]. destruct r1 as [f|]; [|split; [discriminate|intros l [=]]]. destruct r2 as [g|]; [|split; [discriminate|intros l [=]]].
  destruct (dest m f); [|split; [discriminate|intros l [=]]]. destruct (dest m g); [|split; [discriminate|intros l [=]]].
  destruct (_ || _); [split; [discriminate|intros l [= <-]; auto]|]. split; [discriminate|]. intros l Q. apply ok_inj in Q. right.
  exists se, ee, s, e. split; [reflexivity|]. split; [reflexivity|]. split; [exact Os|]. split; [exact Oe|].
  destruct (resolve_in _ _ _ _ _ _ H U Ps R1) as [Pf _].
  eapply crossing_loop_in; [exact H| |exact Q]. apply primal_onext; [exact H|]. apply primal_sym, primal_onext; assumption.
Qed.

Lemma insert_constraint_sound ypd frame m vx s t : sound m vx -> good m (insert_constraint ypd frame m vx s t).
Proof.
  intros S. pose proof S as (H & U & I). unfold insert_constraint.
  assert (RE : match resolve_ends ypd m vx s t with
               | Ok (se, ee, _, _) => (forall e, se = Some e -> primal m e) /\ (forall e, ee = Some e -> primal m e)
               | Err _ => False | Panic => True end).
  { unfold resolve_ends. cbv zeta. destruct (vx_get go_eq round_pt vx (round_pt s)) as [se|] eqn:G1; [|split; discriminate].
    destruct (I _ _ G1) as [P1 _]. pose proof (find_ends (point_equal hi_cmp) m (round_pt t) se H (proj1 P1)) as Fe.
    destruct (find_onext_dest _ m _ se) as [[f|]|[]|]; cbn [bind]; [split; discriminate| |contradiction|exact Logic.I].
    destruct (vx_get go_eq round_pt vx (round_pt t)) as [ee|] eqn:G2; [|split; discriminate]. destruct (I _ _ G2) as [P2 _].
    pose proof (resolve_ends_fuel ypd m se (round_pt t) H (proj1 P1)) as N1. pose proof (resolve_ends_fuel ypd m ee (round_pt s) H (proj1 P2)) as N2.
    destruct (resolve_edge ypd m se (round_pt t)) as [[r1 e1]|[]|] eqn:R1; cbn [bind]; [|contradiction|exact Logic.I].
    destruct (resolve_edge ypd m ee (round_pt s)) as [[r2 e2]|[]|] eqn:R2; cbn [bind]; [|contradiction|exact Logic.I].
    cbn [fst snd].
    assert (G : (forall e, r1 = Some e -> primal m e) /\ (forall e, r2 = Some e -> primal m e)).
    { split; intros e ->; [exact (proj1 (resolve_in _ _ _ _ _ _ H U P1 R1))|exact (proj1 (resolve_in _ _ _ _ _ _ H U P2 R2))]. }
    destruct e1 as [[]|], e2 as [[]|]; try exact G; split; discriminate. }
  destruct (resolve_ends ypd m vx s t) as [[[[se ee] ex] er]|[]|]; cbn [bind]; [|contradiction|exact Logic.I]. destruct RE as [P1 P2].
  destruct er as [er|]; [destruct ex; apply kept_same, S|]. destruct ex; [apply kept_same, S|].
  destruct (find_intersecting_sound ypd m se ee H U P1 P2) as [NF FS].
  destruct (find_intersecting ypd m se ee) as [[l|]|[]|]; cbn [bind]; [|apply kept_same, S|contradiction|exact Logic.I].
  destruct l as [|e0 es0]; [apply kept_same, S|]. set (es := e0 :: es0) in *.
  assert (Fo : Forall (primal m) es).
  { destruct (FS _ eq_refl) as [Q|(e & f & a & b & _ & _ & _ & _ & Fo)]; [discriminate|]. eapply Forall_impl; [|exact Fo]. intros x [Px _]. exact Px. }
  pose proof (remove_edges_sound frame s t es m vx (Coll [] []) S Fo) as K.
  destruct (remove_edges frame s t m vx (Coll [] []) es) as [[[m1 vx1] c]|[]|]; cbn [bind]; [|contradiction|exact Logic.I].
  apply (good_trans _ _ _ _ K). pose proof (insert_side_sound ypd m1 vx1 s t c false (proj1 K)) as K2.
  destruct (insert_side ypd m1 vx1 s t c false) as [[[m2 vx2] [er|]]|[]|]; cbn [bind]; [exact K2| |contradiction|exact Logic.I].
  apply (good_trans _ _ _ _ K2), insert_side_sound, K2.
Qed.

(** ** The theorems *)
Lemma find_intersecting_top ypd m e f s t : history m -> uniform m -> primal m e -> primal m f -> orig m e = Some s -> orig m f = Some t ->
  find_intersecting ypd m (Some e) (Some f) <> Err tt
  /\ forall l, find_intersecting ypd m (Some e) (Some f) = Ok (Some l) -> Forall (fun x => primal m x /\ crosses m (s, t) x) l.
Proof.
  intros H U Pe Pf Oe Of. destruct (find_intersecting_sound ypd m (Some e) (Some f) H U) as [A B]; [intros x [= <-]; exact Pe|intros x [= <-]; exact Pf|].
  split; [exact A|]. intros l Q. destruct (B l Q) as [->|(e' & f' & s' & t' & Qe & Qf & Os & Ot & Fo)]; [constructor|].
  injection Qe as <-. injection Qf as <-. rewrite Oe in Os. rewrite Of in Ot. injection Os as <-. injection Ot as <-. exact Fo.
Qed.
Lemma constraint_top ypd frame m vx s t : history m -> uniform m -> index_ok m vx ->
  insert_constraint ypd frame m vx s t <> Err tt
  /\ forall m' vx' e, insert_constraint ypd frame m vx s t = Ok (m', vx', e) -> history m' /\ uniform m' /\ index_ok m' vx' /\ keeps_points m m'.
Proof.
  intros H U I. assert (G := insert_constraint_sound ypd frame m vx s t (conj H (conj U I))).
  destruct (insert_constraint ypd frame m vx s t) as [[[m1 vx1] e1]|er|]; cbn [good] in G; [|contradiction|split; [discriminate|intros m' vx' e Q; discriminate Q]].
  split; [discriminate|]. intros m' vx' e Q. injection Q as <- <- <-. destruct G as [(A & B & C) K]. auto.
Qed.
Lemma edge_top ypd m vx s t : history m -> uniform m -> index_ok m vx ->
  insert_edge ypd m vx s t <> Err tt
  /\ forall m' vx' e, insert_edge ypd m vx s t = Ok (m', vx', e) -> history m' /\ uniform m' /\ index_ok m' vx' /\ keeps_points m m'
     /\ (e = None -> joined m' s t \/ seen_colinear ypd m vx s t \/ seen_colinear ypd m vx t s).
Proof.
  intros H U I. assert (G := insert_edge_sound ypd m vx s t (conj H (conj U I))).
  destruct (insert_edge ypd m vx s t) as [[[m1 vx1] e1]|er|]; [|contradiction|split; [discriminate|intros m' vx' e Q; discriminate Q]].
  split; [discriminate|]. intros m' vx' e Q. injection Q as <- <- <-. destruct G as [[(A & B & C) K] J]. auto 6.
Qed.
