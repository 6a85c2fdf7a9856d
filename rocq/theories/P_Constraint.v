(** * Proofs about inserting constraints: the structure is kept *)
From Coq Require Import Bool List Arith ZArith Lia.
From Verif Require Import Base_F64 Base_F64Arith Base_Res Base_Geom M_Cmp M_Walker M_Winding M_Triangle M_Planar M_Intersect M_Quadedge S_Quadedge P_F64 P_Quadedge P_Quadedge2 P_Quadedge3 P_Quadedge4 P_Quadedge5 P_QuadedgeTop
  M_Subdivision S_Subdivision P_Subdivision M_ResolveEdge M_Insert M_Pseudo M_Constraint S_Constraint.
Import ListNotations.
Local Open Scope nat_scope.

Lemma f64_eq_trans a b c : f64_eq a b = true -> f64_eq b c = true -> f64_eq a c = true.
Proof.
  unfold f64_eq. rewrite !andb_true_iff. intros [[A B] C] [[D E] F]. repeat split; try assumption.
  apply Z.eqb_eq in C, F. apply Z.eqb_eq. congruence.
Qed.
Lemma go_eq_trans a b c : go_eq a b = true -> go_eq b c = true -> go_eq a c = true.
Proof. unfold go_eq. rewrite !andb_true_iff. intros [A B] [C D]. split; eapply f64_eq_trans; eassumption. Qed.
Lemma go_eq_sym a b : go_eq a b = go_eq b a.
Proof. unfold go_eq. rewrite (f64_eq_sym (fst a)), (f64_eq_sym (snd a)). reflexivity. Qed.

(** ** Splice, Delete and Connect keep the labels *)
Lemma odd_rot e : snd e < 4 -> Nat.even (snd (rot e)) = negb (Nat.even (snd e)).
Proof. destruct e as [q k]. cbn [snd]. intros L. do 4 (destruct k as [|k]; [reflexivity|]). lia. Qed.
Lemma splice_on m a b x : history m -> primal m a -> primal m b -> primal (P := pt) m x ->
  onext (splice m a b) x = if edge_eqb x b then onext m a else if edge_eqb x a then onext m b else onext m x.
Proof.
  intros H [Ea Ka] [Eb Kb] [Ex Kx]. unfold splice, set_next, onext. cbn [next]. unfold upd.
  assert (Od : forall y, exists_in m y -> Nat.even (snd y) = true -> edge_eqb x (rot (next m y)) = false).
  { intros y E K. apply eqb_neq. intros Q. pose proof (history_wf m H) as W.
    assert (Nat.even (snd (rot (next m y))) = false) as R; [|rewrite <- Q in R; congruence].
    rewrite odd_rot by apply (wf_ex m W y E). pose proof (wf_kind m W y E) as Kk. unfold same_kind, onext in Kk. rewrite Kk, K. reflexivity. }
  rewrite (Od a Ea Ka), (Od b Eb Kb). reflexivity.
Qed.
Lemma uniform_splice m a b : history m -> uniform m -> primal m a -> primal m b -> orig m a = orig m b -> uniform (splice m a b).
Proof.
  intros H U A B Q x X. change (orig (splice m a b)) with (orig m). change (primal m x) in X.
  rewrite (splice_on m a b x H A B X). destruct (edge_eqb x b) eqn:E1; [apply eqb_spec in E1; subst x; rewrite (U a A); exact Q|].
  destruct (edge_eqb x a) eqn:E2; [apply eqb_spec in E2; subst x; rewrite (U b B); symmetry; exact Q|apply U, X].
Qed.
Lemma primal_onext m e : history m -> primal (P := pt) m e -> primal m (onext m e).
Proof. intros H [E K]. apply history_wf in H. split; [apply (wf_ex m H e E)|]. pose proof (wf_kind m H e E) as Q. unfold same_kind in Q. unfold onext. rewrite Q. exact K. Qed.
Lemma primal_sym m e : primal (P := pt) m e -> primal m (sym e).
Proof.
  intros [E K]. split; [apply ex_sym, E|]. destruct e as [q k], E as [_ L]. cbn [snd fst] in *. unfold sym. cbn [snd fst].
  do 4 (destruct k as [|k]; [first [discriminate K|reflexivity]|]). lia.
Qed.
Lemma primal_oprev m e : history m -> primal (P := pt) m e -> primal m (oprev m e).
Proof.
  intros H [E K]. apply history_wf in H. split; [apply oprev_ex; assumption|]. pose proof (oprev_kind m e H E) as Q. unfold same_kind in Q. rewrite Q. exact K.
Qed.
Lemma orig_oprev m e : history m -> uniform m -> primal m e -> orig m (oprev m e) = orig m e.
Proof.
  intros H U P. rewrite <- (U _ (primal_oprev m e H P)). rewrite onext_oprev; [reflexivity|apply history_wf, H|apply P].
Qed.
Lemma uniform_delete m e : history m -> uniform m -> primal m e -> uniform (delete m e).
Proof.
  intros H U P. unfold delete. set (m1 := splice m e (oprev m e)).
  assert (Po := primal_oprev m e H P).
  assert (H1 : history m1).
  { apply h_splice; [exact H|apply P|apply Po|]. unfold same_kind. rewrite (proj2 P), (proj2 Po). reflexivity. }
  assert (U1 : uniform m1) by (apply uniform_splice; try assumption; symmetry; apply orig_oprev; assumption).
  assert (Ps : primal m1 (sym e)) by (exact (primal_sym m e P)).
  apply uniform_splice; try assumption; [apply primal_oprev; assumption|]. symmetry. apply orig_oprev; assumption.
Qed.
Lemma keeps_refl m : keeps_points m m.
Proof. split; [auto|]. intros e p E O. exists e. auto. Qed.
Lemma keeps_trans a b c : keeps_points a b -> keeps_points b c -> keeps_points a c.
Proof.
  intros [A1 A2] [B1 B2]. split.
  - intros e E. destruct (A1 e E) as [E1 O1]. destruct (B1 e E1) as [E2 O2]. split; [exact E2|congruence].
  - intros e p E O. destruct (B2 e p E O) as (f & F & Of). exact (A2 f p F Of).
Qed.
Lemma index_ok_keeps m m' vx : keeps_points m m' -> index_ok m vx -> index_ok m' vx.
Proof.
  intros [K _] I k e L. destruct (I k e L) as ([E Ev] & p & O & G). destruct (K e E) as [E' O'].
  split; [split; assumption|]. exists p. split; [congruence|exact G].
Qed.

Lemma new_uniform m o d : history m -> uniform m ->
  let '(m1, e) := new m in let m2 := end_points m1 e o d in
  history m2 /\ uniform m2 /\ primal m2 e /\ orig m2 e = o /\ dest m2 e = d /\ ~ exists_in m e
  /\ forall x, exists_in m x -> exists_in m2 x /\ orig m2 x = orig m x /\ onext m2 x = onext m x /\ lnext m2 x = lnext m x.
Proof.
  intros H U. pose proof (new_effect m H) as N. cbv zeta in N. destruct (new m) as [m1 e] eqn:Q. cbn [fst snd] in N.
  destruct N as (E & NE & _ & _ & R1 & R2 & _ & Old). cbv zeta. set (m2 := end_points m1 e o d).
  assert (H1 : history m1) by (pose proof (h_new m H) as X; rewrite Q in X; exact X).
  assert (Ev : Nat.even (snd e) = true) by (injection Q as _ <-; reflexivity).
  assert (Ec : e = (count m, 0)) by (injection Q as _ <-; reflexivity).
  assert (Cm : count m1 = S (count m)) by (injection Q as <- _; reflexivity).
  assert (Oe : onext m1 e = e) by (apply R1). assert (Os : onext m1 (sym e) = sym e) by (apply R2).
  assert (Ne : forall x, exists_in m x -> x <> e /\ x <> sym e).
  { intros x X. rewrite Ec. destruct X as [X _]. split; intros ->; cbn in X; lia. }
  assert (V : forall x, exists_in m x -> orig m2 x = orig m x).
  { intros x X. destruct (Ne x X) as [N1 N2]. unfold m2, orig, end_points, set_vertex. cbn [vertex]. rewrite !upd_other by assumption. exact (proj2 (proj2 (proj2 (Old x X)))). }
  assert (Oe2 : orig m2 e = o).
  { unfold m2, orig, end_points, set_vertex. cbn [vertex]. rewrite upd_other by (intros X; apply (sym_neq e); symmetry; exact X). apply upd_same. }
  split; [apply h_points; assumption|]. split.
  { intros x [[X1 X2] X3]. change (onext m2 x) with (onext m1 x). change (count m2) with (count m1) in X1. rewrite Cm in X1.
    destruct (Nat.eq_dec (fst x) (count m)) as [Qx|Qx].
    - assert (x = e \/ x = sym e) as [-> | ->]; [|rewrite Oe; reflexivity|rewrite Os; reflexivity].
      rewrite Ec. destruct x as [q k]. cbn [fst snd] in *. subst q. do 4 (destruct k as [|k]; [first [discriminate X3|left; reflexivity|right; reflexivity]|]). lia.
    - assert (X : exists_in m x) by (split; [lia|exact X2]). destruct (Old x X) as (_ & On & _ & _). rewrite On.
      assert (Xo : exists_in m (onext m x)) by (apply (wf_ex m (history_wf m H) x X)). rewrite !V by assumption. apply U. split; [exact X|exact X3]. }
  split; [split; [exact E|exact Ev]|]. split; [exact Oe2|]. split; [unfold m2, dest, orig, end_points, set_vertex; cbn [vertex]; apply upd_same|].
  split; [exact NE|]. intros x X. destruct (Old x X) as (A & B & C & D). split; [exact A|]. split; [apply V, X|]. split; [exact B|exact C].
Qed.

(** ** ResolveEdge and FindONextDest stay in the ring *)
Lemma resolve_walk_in ypd m o x : history m -> uniform m -> forall fuel seen e r err, primal m e ->
  resolve_walk fuel ypd m o x seen e = Ok (Some r, err) -> primal m r /\ orig m r = orig m e.
Proof.
  intros H U. induction fuel as [|fuel IH]; intros seen e r err P Q; cbn [resolve_walk] in Q; [discriminate|].
  destruct (existsb (Nat.eqb (fst e)) seen); [discriminate|].
  assert (Pn := primal_onext m e H P).
  assert (St : forall s, resolve_step ypd m o x e = Ok s -> forall f, fst s = Some f -> f = e \/ f = onext m e).
  { intros s Qs f Qf. unfold resolve_step in Qs. destruct (dest m e); [|discriminate]. destruct (dest m (onext m e)); [|discriminate].
    injection Qs as <-. cbv zeta in Qf. match type of Qf with context [match ?t with _ => _ end] => destruct t end; cbn [fst] in Qf; try discriminate; injection Qf as <-; auto. }
  destruct (resolve_step ypd m o x e) as [[c er]|er|] eqn:Qs; cbn [bind] in Q; [|discriminate..].
  destruct c as [c|].
  - injection Q as -> ->. destruct (St _ eq_refl r eq_refl) as [-> | ->]; [split; [exact P|reflexivity]|split; [exact Pn|apply U, P]].
  - destruct er as [er|]; [discriminate|]. destruct (IH _ _ _ _ Pn Q) as [A B]. split; [exact A|]. rewrite B. apply U, P.
Qed.
Lemma resolve_in ypd m e x r err : history m -> uniform m -> primal m e ->
  resolve_edge ypd m e x = Ok (Some r, err) -> primal m r /\ orig m r = orig m e.
Proof.
  intros H U P Q. unfold resolve_edge in Q. destruct (orig m e) as [o|] eqn:O; [|discriminate].
  destruct (point_equal hi_cmp o x); [discriminate|]. destruct (resolve_walk_in ypd m o x H U _ _ _ _ _ P Q) as [A B]. split; [exact A|]. rewrite B. exact O.
Qed.
Lemma resolve_walk_ends ypd m o x : history m -> forall fuel seen e, exists_in m e ->
  NoDup seen -> (forall q, In q seen -> q < count m) -> count m < fuel + length seen ->
  resolve_walk fuel ypd m o x seen e <> Err tt.
Proof.
  intros H. induction fuel as [|fuel IH]; intros seen e E N B L Q; cbn [resolve_walk] in Q.
  - assert (length seen <= length (seq 0 (count m))) by (apply NoDup_incl_length; [exact N|]; intros q Qq; apply in_seq; split; [lia|apply B, Qq]).
    rewrite seq_length in *. lia.
  - destruct (existsb (Nat.eqb (fst e)) seen) eqn:Se; [discriminate|].
    assert (Ns : ~ In (fst e) seen).
    { intros I. assert (existsb (Nat.eqb (fst e)) seen = true) by (apply existsb_exists; exists (fst e); split; [exact I|apply Nat.eqb_refl]). congruence. }
    destruct (resolve_step ypd m o x e) as [[[c|] er]|er|] eqn:Qs; cbn [bind] in Q; [discriminate| | |discriminate].
    + destruct er; [discriminate|]. apply (IH (fst e :: seen) (onext m e)) in Q; [exact Q| | | |].
      * apply (wf_ex m (history_wf m H) e E).
      * constructor; assumption.
      * intros q [<-|I]; [apply E|apply B, I].
      * cbn [length]. lia.
    + unfold resolve_step in Qs. destruct (dest m e); [|discriminate]. destruct (dest m (onext m e)); discriminate.
Qed.
Lemma resolve_ends_fuel ypd m e x : history m -> exists_in m e -> resolve_edge ypd m e x <> Err tt.
Proof.
  intros H E. unfold resolve_edge. destruct (orig m e); [|discriminate]. destruct (point_equal hi_cmp p x); [discriminate|].
  apply (resolve_walk_ends ypd m p x H); [exact E|constructor|intros q []|cbn [length]; lia].
Qed.
Lemma find_from_in eq m p e : history m -> uniform m -> forall fuel ne r, primal m ne ->
  find_from eq fuel m p e ne = Ok (Some r) -> primal m r /\ orig m r = orig m ne /\ exists d, dest m r = Some d /\ eq p d = true.
Proof.
  intros H U. induction fuel as [|fuel IH]; intros ne r P Q; cbn [find_from] in Q; [discriminate|].
  destruct (edge_eqb ne e); [discriminate|]. destruct (dest m ne) as [d|] eqn:D; [|discriminate].
  destruct (eq p d) eqn:Eq; [injection Q as <-; split; [exact P|]; split; [reflexivity|exists d; auto]|].
  destruct (IH _ _ (primal_onext m ne H P) Q) as (A & B & C). split; [exact A|]. split; [rewrite B; apply U, P|exact C].
Qed.
Lemma find_in eq m p e r : history m -> uniform m -> primal m e ->
  find_onext_dest eq m p e = Ok (Some r) -> primal m r /\ orig m r = orig m e /\ exists d, dest m r = Some d /\ eq p d = true.
Proof.
  intros H U P Q. unfold find_onext_dest in Q. destruct (dest m e) as [d|] eqn:D; [|discriminate].
  destruct (eq p d) eqn:Eq; [injection Q as <-; split; [exact P|]; split; [reflexivity|exists d; auto]|].
  destruct (find_from_in eq m p e H U _ _ _ (primal_onext m e H P) Q) as (A & B & C). split; [exact A|]. split; [rewrite B; apply U, P|exact C].
Qed.
Lemma find_from_ends {P} eq (m : mem P) p e : forall l fuel ne, chain (onext m) e (ne :: l) -> ~ In e (ne :: l) ->
  length (ne :: l) < fuel -> find_from eq fuel m p e ne <> Err tt.
Proof.
  induction l as [|n' l IH]; intros fuel ne C N F; (destruct fuel as [|fuel]; [cbn in F; lia|]); cbn [find_from];
    rewrite eqb_neq by (intros ->; apply N; left; reflexivity); (destruct (dest m ne) as [d|]; [|discriminate]); (destruct (eq p d); [discriminate|]).
  - destruct C as [C _]. rewrite C. destruct fuel as [|fuel]; [cbn in F; lia|]. cbn [find_from]. rewrite eqb_refl. discriminate.
  - destruct C as [C C']. rewrite C. apply IH; [exact C'| |cbn [length] in *; lia]. intros I. apply N. right. exact I.
Qed.
Lemma find_ends eq m p e : history m -> exists_in m e -> find_onext_dest (P := pt) eq m p e <> Err tt.
Proof.
  intros H E. unfold find_onext_dest. destruct (dest m e) as [d|]; [|discriminate]. destruct (eq p d); [discriminate|].
  destruct (rings m H e E) as [(l & C & _) _]. pose proof (history_wf m H) as W.
  assert (B : length (e :: l) <= 4 * count m).
  { rewrite <- (map_length (fun x => x)). replace (4 * count m) with (length (all_edges m)).
    - apply NoDup_incl_length; [rewrite map_id; apply C|]. intros x X. rewrite map_id in X. apply all_edges_in.
      apply (cycle_members (onext m) m _ e (step_onext m W) E C (or_introl eq_refl) x X).
    - unfold all_edges. clear. assert (K : forall n s, length (flat_map (fun q : nat => [(q, 0); (q, 1); (q, 2); (q, 3)]) (seq s n)) = 4 * n);
      [|apply K]. induction n as [|n IH]; intros s; [reflexivity|]. cbn [seq flat_map app length]. rewrite IH. lia. }
  destruct C as [N [C C']]. destruct l as [|ne l].
  - rewrite C. rewrite Nat.add_comm. cbn [Nat.add find_from]. rewrite eqb_refl. discriminate.
  - rewrite C. apply find_from_ends with (l := l); [exact C'|inversion N; assumption|cbn [length] in *; lia].
Qed.

(** ** Connect *)
Definition sound (m : mem pt) (vx : vindex) : Prop := history m /\ uniform m /\ index_ok m vx.
Lemma connect_sound ypd m a b m' e : history m -> uniform m -> primal m a -> primal m b -> connect_at ypd m a b = Ok (m', e) ->
  history m' /\ uniform m' /\ keeps_points m m' /\ primal m' e /\ orig m' e = dest m a
  /\ (forall d r er, dest m a = Some d -> resolve_edge ypd m b d = Ok (Some r, er) -> dest m' e = orig m b).
Proof.
  intros H U Pa Pb Q. unfold connect_at in Q. destruct (dest m a) as [d|] eqn:D; [|discriminate].
  destruct (resolve_edge ypd m b d) as [[r er]|er|] eqn:R; cbn [bind] in Q; [|discriminate..].
  assert (Rb : resolve_of ypd m b d = r) by (unfold resolve_of; rewrite R; reflexivity).
  assert (Rin : forall x, r = Some x -> primal m x /\ orig m x = orig m b) by (intros x ->; exact (resolve_in _ _ _ _ _ _ H U Pb R)).
  assert (H' : history m').
  { apply (h_connect m a b (resolve_of ypd) m' e H (proj1 Pa) (proj2 Pa)); [|exact Q].
    intros d0 bb X. unfold resolve_of in X. destruct (resolve_edge ypd m b d0) as [[r0 er0]|?|] eqn:R0; [|discriminate..]. subst r0.
    destruct (resolve_in _ _ _ _ _ _ H U Pb R0) as [[A B] _]. split; [exact A|]. unfold same_kind. rewrite B. apply Pa. }
  split; [exact H'|]. unfold connect in Q. rewrite D, Rb in Q.
  pose proof (new_uniform m (dest (fst (new m)) a) (match r with Some bb => orig (fst (new m)) bb | None => None end) H U) as N.
  destruct (new m) as [m1 e1] eqn:Nw. cbn [fst] in N. cbv zeta in N. set (m2 := end_points m1 e1 _ _) in N, Q. 
  destruct N as (H2 & U2 & Pe & Oe & De & NE & Old).
  assert (X1 : forall x, exists_in m x -> orig m1 x = orig m x).
  { intros x X. pose proof (new_effect m H) as F. rewrite Nw in F. cbn [fst snd] in F. cbv zeta in F.
    destruct F as (_ & _ & _ & _ & _ & _ & _ & F). exact (proj2 (proj2 (proj2 (F x X)))). }
  assert (Da : dest m1 a = Some d) by (unfold dest; rewrite X1 by (apply ex_sym, Pa); exact D).
  rewrite Da in Oe.
  assert (Pa2 : primal m2 a) by (split; [apply Old, Pa|apply Pa]).
  assert (La : lnext m2 a = lnext m a) by (apply Old, Pa).
  assert (Lp : primal m2 (lnext m2 a) /\ orig m2 (lnext m2 a) = Some d).
  { assert (Ls : lnext m2 a = oprev m2 (sym a)) by (rewrite oprev_lnext by (apply ex_sym, Pa2); rewrite sym_sym by apply Pa; reflexivity).
    rewrite Ls. split; [apply primal_oprev; [exact H2|apply primal_sym, Pa2]|]. rewrite orig_oprev; [|assumption|assumption|apply primal_sym, Pa2].
    destruct (Old (sym a) (ex_sym m a (proj1 Pa))) as (_ & O & _). rewrite O. exact D. }
  destruct Lp as [Lp Lo]. set (m3 := splice m2 e1 (lnext m2 a)) in Q.
  assert (H3 : history m3) by (apply h_splice; [exact H2|apply Pe|apply Lp|unfold same_kind; rewrite (proj2 Pe), (proj2 Lp); reflexivity]).
  assert (U3 : uniform m3) by (apply uniform_splice; try assumption; congruence).
  assert (Kp : keeps_points m m2).
  { split; [intros x X; destruct (Old x X) as (A & B & _); auto|]. intros x p X O.
    destruct (Nat.eq_dec (fst x) (count m)) as [Qx|Qx].
    - assert (Ec : e1 = (count m, 0)) by (injection Nw as _ <-; reflexivity).
      destruct x as [q k]. cbn [fst] in Qx. subst q. destruct X as [_ Xk]. cbn [snd] in Xk.
      destruct k as [|[|[|[|k]]]]; [| | | |lia].
      + rewrite <- Ec, Oe in O. injection O as <-. exists (sym a). split; [apply ex_sym, Pa|exact D].
      + exfalso. injection Nw as Nm _. unfold m2, end_points, set_vertex, orig in O. cbn [vertex] in O. rewrite !upd_other in O by (rewrite Ec; discriminate).
        rewrite <- Nm in O. cbn [vertex set_next] in O. rewrite Nat.eqb_refl in O. discriminate O.
      + assert (Es : (count m, 2) = sym e1) by (rewrite Ec; reflexivity). rewrite Es in O. change (dest m2 e1 = Some p) in O. rewrite De in O.
        destruct r as [bb|]; [|discriminate]. destruct (Rin bb eq_refl) as [Pbb _]. rewrite X1 in O by apply Pbb. exists bb. split; [apply Pbb|exact O].
      + exfalso. injection Nw as Nm _. unfold m2, end_points, set_vertex, orig in O. cbn [vertex] in O. rewrite !upd_other in O by (rewrite Ec; discriminate).
        rewrite <- Nm in O. cbn [vertex set_next] in O. rewrite Nat.eqb_refl in O. discriminate O.
    - assert (Xm : exists_in m x).
      { destruct X as [Xa Xb]. change (count m2) with (count m1) in Xa. assert (Cm : count m1 = S (count m)) by (injection Nw as <- _; reflexivity). split; [lia|exact Xb]. }
      exists x. split; [exact Xm|]. destruct (Old x Xm) as (_ & B & _). congruence. }
  destruct r as [bb|]; injection Q as <- <-.
  - destruct (Rin bb eq_refl) as [Pbb Obb]. rewrite X1 in De by apply Pbb.
    assert (Pb3 : primal m3 bb) by (split; [apply Old, Pbb|apply Pbb]).
    assert (Ob3 : orig m3 bb = orig m bb) by (change (orig m3 bb) with (orig m2 bb); apply Old, Pbb).
    split; [|split; [exact Kp|split; [exact Pe|split; [exact Oe|]]]].
    + apply uniform_splice; try assumption; [exact (primal_sym m2 e1 Pe)|]. rewrite Ob3. exact De.
    + intros d0 r0 er0 _ _. rewrite <- Obb. exact De.
  - split; [exact U3|split; [exact Kp|split; [exact Pe|split; [exact Oe|]]]]. intros d0 r0 er0 [= <-] X. rewrite R in X. discriminate X.
Qed.
