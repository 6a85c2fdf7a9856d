(** Proofs about pseudopolygon: rings within the ring, and termination *)
From Coq Require Import ZArith Bool List Lia Arith Reals.
From Verif Require Import Base_Res Base_F64 Base_F64Arith Base_Geom M_Cmp M_Winding M_Triangle M_Planar M_Walker M_Pseudo
  S_Intersect S_Walker S_Pseudo P_F64Flocq P_Walker P_Walker7 P_Pseudo P_Pseudo2 P_Pseudo3.
Import ListNotations.
Local Open Scope nat_scope.

(** ** The map of points seen *)
Definition keys_ok (m : seen_map) : Prop := forall q v, In (q, v) m -> finite_pt q.
Lemma seen_at_in m p v : seen_at m p = Some v -> exists q, In (q, v) m /\ go_eq q p = true.
Proof.
  induction m as [|[q w] m IH]; intros H; [discriminate|]. cbn [seen_at] in H. destruct (go_eq q p) eqn:E.
  - injection H as ->. exists q. split; [now left|exact E].
  - destruct (IH H) as (q' & I & G). exists q'. split; [now right|exact G].
Qed.
Lemma go_eq_iff p q : finite_pt p -> finite_pt q -> go_eq p q = true <-> rpt p = rpt q.
Proof. intros A B. split; [now apply go_eq_R|now apply go_eq_R']. Qed.
Lemma go_eq_same a p q : finite_pt a -> finite_pt p -> finite_pt q -> rpt p = rpt q -> go_eq a p = go_eq a q.
Proof. intros A B C E. apply eq_true_iff_eq. rewrite !go_eq_iff by assumption. now rewrite E. Qed.
Lemma seen_at_rpt m p q : keys_ok m -> finite_pt p -> finite_pt q -> rpt p = rpt q -> seen_at m p = seen_at m q.
Proof.
  intros K A B E. induction m as [|[k v] m IH]; [reflexivity|]. cbn [seen_at].
  rewrite (go_eq_same k p q); [|apply (K k v); now left|exact A|exact B|exact E].
  destruct (go_eq k q); [reflexivity|]. apply IH. intros x y H. apply (K x y). now right.
Qed.
Lemma seen_at_delete m p q : keys_ok m -> finite_pt p -> finite_pt q ->
  (rpt p = rpt q -> seen_at (seen_delete m p) q = None) /\ (rpt p <> rpt q -> seen_at (seen_delete m p) q = seen_at m q).
Proof.
  intros K A B. induction m as [|[k v] m IH]; [split; reflexivity|].
  assert (K' : keys_ok m) by (intros x y H; apply (K x y); now right). assert (Fk : finite_pt k) by (apply (K k v); now left).
  destruct (IH K') as [IH1 IH2]. unfold seen_delete in *. cbn [filter fst]. destruct (go_eq k p) eqn:E; cbn [negb].
  - apply go_eq_iff in E; [|exact Fk|exact A]. split; [exact IH1|]. intros N. rewrite IH2 by exact N. cbn [seen_at].
    rewrite go_eq_false; [reflexivity|exact Fk|exact B|congruence].
  - cbn [seen_at]. split; intros N.
    + assert (E' : go_eq k q = false) by (rewrite <- E; symmetry; now apply go_eq_same). rewrite E'. now apply IH1.
    + destruct (go_eq k q); [reflexivity|]. now apply IH2.
Qed.
Lemma keys_delete m p : keys_ok m -> keys_ok (seen_delete m p).
Proof. intros K q v H. apply filter_In in H as [H _]. now apply (K q v). Qed.
Lemma keys_set m p v : keys_ok m -> finite_pt p -> keys_ok (seen_set m p v).
Proof. intros K F q w [H|H]; [apply pair_equal_spec in H as [<- _]; exact F|now apply (keys_delete m p K q w)]. Qed.
Lemma seen_at_set m p v q : keys_ok m -> finite_pt p -> finite_pt q ->
  (rpt p = rpt q -> seen_at (seen_set m p v) q = Some v) /\ (rpt p <> rpt q -> seen_at (seen_set m p v) q = seen_at m q).
Proof.
  intros K A B. unfold seen_set. cbn [seen_at]. split; intros N.
  - now rewrite go_eq_R'.
  - rewrite go_eq_false by assumption. now apply seen_at_delete.
Qed.
Lemma keys_deletes ps : forall m, keys_ok m -> keys_ok (fold_left seen_delete ps m).
Proof. induction ps as [|p ps IH]; intros m K; [exact K|]. cbn [fold_left]. now apply IH, keys_delete. Qed.
Lemma seen_at_deletes ps q : finite_pt q -> Forall finite_pt ps -> forall m, keys_ok m ->
  ((exists p, In p ps /\ rpt p = rpt q) -> seen_at (fold_left seen_delete ps m) q = None) /\
  ((forall p, In p ps -> rpt p <> rpt q) -> seen_at (fold_left seen_delete ps m) q = seen_at m q).
Proof.
  intros Fq. induction ps as [|p ps IH]; intros F m K; [split; [intros (p & [] & _)|reflexivity]|].
  inversion F as [|? ? Fp Fps]; subst. cbn [fold_left]. destruct (IH Fps (seen_delete m p) (keys_delete _ _ K)) as [I1 I2].
  destruct (seen_at_delete m p q K Fp Fq) as [D1 D2]. split.
  - intros (x & [<-|H] & E).
    + assert (Dec : (exists y, In y ps /\ rpt y = rpt q) \/ (forall y, In y ps -> rpt y <> rpt q)).
      { clear - Fps Fq. induction ps as [|y ps IH]; [right; intros y []|]. inversion Fps as [|? ? Fy Fr]; subst. destruct (IH Fr) as [(z & Z & E)|N].
        - left. exists z. split; [now right|exact E].
        - destruct (go_eq y q) eqn:E.
          + left. exists y. split; [now left|now apply go_eq_R].
          + right. intros z [<-|Z]; [|now apply N]. intros Q. rewrite go_eq_R' in E by assumption. discriminate. }
      destruct Dec as [Dx|Dn]; [now apply I1|]. rewrite I2 by exact Dn. now apply D1.
    + apply I1. now exists x.
  - intros N. rewrite I2; [apply D2, N; now left|]. intros y Y. apply N. now right.
Qed.

(** ** The invariant of the loop *)
Record inv (o : list pt) (i : nat) (points : list pt) (seen : seen_map) : Prop := {
  inv_keys : keys_ok seen;
  inv_distinct : distinct points;
  inv_from : incl points o;
  inv_length : length points <= i;
  inv_all : forall k, k < length points -> exists i0, seen_at seen (at_ points k) = Some (i0, k);
  inv_seen : forall p i0 k, finite_pt p -> seen_at seen p = Some (i0, k) ->
    k < length points /\ rpt p = rpt (at_ points k) /\ i0 < i /\ rpt (at_ o i0) = rpt p /\
    forall j k', i0 <= j < i -> k' < k -> rpt (at_ o j) <> rpt (at_ points k')
}.
Lemma inv_mono o i points seen p i0 k p' i0' k' : Forall finite_pt o -> i <= length o -> inv o i points seen -> finite_pt p -> finite_pt p' ->
  seen_at seen p = Some (i0, k) -> seen_at seen p' = Some (i0', k') -> k < k' -> i0 < i0'.
Proof.
  intros Fo Io V Fp Fp' H H' L. destruct (inv_seen _ _ _ _ V p i0 k Fp H) as (K & E & I & O & _).
  destruct (inv_seen _ _ _ _ V p' i0' k' Fp' H') as (K' & E' & I' & O' & N).
  destruct (Nat.lt_ge_cases i0 i0') as [Q|Q]; [exact Q|]. exfalso. apply (N i0 k ltac:(lia) L). congruence.
Qed.
Lemma at_app pts p k : at_ (pts ++ [p]) k = if k <? length pts then at_ pts k else if k =? length pts then p else (f64_zero, f64_zero).
Proof.
  unfold at_. destruct (Nat.ltb_spec k (length pts)) as [L|L]; [now apply app_nth1|]. rewrite app_nth2 by exact L.
  destruct (Nat.eqb_spec k (length pts)) as [->|N]; [now rewrite Nat.sub_diag|]. destruct (k - length pts) as [|[|m]] eqn:E; [lia|reflexivity|reflexivity].
Qed.
Lemma distinct_snoc pts p : distinct pts -> finite_pt p -> (forall k, k < length pts -> rpt (at_ pts k) <> rpt p) -> distinct (pts ++ [p]).
Proof.
  intros [F N] Fp H. split; [apply Forall_app; split; [exact F|now constructor]|]. rewrite map_app. cbn [map].
  apply NoDup_rev in N. rewrite <- (rev_involutive (map rpt pts ++ [rpt p])), rev_app_distr. apply NoDup_rev. cbn [rev app]. constructor; [|exact N].
  rewrite <- in_rev. intros Q. apply in_map_iff in Q as (q & E & Q). apply (In_nth _ _ (f64_zero, f64_zero)) in Q as (k & K & <-). now apply (H k K).
Qed.
Lemma at_firstn pts n k : k < n -> at_ (firstn n pts) k = at_ pts k.
Proof. intros H. unfold at_. revert n k H. induction pts as [|p pts IH]; intros n k H; [now rewrite firstn_nil|]. destruct n; [lia|]. destruct k; [reflexivity|]. apply IH. lia. Qed.
Lemma distinct_firstn pts n : distinct pts -> distinct (firstn n pts).
Proof.
  intros [F N]. rewrite <- (firstn_skipn n pts) in F, N. apply Forall_app in F as [F _]. split; [exact F|].
  rewrite map_app in N. clear -N. induction (map rpt (firstn n pts)) as [|x l IH]; [constructor|]. cbn in N. inversion N; subst. constructor; [|now apply IH].
  intros Q. apply H1. apply in_or_app. now left.
Qed.
Lemma slice_in o a b x : In x (firstn (b - a) (skipn a o)) -> exists j, a <= j < b /\ j < length o /\ x = at_ o j.
Proof.
  intros H. apply (In_nth _ _ (f64_zero, f64_zero)) in H as (t & T & <-). rewrite firstn_length, skipn_length in T.
  exists (a + t). split; [lia|split; [lia|]]. change (at_ (firstn (b - a) (skipn a o)) t = at_ o (a + t)). rewrite at_firstn by lia. unfold at_.
  rewrite <- (firstn_skipn a o) at 2. rewrite app_nth2 by (rewrite firstn_length; lia). f_equal. rewrite firstn_length. lia.
Qed.
Lemma in_slice o a b j : a <= j < b -> j < length o -> In (at_ o j) (firstn (b - a) (skipn a o)).
Proof.
  intros H L. replace (at_ o j) with (at_ (firstn (b - a) (skipn a o)) (j - a)).
  - apply nth_In. rewrite firstn_length, skipn_length. lia.
  - rewrite at_firstn by lia. unfold at_. rewrite <- (firstn_skipn a o) at 2. rewrite app_nth2 by (rewrite firstn_length; lia). f_equal. rewrite firstn_length. lia.
Qed.

Section Rings.
Variables (tri : list pt -> res pp_err (list line)) (o : list pt).
Hypothesis Fo : Forall finite_pt o.

Lemma at_o_finite i : i < length o -> finite_pt (at_ o i).
Proof. intros H. rewrite Forall_forall in Fo. apply Fo, nth_In, H. Qed.

Lemma inv_new i points seen : i < length o -> inv o i points seen -> seen_at seen (at_ o i) = None ->
  inv o (S i) (points ++ [at_ o i]) (seen_set seen (at_ o i) (i, length points)).
Proof.
  intros I V N. pose proof (at_o_finite i I) as Fp. set (p := at_ o i) in *.
  assert (Np : forall k, k < length points -> rpt (at_ points k) <> rpt p).
  { intros k K E. destruct (inv_all _ _ _ _ V k K) as (i0 & H). rewrite (seen_at_rpt _ _ p) in H; [congruence|apply V| |exact Fp|exact E].
    apply at_finite; [apply V|exact K]. }
  constructor.
  - apply keys_set; [apply V|exact Fp].
  - apply distinct_snoc; [apply V|exact Fp|exact Np].
  - intros x X. apply in_app_or in X as [X|[<-|[]]]; [now apply (inv_from _ _ _ _ V)|apply nth_In, I].
  - rewrite app_length. cbn [length]. pose proof (inv_length _ _ _ _ V). lia.
  - intros k K. rewrite app_length in K. cbn [length] in K. rewrite at_app. destruct (Nat.ltb_spec k (length points)) as [L|L].
    + destruct (inv_all _ _ _ _ V k L) as (i0 & H). exists i0.
      rewrite (proj2 (seen_at_set seen p _ (at_ points k) (inv_keys _ _ _ _ V) Fp (at_finite _ _ (inv_distinct _ _ _ _ V) L))); [exact H|].
      apply not_eq_sym. now apply Np.
    + destruct (Nat.eqb_spec k (length points)) as [->|]; [|lia]. exists i. now apply seen_at_set; [apply V| | |].
  - intros q i0 k Fq H. destruct (seen_at_set seen p (i, length points) q (inv_keys _ _ _ _ V) Fp Fq) as [S1 S2].
    destruct (go_eq p q) eqn:E.
    + apply go_eq_R in E; [|exact Fp|exact Fq]. rewrite S1 in H by exact E. injection H as <- <-.
      split; [rewrite app_length; cbn; lia|]. rewrite at_app, Nat.ltb_irrefl, Nat.eqb_refl. split; [now symmetry|]. split; [lia|]. split; [exact E|].
      intros j k' J K'. assert (j = i) as -> by lia. rewrite at_app. destruct (Nat.ltb_spec k' (length points)); [|lia]. apply not_eq_sym. now apply Np.
    + assert (E' : rpt p <> rpt q) by (intros Q; rewrite go_eq_R' in E by assumption; discriminate).
      rewrite S2 in H by exact E'. destruct (inv_seen _ _ _ _ V q i0 k Fq H) as (K & R & I0 & O & A).
      split; [rewrite app_length; lia|]. rewrite at_app. destruct (Nat.ltb_spec k (length points)); [|lia]. split; [exact R|]. split; [lia|]. split; [exact O|].
      intros j k' J K'. rewrite at_app. destruct (Nat.ltb_spec k' (length points)); [|lia].
      destruct (Nat.eq_dec j i) as [->|]; [apply not_eq_sym; now apply Np|apply A; lia].
Qed.
Lemma inv_again i points seen i0 i1 : i < length o -> inv o i points seen -> seen_at seen (at_ o i) = Some (i0, i1) -> i0 = i - 1 ->
  inv o (S i) points (seen_set seen (at_ o i) (i, i1)).
Proof.
  intros I V N E0. pose proof (at_o_finite i I) as Fp. set (p := at_ o i) in *.
  destruct (inv_seen _ _ _ _ V p i0 i1 Fp N) as (K1 & R1 & I0 & O1 & A1).
  constructor; [apply keys_set; [apply V|exact Fp]|apply V|apply V|pose proof (inv_length _ _ _ _ V); lia| |].
  - intros k K. destruct (seen_at_set seen p (i, i1) (at_ points k) (inv_keys _ _ _ _ V) Fp (at_finite _ _ (inv_distinct _ _ _ _ V) K)) as [S1 S2].
    destruct (Nat.eq_dec k i1) as [->|D]; [exists i; now apply S1|].
    destruct (inv_all _ _ _ _ V k K) as (j & H). exists j. rewrite S2; [exact H|]. rewrite R1. intros Q. apply D. symmetry. now apply (at_inj points); [apply V| | |].
  - intros q j k Fq H. destruct (seen_at_set seen p (i, i1) q (inv_keys _ _ _ _ V) Fp Fq) as [S1 S2].
    assert (Own : forall k', k' < i1 -> rpt p <> rpt (at_ points k')).
    { intros k' K' Q. rewrite R1 in Q. apply at_inj in Q; [lia|apply V|exact K1|lia]. }
    destruct (go_eq p q) eqn:E.
    + apply go_eq_R in E; [|exact Fp|exact Fq]. rewrite S1 in H by exact E. injection H as <- <-.
      split; [exact K1|]. split; [congruence|]. split; [lia|]. split; [exact E|].
      intros j k' J K'. assert (j = i) as -> by lia. now apply Own.
    + assert (E' : rpt p <> rpt q) by (intros Q; rewrite go_eq_R' in E by assumption; discriminate).
      rewrite S2 in H by exact E'. destruct (inv_seen _ _ _ _ V q j k Fq H) as (K & R & J & O & A).
      split; [exact K|]. split; [exact R|]. split; [lia|]. split; [exact O|].
      intros j' k' J' K'. destruct (Nat.eq_dec j' i) as [->|]; [|apply A; lia]. apply Own.
      destruct (Nat.le_gt_cases k i1) as [L|L]; [lia|]. exfalso. pose proof (inv_mono o i points seen p i0 i1 q j k Fo ltac:(lia) V Fp Fq N H L). lia.
Qed.
Lemma inv_cut i points seen i0 i1 : i < length o -> inv o i points seen -> seen_at seen (at_ o i) = Some (i0, i1) ->
  inv o (S i) (firstn (i1 + 1) points) (seen_set (fold_left seen_delete (firstn (i - i0) (skipn i0 o)) seen) (at_ o i) (i, length (firstn (i1 + 1) points) - 1)).
Proof.
  intros I V N. pose proof (at_o_finite i I) as Fp. set (p := at_ o i) in *.
  destruct (inv_seen _ _ _ _ V p i0 i1 Fp N) as (K1 & R1 & I0 & O1 & A1).
  assert (Ln : length (firstn (i1 + 1) points) = i1 + 1) by (rewrite firstn_length; lia). rewrite Ln. replace (i1 + 1 - 1) with i1 by lia.
  set (npts := firstn (i - i0) (skipn i0 o)).
  assert (Fn : Forall finite_pt npts).
  { apply Forall_forall. intros x X. apply slice_in in X as (j & _ & J & ->). now apply at_o_finite. }
  assert (Kd : keys_ok (fold_left seen_delete npts seen)) by (apply keys_deletes, V).
  assert (Own : forall k', k' < i1 -> rpt p <> rpt (at_ points k')).
  { intros k' K' Q. rewrite R1 in Q. apply at_inj in Q; [lia|apply V|exact K1|lia]. }
  assert (Kept : forall k q, finite_pt q -> k < i1 -> rpt q = rpt (at_ points k) -> seen_at (fold_left seen_delete npts seen) q = seen_at seen q).
  { intros k q Fq K E. apply (seen_at_deletes npts q Fq Fn seen (inv_keys _ _ _ _ V)). intros x X. apply slice_in in X as (j & J & Lj & ->). rewrite E. now apply A1. }
  constructor.
  - now apply keys_set.
  - apply distinct_firstn, V.
  - intros x X. apply (inv_from _ _ _ _ V). rewrite <- (firstn_skipn (i1 + 1) points). apply in_or_app. now left.
  - rewrite Ln. pose proof (inv_length _ _ _ _ V). lia.
  - intros k K. rewrite Ln in K. rewrite at_firstn by lia.
    assert (Fk : finite_pt (at_ points k)) by (apply at_finite; [apply V|lia]).
    destruct (seen_at_set (fold_left seen_delete npts seen) p (i, i1) (at_ points k) Kd Fp Fk) as [S1 S2].
    destruct (Nat.eq_dec k i1) as [->|D]; [exists i; now apply S1|].
    destruct (inv_all _ _ _ _ V k ltac:(lia)) as (j & H). exists j. rewrite S2 by (apply Own; lia). rewrite (Kept k); [exact H|exact Fk|lia|reflexivity].
  - intros q j k Fq H. destruct (seen_at_set (fold_left seen_delete npts seen) p (i, i1) q Kd Fp Fq) as [S1 S2]. rewrite Ln.
    destruct (go_eq p q) eqn:E.
    + apply go_eq_R in E; [|exact Fp|exact Fq]. rewrite S1 in H by exact E. injection H as <- <-.
      rewrite at_firstn by lia. split; [lia|]. split; [congruence|]. split; [lia|]. split; [exact E|].
      intros j k' J K'. assert (j = i) as -> by lia. rewrite at_firstn by lia. now apply Own.
    + assert (E' : rpt p <> rpt q) by (intros Q; rewrite go_eq_R' in E by assumption; discriminate).
      rewrite S2 in H by exact E'. destruct (seen_at_deletes npts q Fq Fn seen (inv_keys _ _ _ _ V)) as [D1 D2].
      assert (Z : seen_at seen q = Some (j, k) /\ k < i1).
      { destruct (seen_at seen q) as [[j' k']|] eqn:Q.
        - destruct (inv_seen _ _ _ _ V q j' k' Fq Q) as (K & R & J & O & A).
          destruct (Nat.lt_trichotomy k' i1) as [L|[->|L]].
          + rewrite (Kept k' q Fq L R), Q in H. injection H as <- <-. split; [reflexivity|exact L].
          + exfalso. apply E'. congruence.
          + exfalso. pose proof (inv_mono o i points seen p i0 i1 q j' k' Fo ltac:(lia) V Fp Fq N Q L) as M.
            rewrite D1 in H; [discriminate|]. exists (at_ o j'). split; [apply in_slice; lia|exact O].
        - exfalso. destruct (seen_at (fold_left seen_delete npts seen) q) eqn:X; [|discriminate].
          assert (Dec : (exists x, In x npts /\ rpt x = rpt q) \/ (forall x, In x npts -> rpt x <> rpt q)).
          { clear - Fn Fq. induction npts as [|y ps IH]; [right; intros y []|]. inversion Fn as [|? ? Fy Fr]; subst. destruct (IH Fr) as [(z & Z & E)|N].
            - left. exists z. split; [now right|exact E].
            - destruct (go_eq y q) eqn:E.
              + left. exists y. split; [now left|now apply go_eq_R].
              + right. intros z [<-|Z]; [|now apply N]. intros Q. rewrite go_eq_R' in E by assumption. discriminate. }
          destruct Dec as [Dx|Dn]; [specialize (D1 Dx)|specialize (D2 Dn)]; discriminate. }
      destruct Z as [Q L]. destruct (inv_seen _ _ _ _ V q j k Fq Q) as (K & R & J & O & A). rewrite at_firstn by lia.
      split; [lia|]. split; [exact R|]. split; [lia|]. split; [exact O|].
      intros j' k' J' K'. rewrite at_firstn by lia. destruct (Nat.eq_dec j' i) as [->|]; [apply Own; lia|apply A; lia].
Qed.

(** What the loop hands on. *)
Definition sub_list (npts : list pt) : Prop := incl npts o /\ length npts < length o /\ 2 <= length npts.
Lemma sub_rings_spec rest : forall i points edges seen, skipn i o = rest -> i + length rest = length o -> inv o i points seen ->
  (exists npts e, sub_list npts /\ tri npts = Err e /\ sub_rings tri o i rest points edges seen = Err e) \/
  (exists npts, sub_list npts /\ tri npts = Panic /\ sub_rings tri o i rest points edges seen = Panic) \/
  (exists points' edges', sub_rings tri o i rest points edges seen = Ok (points', edges') /\
     distinct points' /\ incl points' o /\ length points' <= length o /\
     forall l, In l edges' -> In l edges \/ exists npts es, sub_list npts /\ tri npts = Ok es /\ In l es).
Proof.
  induction rest as [|p rest IH]; intros i points edges seen E L V.
  - right; right. exists points, edges. split; [reflexivity|]. split; [apply V|]. split; [apply V|]. cbn [length] in L. split; [pose proof (inv_length _ _ _ _ V); lia|]. tauto.
  - cbn [length] in L. assert (I : i < length o) by lia.
    assert (Ep : p = at_ o i /\ skipn (S i) o = rest).
    { split.
      - unfold at_. rewrite <- (firstn_skipn i o). rewrite app_nth2 by (rewrite firstn_length; lia). rewrite firstn_length, E.
        replace (i - Nat.min i (length o)) with 0 by lia. reflexivity.
      - clear - E. revert o E. induction i as [|i IHi]; intros o E; [cbn in E; subst; reflexivity|]. destruct o as [|x o']; [discriminate|]. cbn [skipn] in *. now apply IHi. }
    destruct Ep as [Ep Es]. subst p. cbn [sub_rings].
    destruct (seen_at seen (at_ o i)) as [[i0 i1]|] eqn:Q.
    + destruct (Nat.eqb_spec i0 (i - 1)) as [E0|E0].
      * apply IH; [exact Es|lia|]. now apply inv_again with i0.
      * cbv zeta. destruct (inv_seen _ _ _ _ V (at_ o i) i0 i1 (at_o_finite i I) Q) as (K1 & _ & I0 & _ & _).
        set (npts := firstn (i - i0) (skipn i0 o)).
        assert (Sl : sub_list npts).
        { split; [intros x X; apply slice_in in X as (j & _ & J & ->); apply nth_In, J|]. subst npts. rewrite firstn_length, skipn_length. lia. }
        destruct (tri npts) as [es|e|] eqn:T; cbn [bind].
        -- destruct (IH (S i) (firstn (i1 + 1) points) (edges ++ es)
             (seen_set (fold_left seen_delete npts seen) (at_ o i) (i, length (firstn (i1 + 1) points) - 1)) Es ltac:(lia) (inv_cut i points seen i0 i1 I V Q))
             as [H|[H|(points' & edges' & H1 & H2 & H3 & H4 & H5)]]; [now left|right; now left|right; right].
           exists points', edges'. split; [exact H1|]. split; [exact H2|]. split; [exact H3|]. split; [exact H4|].
           intros l Hl. destruct (H5 l Hl) as [X|X]; [|now right]. apply in_app_or in X as [X|X]; [now left|]. right. now exists npts, es.
        -- left. exists npts, e. repeat split; try assumption; apply Sl.
        -- right; left. exists npts. repeat split; try assumption; apply Sl.
    + apply IH; [exact Es|lia|]. now apply inv_new.
Qed.
Lemma inv_start : inv o 0 [] [].
Proof.
  constructor.
  - intros q v [].
  - split; constructor.
  - intros x [].
  - cbn; lia.
  - intros k K. cbn in K. lia.
  - intros p i0 k _ H. discriminate.
Qed.
Lemma sub_rings_start :
  (exists npts e, sub_list npts /\ tri npts = Err e /\ sub_rings tri o 0 o [] [] [] = Err e) \/
  (exists npts, sub_list npts /\ tri npts = Panic /\ sub_rings tri o 0 o [] [] [] = Panic) \/
  (exists points' edges', sub_rings tri o 0 o [] [] [] = Ok (points', edges') /\
     distinct points' /\ incl points' o /\ length points' <= length o /\
     forall l, In l edges' -> exists npts es, sub_list npts /\ tri npts = Ok es /\ In l es).
Proof.
  destruct (sub_rings_spec o 0 [] [] [] eq_refl eq_refl inv_start) as [H|[H|(ps & es & H1 & H2 & H3 & H4 & H5)]]; [now left|right; now left|right; right].
  exists ps, es. repeat (split; [assumption|]). intros l Hl. now destruct (H5 l Hl) as [[]|X].
Qed.
End Rings.
