(** * NearestNeighbor *)
From Coq Require Import ZArith Bool List Permutation Sorted Lia ZifyBool ZifyNat.
From Verif Require Import Base_F64 Base_F64Arith Base_Res P_F64 P_F64Sqrt S_Kd M_Rtree S_Rtree P_Rtree P_RtreeNear.
Import ListNotations.

Section NN.
  Context {A : Type} (bounds : A -> rect).
  Local Notation node := (node A).
  Local Notation entry := (entry A).
  Variables (max lo d : nat).
  Variable p : list f64.
  Variable sort_dists : list (entry * f64) -> list (entry * f64).
  Hypothesis sort_perm : forall l, Permutation (sort_dists l) l.
  Local Notation good := (good bounds max lo (fin_rect d)).
  Local Notation ge := (ge bounds max lo (fin_rect d)).

  Definition nn_leaf (es : list entry) (acc : option A * f64) : option A * f64 :=
    fold_left (fun acc e =>
       let dist := f64_sqrt (min_dist p (fst e)) in
       if f64_lt dist (snd acc) then (match snd e with inr a => Some a | inl _ => None end, dist) else acc) es acc.
  Fixpoint nn_branch (rec : node -> f64 -> option A -> res unit (option A * f64)) (l : list (entry * f64)) (best : option A) (w : f64)
    : res unit (option A * f64) :=
    match l with
    | [] => Ok (best, w)
    | ((_, inr _), _) :: _ => Panic
    | ((_, inl c), _) :: tl =>
        do (sub, dist) <- rec c w best;
        if f64_lt dist w then nn_branch rec tl sub dist else nn_branch rec tl best w
    end.
  Lemma nearest_eq fuel leaf level es w best :
    nearest sort_dists (S fuel) p (Node leaf level es) w best =
    if leaf then Ok (nn_leaf es (best, w))
    else nn_branch (nearest sort_dists fuel p) (prune_entries p (sort_entries sort_dists p es)) best w.
  Proof.
    cbn [nearest]. destruct leaf; [reflexivity|].
    generalize (prune_entries p (sort_entries sort_dists p es)). intros l. revert best w.
    induction l as [|[[r [c|a]] v] l IH]; intros best w; [reflexivity| |reflexivity]. cbn [nn_branch].
    destruct (nearest sort_dists fuel p c w best) as [[sub dist]| |]; try reflexivity. cbn [bind].
    destruct (f64_lt dist w); apply IH.
  Qed.

  Lemma leaf_member level es : Forall (ge true level) es -> forall best w a,
    fst (nn_leaf es (best, w)) = Some a -> In a (flat_map e_objs es) \/ best = Some a.
  Proof.
    intros H. induction H as [|[r [c|b]] es He H IH]; intros best w a E; cbn [nn_leaf fold_left fst snd] in E.
    - now right.
    - destruct He as [_ [X _]]. discriminate.
    - cbn [flat_map]. change (e_objs (r, inr b)) with [b]. cbn [app].
      destruct (f64_lt (f64_sqrt (min_dist p r)) w).
      + destruct (IH _ _ _ E) as [IH'|IH']; [left; now right|]. injection IH' as ->. left. now left.
      + destruct (IH _ _ _ E) as [IH'|IH']; [left; now right|now right].
  Qed.

  Lemma branch_member level rec l : Forall (fun e => ge false level (fst e)) l ->
    (forall r c w best, ge false level (r, inl c) -> exists best' w', rec c w best = Ok (best', w') /\
       forall a, best' = Some a -> In a (objs c) \/ best = Some a) ->
    forall best w, exists best' w', nn_branch rec l best w = Ok (best', w') /\
      forall a, best' = Some a -> In a (flat_map e_objs (map fst l)) \/ best = Some a.
  Proof.
    intros H Hrec. induction H as [|[[r [c|b]] v] l He H IH]; intros best w.
    - exists best, w. split; [reflexivity|]. auto.
    - cbn [nn_branch map fst flat_map]. change (e_objs (r, inl c)) with (objs c).
      destruct (Hrec r c w best He) as (sub & dist & E & Hs). rewrite E. cbn [bind]. destruct (f64_lt dist w).
      + destruct (IH sub dist) as (b' & w' & E' & Hb). exists b', w'. split; [exact E'|]. intros a Ha.
        destruct (Hb a Ha) as [?|Hs']; [left; apply in_or_app; now right|]. destruct (Hs a Hs'); [left; apply in_or_app; now left|now right].
      + destruct (IH best w) as (b' & w' & E' & Hb). exists b', w'. split; [exact E'|]. intros a Ha.
        destruct (Hb a Ha) as [?|?]; [left; apply in_or_app; now right|now right].
    - destruct He as [_ [X _]]. discriminate.
  Qed.

  Lemma nearest_member fuel : forall n w best, good n -> (n_level n <= Z.of_nat fuel)%Z ->
    exists best' w', nearest sort_dists fuel p n w best = Ok (best', w') /\
      forall a, best' = Some a -> In a (objs n) \/ best = Some a.
  Proof.
    induction fuel as [|fuel IH]; intros n w best G L.
    { destruct n as [leaf level es]. apply good_eq in G. cbn in L. lia. }
    destruct n as [leaf level es]. rewrite nearest_eq. apply good_eq in G. destruct G as (Hl & El & G). cbn [n_level] in L.
    rewrite objs_node. destruct leaf.
    - destruct (nn_leaf es (best, w)) as [b' w'] eqn:E. exists b', w'. split; [reflexivity|].
      intros a ->. apply (leaf_member level es G best w). now rewrite E.
    - set (l := prune_entries p (sort_entries sort_dists p es)).
      assert (Hin : forall e, In e (map fst l) -> In e es).
      { intros e He. apply in_map_iff in He. destruct He as (x & <- & Hx). unfold l, prune_entries in Hx.
        apply filter_In in Hx. destruct Hx as [Hx _]. unfold sort_entries in Hx. apply (Permutation_in _ (sort_perm _)) in Hx.
        apply in_map_iff in Hx. destruct Hx as (y & <- & Hy). exact Hy. }
      assert (Hge : Forall (fun e => ge false level (fst e)) l).
      { apply Forall_forall. intros e He. rewrite Forall_forall in G. apply G, Hin. now apply in_map. }
      destruct (branch_member level (nearest sort_dists fuel p) l Hge) with (best := best) (w := w) as (b' & w' & E & Hb).
      + intros r c w' best' [_ (_ & Lc & _ & _ & Gc)]. cbn [snd] in *. apply IH; [exact Gc|lia].
      + exists b', w'. split; [exact E|]. intros a Ha. destruct (Hb a Ha) as [H|H]; [left|now right].
        apply in_flat_map in H. destruct H as (e & He & Hae). apply in_flat_map. exists e. split; [now apply Hin|exact Hae].
  Qed.

  (** One leaf: exact. *)
  Hypothesis Hp : Forall fin p.
  Let dist a := f64_sqrt (min_dist p (bounds a)).

  Lemma leaf_exact level es : Forall (ge true level) es -> forall best w, pos w ->
    let '(b, v) := nn_leaf es (best, w) in
    pos v /\ f64_le v w = true /\ Forall (fun a => f64_le v (dist a) = true) (flat_map e_objs es) /\
    (b = best /\ v = w \/ exists a, b = Some a /\ v = dist a /\ In a (flat_map e_objs es)).
  Proof.
    intros H. induction H as [|[r [c|b]] es He H IH]; intros best w Hw; cbn [nn_leaf fold_left fst snd].
    - split; [exact Hw|]. split; [apply f64_le_refl; apply Hw|]. split; [constructor|]. now left.
    - destruct He as [_ [X _]]. discriminate.
    - destruct He as [Hr [_ E]]. cbn [fst snd] in *. subst r. cbn [flat_map]. change (e_objs (bounds b, inr b)) with [b]. cbn [app].
      change (f64_sqrt (min_dist p (bounds b))) with (dist b).
      assert (Pb : pos (dist b)) by (apply fsqrt_pos; eapply min_dist_pos; eauto).
      destruct (f64_lt (dist b) w) eqn:C.
      + specialize (IH (Some b) (dist b) Pb). fold (nn_leaf es (Some b, dist b)). destruct (nn_leaf es (Some b, dist b)) as [b' v].
        destruct IH as (I1 & I2 & I3 & I4). split; [exact I1|]. split; [|split].
        * eapply f64_le_trans; [exact I2|]. now apply f64_lt_le.
        * now constructor.
        * right. destruct I4 as [[-> ->]|(a & -> & -> & Ha)]; [exists b|exists a]; auto using in_eq, in_cons.
      + specialize (IH best w Hw). fold (nn_leaf es (best, w)). destruct (nn_leaf es (best, w)) as [b' v].
        destruct IH as (I1 & I2 & I3 & I4). split; [exact I1|]. split; [exact I2|]. split.
        * constructor; [|exact I3]. eapply f64_le_trans; [exact I2|]. apply f64_not_lt_le in C; [exact C|apply Pb|apply Hw].
        * destruct I4 as [I4|(a & -> & -> & Ha)]; [now left|right; exists a; auto using in_cons].
  Qed.
End NN.

Lemma nn_member {A} (bounds : A -> rect) min max d l t p sort_dists : (2 <= max)%nat -> Forall (fun a => fin_rect d (bounds a)) l ->
  inserts bounds min max empty_tree l = Ok t -> (forall l, Permutation (sort_dists l) l) ->
  exists r, nearest_neighbor sort_dists (Z.to_nat (height t)) t p = Ok r /\ forall a, r = Some a -> In a l.
Proof.
  intros Hmax H E Sp.
  destruct (inserts_spec bounds min max 1 Hmax (or_introl (le_n 1)) d (fin_rect d) (fin_rect_ok d) (fin_rect_bb d) l empty_tree t)
    as (G & P & S & _); auto.
  { apply (empty_good bounds min); [exact Hmax|lia]. }
  rewrite app_nil_r in P. destruct G as (G & _ & Hh). rewrite Hh.
  destruct (nearest_member bounds max 1 d p sort_dists Sp (Z.to_nat (n_level (root t))) (root t) f64_max None G) as (b & w & Eb & Hb).
  { destruct (root t). cbn. lia. }
  unfold nearest_neighbor. rewrite Eb. cbn [bind]. exists b. split; [reflexivity|]. intros a ->.
  destruct (Hb a eq_refl) as [Ha|]; [|discriminate]. now apply (Permutation_in _ P).
Qed.

Lemma nn_leaf_exact {A} (bounds : A -> rect) min max d l t p sort_dists : (2 <= max)%nat -> Forall (fun a => fin_rect d (bounds a)) l ->
  inserts bounds min max empty_tree l = Ok t -> height t = 1%Z -> fin_point p ->
  exists r, nearest_neighbor sort_dists 1 t p = Ok r /\
    match r with
    | Some a => In a l /\ Forall (fun b => f64_le (f64_sqrt (min_dist p (bounds a))) (f64_sqrt (min_dist p (bounds b))) = true) l
    | None => Forall (fun b => f64_le f64_max (f64_sqrt (min_dist p (bounds b))) = true) l
    end.
Proof.
  intros Hmax H E H1 Hp.
  destruct (inserts_spec bounds min max 1 Hmax (or_introl (le_n 1)) d (fin_rect d) (fin_rect_ok d) (fin_rect_bb d) l empty_tree t)
    as (G & P & S & _); auto.
  { apply (empty_good bounds min); [exact Hmax|lia]. }
  rewrite app_nil_r in P. destruct G as (G & _ & Hh). rewrite H1 in Hh.
  destruct (root t) as [leaf level es] eqn:Er. cbn [n_level] in Hh. apply good_eq in G. destruct G as (_ & El & G).
  subst level. cbn in El. subst leaf. unfold nearest_neighbor. rewrite Er, nearest_eq.
  assert (Pm : pos f64_max) by (repeat split).
  pose proof (leaf_exact bounds max 1 d p Hp 1 es G None f64_max Pm) as L.
  destruct (nn_leaf p es (None, f64_max)) as [b v]. destruct L as (L1 & L2 & L3 & L4). cbn [bind]. exists b. split; [reflexivity|].
  rewrite objs_node in P. destruct L4 as [[-> ->]|(a & -> & -> & Ha)].
  - eapply Permutation_Forall; eassumption.
  - split; [now apply (Permutation_in _ P)|]. eapply Permutation_Forall; eassumption.
Qed.
