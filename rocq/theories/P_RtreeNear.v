(** * Nearest neighbours in the R-tree *)
From Coq Require Import ZArith Bool List Permutation Sorted Lia ZifyBool ZifyNat Reals Lra.
From Verif Require Import Base_F64 Base_F64Arith Base_Res P_F64 P_F64Flocq P_F64Round P_F64Sqrt P_Extent2 S_Kd P_KdR M_Rtree S_Rtree P_Rtree.
Import ListNotations.

(** ** Distances to boxes *)
Lemma fin_rect_ok d r : fin_rect d r -> rect_ok d r.
Proof.
  intros [L H]. split; [exact L|]. eapply Forall_impl; [|exact H]. intros i (_ & F1 & _ & F2 & _).
  split; now apply finite_nn.
Qed.

Lemma fin_rect_bb d r1 r2 : fin_rect d r1 -> fin_rect d r2 -> fin_rect d (bounding_box r1 r2).
Proof.
  intros [L1 H1] [L2 H2]. split.
  - unfold bounding_box. rewrite map_length, combine_length. lia.
  - unfold bounding_box. apply Forall_map, Forall_forall. intros [i j] Hij.
    pose proof (in_combine_l _ _ _ _ Hij) as Hi. pose proof (in_combine_r _ _ _ _ Hij) as Hj.
    rewrite Forall_forall in H1, H2. destruct (H1 _ Hi) as (A1 & A2 & A3 & A4 & A5), (H2 _ Hj) as (B1 & B2 & B3 & B4 & B5).
    cbn [fst snd].
    pose proof (finite_nn _ A2) as N1. pose proof (finite_nn _ A4) as N2.
    pose proof (finite_nn _ B2) as N3. pose proof (finite_nn _ B4) as N4.
    rewrite le_key in A5, B5 by assumption.
    destruct (f64_le (fst i) (fst j)) eqn:C1; destruct (f64_le (snd i) (snd j)) eqn:C2;
      rewrite le_key in C1, C2 by assumption; refine (conj _ (conj _ (conj _ (conj _ _)))); auto;
      rewrite le_key by assumption; lia.
Qed.

Lemma pos_zero : pos f64_zero.
Proof. split; [split; reflexivity|reflexivity]. Qed.

Definition leg (p : f64) (i : f64 * f64) : f64 :=
  if f64_lt p (fst i) then let d := f64_sub p (fst i) in f64_mul d d
  else if f64_gt p (snd i) then let d := f64_sub p (snd i) in f64_mul d d
  else f64_zero.

Definition fin_i (i : f64 * f64) : Prop :=
  f64_wf (fst i) = true /\ f64_finite (fst i) = true /\ f64_wf (snd i) = true /\ f64_finite (snd i) = true /\
  f64_le (fst i) (snd i) = true.

Lemma leg_pos p i : fin p -> fin_i i -> pos (leg p i).
Proof.
  intros Hp (A1 & A2 & A3 & A4 & A5). unfold leg.
  destruct (f64_lt p (fst i)); [eapply sq_pos; apply fin_sub; [exact Hp|now split]|].
  destruct (f64_gt p (snd i)); [eapply sq_pos; apply fin_sub; [exact Hp|now split]|exact pos_zero].
Qed.

Lemma leg_mono p i I : fin p -> fin_i i -> fin_i I -> f64_le (fst I) (fst i) = true -> f64_le (snd i) (snd I) = true ->
  f64_le (leg p I) (leg p i) = true.
Proof.
  intros Hp Hi HI L1 L2. pose proof (leg_pos p i Hp Hi) as Pi.
  destruct Hi as (A1 & A2 & A3 & A4 & A5), HI as (B1 & B2 & B3 & B4 & B5).
  assert (F1 : fin (fst i)) by now split. assert (F2 : fin (snd i)) by now split.
  assert (F3 : fin (fst I)) by now split. assert (F4 : fin (snd I)) by now split.
  pose proof (fin_le _ _ F3 F1) as R1. rewrite L1 in R1. pose proof (fin_le _ _ F2 F4) as R2. rewrite L2 in R2.
  pose proof (fin_le _ _ F1 F2) as R3. rewrite A5 in R3.
  pose proof (fin_lt _ _ Hp F3) as C1. pose proof (fin_lt _ _ Hp F1) as C2.
  pose proof (fin_lt _ _ F4 Hp) as C3. pose proof (fin_lt _ _ F2 Hp) as C4.
  unfold leg at 1. unfold f64_gt. destruct (f64_lt p (fst I)) eqn:D1.
  - unfold leg. destruct (f64_lt p (fst i)) eqn:D2; [|lra].
    cbn zeta. eapply sq_le; [now apply fin_sub|now apply fin_sub|]. rewrite !Rabs_left by lra. lra.
  - destruct (f64_lt (snd I) p) eqn:D3.
    + unfold leg, f64_gt. destruct (f64_lt p (fst i)) eqn:D2; [lra|]. destruct (f64_lt (snd i) p) eqn:D4; [|lra].
      cbn zeta. eapply sq_le; [now apply fin_sub|now apply fin_sub|]. rewrite !Rabs_pos_eq by lra. lra.
    + apply Pi.
Qed.

Lemma min_dist_fold p r s : fold_left (fun sum i =>
      let '(pi, (a, b)) := i in
      if f64_lt pi a then let d := f64_sub pi a in f64_add sum (f64_mul d d)
      else if f64_gt pi b then let d := f64_sub pi b in f64_add sum (f64_mul d d)
      else f64_add sum f64_zero) (combine p r) s = fold_left (fun sum i => f64_add sum (leg (fst i) (snd i))) (combine p r) s.
Proof.
  revert s. induction (combine p r) as [|[x [a b]] l IH]; intros s; [reflexivity|]. cbn [fold_left]. rewrite IH.
  unfold leg. cbn [fst snd]. destruct (f64_lt x a); [reflexivity|]. now destruct (f64_gt x b).
Qed.

Lemma min_dist_pos_fold p r : forall s, pos s -> Forall fin p -> Forall fin_i r ->
  pos (fold_left (fun sum i => f64_add sum (leg (fst i) (snd i))) (combine p r) s).
Proof.
  revert r. induction p as [|x p IH]; intros r s Hs Hp Hr; [exact Hs|]. destruct r as [|i r]; [exact Hs|].
  inversion Hp as [|? ? Hx Hp']; subst. inversion Hr as [|? ? Hi Hr']; subst. cbn [combine fold_left fst snd].
  apply IH; auto. apply add_pos; [exact Hs|now apply leg_pos].
Qed.

Lemma min_dist_mono_fold p : forall r R s t, pos s -> pos t -> f64_le s t = true -> Forall fin p -> Forall fin_i r -> Forall fin_i R ->
  rect_in r R ->
  f64_le (fold_left (fun sum i => f64_add sum (leg (fst i) (snd i))) (combine p R) s)
         (fold_left (fun sum i => f64_add sum (leg (fst i) (snd i))) (combine p r) t) = true.
Proof.
  induction p as [|x p IH]; intros r R s t Hs Ht Hst Hp Hr HR Hin; [exact Hst|].
  destruct Hin as [|i I r R [L1 L2] Hin]; [exact Hst|].
  inversion Hp as [|? ? Hx Hp']; subst. inversion Hr as [|? ? Hi Hr']; subst. inversion HR as [|? ? HI HR']; subst.
  cbn [combine fold_left fst snd].
  apply IH; auto; [apply add_pos; auto; now apply leg_pos|apply add_pos; auto; now apply leg_pos|].
  apply add_le; auto; [now apply leg_pos|now apply leg_pos|now apply leg_mono].
Qed.

Lemma min_dist_pos d p r : Forall fin p -> fin_rect d r -> pos (min_dist p r).
Proof. intros Hp [_ Hr]. unfold min_dist. rewrite min_dist_fold. apply min_dist_pos_fold; auto. exact pos_zero. Qed.

Lemma min_dist_mono d p r R : Forall fin p -> fin_rect d r -> fin_rect d R -> rect_in r R ->
  f64_le (min_dist p R) (min_dist p r) = true.
Proof.
  intros Hp [_ Hr] [_ HR] Hin. unfold min_dist. rewrite !min_dist_fold.
  apply min_dist_mono_fold; auto using pos_zero.
Qed.

(** ** The k best *)

(** The loops of [nearests]. *)
Fixpoint nears_leaf {A} (k : nat) (p : list f64) (es : list (entry A)) (acc : list (A * f64)) : res unit (list (A * f64)) :=
  match es with
  | [] => Ok acc
  | (_, inl _) :: _ => Panic
  | (r, inr a) :: tl => nears_leaf k p tl (insert_nearest k acc (min_dist p r) a)
  end.
Fixpoint nears_branch {A} (rec : node A -> list (A * f64) -> res unit (list (A * f64))) (l : list (entry A * f64)) (acc : list (A * f64))
  : res unit (list (A * f64)) :=
  match l with
  | [] => Ok acc
  | ((_, inr _), _) :: _ => Panic
  | ((_, inl c), _) :: tl => do acc <- rec c acc; nears_branch rec tl acc
  end.
Lemma nearests_eq {A} (sort_dists : list (entry A * f64) -> list (entry A * f64)) fuel k p leaf level es acc :
  nearests sort_dists (S fuel) k p (Node leaf level es) acc =
  if leaf then nears_leaf k p es acc
  else
    do branches <-
      (if (k <=? length acc)%nat then
         match rev acc with
         | [] => Panic
         | (_, d) :: _ => Ok (prune_min_dist d (sort_entries sort_dists p es))
         end
       else Ok (sort_entries sort_dists p es));
    nears_branch (nearests sort_dists fuel k p) branches acc.
Proof.
  cbn [nearests]. destruct leaf.
  - revert acc. induction es as [|[r [c|a]] es IH]; intros acc; [reflexivity|reflexivity|]. cbn [nears_leaf]. apply IH.
  - set (B := if (k <=? length acc)%nat then _ else _). destruct B as [l| |]; [|reflexivity|reflexivity]. cbn [bind].
    clear. revert acc. induction l as [|[[r [c|a]] w] l IH]; intros acc; [reflexivity| |reflexivity]. cbn [nears_branch].
    destruct (nearests sort_dists fuel k p c acc); cbn [bind]; auto.
Qed.

Section Near.
  Context {A : Type} (bounds : A -> rect).
  Local Notation node := (node A).
  Local Notation entry := (entry A).
  Variables (max lo d : nat).
  Variable p : list f64.
  Hypothesis Hp : Forall fin p.
  Variable sort_dists : list (entry * f64) -> list (entry * f64).
  Hypothesis sort_perm : forall l, Permutation (sort_dists l) l.
  Hypothesis sort_sorted : forall l, Forall (fun e => pos (snd e)) l -> StronglySorted (fun a b => f64_le (snd a) (snd b) = true) (sort_dists l).

  Local Notation good := (good bounds max lo (fin_rect d)).
  Local Notation ge := (ge bounds max lo (fin_rect d)).
  Let dl (x y : A * f64) : Prop := f64_le (snd x) (snd y) = true.
  Let psnd (x : A * f64) : Prop := pos (snd x).

  Implicit Types (a : A) (acc seen extra : list (A * f64)).
  Lemma nn_pos w : pos w -> nn w.
  Proof. intros [[_ H] _]. exact H. Qed.

  Lemma insert_sorted_perm w a acc : Permutation (insert_sorted w a acc) ((a, w) :: acc).
  Proof.
    induction acc as [|x acc IH]; [reflexivity|]. cbn. destruct (f64_ge w (snd x)); [|reflexivity].
    rewrite IH. apply perm_swap.
  Qed.

  Lemma insert_sorted_sorted w a acc : pos w -> Forall psnd acc -> StronglySorted dl acc ->
    StronglySorted dl (insert_sorted w a acc).
  Proof.
    intros Hw Hp' H. induction H as [|x acc H IH F]; [constructor; constructor|].
    inversion Hp' as [|? ? Px Pa]; subst. cbn. destruct (f64_ge w (snd x)) eqn:C.
    - constructor; [now apply IH|]. eapply Permutation_Forall; [symmetry; apply insert_sorted_perm|].
      constructor; [exact C|exact F].
    - assert (L : f64_le w (snd x) = true).
      { apply f64_lt_le. unfold f64_ge in C. apply f64_not_le_lt; auto; now apply nn_pos. }
      constructor; [now constructor|]. constructor; [exact L|].
      eapply Forall_impl; [|exact F]. intros y Hy. eapply f64_le_trans; eassumption.
  Qed.

  Lemma insert_sorted_split w a acc : pos w -> Forall psnd acc -> exists l1 l2, acc = l1 ++ l2 /\
    insert_sorted w a acc = l1 ++ (a, w) :: l2 /\ (l2 = [] \/ exists u tl, l2 = u :: tl /\ f64_le w (snd u) = true).
  Proof.
    intros Hw H. induction H as [|x acc Px Pa (l1 & l2 & E1 & E2 & E3)]; [exists [], []; auto|]. cbn.
    destruct (f64_ge w (snd x)) eqn:C.
    - exists (x :: l1), l2. rewrite E1 at 1. rewrite E2. auto.
    - exists [], (x :: acc). split; [reflexivity|]. split; [reflexivity|]. right. exists x, acc. split; [reflexivity|].
      apply f64_lt_le. unfold f64_ge in C. apply f64_not_le_lt; auto; now apply nn_pos.
  Qed.

  Definition topk (k : nat) (acc seen : list (A * f64)) : Prop :=
    StronglySorted dl acc /\ (length acc <= k)%nat /\
    exists rest, Permutation (acc ++ rest) seen /\ (rest = [] \/ length acc = k) /\
      forall x y, In x acc -> In y rest -> dl x y.

  Lemma sorted_firstn {X} (R : X -> X -> Prop) k l : StronglySorted R l -> StronglySorted R (firstn k l) /\
    forall x y, In x (firstn k l) -> In y (skipn k l) -> R x y.
  Proof.
    intros H. revert k. induction H as [|x l H IH F]; intros k.
    - rewrite firstn_nil, skipn_nil. split; [constructor|]. intros ? ? [].
    - destruct k as [|k]; [cbn; split; [constructor|intros ? ? []]|]. cbn.
      destruct (IH k) as [I1 I2]. rewrite Forall_forall in F. split.
      + constructor; [exact I1|]. apply Forall_forall. intros y Hy. apply F. rewrite <- (firstn_skipn k l). apply in_or_app. now left.
      + intros a b [<-|Ha] Hb; [apply F; rewrite <- (firstn_skipn k l); apply in_or_app; now right|now apply I2].
  Qed.

  Lemma topk_insert k acc seen w a : Forall psnd seen -> pos w -> topk k acc seen ->
    topk k (insert_nearest k acc w a) ((a, w) :: seen).
  Proof.
    intros Hs Hw (S & L & rest & P & C & O). unfold insert_nearest.
    assert (Pa : Forall psnd (acc ++ rest)) by (eapply Permutation_Forall; [symmetry; exact P|exact Hs]).
    apply Forall_app in Pa. destruct Pa as [Pa Pr].
    pose proof (insert_sorted_sorted w a acc Hw Pa S) as S'. pose proof (insert_sorted_perm w a acc) as P'.
    destruct (sorted_firstn dl k _ S') as [S1 S2].
    pose proof (Permutation_length P') as Hl. cbn [length] in Hl.
    split; [exact S1|]. split; [rewrite firstn_length; lia|].
    exists (skipn k (insert_sorted w a acc) ++ rest). split; [|split].
    - rewrite app_assoc, firstn_skipn, P'. cbn. now constructor.
    - destruct C as [->|C].
      + destruct (Nat.le_gt_cases (length (insert_sorted w a acc)) k).
        * left. rewrite skipn_all2 by lia. reflexivity.
        * right. rewrite firstn_length. lia.
      + right. rewrite firstn_length. lia.
    - intros x y Hx Hy. apply in_app_or in Hy. destruct Hy as [Hy|Hy]; [now apply S2|].
      destruct C as [->|C]; [destruct Hy|].
      destruct (insert_sorted_split w a acc Hw Pa) as (l1 & l2 & Ea & Ei & [->|(u & tl & -> & Hu)]).
      + rewrite Ei in Hx. rewrite app_nil_r in Ea. subst l1.
        rewrite firstn_app, C, Nat.sub_diag, firstn_all2, firstn_O, app_nil_r in Hx by lia. now apply O.
      + assert (Hx' : In x (insert_sorted w a acc)).
        { rewrite <- (firstn_skipn k (insert_sorted w a acc)). apply in_or_app. now left. }
        apply (Permutation_in _ P') in Hx'. destruct Hx' as [<-|Hx']; [|now apply O].
        eapply f64_le_trans; [exact Hu|]. apply O; [|exact Hy]. rewrite Ea. apply in_or_app. right. now left.
  Qed.

  Lemma topk_skip k acc seen extra : Forall psnd seen -> length acc = k ->
    (forall u, hd_error (rev acc) = Some u -> Forall (dl u) extra) ->
    topk k acc seen -> topk k acc (extra ++ seen).
  Proof.
    intros Hs C Hl (S & L & rest & P & _ & O). split; [exact S|]. split; [exact L|]. exists (extra ++ rest). split; [|split; [now right|]].
    - rewrite <- P. apply Permutation_app_swap_app.
    - intros x y Hx Hy. apply in_app_or in Hy. destruct Hy as [Hy|Hy]; [|now apply O].
      assert (Px : psnd x).
      { rewrite Forall_forall in Hs. apply Hs. apply (Permutation_in _ P). apply in_or_app. now left. }
      clear P O L C. destruct acc as [|z acc _] using rev_ind; [destruct Hx|]. rewrite rev_app_distr in Hl. cbn in Hl.
      specialize (Hl z eq_refl). rewrite Forall_forall in Hl.
      eapply f64_le_trans; [|apply Hl; exact Hy]. apply in_app_or in Hx. destruct Hx as [Hx|[->|[]]].
      + clear - S Hx. induction acc as [|y acc IH]; [destruct Hx|]. cbn in S. inversion S as [|? ? S' F]; subst.
        destruct Hx as [->|Hx]; [|now apply IH]. rewrite Forall_forall in F. apply F. apply in_or_app. right. now left.
      + apply f64_le_refl. now apply nn_pos.
  Qed.

  Let da (a : A) : A * f64 := (a, min_dist p (bounds a)).

  Lemma leaf_topk k level es : Forall (ge true level) es -> forall acc seen, Forall psnd seen -> topk k acc seen ->
    exists acc', nears_leaf k p es acc = Ok acc' /\ topk k acc' (map da (flat_map e_objs es) ++ seen).
  Proof.
    intros H. induction H as [|[r [c|a]] es He H IH]; intros acc seen Hs T.
    - exists acc. split; [reflexivity|exact T].
    - destruct He as [_ (E & _)]. discriminate.
    - destruct He as [Hr [_ E]]. cbn [fst snd] in *. subst r. cbn [nears_leaf].
      assert (Pd : pos (min_dist p (bounds a))) by (eapply min_dist_pos; eauto).
      destruct (IH (insert_nearest k acc (min_dist p (bounds a)) a) ((a, min_dist p (bounds a)) :: seen)) as (acc' & E' & T').
      + constructor; [exact Pd|exact Hs].
      + now apply topk_insert.
      + exists acc'. split; [exact E'|]. destruct T' as (T1 & T2 & rest & T3 & T4 & T5). split; [exact T1|]. split; [exact T2|].
        exists rest. split; [|now split]. rewrite T3. cbn [flat_map e_objs snd app map]. unfold da at 2. symmetry. apply Permutation_middle.
  Qed.

  Lemma topk_perm k acc seen seen' : Permutation seen seen' -> topk k acc seen -> topk k acc seen'.
  Proof. intros P (S & L & rest & P' & C & O). split; [exact S|]. split; [exact L|]. exists rest. split; [now rewrite P'|]. now split. Qed.

  Lemma ge_fin leaf level e a : ge leaf level e -> In a (e_objs e) -> fin_rect d (bounds a).
  Proof.
    revert leaf level a. destruct e as [r s]. revert r s.
    assert (G : forall (n : node), good n -> forall a, In a (objs n) -> fin_rect d (bounds a)).
    { induction n as [leaf level es IH] using node_ind'. intros G a Ha. apply good_eq in G. destruct G as (_ & _ & G).
      rewrite objs_node in Ha. apply in_flat_map in Ha. destruct Ha as ([r s] & He & Ha).
      rewrite Forall_forall in IH, G. specialize (IH _ He). destruct (G _ He) as [Hr Hs]. destruct s as [c|b]; cbn in *.
      - apply IH; [apply Hs|exact Ha].
      - destruct Hs as [_ ->], Ha as [->|[]]. exact Hr. }
    intros r s leaf level a [Hr Hs] Ha. destruct s as [c|b]; cbn in *.
    - apply (G c); [apply Hs|exact Ha].
    - destruct Hs as [_ ->], Ha as [->|[]]. exact Hr.
  Qed.

  Lemma da_pos leaf level es : Forall (ge leaf level) es -> Forall psnd (map da (flat_map e_objs es)).
  Proof.
    intros H. apply Forall_map, Forall_forall. intros a Ha. apply in_flat_map in Ha. destruct Ha as (e & He & Ha).
    rewrite Forall_forall in H. unfold psnd, da. cbn [snd]. eapply min_dist_pos; [exact Hp|]. eapply ge_fin; [apply (H _ He)|exact Ha].
  Qed.

  Lemma prune_split w l : pos w -> Forall (fun e : entry * f64 => pos (snd e)) l ->
    StronglySorted (fun a b : entry * f64 => f64_le (snd a) (snd b) = true) l ->
    exists dropped, l = prune_min_dist w l ++ dropped /\ Forall (fun e => f64_le w (snd e) = true) dropped.
  Proof.
    intros Hw H S. induction S as [|e l S IH F]; [exists []; now split|].
    inversion H as [|? ? He Hl]; subst. cbn. destruct (f64_gt (snd e) w) eqn:C.
    - exists (e :: l). split; [reflexivity|]. constructor; [now apply f64_lt_le|].
      eapply Forall_impl; [|exact F]. intros x Hx. eapply f64_le_trans; [|exact Hx]. now apply f64_lt_le.
    - destruct (IH Hl) as (dr & E & Hd). exists dr. split; [cbn; now rewrite <- E|exact Hd].
  Qed.

  Lemma branch_topk k level rec l : Forall (fun e => ge false level (fst e)) l ->
    (forall r c acc seen, ge false level (r, inl c) -> Forall psnd seen -> topk k acc seen ->
       exists acc', rec c acc = Ok acc' /\ topk k acc' (map da (objs c) ++ seen)) ->
    forall acc seen, Forall psnd seen -> topk k acc seen ->
    exists acc', nears_branch rec l acc = Ok acc' /\ topk k acc' (map da (flat_map e_objs (map fst l)) ++ seen).
  Proof.
    intros H Hrec. induction H as [|[[r [c|a]] w] l He H IH]; intros acc seen Hs T.
    - exists acc. split; [reflexivity|exact T].
    - destruct (Hrec r c acc seen He Hs T) as (acc1 & E1 & T1).
      assert (Hs1 : Forall psnd (map da (objs c) ++ seen)).
      { apply Forall_app. split; [|exact Hs]. pose proof (da_pos false level [(r, inl c)] ltac:(constructor; [exact He|constructor])) as D.
        cbn [flat_map] in D. rewrite app_nil_r in D. exact D. }
      destruct (IH _ _ Hs1 T1) as (acc2 & E2 & T2). exists acc2.
      cbn [nears_branch]. rewrite E1. split; [exact E2|]. eapply topk_perm; [|exact T2].
      cbn [map fst flat_map]. change (e_objs (r, inl c)) with (objs c). rewrite map_app, <- app_assoc. apply Permutation_app_swap_app.
    - destruct He as [_ [E _]]. discriminate.
  Qed.

  Lemma nears_topk k : (1 <= k)%nat -> forall fuel (n : node) acc seen, good n -> (n_level n <= Z.of_nat fuel)%Z ->
    Forall psnd seen -> topk k acc seen ->
    exists acc', nearests sort_dists fuel k p n acc = Ok acc' /\ topk k acc' (map da (objs n) ++ seen).
  Proof.
    intros Hk. induction fuel as [|fuel IH]; intros n acc seen G L Hs T.
    { destruct n as [leaf level es]. apply good_eq in G. cbn in L. lia. }
    destruct n as [leaf level es]. rewrite nearests_eq. apply good_eq in G. destruct G as (Hl & El & G). cbn [n_level] in L.
    destruct leaf.
    - rewrite objs_node. eapply leaf_topk; eauto.
    - set (l := sort_entries sort_dists p es).
      assert (P : Permutation (map fst l) es).
      { unfold l, sort_entries. rewrite sort_perm, map_map. cbn [fst]. now rewrite map_id. }
      assert (Hd : Forall (fun e => pos (snd e) /\ snd e = min_dist p (fst (fst e))) l).
      { unfold l, sort_entries. eapply Permutation_Forall; [symmetry; apply sort_perm|]. apply Forall_map.
        eapply Forall_impl; [|exact G]. intros e [He _]. cbn [fst snd]. split; [|reflexivity]. eapply min_dist_pos; eauto. }
      assert (Hge : Forall (fun e => ge false level (fst e)) l).
      { apply Forall_map. eapply Permutation_Forall; [symmetry; exact P|exact G]. }
      assert (S : StronglySorted (fun a b : entry * f64 => f64_le (snd a) (snd b) = true) l).
      { apply sort_sorted. apply Forall_map. eapply Forall_impl; [|exact G]. intros e [He _]. cbn [snd]. eapply min_dist_pos; eauto. }
      assert (Po : Permutation (map da (flat_map e_objs (map fst l)) ++ seen) (map da (objs (Node false level es)) ++ seen)).
      { apply Permutation_app_tail, Permutation_map. rewrite objs_node. now apply Permutation_flat_map. }
      assert (Hrec : forall r c acc seen, ge false level (r, inl c) -> Forall psnd seen -> topk k acc seen ->
         exists acc', nearests sort_dists fuel k p c acc = Ok acc' /\ topk k acc' (map da (objs c) ++ seen)).
      { intros r c acc' seen' [_ (_ & Lc & _ & _ & Gc)] Hs' T'. cbn [fst snd] in *. apply IH; auto. lia. }
      destruct (k <=? length acc)%nat eqn:C.
      + assert (Lk : length acc = k) by (destruct T as (_ & L' & _); lia).
        destruct (rev acc) as [|[u w] ra] eqn:Er.
        { apply (f_equal (@length _)) in Er. rewrite rev_length in Er. cbn in Er. lia. }
        cbn [bind].
        assert (Hw : pos w).
        { destruct T as (_ & _ & rest & PT & _). assert (In (u, w) seen).
          { apply (Permutation_in _ PT). apply in_or_app. left. apply in_rev. rewrite Er. now left. }
          rewrite Forall_forall in Hs. now apply (Hs (u, w)). }
        destruct (prune_split w l Hw) as (dr & El' & Hdr); [eapply Forall_impl; [|exact Hd]; now intros ? []|exact S|].
        set (kept := prune_min_dist w l) in *.
        rewrite El' in Hge, Hd, Po. apply Forall_app in Hge, Hd. destruct Hge as [Hg1 Hg2], Hd as [_ Hd2].
        assert (Hs2 : Forall psnd (map da (flat_map e_objs (map fst dr)) ++ seen)).
        { apply Forall_app. split; [|exact Hs]. eapply da_pos. apply Forall_map. exact Hg2. }
        assert (T2 : topk k acc (map da (flat_map e_objs (map fst dr)) ++ seen)).
        { apply topk_skip; auto. intros v Hv. rewrite Er in Hv. cbn in Hv. injection Hv as <-.
          apply Forall_map, Forall_forall. intros a Ha. apply in_flat_map in Ha. destruct Ha as (e & He & Ha).
          apply in_map_iff in He. destruct He as ([e' w'] & <- & He). cbn [fst] in *.
          rewrite Forall_forall in Hdr, Hd2, Hg2. specialize (Hdr _ He). destruct (Hd2 _ He) as [_ Ew]. specialize (Hg2 _ He).
          cbn [fst snd] in *. unfold dl, da. cbn [snd]. eapply f64_le_trans; [exact Hdr|]. rewrite Ew.
          eapply min_dist_mono; [exact Hp| | |].
          - eapply ge_fin; eassumption.
          - apply Hg2.
          - eapply ge_in; [apply fin_rect_ok|exact Hg2|exact Ha]. }
        destruct (branch_topk k level _ kept Hg1 Hrec acc _ Hs2 T2) as (acc' & E & T').
        exists acc'. split; [exact E|]. eapply topk_perm; [|exact T']. rewrite <- Po, map_app, flat_map_app, map_app, <- app_assoc.
        reflexivity.
      + cbn [bind]. destruct (branch_topk k level _ l Hge Hrec acc _ Hs T) as (acc' & E & T').
        exists acc'. split; [exact E|]. eapply topk_perm; [exact Po|exact T'].
  Qed.

  Lemma near_spec k t : (1 <= k)%nat -> good (root t) ->
    exists r rest, nearest_neighbors sort_dists (Z.to_nat (n_level (root t))) k t p = Ok r /\
      Permutation (r ++ rest) (objs (root t)) /\ length r = Nat.min k (length (objs (root t))) /\
      StronglySorted (fun a b => f64_le (min_dist p (bounds a)) (min_dist p (bounds b)) = true) r /\
      forall a b, In a r -> In b rest -> f64_le (min_dist p (bounds a)) (min_dist p (bounds b)) = true.
  Proof.
    intros Hk G. destruct (nears_topk k Hk (Z.to_nat (n_level (root t))) (root t) [] [] G) as (acc & E & T).
    - destruct (root t) as [leaf level es]. cbn. lia.
    - constructor.
    - split; [constructor|]. split; [cbn; lia|]. exists []. split; [reflexivity|]. split; [now left|]. intros ? ? [].
    - rewrite app_nil_r in T. destruct T as (S & L & rest & P & C & O).
      unfold nearest_neighbors. rewrite E. cbn [bind]. exists (map fst acc), (map fst rest). split; [reflexivity|].
      assert (Hda : forall x, In x (acc ++ rest) -> snd x = min_dist p (bounds (fst x))).
      { intros x Hx. apply (Permutation_in _ P) in Hx. apply in_map_iff in Hx. destruct Hx as (a & <- & _). reflexivity. }
      split; [|split; [|split]].
      + rewrite <- map_app, P, map_map. unfold da. cbn [fst]. now rewrite map_id.
      + apply Permutation_length in P. rewrite app_length, map_length in P. rewrite map_length. destruct C as [->|C]; cbn in *; lia.
      + assert (Ha : forall x, In x acc -> snd x = min_dist p (bounds (fst x))) by (intros x Hx; apply Hda, in_or_app; now left).
        clear - S Ha. induction S as [|x acc S IH F]; cbn; constructor.
        * apply IH. intros y Hy. apply Ha. now right.
        * apply Forall_map. rewrite Forall_forall in *. intros y Hy. rewrite <- (Ha x ltac:(now left)), <- (Ha y ltac:(now right)). now apply F.
      + intros a b Ha Hb. apply in_map_iff in Ha, Hb. destruct Ha as (x & <- & Hx), Hb as (y & <- & Hy).
        rewrite <- (Hda x), <- (Hda y) by (apply in_or_app; auto). now apply O.
  Qed.
End Near.
