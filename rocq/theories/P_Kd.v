(** Proofs about the KD-tree. *)
From Coq Require Import ZArith Bool List Lia Permutation Sorted.
From Coq Require Import ZifyBool ZifyNat.
From Verif Require Import Base_F64 Base_F64Arith Base_Geom Base_Res M_Extent S_Extent M_Heap M_Kd S_Kd
  P_F64 P_Extent P_Extent2 P_Heap.
Import ListNotations.

Lemma eq_trans_f a b c : f64_eq a b = true -> f64_eq b c = true -> f64_eq a c = true.
Proof.
  intros H1 H2. apply eq_inv in H1, H2. destruct H1 as (Na & Nb & K1), H2 as (_ & Nc & K2).
  rewrite eq_key by assumption. lia.
Qed.

Lemma eq_lt_l a b c : f64_eq a b = true -> f64_lt a c = f64_lt b c.
Proof.
  intros H. apply eq_inv in H. destruct H as (Na & Nb & K). unfold f64_lt. now rewrite Na, Nb, K.
Qed.

Lemma nn_eq a : nn a -> f64_eq a a = true.
Proof. intros N. rewrite eq_key by assumption. lia. Qed.

Section Kd.
  Context {A : Type} (xy : A -> point f64).
  Notation kd := (kd A).
  Notation same := (same_point xy).
  Notation ins := (insert_at xy).

  Lemma same_sym p q : same p q = same q p.
  Proof. unfold same_point. now rewrite (f64_eq_sym (fst (xy p))), (f64_eq_sym (snd (xy p))). Qed.

  Lemma same_trans p q r : same p q = true -> same q r = true -> same p r = true.
  Proof.
    unfold same_point. rewrite !andb_true_iff. intros [H1 H2] [H3 H4].
    split; eapply eq_trans_f; eauto.
  Qed.

  Lemma same_iff p q r : same p q = true -> same p r = same q r.
  Proof.
    intros H. destruct (same q r) eqn:E1.
    - eapply same_trans; eauto.
    - destruct (same p r) eqn:E2; [|reflexivity].
      rewrite same_sym in H. rewrite (same_trans _ _ _ H E2) in E1. discriminate.
  Qed.

  Lemma same_coord d p q : same p q = true -> f64_eq (coord xy d p) (coord xy d q) = true.
  Proof. unfold same_point, coord. rewrite andb_true_iff. destruct d; tauto. Qed.

  (** A property of every node. *)
  Fixpoint all_nodes (P : bool -> A -> extent -> kd -> kd -> Prop) (d : bool) (t : kd) : Prop :=
    match t with
    | KNil => True
    | KNode q b l r => P d q b l r /\ all_nodes P (negb d) l /\ all_nodes P (negb d) r
    end.

  Lemma all_nodes_subtrees P t : forall d, all_nodes P d t <->
    (forall d' q b l r, In (d', q, b, l, r) (subtrees d t) -> P d' q b l r).
  Proof.
    induction t as [|q b l IHl r IHr]; intros d; cbn [all_nodes subtrees].
    - split; [intros _ ? ? ? ? ? []|auto].
    - rewrite IHl, IHr. split.
      + intros (H & Hl & Hr) d' q' b' l' r' [E|I].
        * now injection E as <- <- <- <- <-.
        * apply in_app_or in I. destruct I; eauto.
      + intros H. split; [apply H; now left|]. split; intros; apply H; right; apply in_or_app; auto.
  Qed.

  Lemma new_node_eq p : new_node xy p = KNode p (pt_box (xy p)) KNil KNil.
  Proof. reflexivity. Qed.

  Definition sp (d : bool) (t : kd) : Prop :=
    all_nodes (fun d q b l r =>
      (forall x, In x (items l) -> f64_lt (coord xy d x) (coord xy d q) = true) /\
      (forall x, In x (items r) -> f64_lt (coord xy d x) (coord xy d q) = false)) d t.

  Lemma insert_spec p t : forall d, sp d t ->
    let '(t', (q, dup)) := ins d p t in
    sp d t' /\
    ((dup = true /\ In q (items t) /\ same p q = true /\ items t' = items t) \/
     (dup = false /\ q = p /\ (forall x, In x (items t) -> same p x = false) /\
      Permutation (items t') (p :: items t))).
  Proof.
    induction t as [|q b l IHl r IHr]; intros d S; cbn [insert_at].
    - rewrite new_node_eq. split.
      + cbn. repeat split; intros x [].
      + right. cbn. repeat split; auto; intros x [].
    - destruct S as ((Sl & Sr) & SL & SR). fold (same p q).
      destruct (same p q) eqn:E.
      + split; [split; auto|]. left. cbn. auto.
      + destruct (f64_lt (coord xy d p) (coord xy d q)) eqn:L.
        * specialize (IHl (negb d) SL). destruct (ins (negb d) p l) as [l' [q' dup]].
          destruct IHl as [S' C]. split.
          -- split; [|split; auto]. split; [|exact Sr]. intros x Hx.
             destruct C as [(_ & _ & _ & E1)|(_ & _ & _ & E1)].
             ++ rewrite E1 in Hx. auto.
             ++ apply (Permutation_in _ E1) in Hx. destruct Hx as [<-|Hx]; auto.
          -- destruct C as [(-> & Hq & Sq & E1)|(-> & -> & N & E1)].
             ++ left. cbn. rewrite E1. repeat split; auto. right. apply in_or_app; auto.
             ++ right. cbn. repeat split; auto.
                ** intros x [<-|Hx]; auto. apply in_app_or in Hx. destruct Hx as [Hx|Hx]; auto.
                   apply not_true_is_false. intros Q. apply (same_coord d) in Q.
                   rewrite (eq_lt_l _ _ _ Q), (Sr x Hx) in L. discriminate.
                ** rewrite E1. cbn. now rewrite perm_swap.
        * specialize (IHr (negb d) SR). destruct (ins (negb d) p r) as [r' [q' dup]].
          destruct IHr as [S' C]. split.
          -- split; [|split; auto]. split; [exact Sl|]. intros x Hx.
             destruct C as [(_ & _ & _ & E1)|(_ & _ & _ & E1)].
             ++ rewrite E1 in Hx. auto.
             ++ apply (Permutation_in _ E1) in Hx. destruct Hx as [<-|Hx]; auto.
          -- destruct C as [(-> & Hq & Sq & E1)|(-> & -> & N & E1)].
             ++ left. cbn. rewrite E1. repeat split; auto. right. apply in_or_app; auto.
             ++ right. cbn. repeat split; auto.
                ** intros x [<-|Hx]; auto. apply in_app_or in Hx. destruct Hx as [Hx|Hx]; auto.
                   apply not_true_is_false. intros Q. apply (same_coord d) in Q.
                   rewrite (eq_lt_l _ _ _ Q), (Sl x Hx) in L. discriminate.
                ** rewrite E1. rewrite <- Permutation_middle. apply perm_swap.
  Qed.

  (** ** Boxes *)
  Definition bx (d : bool) (t : kd) : Prop :=
    all_nodes (fun _ q b l r =>
      num_box b /\ (forall x, In x (items (KNode q b l r)) -> box_within (pt_box (xy x)) b) /\
      (forall c, (forall x, In x (items (KNode q b l r)) -> box_within (pt_box (xy x)) c) -> box_within b c)) d t.

  Lemma within_pt c p : box_within (pt_box p) c <-> inside c p.
  Proof. unfold box_within, inside, pt_box. cbn. tauto. Qed.

  Lemma same_within p q c : same p q = true -> box_within (pt_box (xy q)) c -> box_within (pt_box (xy p)) c.
  Proof.
    rewrite !within_pt. unfold same_point, inside. rewrite andb_true_iff. intros [H1 H2] (I1 & I2 & I3 & I4).
    rewrite (eq_le' _ _ (e0 c) H1), (eq_le _ _ (e2 c) H1), (eq_le' _ _ (e1 c) H2), (eq_le _ _ (e3 c) H2). auto.
  Qed.

  Lemma insert_boxes p t : forall d, sp d t -> bx d t -> num_pt (xy p) -> bx d (fst (ins d p t)).
  Proof.
    induction t as [|q b l IHl r IHr]; intros d S B Np; cbn [insert_at].
    - rewrite new_node_eq. cbn. split; [|auto]. split; [now apply pt_box_num|]. split.
      + intros x [<-|[]]. apply within_refl. now apply pt_box_num.
      + intros c H. apply H. now left.
    - pose proof (insert_spec p l (negb d)) as Il. pose proof (insert_spec p r (negb d)) as Ir.
      destruct S as (_ & SL & SR). destruct B as ((Nb & Bi & Bl) & BL & BR).
      specialize (IHl _ SL BL Np). specialize (IHr _ SR BR Np). specialize (Il SL). specialize (Ir SR).
      rewrite add_point1_join by assumption.
      assert (Np' : num_box (pt_box (xy p))) by now apply pt_box_num.
      assert (Nj : num_box (join b (pt_box (xy p)))) by now apply join_num.
      assert (Main : forall l' r', (forall x, In x (items l' ++ items r') -> x = p \/ In x (items l ++ items r)) ->
        (forall x, In x (items l ++ items r) -> In x (items l' ++ items r')) ->
        (In p (items l' ++ items r') \/ same p q = true \/ exists z, In z (items l ++ items r) /\ same p z = true) ->
        num_box (join b (pt_box (xy p))) /\
        (forall x, In x (items (KNode q (join b (pt_box (xy p))) l' r')) -> box_within (pt_box (xy x)) (join b (pt_box (xy p)))) /\
        (forall c, (forall x, In x (items (KNode q (join b (pt_box (xy p))) l' r')) -> box_within (pt_box (xy x)) c) ->
           box_within (join b (pt_box (xy p))) c)).
      { intros l' r' H1 H2 H3. split; [exact Nj|]. split.
        - intros x [<-|Hx].
          + eapply within_trans; [apply Bi; now left|now apply join_l].
          + apply H1 in Hx. destruct Hx as [->|Hx]; [now apply join_r|].
            eapply within_trans; [apply Bi; now right|now apply join_l].
        - intros c Hc. apply join_least; auto.
          + apply Bl. intros x [<-|Hx]; apply Hc; [now left|right; auto].
          + destruct H3 as [H3|[H3|(z & Hz & H3)]].
            * apply Hc. now right.
            * eapply same_within; [exact H3|]. apply Hc. now left.
            * eapply same_within; [exact H3|]. apply Hc. right; auto. }
      fold (same p q). destruct (same p q) eqn:E.
      + cbn [fst]. split; [|split; auto]. apply Main; auto.
      + destruct (f64_lt (coord xy d p) (coord xy d q)) eqn:L.
        * destruct (ins (negb d) p l) as [l' [q' dup]]. cbn [fst] in *. destruct Il as [_ C].
          split; [|split; auto]. apply Main.
          -- intros x Hx. apply in_app_or in Hx. destruct Hx as [Hx|Hx]; [|right; apply in_or_app; auto].
             destruct C as [(_ & _ & _ & E1)|(_ & _ & _ & E1)].
             ++ rewrite E1 in Hx. right; apply in_or_app; auto.
             ++ apply (Permutation_in _ E1) in Hx. destruct Hx as [<-|Hx]; auto. right; apply in_or_app; auto.
          -- intros x Hx. apply in_app_or in Hx. apply in_or_app. destruct Hx as [Hx|Hx]; [left|auto].
             destruct C as [(_ & _ & _ & ->)|(_ & _ & _ & E1)]; [auto|].
             apply (Permutation_in _ (Permutation_sym E1)). now right.
          -- destruct C as [(_ & Hq & Sq & _)|(_ & _ & _ & E1)].
             ++ right; right. exists q'. split; [apply in_or_app; auto|exact Sq].
             ++ left. apply in_or_app. left. apply (Permutation_in _ (Permutation_sym E1)). now left.
        * destruct (ins (negb d) p r) as [r' [q' dup]]. cbn [fst] in *. destruct Ir as [_ C].
          split; [|split; auto]. apply Main.
          -- intros x Hx. apply in_app_or in Hx. destruct Hx as [Hx|Hx]; [right; apply in_or_app; auto|].
             destruct C as [(_ & _ & _ & E1)|(_ & _ & _ & E1)].
             ++ rewrite E1 in Hx. right; apply in_or_app; auto.
             ++ apply (Permutation_in _ E1) in Hx. destruct Hx as [<-|Hx]; auto. right; apply in_or_app; auto.
          -- intros x Hx. apply in_app_or in Hx. apply in_or_app. destruct Hx as [Hx|Hx]; [auto|right].
             destruct C as [(_ & _ & _ & ->)|(_ & _ & _ & E1)]; [auto|].
             apply (Permutation_in _ (Permutation_sym E1)). now right.
          -- destruct C as [(_ & Hq & Sq & _)|(_ & _ & _ & E1)].
             ++ right; right. exists q'. split; [apply in_or_app; auto|exact Sq].
             ++ left. apply in_or_app. right. apply (Permutation_in _ (Permutation_sym E1)). now left.
  Qed.

  (** ** Histories *)
  Lemma kept_in l x : In x (kept xy l) -> In x l.
  Proof.
    induction l as [|p l IH]; cbn; auto. intros [->|H]; auto. apply filter_In in H. tauto.
  Qed.

  Lemma kept_covers l x : In x l -> nn (fst (xy x)) -> nn (snd (xy x)) -> exists y, In y (kept xy l) /\ same x y = true.
  Proof.
    induction l as [|p l IH]; cbn [In kept]; [intros []|].
    intros H N1 N2. destruct (same x p) eqn:E; [exists p; split; auto; now left|].
    destruct H as [->|H].
    - unfold same_point in E. rewrite !nn_eq in E by assumption. discriminate.
    - destruct (IH H N1 N2) as (y & Hy & Sy). exists y. split; [|exact Sy].
      right. apply filter_In. split; [exact Hy|]. rewrite <- (same_iff _ _ p Sy). now rewrite E.
  Qed.

  Lemma kept_app l p : kept xy (l ++ [p]) =
    kept xy l ++ (if existsb (same p) (kept xy l) then [] else [p]).
  Proof.
    induction l as [|q l IH]; [reflexivity|]. cbn [app kept]. rewrite IH, filter_app. cbn [existsb].
    f_equal. f_equal. destruct (same p q) eqn:E; cbn [orb].
    - destruct (existsb (same p) (kept xy l)); cbn [filter]; [reflexivity|]. now rewrite E.
    - replace (existsb (same p) (filter (fun x => negb (same x q)) (kept xy l)))
        with (existsb (same p) (kept xy l)).
      + destruct (existsb (same p) (kept xy l)); cbn [filter]; [reflexivity|]. now rewrite E.
      + clear IH. induction (kept xy l) as [|x m IH]; [reflexivity|]. cbn [existsb filter].
        destruct (same x q) eqn:Ex; cbn [negb existsb].
        * rewrite <- IH. destruct (same p x) eqn:Ep; [|reflexivity].
          rewrite (same_trans _ _ _ Ep Ex) in E. discriminate.
        * now rewrite IH.
  Qed.

  Lemma inserts_snoc l p : inserts xy (l ++ [p]) = fst (insert xy (inserts xy l) p).
  Proof. unfold inserts. now rewrite fold_left_app. Qed.

  Theorem inserts_inv l : sp false (inserts xy l) /\ Permutation (items (inserts xy l)) (kept xy l).
  Proof.
    induction l as [|p l [IH1 IH2]] using rev_ind; [split; constructor|].
    rewrite inserts_snoc, kept_app. unfold insert.
    pose proof (insert_spec p (inserts xy l) false IH1) as H.
    destruct (ins false p (inserts xy l)) as [t' [q dup]]. cbn [fst]. destruct H as [S C]. split; [exact S|].
    destruct C as [(-> & Hq & Sq & E)|(-> & -> & N & E)].
    - replace (existsb (same p) (kept xy l)) with true.
      + now rewrite app_nil_r, E.
      + symmetry. apply existsb_exists. exists q. split; [|exact Sq]. now apply (Permutation_in _ IH2).
    - replace (existsb (same p) (kept xy l)) with false.
      + rewrite E, IH2. apply Permutation_cons_append.
      + symmetry. apply not_true_is_false. rewrite existsb_exists. intros (x & Hx & Sx).
        apply (Permutation_in _ (Permutation_sym IH2)) in Hx. rewrite (N x Hx) in Sx. discriminate.
  Qed.

  Theorem insert_result l p :
    let '(t', (q, dup)) := insert xy (inserts xy l) p in
    (dup = true /\ In q (kept xy l) /\ same p q = true /\ items t' = items (inserts xy l)) \/
    (dup = false /\ q = p /\ (forall x, In x (kept xy l) -> same p x = false) /\
     Permutation (items t') (p :: items (inserts xy l))).
  Proof.
    destruct (inserts_inv l) as [S P]. unfold insert. pose proof (insert_spec p (inserts xy l) false S) as H.
    destruct (ins false p (inserts xy l)) as [t' [q dup]]. destruct H as [_ [C|C]]; [left|right].
    - destruct C as (-> & Hq & Sq & C). split; [reflexivity|]. split; [now apply (Permutation_in _ P)|]. auto.
    - destruct C as (-> & -> & N & C). repeat split; auto. intros x Hx. apply N.
      now apply (Permutation_in _ (Permutation_sym P)).
  Qed.

  Theorem inserts_split l : split_ok xy (inserts xy l).
  Proof.
    destruct (inserts_inv l) as [S _]. unfold split_ok. unfold sp in S. rewrite all_nodes_subtrees in S.
    intros d q b l' r I. exact (S _ _ _ _ _ I).
  Qed.

  Theorem inserts_bx l : Forall (fun p => num_pt (xy p)) l -> bx false (inserts xy l).
  Proof.
    induction l as [|p l IH] using rev_ind; intros F; [constructor|].
    apply Forall_app in F. destruct F as [F1 F2]. rewrite inserts_snoc.
    apply insert_boxes; [apply inserts_inv|auto|now inversion F2].
  Qed.

  Theorem inserts_boxes l : Forall (fun p => num_pt (xy p)) l -> boxes_ok xy (inserts xy l).
  Proof.
    intros F. apply inserts_bx in F. unfold bx in F. rewrite all_nodes_subtrees in F.
    intros d q b l' r I. destruct (F _ _ _ _ _ I) as (_ & H1 & H2). split.
    - intros x Hx. exact (proj1 (within_pt _ _) (H1 x Hx)).
    - intros c Hc. apply H2. intros x Hx. exact (proj2 (within_pt _ _) (Hc x Hx)).
  Qed.

  (** ** The iterator *)
  Variable df : point f64 -> extent -> f64.
  Variable p : point f64.
  Definition dist (x : A) : f64 := df p (pt_box (xy x)).

  Fixpoint lbt (t : kd) : Prop :=
    match t with
    | KNil => True
    | KNode q b l r =>
        (forall x, In x (items (KNode q b l r)) -> f64_le (df p b) (dist x) = true) /\ lbt l /\ lbt r
    end.

  Lemma lbt_lower t : lower_bound xy df p t -> lbt t.
  Proof.
    unfold lower_bound. generalize false. induction t as [|q b l IHl r IHr]; intros d H; [constructor|].
    cbn [lbt]. split; [|split].
    - intros x Hx. apply (H d q b l r); [now left|exact Hx].
    - apply (IHl (negb d)). intros. eapply H; [|eassumption]. right. apply in_or_app. left. eassumption.
    - apply (IHr (negb d)). intros. eapply H; [|eassumption]. right. apply in_or_app. right. eassumption.
  Qed.

  Definition okn (e : entry A) : Prop :=
    nn (snd e) /\ exists q b l r, fst e = KNode q b l r /\ snd e = dist q.
  Definition okb (e : entry A) : Prop :=
    nn (snd e) /\ exists q b l r, fst e = KNode q b l r /\ snd e = df p b /\ lbt (fst e).

  Definition ekey (e : entry A) : Z := f64_key (snd e).
  Lemma less_n a b : okn a -> okn b -> entry_less a b = (ekey a <? ekey b)%Z.
  Proof. intros [N1 _] [N2 _]. now apply lt_key. Qed.
  Lemma less_b a b : okb a -> okb b -> entry_less a b = (ekey a <? ekey b)%Z.
  Proof. intros [N1 _] [N2 _]. now apply lt_key. Qed.

  Definition rem_n (e : entry A) : list A := match fst e with KNil => [] | KNode q _ _ _ => [q] end.
  Definition rem_b (e : entry A) : list A := match fst e with KNil => [] | KNode _ _ l r => items l ++ items r end.
  Definition remaining (it : iter A) : list A := flat_map rem_n (node_heap it) ++ flat_map rem_b (bbox_heap it).

  Definition inv (it : iter A) : Prop :=
    heap ekey okn (node_heap it) /\ heap ekey okb (bbox_heap it).

  Lemma push_node_inv it t : inv it -> lbt t ->
    let it' := push_node xy df p it t in
    inv it' /\ Permutation (remaining it') (remaining it ++ items t) /\
    sizes (bbox_heap it') = (sizes (bbox_heap it) + size t)%nat.
  Proof.
    intros [Hn Hb] L. destruct t as [|q b l r]; cbn [push_node].
    - split; [split; auto|]. split; [cbn; now rewrite app_nil_r|cbn; lia].
    - assert (Lq : f64_le (df p b) (dist q) = true) by (apply L; now left).
      destruct (le_inv _ _ Lq) as (N1 & N2 & _).
      destruct (push_heap entry_less ekey okb less_b _ (KNode q b l r, df p b) Hb) as [Hb' Pb].
      { split; [exact N1|]. exists q, b, l, r. auto. }
      change (match new_extent [xy q] with Some e => df p e | None => f64_zero end) with (dist q).
      destruct (push_heap entry_less ekey okn less_n _ (KNode q b l r, dist q) Hn) as [Hn' Pn].
      { split; [exact N2|]. exists q, b, l, r. auto. }
      cbn zeta. split; [split; assumption|]. unfold remaining. cbn [node_heap bbox_heap]. split.
      + rewrite (Permutation_flat_map _ Pn), (Permutation_flat_map _ Pb). cbn [flat_map].
        cbn [rem_n rem_b fst app items]. set (X := flat_map rem_n _). set (Y := flat_map rem_b _).
        set (L' := items l ++ items r).
        etransitivity; [|apply Permutation_app_comm]. cbn [app]. constructor.
        rewrite !app_assoc. apply Permutation_app_tail, Permutation_app_comm.
      + assert (Sz : forall h h', Permutation h h' -> sizes h = sizes (A:=A) h').
        { intros h h' P. induction P; unfold sizes in *; cbn [fold_right] in *; lia. }
        rewrite (Sz _ _ Pb). unfold sizes. cbn [fold_right fst bbox_heap]. lia.
  Qed.

  Lemma next_spec fuel : forall it, inv it -> (sizes (bbox_heap it) < fuel)%nat ->
    exists it' r, next xy df p fuel it = Ok (it', r) /\ inv it' /\
    match r with
    | None => remaining it = [] /\ remaining it' = []
    | Some e => exists q, value e = Some (q, dist q) /\ Permutation (remaining it) (q :: remaining it') /\
        (forall x, In x (q :: remaining it') -> f64_le (dist q) (dist x) = true)
    end.
  Proof.
    induction fuel as [|f IH]; intros it [Hn Hb] Lf; [lia|]. cbn [next].
    destruct it as [nh bh]. cbn [node_heap bbox_heap] in *.
    destruct (((length nh =? 0) && (length bh =? 0))%nat) eqn:Em.
    { exists (It nh bh), None. split; [reflexivity|]. split; [split; assumption|].
      destruct nh, bh; try discriminate. auto. }
    match goal with |- context [if ?c then _ else _] => destruct c eqn:Take end.
    - destruct nh as [|a nh]; [discriminate|].
      destruct (pop_heap entry_less ekey okn less_n _ a nh Hn eq_refl) as (nh' & -> & Hn' & Pn).
      assert (Oa : okn a) by (destruct Hn as [_ F]; now inversion F).
      pose proof (heap_min _ _ _ a nh Hn eq_refl) as Mn.
      exists (It nh' bh), (Some a). split; [reflexivity|]. split; [split; assumption|].
      destruct Oa as (Na & q & b & l & r & Eq & Ed). destruct a as [n d]. cbn [fst snd] in *. subst n d.
      exists q. split; [reflexivity|]. unfold remaining. cbn [node_heap bbox_heap].
      assert (Pr : Permutation (flat_map rem_n ((KNode q b l r, dist q) :: nh) ++ flat_map rem_b bh)
        (q :: flat_map rem_n nh' ++ flat_map rem_b bh)).
      { cbn [flat_map rem_n fst app]. constructor. apply Permutation_app_tail.
        apply Permutation_flat_map. now symmetry. }
      split; [exact Pr|]. intros x Hx. apply (Permutation_in _ (Permutation_sym Pr)) in Hx.
      apply in_app_or in Hx. destruct Hx as [Hx|Hx].
      + apply in_flat_map in Hx. destruct Hx as (e & He & Hx).
        destruct He as [<-|He]; [destruct Hx as [<-|[]]; now apply f64_le_refl|].
        rewrite Forall_forall in Mn. specialize (Mn e He).
        assert (Oe : okn e) by (destruct Hn as [_ F]; rewrite Forall_forall in F; apply F; now right).
        destruct Oe as (Ne & q' & b' & l' & r' & Eq' & Ed'). unfold rem_n in Hx. rewrite Eq' in Hx.
        destruct Hx as [<-|[]]. unfold ekey in Mn. cbn [snd] in Mn. rewrite Ed' in *. rewrite le_key by assumption. lia.
      + apply in_flat_map in Hx. destruct Hx as (e & He & Hx).
        destruct bh as [|b0 bh]; [destruct He|].
        assert (T : f64_le (dist q) (snd b0) = true) by (cbn in Take; rewrite orb_false_r in Take; exact Take).
        pose proof (heap_min _ _ _ b0 bh Hb eq_refl) as Mb.
        assert (T2 : f64_le (dist q) (snd e) = true).
        { destruct He as [<-|He]; [exact T|]. apply le_inv in T. destruct T as (T1 & T2 & T3).
          assert (Oe : okb e) by (destruct Hb as [_ F]; rewrite Forall_forall in F; apply F; now right).
          destruct Oe as [Ne _]. rewrite Forall_forall in Mb. specialize (Mb e He). unfold ekey in Mb.
          rewrite le_key by assumption. lia. }
        assert (Oe : okb e) by (destruct Hb as [_ F]; rewrite Forall_forall in F; now apply F).
        destruct Oe as (Ne & q' & b' & l' & r' & Eq' & Ed' & Lb). unfold rem_b in Hx. rewrite Eq' in *.
        destruct Lb as [Lb _]. eapply f64_le_trans; [exact T2|]. rewrite Ed'. apply Lb. now right.
    - destruct bh as [|e bh].
      { exfalso. destruct nh; cbn in *; discriminate. }
      destruct (pop_heap entry_less ekey okb less_b _ e bh Hb eq_refl) as (bh' & -> & Hb' & Pb).
      assert (Oe : okb e) by (destruct Hb as [_ F]; now inversion F).
      destruct e as [n d]. destruct Oe as (Ne & q' & b' & l' & r' & Eq' & Ed' & Lb). cbn [fst snd] in *. subst n.
      destruct Lb as (Lb & Ll & Lr).
      destruct (push_node_inv (It nh bh') l' ltac:(split; assumption) Ll) as (I1 & P1 & S1).
      destruct (push_node_inv _ r' I1 Lr) as (I2 & P2 & S2).
      assert (Sz : forall h h', Permutation h h' -> sizes h = sizes (A:=A) h').
      { intros h h' P. induction P; unfold sizes in *; cbn [fold_right] in *; lia. }
      destruct (IH _ I2) as (it' & r & -> & I3 & R).
      { rewrite S2, S1. cbn [bbox_heap]. rewrite (Sz _ _ Pb). unfold sizes in *. cbn [fold_right fst size] in *. lia. }
      exists it', r. split; [reflexivity|]. split; [exact I3|].
      assert (Pr : Permutation (remaining (It nh ((KNode q' b' l' r', d) :: bh)))
        (remaining (push_node xy df p (push_node xy df p (It nh bh') l') r'))).
      { rewrite P2, P1. unfold remaining. cbn [node_heap bbox_heap flat_map].
        change (rem_b (KNode q' b' l' r', d)) with (items l' ++ items r').
        rewrite (Permutation_flat_map rem_b Pb). rewrite <- !app_assoc. apply Permutation_app_head.
        rewrite (app_assoc (items l')). apply Permutation_app_comm. }
      destruct r as [e|].
      + destruct R as (q & V & P3 & M). exists q. split; [exact V|]. split; [|exact M]. now rewrite Pr.
      + destruct R as [R1 R2]. split; [|exact R2]. rewrite R1 in Pr. apply Permutation_sym in Pr.
        now apply Permutation_nil in Pr.
  Qed.

  Lemma iterate_spec n : forall it, inv it ->
    exists vs fin it', iterate xy df p n it = Ok (vs, fin, it') /\ inv it' /\
      Permutation (remaining it) (map fst vs ++ remaining it') /\
      Forall (fun v => snd v = dist (fst v)) vs /\
      StronglySorted (fun v w => f64_le (snd v) (snd w) = true) vs /\
      (forall v x, In v vs -> In x (remaining it') -> f64_le (snd v) (dist x) = true) /\
      (fin = false -> length vs = n) /\ (fin = true -> remaining it' = []).
  Proof.
    induction n as [|n IH]; intros it I; cbn [iterate].
    - exists [], false, it. split; [reflexivity|]. split; [exact I|]. split; [reflexivity|].
      split; [constructor|]. split; [constructor|]. split; [intros v x []|]. split; [auto|discriminate].
    - destruct (next_spec (next_fuel it) it I) as (it1 & r & -> & I1 & R); [unfold next_fuel; lia|].
      cbn [bind]. destruct r as [e|].
      + destruct R as (q & -> & P & M). destruct (IH it1 I1) as (vs & fin & it' & -> & I' & P' & D & S & X & L & N).
        cbn [bind]. exists ((q, dist q) :: vs), fin, it'. split; [reflexivity|]. split; [exact I'|].
        split; [rewrite P, P'; reflexivity|]. split; [constructor; auto|].
        assert (In1 : forall v, In v vs -> In (fst v) (remaining it1)).
        { intros v Hv. apply (Permutation_in _ (Permutation_sym P')). apply in_or_app. left. now apply in_map. }
        split; [|split; [|split]].
        * constructor; [exact S|]. apply Forall_forall. intros v Hv. cbn [snd].
          rewrite Forall_forall in D. rewrite (D v Hv). apply M. right; auto.
        * intros v x [<-|Hv] Hx; [|auto]. cbn [snd]. apply M. right.
          apply (Permutation_in _ (Permutation_sym P')). apply in_or_app; auto.
        * intros Ef. cbn. f_equal. auto.
        * exact N.
      + destruct R as [R1 R2]. exists [], true, it1. split; [reflexivity|]. split; [exact I1|].
        split; [cbn; rewrite R1, R2; reflexivity|].
        split; [constructor|]. split; [constructor|]. split; [intros v x []|]. split; [discriminate|auto].
  Qed.

  Lemma start_inv t : lbt t -> inv (new_iterator xy df p t) /\ Permutation (remaining (new_iterator xy df p t)) (items t).
  Proof.
    intros L. destruct (push_node_inv (It [] []) t) as (I & P & _); auto.
    split; apply heap_nil.
  Qed.

  (** Any number of calls: the nearest points, nearest first; after as many calls
      as there are points (and one more to see the end) all of them. *)
  Theorem iterate_nearest t n : lower_bound xy df p t ->
    exists vs fin it', iterate xy df p n (new_iterator xy df p t) = Ok (vs, fin, it') /\
      Forall (fun v => snd v = dist (fst v)) vs /\
      StronglySorted (fun v w => f64_le (snd v) (snd w) = true) vs /\
      exists rest, Permutation (items t) (map fst vs ++ rest) /\
        (forall v x, In v vs -> In x rest -> f64_le (snd v) (dist x) = true) /\
        (fin = false -> length vs = n) /\ (fin = true -> rest = []).
  Proof.
    intros Lb. apply lbt_lower in Lb. destruct (start_inv t Lb) as [I P].
    destruct (iterate_spec n _ I) as (vs & fin & it' & E & I' & P' & D & S & X & L & N).
    exists vs, fin, it'. split; [exact E|]. split; [exact D|]. split; [exact S|].
    exists (remaining it'). split; [|auto]. rewrite <- P. exact P'.
  Qed.

  Theorem iterate_all t : lower_bound xy df p t ->
    exists vs it', iterate xy df p (S (length (items t))) (new_iterator xy df p t) = Ok (vs, true, it') /\
      Permutation (map fst vs) (items t) /\
      Forall (fun v => snd v = dist (fst v)) vs /\
      StronglySorted (fun v w => f64_le (snd v) (snd w) = true) vs.
  Proof.
    intros Lb. destruct (iterate_nearest t (S (length (items t))) Lb) as (vs & fin & it' & E & D & S & rest & P & X & L & N).
    exists vs, it'. destruct fin.
    - split; [exact E|]. rewrite (N eq_refl), app_nil_r in P. split; [now symmetry|auto].
    - exfalso. specialize (L eq_refl). apply Permutation_length in P. rewrite app_length, map_length in P. lia.
  Qed.
End Kd.
