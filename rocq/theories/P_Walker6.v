(** Proofs about planar/makevalid/walker: RingForTriangle *)
From Coq Require Import ZArith Bool List Lia Reals Lra Permutation.
From Flocq Require Import Core.Core.
From Verif Require Import Base_Res Base_F64 Base_F64Arith Base_Geom M_Geom M_Extent M_Cmp M_Planar M_Triangle M_Winding M_Walker
  P_F64 P_F64Flocq S_Intersect S_Walker S_Cmp P_Cmp P_Cmp2 P_Walker P_Walker2.
Import ListNotations.
Local Open Scope nat_scope.

(** ** The edge map *)
Lemma edge_eq_sym a b : edge_eq a b = edge_eq b a.
Proof. unfold edge_eq. now rewrite (go_eq_sym (fst a)), (go_eq_sym (snd a)). Qed.
Lemma edge_eq_trans a b c : edge_eq a b = true -> edge_eq b c = true -> edge_eq a c = true.
Proof.
  unfold edge_eq. intros H1 H2. apply andb_prop in H1, H2. destruct H1, H2.
  now rewrite (go_eq_trans (fst a) (fst b) (fst c)), (go_eq_trans (snd a) (snd b) (snd c)).
Qed.
Lemma edge_get_add m e i e' : edge_get (edge_add m e i) e' = if edge_eq e e' then edge_get m e' ++ [i] else edge_get m e'.
Proof.
  induction m as [|[e0 l] m IH]; cbn [edge_add edge_get].
  - destruct (edge_eq e e'); reflexivity.
  - destruct (edge_eq e0 e) eqn:E0; cbn [edge_get].
    + destruct (edge_eq e0 e') eqn:E1.
      * rewrite (edge_eq_trans e e0 e'); [reflexivity|now rewrite edge_eq_sym|exact E1].
      * destruct (edge_eq e e') eqn:E2; [|reflexivity]. rewrite (edge_eq_trans e0 e e') in E1; [discriminate|exact E0|exact E2].
    + destruct (edge_eq e0 e') eqn:E1; [|exact IH].
      destruct (edge_eq e e') eqn:E2; [|reflexivity]. rewrite (edge_eq_trans e0 e' e) in E0; [discriminate|exact E1|now rewrite edge_eq_sym].
Qed.
Lemma edge_get_adds i e' es : forall m j, In j (edge_get (fold_left (fun m e => edge_add m e i) es m) e') <->
  In j (edge_get m e') \/ j = i /\ exists e, In e es /\ edge_eq e e' = true.
Proof.
  induction es as [|e es IH]; intros m j; cbn [fold_left].
  - split; [now left|]. intros [H|(_ & e & [] & _)]; exact H.
  - rewrite IH, edge_get_add. destruct (edge_eq e e') eqn:E.
    + rewrite in_app_iff. split.
      * intros [[H|[<-|[]]]|(-> & x & Hx & Ex)]; [now left|right; split; [reflexivity|exists e; split; [now left|exact E]]|right; split; [reflexivity|exists x; split; [now right|exact Ex]]].
      * intros [H|(-> & x & [<-|Hx] & Ex)]; [left; now left|left; right; now left|right; split; [reflexivity|exists x; auto]].
    + split.
      * intros [H|(-> & x & Hx & Ex)]; [now left|right; split; [reflexivity|exists x; split; [now right|exact Ex]]].
      * intros [H|(-> & x & [<-|Hx] & Ex)]; [now left|congruence|right; split; [reflexivity|exists x; auto]].
Qed.
Lemma edges_from_in e' ts : forall i m j, In j (edge_get (edges_from i ts m) e') <->
  In j (edge_get m e') \/ exists t, i <= j /\ nth_error ts (j - i) = Some t /\ exists e, In e (sorted_edges t) /\ edge_eq e e' = true.
Proof.
  induction ts as [|t ts IH]; intros i m j; cbn [edges_from].
  - split; [now left|]. intros [H|(t & _ & E & _)]; [exact H|]. destruct (j - i); discriminate.
  - rewrite IH, edge_get_adds. split.
    + intros [[H|(-> & e & He & Ee)]|(t' & L & E & H)]; [now left| |].
      * right. exists t. split; [lia|]. rewrite Nat.sub_diag. split; [reflexivity|]. exists e. auto.
      * right. exists t'. split; [lia|]. replace (j - i) with (S (j - S i)) by lia. auto.
    + intros [H|(t' & L & E & H)]; [left; now left|].
      destruct (Nat.eq_dec j i) as [->|N].
      * rewrite Nat.sub_diag in E. cbn in E. injection E as <-. left. right. auto.
      * right. exists t'. split; [lia|]. replace (j - i) with (S (j - S i)) in E by lia. auto.
Qed.
Lemma edge_map_in ts e' j : In j (edge_get (edge_map_from_triangles ts) e') <->
  exists t, nth_error ts j = Some t /\ exists e, In e (sorted_edges t) /\ edge_eq e e' = true.
Proof.
  unfold edge_map_from_triangles. rewrite edges_from_in, Nat.sub_0_r. split.
  - intros [[]|(t & _ & H)]. exists t. exact H.
  - intros (t & H). right. exists t. split; [lia|exact H].
Qed.

(** ** Seen triangles *)
Lemma seen_in_spec seen i : seen_in seen i = true <-> In i seen.
Proof.
  unfold seen_in. rewrite existsb_exists. split.
  - intros (x & H & E). apply Nat.eqb_eq in E. now subst.
  - intros H. exists i. split; [exact H|apply Nat.eqb_refl].
Qed.
Definition unseen (ts : list triangle) (seen : list nat) : nat :=
  length (filter (fun i => negb (seen_in seen i)) (seq 0 (length ts))).
Lemma filter_less {A} (f g : A -> bool) l x : In x l -> f x = true -> g x = false -> (forall y, g y = true -> f y = true) ->
  length (filter g l) < length (filter f l).
Proof.
  intros I Fx Gx H. assert (Le : forall l, length (filter g l) <= length (filter f l)).
  { clear - H. induction l as [|y l IH]; cbn; [lia|]. destruct (g y) eqn:E; [rewrite (H y E); cbn; lia|]. destruct (f y); cbn; lia. }
  induction l as [|y l IH]; [destruct I|]. cbn. destruct I as [->|I].
  - rewrite Fx, Gx. cbn. specialize (Le l). lia.
  - specialize (IH I). destruct (g y) eqn:E; [rewrite (H y E); cbn; lia|]. destruct (f y); cbn; lia.
Qed.
Lemma unseen_less ts seen i : i < length ts -> ~ In i seen -> unseen ts (i :: seen) < unseen ts seen.
Proof.
  intros L N. apply filter_less with i.
  - apply in_seq. lia.
  - apply negb_true_iff. destruct (seen_in seen i) eqn:E; [|reflexivity]. now apply seen_in_spec in E.
  - cbn. now rewrite Nat.eqb_refl.
  - intros y H. cbn in H. apply negb_true_iff in H. apply orb_false_iff in H. unfold seen_in. now rewrite (proj2 H).
Qed.
Lemma unseen_le ts seen : unseen ts seen <= length ts.
Proof. unfold unseen. rewrite <- (seq_length (length ts) 0) at 2. generalize (seq 0 (length ts)). intros l. induction l as [|x l IH]; cbn; [lia|]. destruct (negb _); cbn; lia. Qed.

Lemma index_of_none c l : ~ In c l -> index_of c l = None.
Proof.
  induction l as [|x l IH]; intros N; [reflexivity|]. cbn. destruct (Nat.eqb_spec x c) as [->|_]; [elim N; now left|].
  rewrite IH; [reflexivity|]. intros H. apply N. now right.
Qed.
Lemma removelast_app1 {A} (l : list A) x : removelast (l ++ [x]) = l.
Proof. apply removelast_last. Qed.

Section Ring.
  Variable ts : list triangle.
  Variable ctx : nat -> bool.
  Let m := edge_map_from_triangles ts.

  Definition on_edge (p q : pt) (j : nat) : Prop := In j (edge_get m (sorted_edge p q)).

  Lemma ring_loop_ind idx (Inv : list pt -> nat -> list nat -> Prop) :
    (forall p l q head seen, Inv (p :: l ++ [q]) head seen -> head < length (p :: l ++ [q]) ->
       (forall j, on_edge p q j -> In j seen) -> Inv (q :: p :: l) (head + 1) seen) ->
    (forall p l q head seen j t, Inv (p :: l ++ [q]) head seen -> head < length (p :: l ++ [q]) ->
       on_edge p q j -> ~ In j seen -> nth_error ts j = Some t -> Inv ((p :: l ++ [q]) ++ [third_point t p q]) head (j :: seen)) ->
    forall k n rng head cidxs seen, Inv rng head seen -> length cidxs + head = length rng -> 2 <= length rng ->
      (forall c, In c cidxs -> In c seen) -> In idx seen -> 2 * unseen ts seen + length cidxs <= k ->
    exists rng' head' seen' n', ring_loop ts ctx k n idx rng head cidxs seen = Ok (rng', seen', n') /\
      Inv rng' head' seen' /\ n < n' /\ (head' = length rng' \/ exists j, n <= j < n' /\ ctx j = true).
  Proof.
    intros Back Fwd. induction k as [|k IH]; intros n rng head cidxs seen Iv Lc Lr Sc Si Hk.
    - cbn [ring_loop]. destruct (ctx n) eqn:Ec.
      { exists rng, head, seen, (S n). split; [reflexivity|]. split; [exact Iv|]. split; [lia|]. right. exists n. split; [lia|exact Ec]. }
      rewrite (proj2 (Nat.leb_le _ _)) by lia. cbn [orb]. exists rng, head, seen, (S n). split; [reflexivity|]. split; [exact Iv|]. split; [lia|]. left. lia.
    - cbn [ring_loop]. destruct (ctx n) eqn:Ec.
      { exists rng, head, seen, (S n). split; [reflexivity|]. split; [exact Iv|]. split; [lia|]. right. exists n. split; [lia|exact Ec]. }
      destruct ((length rng <=? head) || (length cidxs =? 0)) eqn:Ed.
      { exists rng, head, seen, (S n). split; [reflexivity|]. split; [exact Iv|]. split; [lia|]. left.
        apply orb_true_iff in Ed. destruct Ed as [Ed|Ed]; [apply Nat.leb_le in Ed|apply Nat.eqb_eq in Ed]; lia. }
      apply orb_false_iff in Ed. destruct Ed as [Ed1 Ed2]. apply Nat.leb_gt in Ed1. apply Nat.eqb_neq in Ed2.
      destruct rng as [|p rng]; [cbn in Lr; lia|]. destruct rng as [|q l] using rev_ind; [cbn in Lr; lia|]. clear IHl.
      destruct cidxs as [|c0 cs] eqn:Ecs; [now elim Ed2|]. rewrite <- Ecs in *.
      destruct cidxs as [|lst cid] using rev_ind; [discriminate|]. clear IHcid.
      assert (Lq : last (p :: l ++ [q]) p = q) by (rewrite app_comm_cons; apply last_last).
      assert (Rl : removelast (p :: l ++ [q]) = p :: l) by exact (removelast_app1 (p :: l) q).
      rewrite Lq, Rl, last_last, removelast_app1.
      rewrite app_length in Lc, Hk. cbn [length] in Lc, Hk. rewrite app_length in Lc. cbn [length] in Lc.
      change (edge_map_from_triangles ts) with m. unfold index_for_edge.
      destruct (find _ _) as [cidx|] eqn:Ef.
      + apply find_some in Ef. destruct Ef as [Ie Ne]. apply negb_true_iff, orb_false_iff in Ne. destruct Ne as [Ns Nl].
        assert (Nin : ~ In cidx seen) by (intros H; apply seen_in_spec in H; congruence).
        assert (Nidx : cidx <> idx) by (intros ->; contradiction).
        rewrite (proj2 (Nat.eqb_neq _ _) Nidx). rewrite index_of_none by (intros H; now apply Nin, Sc).
        pose proof Ie as Ie'. apply edge_map_in in Ie'. destruct Ie' as (t & Et & _). rewrite Et.
        assert (Lt : cidx < length ts) by (apply nth_error_Some; congruence).
        pose proof (unseen_less ts seen cidx Lt Nin) as Lu.
        destruct (IH (S n) ((p :: l ++ [q]) ++ [third_point t p q]) head (cid ++ [cidx; cidx]) (cidx :: seen)) as (r' & h' & s' & n' & E & Iv' & Ln & D).
        * apply Fwd; try assumption.
        * repeat (rewrite app_length || cbn [length]). lia.
        * repeat (rewrite app_length || cbn [length]). lia.
        * intros c Hc. apply in_app_or in Hc. destruct Hc as [Hc|[<-|[<-|[]]]]; [right; apply Sc, in_or_app; now left|now left|now left].
        * now right.
        * rewrite app_length. cbn [length]. lia.
        * exists r', h', s', n'. split; [exact E|]. split; [exact Iv'|]. split; [lia|]. destruct D as [D|(j & Hj & T)]; [now left|right; exists j; split; [lia|exact T]].
      + assert (Al : forall j, on_edge p q j -> In j seen).
        { intros j Hj. pose proof (find_none _ _ Ef j Hj) as H. apply negb_false_iff, orb_true_iff in H. destruct H as [H|H].
          - now apply seen_in_spec.
          - apply Nat.eqb_eq in H. subst j. apply Sc, in_or_app. right. now left. }
        destruct (IH (S n) (q :: p :: l) (head + 1) cid seen) as (r' & h' & s' & n' & E & Iv' & Ln & D).
        * apply Back; assumption.
        * cbn [length]. lia.
        * cbn [length]. lia.
        * intros c Hc. apply Sc, in_or_app. now left.
        * exact Si.
        * lia.
        * exists r', h', s', n'. split; [exact E|]. split; [exact Iv'|]. split; [lia|]. destruct D as [D|(j & Hj & T)]; [now left|right; exists j; split; [lia|exact T]].
  Qed.

  Lemma ring_for_triangle_ind n idx t seen (Inv : list pt -> nat -> list nat -> Prop) : nth_error ts idx = Some t ->
    Inv (vertices3 t) 0 (idx :: seen) ->
    (forall p l q head seen, Inv (p :: l ++ [q]) head seen -> head < length (p :: l ++ [q]) ->
       (forall j, on_edge p q j -> In j seen) -> Inv (q :: p :: l) (head + 1) seen) ->
    (forall p l q head seen j t, Inv (p :: l ++ [q]) head seen -> head < length (p :: l ++ [q]) ->
       on_edge p q j -> ~ In j seen -> nth_error ts j = Some t -> Inv ((p :: l ++ [q]) ++ [third_point t p q]) head (j :: seen)) ->
    exists rng' head' seen' n', ring_for_triangle ts ctx n idx seen = Ok (rng', seen', n') /\
      Inv rng' head' seen' /\ n < n' /\ (head' = length rng' \/ exists j, n <= j < n' /\ ctx j = true).
  Proof.
    intros Et I0 Back Fwd. unfold ring_for_triangle. rewrite Et.
    assert (L3 : length (vertices3 t) = 3) by (destruct t as [[a b] c]; reflexivity).
    apply (ring_loop_ind idx Inv Back Fwd); [exact I0|rewrite L3; reflexivity|lia| |now left|].
    - intros c [<-|[<-|[<-|[]]]]; now left.
    - pose proof (unseen_le ts (idx :: seen)). cbn [length]. lia.
  Qed.

  (** ** Any triangles *)
  Definition walk_inv (seen0 : list nat) (rng : list pt) (head : nat) (seen : list nat) : Prop :=
    exists vis, seen = vis ++ seen0 /\ NoDup vis /\ (forall j, In j vis -> ~ In j seen0 /\ j < length ts) /\ length rng = 2 + length vis /\
      (forall p, In p rng -> exists j t, In j vis /\ nth_error ts j = Some t /\ In p (vertices3 t)).

  Theorem ring_for_triangle_any n idx t seen : nth_error ts idx = Some t -> ~ In idx seen ->
    exists rng vis n', ring_for_triangle ts ctx n idx seen = Ok (rng, vis ++ seen, n') /\ In idx vis /\ NoDup vis /\
      (forall j, In j vis -> ~ In j seen /\ j < length ts) /\ length rng = 2 + length vis /\
      (forall p, In p rng -> exists j t, In j vis /\ nth_error ts j = Some t /\ In p (vertices3 t)) /\ n < n'.
  Proof.
    intros Et Ni.
    destruct (ring_for_triangle_ind n idx t seen (fun rng head s => walk_inv seen rng head s /\ In idx s) Et) as (rng & head & s & n' & E & ((vis & -> & ND & Out & Ln & Pt) & Hi) & Lt & _).
    - split; [|now left]. exists [idx]. split; [reflexivity|]. split; [constructor; [easy|constructor]|]. split; [|split].
      + intros j [<-|[]]. split; [exact Ni|]. apply nth_error_Some. congruence.
      + destruct t as [[a b] c]. reflexivity.
      + intros p Hp. exists idx, t. split; [now left|]. auto.
    - intros p l q head s ((vis & -> & ND & Out & Ln & Pt) & Hi) L A. split; [|exact Hi]. exists vis. split; [reflexivity|]. split; [exact ND|]. split; [exact Out|]. split.
      + cbn [length] in *. rewrite app_length in Ln. cbn in Ln. lia.
      + intros x Hx. apply Pt. destruct Hx as [<-|[<-|Hx]]; [right; apply in_or_app; right; now left|now left|right; apply in_or_app; now left].
    - intros p l q head s j u ((vis & -> & ND & Out & Ln & Pt) & Hi) L O Nj Eu. split; [|now right]. exists (j :: vis). split; [reflexivity|]. split; [|split; [|split]].
      + constructor; [|exact ND]. intros H. apply Nj, in_or_app. now left.
      + intros i [<-|H]; [|now apply Out]. split; [intros H; apply Nj, in_or_app; now right|]. apply nth_error_Some. congruence.
      + rewrite app_length, Ln. cbn [length]. lia.
      + intros x Hx. apply in_app_or in Hx. destruct Hx as [Hx|[<-|[]]].
        * destruct (Pt x Hx) as (i & v & Hv & R). exists i, v. split; [now right|exact R].
        * exists j, u. split; [now left|]. split; [exact Eu|]. clear. destruct u as [[a b] c]. unfold third_point.
          destruct (_ || _); [cbn; tauto|]. destruct (_ || _); cbn; tauto.
    - exists rng, vis, n'. split; [exact E|]. split; [|auto].
      apply in_app_or in Hi. tauto.
  Qed.
End Ring.
