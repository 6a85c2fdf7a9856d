(** * Proofs about the index of vertices *)
From Coq Require Import Bool List Arith Lia.
From Verif Require Import Base_Res M_Quadedge S_Quadedge P_Quadedge P_Quadedge2 P_Quadedge3 P_Quadedge4 P_QuadedgeTop
  M_Subdivision S_Subdivision P_Subdivision.
Import ListNotations.

Section Index.
  Context {P : Type}.
  Variable same : P -> P -> bool.
  Variable round : P -> P.
  Implicit Types m : mem P.
  Notation lookup := (lookup same).
  Notation put_new := (put_new same).

  (** Every entry is an edge of the graph under its rounded origin. *)
  Definition good m se (vx : @index P) : Prop :=
    forall k x, In (k, x) vx -> connected m se x /\ exists q, orig m x = Some q /\ k = round q.

  Lemma lookup_in vx p x : lookup vx p = Some x -> exists k, In (k, x) vx /\ same p k = true.
  Proof.
    induction vx as [|[k y] vx IH]; cbn [M_Subdivision.lookup]; [discriminate|].
    destruct (same p k) eqn:S; [intros H; injection H as <-; exists k; split; [left; reflexivity|exact S]|].
    intros H. destruct (IH H) as (k' & I & S'). exists k'. split; [right; exact I|exact S'].
  Qed.
  Lemma put_keeps vx p e q x : lookup vx q = Some x -> lookup (put_new vx p e) q <> None.
  Proof.
    intros H. unfold M_Subdivision.put_new. destruct (lookup vx p); [rewrite H; discriminate|].
    cbn [M_Subdivision.lookup]. destruct (same q p); [discriminate|]. rewrite H. discriminate.
  Qed.
  Lemma put_there vx p e : same p p = true -> lookup (put_new vx p e) p <> None.
  Proof.
    intros S. unfold M_Subdivision.put_new. destruct (lookup vx p) as [x|] eqn:L; [rewrite L; discriminate|].
    cbn [M_Subdivision.lookup]. rewrite S. discriminate.
  Qed.
  Lemma put_good m se vx q x : good m se vx -> connected m se x -> orig m x = Some q -> good m se (put_new vx (round q) x).
  Proof.
    intros G C O. unfold M_Subdivision.put_new. destruct (lookup vx (round q)); [exact G|].
    intros k y [E|I]; [injection E as <- <-; split; [exact C|exists q; split; [exact O|reflexivity]]|apply (G k y I)].
  Qed.

  Variable m : mem P.
  Variable se : edge.
  Hypothesis Hist : history m.
  Hypothesis Start : primal m se.
  Hypothesis Lab : labelled m se.
  Hypothesis Dec : decides m se (fun p q => same (round p) (round q)).

  Lemma here_same a p : connected m se a -> orig m a = Some p -> same (round p) (round p) = true.
  Proof. intros C O. apply (Dec a a p p C C O O). reflexivity. Qed.

  Lemma conn_primal a : connected m se a -> primal m a.
  Proof. intros C. apply (connected_primal m se a (history_wf m Hist) C), Start. Qed.
  Lemma conn_sym a : connected m se a -> connected m se (sym a).
  Proof. intros C. eapply c_trans; [exact C|]. apply c_sym, conn_primal, C. Qed.
  Lemma conn_onext a : connected m se a -> connected m se (onext m a).
  Proof. intros C. eapply c_trans; [exact C|]. apply c_onext, conn_primal, C. Qed.

  Lemma add_all_spec es : forall vx, good m se vx -> (forall e, In e es -> connected m se e) ->
    exists vx', add_all same round m vx es = Ok vx' /\ good m se vx'
      /\ (forall q x, lookup vx q = Some x -> lookup vx' q <> None)
      /\ (forall e p, In e es -> orig m e = Some p \/ dest m e = Some p -> lookup vx' (round p) <> None).
  Proof.
    induction es as [|e es IH]; intros vx G Cs.
    - exists vx. split; [reflexivity|]. split; [exact G|]. split; [intros q x H; rewrite H; discriminate|intros e p []].
    - pose proof (Cs e (or_introl eq_refl)) as Ce. pose proof (conn_sym e Ce) as Cs'.
      destruct (Lab e Ce) as [No _]. destruct (Lab (sym e) Cs') as [Nd _].
      destruct (orig m e) as [o|] eqn:O; [|contradiction No; reflexivity].
      destruct (orig m (sym e)) as [d|] eqn:D; [|contradiction Nd; reflexivity].
      cbn [add_all]. unfold vx_add, dest. rewrite O, D. cbn [bind].
      set (vx1 := put_new vx (round o) e). set (vx2 := put_new vx1 (round d) (sym e)).
      assert (G1 : good m se vx1) by (apply put_good; assumption).
      assert (G2 : good m se vx2) by (apply put_good; assumption).
      destruct (IH vx2 G2) as (vx' & A & G' & K & F); [intros x X; apply Cs; right; exact X|].
      assert (Keep : forall q, lookup vx1 q <> None -> lookup vx' q <> None).
      { intros q N. destruct (lookup vx1 q) as [x|] eqn:L; [|contradiction N; reflexivity].
        pose proof (put_keeps vx1 (round d) (sym e) q x L) as N2. fold vx2 in N2.
        destruct (lookup vx2 q) as [y|] eqn:L2; [|contradiction N2; reflexivity]. exact (K q y L2). }
      exists vx'. split; [exact A|]. split; [exact G'|]. split.
      + intros q x H. apply Keep. apply (put_keeps _ _ _ _ x H).
      + intros x p [<-|X] E; [|exact (F x p X E)]. unfold dest in E. rewrite O, D in E. destruct E as [E|E]; injection E as <-.
        * apply Keep. apply put_there. apply (here_same e o Ce O).
        * assert (N2 : lookup vx2 (round d) <> None) by (apply put_there; apply (here_same (sym e) d Cs' D)).
          destruct (lookup vx2 (round d)) as [y|] eqn:L2; [|contradiction N2; reflexivity]. exact (K _ y L2).
  Qed.

  (** What an entry under a vertex is. *)
  Lemma good_entry vx a p x : good m se vx -> connected m se a -> orig m a = Some p -> lookup vx (round p) = Some x ->
    connected m se x /\ orig m x = Some p /\ same_origin m x a.
  Proof.
    intros G C O L. destruct (lookup_in _ _ _ L) as (k & I & S). destruct (G k x I) as (Cx & q & Ox & ->).
    assert (p = q) by (apply (Dec a x p q C Cx O Ox); exact S). subst q.
    split; [exact Cx|]. split; [exact Ox|]. apply (Lab x Cx). exact C. rewrite Ox, O. reflexivity.
  Qed.

  Lemma new_index : exists vx, new_vertex_index same round m (Some se) = Ok vx
    /\ good m se vx /\ indexes (vx_get same round vx) m se.
  Proof.
    destruct (walk_edges m se Hist Start) as (l & _ & Cl & All & W).
    assert (Cal : calls_on (fun _ => @Continue unit) l = (l, None)).
    { clear. induction l as [|e l IH]; [reflexivity|]. cbn [calls_on]. rewrite IH. reflexivity. }
    destruct (add_all_spec l []) as (vx & A & G & _ & F); [intros k x []|exact Cl|].
    exists vx. split; [|split; [exact G|]].
    - unfold new_vertex_index. rewrite W, Cal. exact A.
    - intros a p C O. unfold vx_get.
      assert (N : lookup vx (round p) <> None).
      { destruct (All a C) as [I|I]; [apply (F a p I); left; exact O|]. apply (F (sym a) p I). right. unfold dest.
        rewrite sym_sym by apply (conn_primal a C). exact O. }
      destruct (lookup vx (round p)) as [x|] eqn:L; [|contradiction N; reflexivity].
      exists x. split; [reflexivity|]. apply (good_entry vx a p x G C O L).
  Qed.
End Index.
