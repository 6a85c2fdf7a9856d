(** * Proofs about quad-edges: cycles *)
From Coq Require Import Bool List Arith Lia Permutation.
From Verif Require Import Base_Res M_Quadedge S_Quadedge P_Quadedge.
Import ListNotations.

Lemma chain_app f x l1 y l2 : chain f x (l1 ++ y :: l2) <-> chain f y l1 /\ chain f x (y :: l2).
Proof.
  induction l1 as [|e l1 IH]; [cbn [app]; cbn [chain]; tauto|].
  cbn [app chain] in *. rewrite IH. destruct l1 as [|e' l1]; cbn [app]; tauto.
Qed.
Lemma chain_ext f g x l : (forall e, In e l -> f e = g e) -> chain f x l -> chain g x l.
Proof.
  induction l as [|e l IH]; [trivial|]. intros H [A B]. split.
  - rewrite <- A. symmetry. apply H. left. reflexivity.
  - apply IH; [|exact B]. intros y Y. apply H. right. exact Y.
Qed.
Lemma chain_cons f x e l : chain f x (e :: l) -> exists y, f e = y /\ chain f x l /\ (l = [] -> y = x) /\ (forall z l', l = z :: l' -> y = z).
Proof. intros [A B]. exists (f e). split; [reflexivity|]. split; [exact B|]. split; intros; subst; exact A. Qed.
Lemma chain_in f x l e : chain f x l -> In e l -> f e = x \/ In (f e) l.
Proof.
  induction l as [|y l IH]; [intros _ []|]. intros [A B] [->|I].
  - destruct l as [|z l]; [left; exact A|right; right; left; symmetry; exact A].
  - destruct (IH B I) as [Q|Q]; [left; exact Q|right; right; exact Q].
Qed.
Lemma cycle_ne f l : cycle f l -> l <> [].
Proof. destruct l; [intros []|discriminate]. Qed.
Lemma cycle_nodup f l : cycle f l -> NoDup l.
Proof. destruct l; [intros []|intros [A _]; exact A]. Qed.
Lemma cycle_in f l e : cycle f l -> In e l -> In (f e) l.
Proof.
  destruct l as [|x l]; [intros []|]. intros [N C] I.
  destruct (chain_in _ _ _ _ C I) as [Q|Q]; [rewrite Q; left; reflexivity|exact Q].
Qed.
Lemma cycle_rotate f l1 l2 : cycle f (l1 ++ l2) -> cycle f (l2 ++ l1).
Proof.
  destruct l1 as [|a l1]; [rewrite app_nil_r; trivial|].
  destruct l2 as [|b l2]; [rewrite app_nil_r; trivial|].
  cbn [app cycle]. intros [N C]. split.
  - change (NoDup ((b :: l2) ++ a :: l1)). change (NoDup ((a :: l1) ++ b :: l2)) in N.
    apply (Permutation_NoDup (Permutation_app_comm (a :: l1) (b :: l2)) N).
  - change (chain f a ((a :: l1) ++ b :: l2)) in C. change (chain f b ((b :: l2) ++ a :: l1)).
    apply chain_app in C. destruct C as [C1 C2]. apply chain_app. split; assumption.
Qed.
Lemma cycle_cut f l e : cycle f l -> In e l -> exists l1 l2, l = l1 ++ e :: l2 /\ cycle f (e :: l2 ++ l1).
Proof.
  intros C I. apply in_split in I. destruct I as (l1 & l2 & ->). exists l1, l2. split; [reflexivity|].
  apply (cycle_rotate f l1 (e :: l2)) in C. exact C.
Qed.
Lemma cycle_ext f g l : (forall e, In e l -> f e = g e) -> cycle f l -> cycle g l.
Proof. destruct l as [|e l]; [trivial|]. intros H [A B]. split; [exact A|apply (chain_ext f g _ _ H B)]. Qed.

Lemma nodup_app {A} (l l' : list A) : NoDup l -> NoDup l' -> (forall x, In x l -> In x l' -> False) -> NoDup (l ++ l').
Proof.
  induction 1 as [|x l N1 N2 IH]; intros N D; [exact N|]. cbn [app]. constructor.
  - rewrite in_app_iff. intros [I|I]; [contradiction|]. apply (D x); [left; reflexivity|exact I].
  - apply IH; [exact N|]. intros y Y. apply D. right. exact Y.
Qed.
Lemma nodup_app_inv {A} (l l' : list A) : NoDup (l ++ l') -> NoDup l /\ NoDup l'.
Proof.
  induction l as [|x l IH]; [split; [constructor|assumption]|]. cbn [app]. inversion 1; subst.
  destruct IH; [assumption|]. split; [|assumption]. constructor; [|assumption]. rewrite in_app_iff in *. tauto.
Qed.

(** Exchanging two images merges or splits. *)
Section Exchange.
  Variables (f g : edge -> edge) (a b : edge).
  Hypothesis Ga : g a = f b.
  Hypothesis Gb : g b = f a.

  Lemma tail_ext (l : list edge) x : (forall e, In e l -> e <> a -> e <> b -> g e = f e) -> ~ In a l -> ~ In b l -> chain f x l -> chain g x l.
  Proof. intros G A B. apply chain_ext. intros e I. symmetry. apply G; [exact I|intros ->; contradiction|intros ->; contradiction]. Qed.

  Lemma exchange_merge A B :
    (forall e, In e (a :: A) \/ In e (b :: B) -> e <> a -> e <> b -> g e = f e) ->
    cycle f (a :: A) -> cycle f (b :: B) -> apart (a :: A) (b :: B) -> cycle g (a :: B ++ b :: A).
  Proof.
    intros G [NA CA] [NB CB] D. inversion NA as [|? ? NA1 NA2]; subst. inversion NB as [|? ? NB1 NB2]; subst.
    assert (N1 : ~ In b A) by (intros I; apply (D b); [right; exact I|left; reflexivity]).
    assert (N2 : ~ In a B) by (intros I; apply (D a); [left; reflexivity|right; exact I]).
    split.
    - apply (Permutation_NoDup (l := (a :: A) ++ b :: B)).
      + cbn [app]. apply perm_skip. rewrite Permutation_app_comm. cbn [app]. apply Permutation_middle.
      + apply nodup_app; assumption.
    - change (chain g a ((a :: B) ++ b :: A)). apply chain_app.
      destruct CA as [CA1 CA2], CB as [CB1 CB2].
      split; split.
      + rewrite Ga, CB1. destruct B; reflexivity.
      + apply (tail_ext B); auto. intros e I. apply G. right. right. exact I.
      + rewrite Gb, CA1. destruct A; reflexivity.
      + apply (tail_ext A); auto. intros e I. apply G. left. right. exact I.
  Qed.

  Lemma exchange_split X Y :
    (forall e, In e (a :: X ++ b :: Y) -> e <> a -> e <> b -> g e = f e) ->
    cycle f (a :: X ++ b :: Y) -> cycle g (a :: Y) /\ cycle g (b :: X).
  Proof.
    intros G [N C]. inversion N as [|? ? N1 N2]; subst. rewrite in_app_iff in N1.
    pose proof (NoDup_remove_2 _ _ _ N2) as N3. rewrite in_app_iff in N3.
    pose proof (NoDup_remove_1 _ _ _ N2) as N4.
    change (chain f a ((a :: X) ++ b :: Y)) in C. apply chain_app in C. destruct C as [[C1 C2] [C3 C4]].
    assert (NX : NoDup X /\ NoDup Y) by (apply nodup_app_inv, N4).
    split; split; try split.
    - constructor; [intros I; apply N1; right; right; exact I|apply NX].
    - rewrite Ga, C3. reflexivity.
    - apply (tail_ext Y); auto.
      + intros e I. apply G. right. rewrite in_app_iff. right. right. exact I.
      + intros I. apply N1. right. right. exact I.
    - constructor; [intros I; apply N3; left; exact I|apply NX].
    - rewrite Gb, C1. reflexivity.
    - apply (tail_ext X); auto.
      intros e I. apply G. right. rewrite in_app_iff. left. exact I.
  Qed.
End Exchange.

(** Exchanging the edges before two edges. *)
Section Before.
  Variables (f g : edge -> edge) (p q a b : edge).
  Hypothesis Fp : f p = a.
  Hypothesis Fq : f q = b.
  Hypothesis Gp : g p = b.
  Hypothesis Gq : g q = a.

  Lemma cycle_last l x : cycle f (x :: l) -> (forall e, In e (x :: l) -> f e = x -> e = p) ->
    exists l', x :: l = l' ++ [p] /\ cycle f (p :: l').
  Proof.
    intros C U. destruct (exists_last (l := x :: l)) as (l' & y & E); [discriminate|].
    assert (Y : f y = x).
    { destruct C as [_ C]. rewrite E in C. apply chain_app in C. destruct C as [_ [C _]]. exact C. }
    assert (y = p) as ->. { apply U; [rewrite E, in_app_iff; right; left; reflexivity|exact Y]. }
    exists l'. split; [exact E|]. rewrite E in C. apply (cycle_rotate f l' [p]) in C. exact C.
  Qed.
End Before.

Lemma before_merge f g p q a b A B :
  f p = a -> f q = b -> g p = b -> g q = a ->
  (forall e, In e (a :: A) -> f e = a -> e = p) -> (forall e, In e (b :: B) -> f e = b -> e = q) ->
  (forall e, In e (a :: A) \/ In e (b :: B) -> e <> p -> e <> q -> g e = f e) ->
  cycle f (a :: A) -> cycle f (b :: B) -> apart (a :: A) (b :: B) -> cycle g (a :: A ++ b :: B).
Proof.
  intros Fp Fq Gp Gq Up Uq G CA CB D.
  destruct (cycle_last f p A a CA Up) as (lA & EA & CA').
  destruct (cycle_last f q B b CB Uq) as (lB & EB & CB').
  change (a :: A ++ b :: B) with ((a :: A) ++ b :: B). rewrite EA, EB.
  replace ((lA ++ [p]) ++ lB ++ [q]) with (lA ++ (p :: lB ++ [q])) by (rewrite <- app_assoc; reflexivity).
  apply cycle_rotate. cbn [app]. rewrite <- app_assoc. cbn [app].
  apply (exchange_merge f g p q); try congruence.
  - intros e I. apply G. rewrite EA, EB, !in_app_iff. cbn [In] in *. tauto.
  - intros e I J. apply (D e); [rewrite EA|rewrite EB]; rewrite in_app_iff; cbn [In] in *; tauto.
Qed.
Lemma before_split f g p q a b X Y :
  f p = a -> f q = b -> g p = b -> g q = a ->
  (forall e, In e (a :: X ++ b :: Y) -> f e = a -> e = p) -> (forall e, In e (a :: X ++ b :: Y) -> f e = b -> e = q) ->
  (forall e, In e (a :: X ++ b :: Y) -> e <> p -> e <> q -> g e = f e) ->
  cycle f (a :: X ++ b :: Y) -> cycle g (a :: X) /\ cycle g (b :: Y).
Proof.
  intros Fp Fq Gp Gq Up Uq G C.
  (* a X' q b Y' p *)
  destruct (exists_last (l := a :: X)) as (lX & x & EX); [discriminate|].
  destruct (exists_last (l := b :: Y)) as (lY & y & EY); [discriminate|].
  change (a :: X ++ b :: Y) with ((a :: X) ++ b :: Y) in *.
  assert (Fx : f x = b).
  { destruct C as [_ C]. apply (chain_app f a (a :: X) b Y) in C. destruct C as [C _]. rewrite EX in C. apply chain_app in C. apply C. }
  assert (Fy : f y = a).
  { destruct C as [_ C]. apply (chain_app f a (a :: X) b Y) in C. destruct C as [_ C]. rewrite EY in C. apply chain_app in C. apply C. }
  assert (x = q) as ->. { apply Uq; [rewrite EX, !in_app_iff; cbn [In]; tauto|exact Fx]. }
  assert (y = p) as ->. { apply Up; [rewrite EY, !in_app_iff; cbn [In]; tauto|exact Fy]. }
  rewrite EX, EY in *.
  assert (C' : cycle f (p :: lX ++ q :: lY)).
  { replace ((lX ++ [q]) ++ lY ++ [p]) with ((lX ++ q :: lY) ++ [p]) in C by (rewrite <- !app_assoc; reflexivity).
    apply (cycle_rotate f _ [p]) in C. exact C. }
  destruct (exchange_split f g p q) with (X := lX) (Y := lY) as [H1 H2]; try congruence.
  - intros e I. apply G. rewrite !in_app_iff in *. cbn [In] in *. rewrite in_app_iff in I. cbn [In] in I. tauto.
  - split.
    + apply (cycle_rotate g [q] lX). exact H2.
    + apply (cycle_rotate g [p] lY). exact H1.
Qed.

(** Every edge of a finite closed set lies on a cycle of an injective function. *)
Lemma chain_last f x l y : chain f x (l ++ [y]) -> f y = x.
Proof. intros C. apply chain_app in C. apply C. Qed.
Lemma chain_grow f y l : chain f y l -> chain f (f y) (l ++ [y]).
Proof. intros C. apply chain_app. split; [exact C|]. split; [reflexivity|exact I]. Qed.
Lemma finite_cycle (all : list edge) f e :
  (forall x, In x all -> In (f x) all) -> (forall x y, In x all -> In y all -> f x = f y -> x = y) -> In e all ->
  exists l, cycle f (e :: l).
Proof.
  intros Cl Inj E.
  assert (K : forall n l y, NoDup (e :: l) -> chain f y (e :: l) -> incl (e :: l) all -> length (e :: l) + n = S (length all) ->
    exists l, cycle f (e :: l)).
  { induction n as [|n IH]; intros l y N C S L.
    - exfalso. apply NoDup_incl_length in S; [|exact N]. lia.
    - destruct (edge_dec y e) as [->|Ny]; [exists l; split; assumption|].
      destruct (exists_last (l := e :: l)) as (l0 & q & EL); [discriminate|].
      assert (Q : f q = y) by (rewrite EL in C; apply (chain_last f y l0 q C)).
      assert (Iq : In q all) by (apply S; rewrite EL, in_app_iff; right; left; reflexivity).
      assert (NI : ~ In y (e :: l)).
      { intros I. apply in_split in I. destruct I as (l1 & l2 & ES).
        destruct l1 as [|z l1]; [cbn in ES; congruence|].
        destruct (exists_last (l := z :: l1)) as (l1' & p & E1); [discriminate|].
        rewrite E1 in ES. rewrite <- app_assoc in ES. cbn [app] in ES.
        assert (Pf : f p = y). { rewrite ES in C. apply chain_app in C. destruct C as [_ [C _]]. exact C. }
        assert (p = q) as ->.
        { apply Inj; [apply S; rewrite ES, in_app_iff; right; left; reflexivity|exact Iq|congruence]. }
        (* q twice *)
        destruct (exists_last (l := y :: l2)) as (l2' & q' & E2); [discriminate|].
        assert (q' = q) as ->.
        { rewrite ES, E2 in EL. change (q :: l2' ++ [q']) with ((q :: l2') ++ [q']) in EL. rewrite app_assoc in EL. apply app_inj_tail in EL. apply EL. }
        rewrite ES, E2 in N. apply NoDup_remove_2 in N. apply N. rewrite !in_app_iff. right. right. left. reflexivity. }
      destruct (IH (l ++ [y]) (f y)) as [l' Cy].
      + change (e :: l ++ [y]) with ((e :: l) ++ [y]).
        apply (Permutation_NoDup (l := y :: e :: l)); [apply Permutation_cons_append|]. constructor; assumption.
      + apply (chain_grow f y (e :: l)). exact C.
      + change (e :: l ++ [y]) with ((e :: l) ++ [y]). intros x I. apply in_app_iff in I. destruct I as [I|[<-|[]]]; [apply S, I|].
        rewrite <- Q. apply Cl, Iq.
      + change (e :: l ++ [y]) with ((e :: l) ++ [y]). rewrite app_length. cbn [length] in *. lia.
      + exists l'. exact Cy. }
  apply (K (length all) [] (f e)).
  - constructor; [intros []|constructor].
  - cbn. auto.
  - intros x [<-|[]]. exact E.
  - reflexivity.
Qed.
