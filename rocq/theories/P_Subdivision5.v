(** * Proofs about subdivisions: the statements of the theorems and examples *)
From Coq Require Import Bool List Arith Lia.
From Verif Require Import Base_Res M_Quadedge S_Quadedge P_Quadedge P_Quadedge2 P_Quadedge3 P_Quadedge4 P_Quadedge5 P_QuadedgeTop
  M_Subdivision S_Subdivision P_Subdivision P_Subdivision2 P_Subdivision3 P_Subdivision4.
Import ListNotations.

Lemma origin_connected {P} (m : mem P) a b : history m -> primal m a -> same_origin m a b -> connected m a b.
Proof.
  intros H Pa (l & R & A & B). pose proof (history_wf m H) as W.
  apply (cycle_closed (onext m) (fun x => connected m a x) l a R A (c_refl m a)); [|exact B].
  intros x _ C. eapply c_trans; [exact C|]. apply c_onext. apply (connected_primal m a x W C), Pa.
Qed.

Lemma index_all {P} (same : P -> P -> bool) (round : P -> P) (m : mem P) se :
  history m -> primal m se -> labelled m se -> decides m se (fun p q => same (round p) (round q)) ->
  exists vx, new_vertex_index same round m (Some se) = Ok vx /\ indexes (vx_get same round vx) m se
    /\ forall p x, vx_get same round vx p = Some x -> connected m se x /\ exists q, orig m x = Some q /\ same (round p) (round q) = true.
Proof.
  intros H S L D. destruct (new_index same round m se H S L D) as (vx & N & G & I).
  exists vx. split; [exact N|]. split; [exact I|]. intros p x E.
  destruct (lookup_in same vx (round p) x E) as (k & In_k & Sk). destruct (G k x In_k) as (C & q & O & ->).
  split; [exact C|]. exists q. auto.
Qed.

Lemma index_remove {P} (same : P -> P -> bool) (round : P -> P) (m : mem P) se vx e :
  (forall a b, same a b = same b a) -> (forall a b c, same a b = true -> same b c = true -> same a c = true) ->
  history m -> primal m se -> labelled m se -> loop_free m se -> decides m se (fun p q => same (round p) (round q)) ->
  indexes (vx_get same round vx) m se -> connected m se e ->
  exists vx', vx_remove same round m vx e = Ok vx'
  /\ (forall a p, connected m se a -> a <> e -> a <> sym e -> orig m a = Some p ->
        exists x, vx_get same round vx' p = Some x /\ same_origin (delete m e) x a)
  /\ (forall p, around_origin m [e] -> orig m e = Some p -> vx_get same round vx' p = None).
Proof.
  intros Cm Tr H S L NL D I C.
  assert (E : exists vx', vx_remove same round m vx e = Ok vx').
  { unfold vx_remove, dest. destruct (L e C) as [N _]. destruct (L (sym e) (conn_sym m se H S e C)) as [N' _].
    destruct (orig m e); [|contradiction N; reflexivity]. destruct (orig m (sym e)); [|contradiction N'; reflexivity].
    eexists; reflexivity. }
  destruct E as (vx' & E). exists vx'. split; [exact E|].
  apply (remove_index same round Cm Tr m se H S L NL D vx e vx' C); [|exact E].
  intros a p Ca Oa. destruct (I a p Ca Oa) as (x & G & So). exists x. split; [exact G|]. split; [exact So|].
  eapply c_trans; [exact Ca|]. apply (origin_connected m a x H); [apply (conn_primal m se H S a Ca)|].
  destruct So as (l & R & X & A). exists l. auto.
Qed.

(** ** Checking a memory of numbered points *)
Section Check.
  Variable m : mem nat.
  Variable se : edge.
  Variable L : list edge.
  Variable tri : bool.
  (** [rg e] is the ring of [e], [fc e] its face. *)
  Variable rg : edge -> list edge.
  Fixpoint ndb (l : list edge) : bool := match l with [] => true | e :: l => negb (existsb (edge_eqb e) l) && ndb l end.
  Fixpoint chainb (f : edge -> edge) (x : edge) (l : list edge) : bool :=
    match l with [] => true | e :: l' => edge_eqb (f e) (match l' with [] => x | e' :: _ => e' end) && chainb f x l' end.
  Definition cycleb (f : edge -> edge) (l : list edge) : bool := match l with [] => false | e :: _ => ndb l && chainb f e l end.
  Definition inb (x : edge) l := existsb (edge_eqb x) l.
  Definition primalb (e : edge) : bool := Nat.ltb (fst e) (count m) && Nat.ltb (snd e) 4 && Nat.even (snd e).
  Definition opt_eqb (a b : option nat) : bool := match a, b with Some x, Some y => Nat.eqb x y | None, None => true | _, _ => false end.
  Definition check : bool :=
    inb se L && forallb (fun a =>
      primalb a && inb (onext m a) L && inb (sym a) L && cycleb (onext m) (rg a) && inb a (rg a)
      && negb (opt_eqb (orig m a) None) && negb (inb (sym a) (rg a))
      && forallb (fun b => Bool.eqb (opt_eqb (orig m a) (orig m b)) (inb b (rg a))) L
      && (negb tri || cycleb (lnext m) [a; lnext m a; lnext m (lnext m a)])) L.

  Lemma ndb_ok l : ndb l = true -> NoDup l.
  Proof.
    induction l as [|e l IH]; [constructor|]. cbn [ndb]. rewrite andb_true_iff, negb_true_iff. intros [A B]. constructor; [|apply IH, B].
    rewrite <- existsb_in, A. discriminate.
  Qed.
  Lemma chainb_ok f x l : chainb f x l = true -> chain f x l.
  Proof.
    induction l as [|e l IH]; [constructor|]. cbn [chainb chain]. rewrite andb_true_iff. intros [A B].
    split; [apply eqb_spec, A|apply IH, B].
  Qed.
  Lemma cycleb_ok f l : cycleb f l = true -> cycle f l.
  Proof. destruct l as [|e l]; [discriminate|]. cbn [cycleb]. rewrite andb_true_iff. intros [A B]. split; [apply ndb_ok, A|apply chainb_ok, B]. Qed.
  Lemma opt_eqb_ok a b : opt_eqb a b = true <-> a = b.
  Proof.
    destruct a as [x|], b as [y|]; cbn; try (split; congruence). rewrite Nat.eqb_eq. split; congruence.
  Qed.

  Lemma check_ok : history m -> check = true ->
    primal m se /\ labelled m se /\ loop_free m se /\ (tri = true -> all_triangles m se).
  Proof.
    intros H C. unfold check in C. apply andb_true_iff in C. destruct C as [Cs C]. apply existsb_in in Cs.
    rewrite forallb_forall in C.
    assert (Q : forall a, In a L -> primal m a /\ In (onext m a) L /\ In (sym a) L /\ cycle (onext m) (rg a) /\ In a (rg a)
      /\ orig m a <> None /\ ~ In (sym a) (rg a) /\ (forall b, In b L -> (orig m a = orig m b <-> In b (rg a)))
      /\ (tri = true -> cycle (lnext m) [a; lnext m a; lnext m (lnext m a)])).
    { intros a A. specialize (C a A). rewrite !andb_true_iff in C.
      destruct C as ((((((((C1 & C2) & C3) & C4) & C5) & C6) & C7) & C8) & C9).
      split. { unfold primalb in C1. rewrite !andb_true_iff, !Nat.ltb_lt in C1. destruct C1 as [[X Y] Z]. split; [split|]; assumption. }
      split; [apply existsb_in, C2|]. split; [apply existsb_in, C3|]. split; [apply cycleb_ok, C4|]. split; [apply existsb_in, C5|].
      split. { intros E. rewrite E in C6. discriminate C6. }
      split. { unfold inb in C7. rewrite <- existsb_in. apply negb_true_iff in C7. rewrite C7. discriminate. }
      split; [|intros T; rewrite T in C9; apply cycleb_ok, C9].
      intros b B. rewrite forallb_forall in C8. specialize (C8 b B). apply eqb_prop in C8.
      rewrite <- opt_eqb_ok, C8. unfold inb. apply existsb_in. }
    assert (Ps : primal m se) by apply (Q se Cs).
    assert (CL : forall a, connected m se a -> In a L).
    { intros a A. apply (connected_closed m (fun x => In x L) H) with (a := se) (b := a); auto.
      - intros x _ X. apply (Q x X). - intros x _ X. apply (Q x X). }
    assert (So : forall a b, In a L -> (same_origin m a b <-> In b (rg a))).
    { intros a b A. destruct (Q a A) as (_ & _ & _ & R & I & _). split.
      - intros (l & Rl & Al & Bl). exact (cycle_meet (onext m) (rg a) l a R Rl I Al b Bl).
      - intros B. exists (rg a). auto. }
    split; [exact Ps|]. split; [|split].
    - intros a A. apply CL in A. destruct (Q a A) as (_ & _ & _ & _ & _ & N & _ & E & _). split; [exact N|].
      intros b B. apply CL in B. rewrite (E b B), (So a b A). reflexivity.
    - intros a A. apply CL in A. rewrite (So a _ A). apply (Q a A).
    - intros T a A. apply CL in A. destruct (Q a A) as (_ & _ & _ & _ & _ & _ & _ & _ & F).
      exists (lnext m a), (lnext m (lnext m a)). exact (F T).
  Qed.
End Check.

Lemma decides_nat (m : mem nat) se : decides m se Nat.eqb.
Proof. intros a b p q _ _ _ _. apply Nat.eqb_eq. Qed.

(** The triangle of New: points 0, 1, 2. *)
Definition one : mem nat :=
  let '(m, ea) := new empty in
  let m := end_points m ea (Some 0) (Some 1) in
  let '(m, eb) := new m in
  let m := splice m (sym ea) eb in
  let m := end_points m eb (Some 1) (Some 2) in
  let '(m, ec) := new m in
  let m := end_points m ec (Some 2) (Some 0) in
  splice (splice m (sym eb) ec) (sym ec) ea.
(** ... and with the point 3 inside, as InsertSite joins it. *)
Definition base : mem nat :=
  let '(m, b) := new one in
  splice (end_points m b (Some 0) (Some 3)) b (0, 0).
Definition join1 : res unit (mem nat * edge) := connect (fun _ b _ => Some b) base (0, 0) (3, 2).
Definition four1 : mem nat := res_mem join1.
Definition join2 : res unit (mem nat * edge) := connect (fun _ b _ => Some b) four1 (1, 0) (4, 2).
Definition inside : mem nat := res_mem join2.

Ltac ex := split; apply Nat.ltb_lt; reflexivity.
Lemma one_history : history one.
Proof.
  unfold one, new. cbn [fst snd].
  apply h_splice; [|ex|ex|reflexivity]. apply h_splice; [|ex|ex|reflexivity]. apply h_points; [|ex].
  apply (h_new (P := nat)). apply h_points; [|ex]. apply h_splice; [|ex|ex|reflexivity].
  apply (h_new (P := nat)). apply h_points; [|ex]. apply (h_new (P := nat)). apply h_empty.
Qed.
Lemma base_history : history base.
Proof. unfold base. cbn [new fst snd]. apply h_splice; [|ex|ex|reflexivity]. apply h_points; [|ex]. apply (h_new (P := nat) one one_history). Qed.
Lemma four1_history : history four1.
Proof.
  apply (h_connect base (0, 0) (3, 2) (fun _ b _ => Some b) four1 (4, 0)); [exact base_history|ex|reflexivity| |reflexivity].
  intros d bb E. injection E as <-. split; [ex|reflexivity].
Qed.
Lemma inside_history : history inside.
Proof.
  apply (h_connect four1 (1, 0) (4, 2) (fun _ b _ => Some b) inside (5, 0)); [exact four1_history|ex|reflexivity| |reflexivity].
  intros d bb E. injection E as <-. split; [ex|reflexivity].
Qed.

Fixpoint orbit (fuel : nat) (f : edge -> edge) (first e : edge) : list edge :=
  match fuel with
  | O => [e]
  | S fuel => if edge_eqb (f e) first then [e] else e :: orbit fuel f first (f e)
  end.
Definition primals (m : mem nat) : list edge := flat_map (fun q => [(q, 0); (q, 2)]) (seq 0 (count m)).
Lemma one_ok : primal one (0, 0) /\ labelled one (0, 0) /\ loop_free one (0, 0) /\ all_triangles one (0, 0).
Proof.
  destruct (check_ok one (0, 0) (primals one) true (fun e => orbit 20 (onext one) e e) one_history) as (A & B & C & D); [vm_compute; reflexivity|].
  auto.
Qed.
Lemma inside_ok : primal inside (0, 0) /\ labelled inside (0, 0) /\ loop_free inside (0, 0) /\ all_triangles inside (0, 0).
Proof.
  destruct (check_ok inside (0, 0) (primals inside) true (fun e => orbit 20 (onext inside) e e) inside_history) as (A & B & C & D);
    [vm_compute; reflexivity|]. auto.
Qed.
Lemma quad_ok : primal quad (0, 2) /\ labelled quad (0, 2) /\ loop_free quad (0, 2).
Proof.
  destruct (check_ok quad (0, 2) (primals quad) false (fun e => orbit 20 (onext quad) e e) quad_history) as (A & B & C & _);
    [vm_compute; reflexivity|]. auto.
Qed.

Lemma outside_counted : exists (m : mem nat) se frame,
  history m /\ primal m se /\ labelled m se /\ loop_free m se /\ all_triangles m se
  /\ (forall a, connected m se a -> orig m a = Some 0 \/ orig m a = Some 1 \/ orig m a = Some 2)
  /\ triangles Nat.eqb Nat.eqb m frame (Some se) true = Ok [(0, 1, 2); (0, 2, 1)].
Proof.
  exists one, (0, 0), (0, 1, 2). destruct one_ok as (A & B & C & D).
  split; [exact one_history|]. split; [exact A|]. split; [exact B|]. split; [exact C|]. split; [exact D|]. split; [|vm_compute; reflexivity].
  intros a Ca. assert (I : In a (primals one)).
  { pose proof (proj1 (connected_primal one (0, 0) a (history_wf one one_history) Ca) A) as [[L F] K]. destruct a as [q n]. cbn in L, F, K.
    destruct q as [|[|[|q]]]; [| | |lia]; destruct n as [|[|[|[|n]]]]; try discriminate K; try lia; vm_compute; tauto. }
  vm_compute in I. destruct I as [<-|[<-|[<-|[<-|[<-|[<-|[]]]]]]]; vm_compute; auto.
Qed.
Lemma four_sides : exists (m : mem nat) se ts p q r,
  history m /\ primal m se /\ labelled m se /\ loop_free m se
  /\ walk_all_triangles Nat.eqb Nat.eqb m (fun _ => true) (Some se) = Ok ts
  /\ In (p, q, r) ts /\ In (p, r, q) ts
  /\ forall e b c, connected m se e -> around_face m [e; b; c] -> ~ corners m e (p, q, r).
Proof.
  destruct quad_ok as (A & B & C).
  exists quad, (0, 2), [(1, 0, 2); (1, 2, 0); (2, 3, 0)], 1, 0, 2.
  split; [exact quad_history|]. split; [exact A|]. split; [exact B|]. split; [exact C|]. split; [vm_compute; reflexivity|].
  split; [left; reflexivity|]. split; [right; left; reflexivity|].
  intros e b c Ce [_ F] (X & Y & Z). cbn [chain] in F. destruct F as (F1 & F2 & F3 & _).
  assert (I : In e (primals quad)).
  { pose proof (proj1 (connected_primal quad (0, 2) e (history_wf quad quad_history) Ce) A) as [[L K1] K]. destruct e as [q n]. cbn in L, K1, K.
    destruct q as [|[|[|[|[|q]]]]]; [| | | | |lia]; destruct n as [|[|[|[|n]]]]; try discriminate K; try lia; vm_compute; tauto. }
  vm_compute in I. destruct I as [<-|[<-|[<-|[<-|[<-|[<-|[<-|[<-|[<-|[<-|[]]]]]]]]]]]; vm_compute in X, Y; try discriminate X; try discriminate Y.
  vm_compute in F1. subst b. vm_compute in F2. subst c. vm_compute in F3. discriminate F3.
Qed.

Lemma examples :
  history inside /\ primal inside (0, 0) /\ labelled inside (0, 0) /\ loop_free inside (0, 0) /\ all_triangles inside (0, 0)
  /\ decides inside (0, 0) Nat.eqb
  /\ walk_all_edges inside (fun e => if edge_eqb e (2, 2) then Fail 7 else Continue) (Some (0, 0)) <> None
  /\ walk_all_triangles Nat.eqb Nat.eqb inside (fun _ => true) (Some (0, 0)) = Ok [(0, 1, 3); (0, 3, 2); (0, 2, 1); (2, 3, 1)].
Proof.
  destruct inside_ok as (A & B & C & D).
  split; [exact inside_history|]. split; [exact A|]. split; [exact B|]. split; [exact C|]. split; [exact D|]. split; [apply decides_nat|].
  split; [vm_compute; discriminate|]. vm_compute. reflexivity.
Qed.
