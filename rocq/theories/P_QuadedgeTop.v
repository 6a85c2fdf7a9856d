(** * Proofs about quad-edges: the statements of the theorems and examples *)
From Coq Require Import Bool List Arith Lia ZArith.
From Verif Require Import Base_Res M_Quadedge S_Quadedge P_Quadedge P_Quadedge2 P_Quadedge3 P_Quadedge4 P_Quadedge5.
Import ListNotations.
Open Scope nat_scope.

Section Top.
  Context {P : Type}.
  Implicit Types m : mem P.

  Lemma rot_algebra m e : exists_in m e ->
    exists_in m (rot e) /\ rot (rot (rot (rot e))) = e /\ rot (rot e) = sym e /\ sym e <> e /\ sym (sym e) = e
    /\ rot (invrot e) = e /\ invrot (rot e) = e.
  Proof.
    intros E. split; [apply ex_rot, E|]. destruct E as [_ E]. split; [apply rot4, E|]. split; [apply rot_rot, E|].
    split; [apply sym_neq|]. split; [apply sym_sym, E|]. split; [apply rot_inv, E|apply inv_rot, E].
  Qed.
  Lemma algebra m : history m -> forall e, exists_in m e ->
    (exists_in m (onext m e) /\ exists_in m (oprev m e) /\ exists_in m (lnext m e) /\ exists_in m (lprev m e)
     /\ exists_in m (rnext m e) /\ exists_in m (rprev m e) /\ exists_in m (dnext m e) /\ exists_in m (dprev m e))
    /\ onext m (oprev m e) = e /\ oprev m (onext m e) = e
    /\ lnext m (lprev m e) = e /\ lprev m (lnext m e) = e
    /\ rnext m (rprev m e) = e /\ rprev m (rnext m e) = e
    /\ dnext m (dprev m e) = e /\ dprev m (dnext m e) = e.
  Proof.
    intros H e E. apply history_wf in H. split.
    - pose proof (wf_ex m H) as X.
      split; [apply X, E|]. split; [apply oprev_ex; assumption|]. split; [apply lnext_ex; assumption|].
      split; [apply lprev_ex; assumption|]. split; [apply ex_inv, X, ex_rot, E|]. split; [apply X, ex_sym, E|].
      split; [apply ex_sym, X, ex_sym, E|apply ex_inv, X, ex_inv, E].
    - split; [apply onext_oprev; assumption|]. split; [apply oprev_onext; assumption|].
      split; [apply lnext_lprev; assumption|]. split; [apply lprev_lnext; assumption|].
      split; [apply rnext_rprev; assumption|]. split; [apply rprev_rnext; assumption|].
      split; [apply dnext_dprev; assumption|apply dprev_dnext; assumption].
  Qed.
  Lemma kinds m : history m -> forall e, exists_in m e -> same_kind (onext m e) e /\ same_kind (lnext m e) e.
  Proof. intros H e E. apply history_wf in H. split; [apply (wf_kind m H e E)|apply lnext_kind; assumption]. Qed.
  Lemma rings m : history m -> forall e, exists_in m e ->
    (exists l, around_origin m (e :: l) /\ cycle (oprev m) (e :: rev l)) /\ (exists l, around_face m (e :: l)).
  Proof.
    intros H e E. apply history_wf in H. split; [|apply on_face; assumption].
    destruct (on_ring m e H E) as (l & C). exists l. split; [exact C|].
    apply (chain_rev_cycle (onext m)); [exact C|]. intros y Y. apply oprev_onext; [exact H|].
    apply (cycle_members (onext m) m _ e (step_onext m H) E C (or_introl eq_refl) y Y).
  Qed.
  Lemma new_effect m : history m -> let m' := fst (new m) in let e := snd (new m) in
    exists_in m' e /\ ~ exists_in m e /\ orig m' e = None /\ dest m' e = None
    /\ around_origin m' [e] /\ around_origin m' [sym e] /\ around_face m' [e; sym e]
    /\ forall x, exists_in m x -> exists_in m' x /\ onext m' x = onext m x /\ lnext m' x = lnext m x /\ orig m' x = orig m x.
  Proof.
    intros _ m' e. destruct (new_edge m) as (_ & A & B & C & D & F).
    split; [exact A|]. split; [exact B|].
    split; [unfold m', orig; cbn [new fst vertex set_next snd]; unfold e; cbn [new fst snd]; rewrite Nat.eqb_refl; reflexivity|].
    split; [unfold m', dest, orig; cbn [new fst vertex set_next snd]; unfold e; cbn [new fst snd]; rewrite sym_fst; cbn [fst]; rewrite Nat.eqb_refl; reflexivity|].
    split; [exact C|]. split; [exact D|]. split; [exact F|].
    intros x X. split; [apply new_up, X|]. split; [apply new_on, X|]. split; [apply new_ln, X|].
    unfold m', orig. cbn [new fst vertex set_next]. destruct X as [X _]. destruct (Nat.eqb_spec (fst x) (count m)); [lia|reflexivity].
  Qed.
  Lemma connect_effect resolve m a b m' e bb d :
    history m -> exists_in m a -> Nat.even (snd a) = true -> dest m a = Some d ->
    resolve m b d = Some bb -> exists_in m bb -> same_kind a bb ->
    connect resolve m a b = Ok (m', e) ->
    history m'
    /\ orig m' e = dest m a /\ dest m' e = orig m bb
    /\ lnext m' a = e /\ lnext m' e = bb
    /\ (forall X Y, around_face m (a :: X ++ bb :: Y) -> around_face m' (a :: e :: bb :: Y) /\ around_face m' (sym e :: X))
    /\ (forall X Y, around_face m (a :: X) -> around_face m (bb :: Y) -> apart (a :: X) (bb :: Y) ->
          around_face m' (a :: e :: bb :: Y ++ sym e :: X))
    /\ (forall L L', around_origin m (lnext m a :: L) -> around_origin m (bb :: L') -> apart (lnext m a :: L) (bb :: L') ->
          around_origin m' (lnext m a :: e :: L) /\ around_origin m' (bb :: sym e :: L'))
    /\ (forall x, exists_in m x -> orig m' x = orig m x).
  Proof.
    intros H A KA D R B K C. pose proof (history_wf m H) as W.
    split.
    { apply (h_connect m a b (fun m0 b0 d0 => Some bb) m' e H A KA).
      - intros d0 x [= <-]. split; assumption.
      - unfold connect in *. rewrite D in *. rewrite R in C. exact C. }
    destruct (connect_points resolve m a b m' e bb d A D R B C) as (Q1 & Q2 & Q3).
    destruct (connect_lnext resolve m a b m' e bb d W A KA D R B K C) as (Q4 & Q5).
    split; [exact Q1|]. split; [exact Q2|]. split; [exact Q4|]. split; [exact Q5|].
    split; [intros X Y; apply (connect_cut resolve m a b m' e bb d W A KA D R B K C)|].
    split; [intros X Y; apply (connect_join resolve m a b m' e bb d W A KA D R B K C)|].
    split; [intros L L'; apply (connect_rings resolve m a b m' e bb d W A KA D R B K C)|exact Q3].
  Qed.
  Lemma swap_effect m e c d f g :
    history m -> exists_in m e ->
    around_face m [e; c; d] -> around_face m [sym e; f; g] -> apart [e; c; d] [sym e; f; g] ->
    around_face (swap m e) [e; d; f] /\ around_face (swap m e) [sym e; g; c]
    /\ (forall l x, around_face m l -> In x l -> exists_in m x -> same_kind x e -> apart l [e; c; d; sym e; f; g] ->
          around_face (swap m e) l)
    /\ orig (swap m e) e = dest m f /\ dest (swap m e) e = dest m c
    /\ (forall x, x <> e -> x <> sym e -> orig (swap m e) x = orig m x).
  Proof.
    intros H E F1 F2 D. destruct (swap_triangles m e c d f g (history_wf m H) E F1 F2 D) as (A1 & A2 & A3 & A4 & A5).
    repeat (split; [assumption|]). intros x N1 N2. unfold orig, swap, end_points, set_vertex. cbn [vertex].
    rewrite !upd_other by assumption. reflexivity.
  Qed.
  Lemma splice_twice m a b : history m -> exists_in m a -> exists_in m b -> same_kind a b ->
    same_mem (splice (splice m a b) a b) m.
  Proof.
    intros H A B K. split; [reflexivity|]. split; [|reflexivity]. intros x X.
    apply splice_splice; try assumption. apply history_wf, H.
  Qed.
  Lemma splice_origins m a b : history m -> exists_in m a -> exists_in m b -> same_kind a b ->
    (forall A B, around_origin m (a :: A) -> around_origin m (b :: B) -> apart (a :: A) (b :: B) ->
       around_origin (splice m a b) (a :: B ++ b :: A))
    /\ (forall A B, around_origin m (a :: A ++ b :: B) ->
          around_origin (splice m a b) (a :: B) /\ around_origin (splice m a b) (b :: A))
    /\ (forall l x, around_origin m l -> In x l -> exists_in m x -> same_kind x a -> ~ In a l -> ~ In b l ->
          around_origin (splice m a b) l).
  Proof.
    intros H A B K. apply history_wf in H.
    split; [intros la lb; apply merge_origins; assumption|].
    split; [intros l1 l2; apply split_origins; assumption|intros l x; apply other_origins; assumption].
  Qed.
  Lemma splice_faces m a b : history m -> exists_in m a -> exists_in m b -> same_kind a b ->
    (forall A B, around_face m (a :: A) -> around_face m (b :: B) -> apart (a :: A) (b :: B) ->
       around_face (splice m a b) (a :: A ++ b :: B))
    /\ (forall A B, around_face m (a :: A ++ b :: B) ->
          around_face (splice m a b) (a :: A) /\ around_face (splice m a b) (b :: B))
    /\ (forall l x, around_face m l -> In x l -> exists_in m x -> same_kind x a -> ~ In a l -> ~ In b l ->
          around_face (splice m a b) l).
  Proof.
    intros H A B K. apply history_wf in H.
    split; [intros la lb; apply merge_faces; assumption|].
    split; [intros l1 l2; apply split_faces; assumption|intros l x; apply other_faces; assumption].
  Qed.
  Lemma delete_effect m e : history m -> exists_in m e -> let m' := delete m e in
    around_origin m' [e] /\ around_origin m' [sym e] /\ around_face m' [e; sym e]
    /\ (forall l x, around_origin m l -> In x l -> exists_in m x -> same_kind x e ->
          without (sym e) (without e l) <> [] -> around_origin m' (without (sym e) (without e l)))
    /\ (forall A B, around_face m (e :: A) -> around_face m (sym e :: B) -> apart (e :: A) (sym e :: B) -> A ++ B <> [] ->
          around_face m' (A ++ B))
    /\ (forall A B, around_face m (e :: A ++ sym e :: B) ->
          (A <> [] -> around_face m' A) /\ (B <> [] -> around_face m' B))
    /\ (forall x, orig m' x = orig m x).
  Proof.
    intros H E m'. apply history_wf in H. destruct (delete_rings m e H E) as (R1 & R2 & R3).
    split; [exact R1|]. split; [exact R2|]. split; [apply delete_isolated; assumption|]. split; [exact R3|].
    split; [intros A B; apply delete_faces_merge; assumption|]. split; [intros A B; apply delete_faces_split; assumption|reflexivity].
  Qed.
  Lemma walks m fn e l : history m -> exists_in m e -> around_origin m (e :: l) -> NoDup (map fst (e :: l)) ->
    walk_all_onext m fn e = Some (up_to fn (e :: l)) /\ walk_all_oprev m fn e = Some (up_to fn (e :: rev l)).
  Proof. intros H E C N. apply history_wf in H. split; [apply walk_onext|apply walk_oprev]; assumption. Qed.
  Lemma walks_total m fn e : history m -> exists_in m e -> walk_all_onext m fn e <> None /\ walk_all_oprev m fn e <> None.
  Proof. intros H E. apply walks_end; [apply history_wf, H|exact E]. Qed.
End Top.

(** A quadrilateral with a diagonal. *)
Definition two : mem nat :=
  let m := end_points (fst (new empty)) (0, 0) (Some 0) (Some 1) in
  let m := end_points (fst (new m)) (1, 0) (Some 1) (Some 2) in
  splice m (sym (0, 0)) (1, 0).
Definition res_mem (r : res unit (mem nat * edge)) : mem nat := match r with Ok (m, _) => m | _ => empty end.
(** the third side, from 2 to 0; then 2-3 hanging from 2, then 3-0 *)
Definition three : mem nat := res_mem (connect (fun _ b _ => Some b) two (1, 0) (0, 0)).
Definition four : mem nat :=
  splice (end_points (fst (new three)) (3, 0) (Some 2) (Some 3)) (3, 0) (1, 2).
Definition connect_ok : res unit (mem nat * edge) := connect (fun _ b _ => Some b) four (3, 0) (2, 2).
Definition quad : mem nat := res_mem connect_ok.

Lemma empty_no (e : edge) : exists_in (@empty nat) e -> False.
Proof. intros [H _]. cbn in H. lia. Qed.
Lemma nd_dec (l : list edge) : (fix ok l := match l with [] => true | e :: l => negb (existsb (edge_eqb e) l) && ok l end) l = true -> NoDup l.
Proof.
  induction l as [|e l IH]; [constructor|]. intros H. apply andb_prop in H. destruct H as [H1 H2]. constructor; [|apply IH, H2].
  intros I. apply negb_true_iff in H1. assert (existsb (edge_eqb e) l = true); [|congruence].
  apply existsb_exists. exists e. split; [exact I|apply eqb_refl].
Qed.
Ltac cyc := split; [apply nd_dec; vm_compute; reflexivity|vm_compute; repeat split; reflexivity].
Ltac ex := split; apply Nat.ltb_lt; vm_compute; reflexivity.
Lemma two_history : history two.
Proof.
  unfold two. cbv zeta. apply h_splice; [|ex|ex|reflexivity].
  apply h_points; [|ex]. apply h_new. apply h_points; [|ex]. apply h_new. apply h_empty.
Qed.
Lemma three_history : history three.
Proof.
  apply (h_connect two (1, 0) (0, 0) (fun _ b _ => Some b) _ (2, 0) two_history); [ex|reflexivity| |reflexivity].
  intros d bb [= <-]. split; [ex|reflexivity].
Qed.
Lemma four_history : history four.
Proof.
  unfold four. apply h_splice; [|ex|ex|reflexivity].
  apply h_points; [|ex]. apply h_new. apply three_history.
Qed.
Lemma quad_history : history quad.
Proof.
  apply (h_connect four (3, 0) (2, 2) (fun _ b _ => Some b) _ (4, 0) four_history); [ex|reflexivity| |reflexivity].
  intros d bb [= <-]. split; [ex|reflexivity].
Qed.
Lemma quad_facts :
  history quad /\ count quad = 5
  /\ around_face quad [(2, 0); (0, 0); (1, 0)] /\ around_face quad [(2, 2); (3, 0); (4, 0)]
  /\ around_origin quad [(2, 0); (1, 2); (3, 0)]
  /\ connect_ok = Ok (quad, (4, 0))
  /\ around_face (swap quad (2, 0)) [(2, 0); (1, 0); (3, 0)]
  /\ around_face (swap quad (2, 0)) [(2, 2); (4, 0); (0, 0)]
  /\ orig (swap quad (2, 0)) (2, 0) = Some 3 /\ dest (swap quad (2, 0)) (2, 0) = Some 1.
Proof.
  split; [exact quad_history|]. split; [reflexivity|]. split; [cyc|]. split; [cyc|]. split; [cyc|].
  split; [reflexivity|]. split; [cyc|]. split; [cyc|]. split; reflexivity.
Qed.
Lemma quad_splices :
  around_origin quad [(2, 0); (1, 2); (3, 0)] /\ around_origin quad [(4, 0); (3, 2)]
  /\ around_origin (splice quad (2, 0) (4, 0)) [(2, 0); (3, 2); (4, 0); (1, 2); (3, 0)]
  /\ around_origin (splice quad (2, 0) (3, 0)) [(2, 0)] /\ around_origin (splice quad (2, 0) (3, 0)) [(3, 0); (1, 2)]
  /\ around_face (delete quad (2, 0)) [(0, 0); (1, 0); (3, 0); (4, 0)]
  /\ around_origin (delete quad (2, 0)) [(1, 2); (3, 0)].
Proof. repeat (split; [cyc|]). cyc. Qed.

(** A loop at a vertex. *)
Definition loop : mem nat :=
  let m := fst (new (fst (new empty))) in
  let m := splice m (0, 0) (0, 2) in
  splice m (0, 2) (1, 0).
Lemma walk_loop : exists (m : mem nat) e l x,
  history m /\ exists_in m e /\ around_origin m (e :: l) /\ In x l
  /\ exists visited, walk_all_onext m (fun _ => true) e = Some visited /\ ~ In x visited.
Proof.
  exists loop, (0, 0), [(0, 2); (1, 0)], (1, 0). split.
  { unfold loop. cbv zeta. apply h_splice; [|ex|ex|reflexivity]. apply h_splice; [|ex|ex|reflexivity].
    apply h_new, h_new, h_empty. }
  split; [ex|]. split; [cyc|]. split; [right; left; reflexivity|].
  exists [(0, 0)]. split; [reflexivity|]. intros [H|[]]. discriminate H.
Qed.
