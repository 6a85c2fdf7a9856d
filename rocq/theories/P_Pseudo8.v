(** Proofs about pseudopolygon: closed rings and counterexamples *)
From Coq Require Import ZArith Bool List Lia Arith Reals Lra.
From Verif Require Import Base_Res Base_F64 Base_F64Arith Base_Geom M_Cmp M_Winding M_Triangle M_Planar M_Walker M_Pseudo
  S_Intersect S_Winding S_Walker S_Pseudo P_F64Flocq P_Winding P_Walker P_Pseudo P_Pseudo2 P_Pseudo3 P_Pseudo4 P_Pseudo5 P_Pseudo6 P_Pseudo7.
Import ListNotations.
Local Open Scope nat_scope.

Lemma sub_rings_prefix tri o tl rest : forall i points edges seen, keys_ok seen -> distinct rest ->
  (forall p, In p rest -> seen_at seen p = None) ->
  exists seen', sub_rings tri o i (rest ++ tl) points edges seen = sub_rings tri o (i + length rest) tl (points ++ rest) edges seen' /\
    forall q, finite_pt q -> (forall p, In p rest -> rpt p <> rpt q) -> seen_at seen' q = seen_at seen q.
Proof.
  induction rest as [|p rest IH]; intros i points edges seen K [F N] H.
  - exists seen. cbn [length app]. rewrite Nat.add_0_r, app_nil_r. now split.
  - inversion F as [|? ? Fp Fr]; subst. cbn [map] in N. inversion N as [|? ? Np Nr]; subst.
    cbn [app sub_rings]. rewrite (H p) by now left.
    assert (Nq : forall q, In q rest -> rpt p <> rpt q) by (intros q I E; apply Np; rewrite E; now apply in_map).
    destruct (IH (S i) (points ++ [p]) edges (seen_set seen p (i, length points))) as (seen' & E & Q).
    + now apply keys_set.
    + now split.
    + intros q I. rewrite Forall_forall in Fr. rewrite (proj2 (seen_at_set seen p _ q K Fp (Fr q I))); [apply H; now right|now apply Nq].
    + exists seen'. split.
      * rewrite E. rewrite <- app_assoc. cbn [length app]. f_equal. lia.
      * intros q Fq Hq. rewrite Q; [|exact Fq|intros x X; apply Hq; now right]. apply (seen_at_set seen p _ q K Fp Fq), Hq. now left.
Qed.

(** A ring which repeats its first point at the end is never triangulated. *)
Theorem closed_ring ypd p rest : distinct (p :: rest) -> rest <> [] ->
  triangulate_points ypd (p :: rest ++ [p]) = match triangulate_points ypd (p :: rest) with Ok _ => Err ETooSmall | Err e => Err e | Panic => Panic end.
Proof.
  intros D N. pose proof D as [F ND]. inversion F as [|? ? Fp Fr]; subst. cbn [map] in ND. inversion ND as [|? ? Np Nr]; subst.
  assert (Nq : forall q, In q rest -> rpt p <> rpt q) by (intros q I E; apply Np; rewrite E; now apply in_map).
  unfold triangulate_points at 1. rewrite triangulate_finish. set (o := p :: rest ++ [p]).
  change (sub_rings (triangulate (length o) ypd) o 0 o [] [] []) with
    (sub_rings (triangulate (length o) ypd) o 1 (rest ++ [p]) [p] [] [(p, (0, 0))]).
  destruct (sub_rings_prefix (triangulate (length o) ypd) o [p] rest 1 [p] [] [(p, (0, 0))]) as (seen' & E & Q).
  - intros q v [H|[]]. apply pair_equal_spec in H as [<- _]. exact Fp.
  - now split.
  - intros q I. cbn [seen_at]. rewrite Forall_forall in Fr. rewrite go_eq_false; [reflexivity|exact Fp|now apply Fr|now apply Nq].
  - rewrite E. cbn [sub_rings]. rewrite Q; [|exact Fp|intros x X E'; now apply (Nq x X)].
    cbn [seen_at]. rewrite go_eq_R' by (try exact Fp; reflexivity).
    assert (L : 1 <= length rest) by (destruct rest; [now destruct N|cbn; lia]).
    destruct (Nat.eqb_spec 0 (1 + length rest - 1)); [lia|]. cbv zeta.
    assert (Sl : firstn (1 + length rest - 0) (skipn 0 o) = p :: rest).
    { subst o. rewrite Nat.sub_0_r. cbn [skipn]. change (1 + length rest) with (S (length rest)). cbn [firstn]. f_equal.
      rewrite firstn_app, Nat.sub_diag, firstn_all. cbn [firstn]. apply app_nil_r. }
    rewrite Sl. assert (Lo : length o = S (length (p :: rest))) by (subst o; cbn [length]; rewrite app_length; cbn [length]; lia).
    rewrite Lo. change (triangulate (S (length (p :: rest))) ypd (p :: rest)) with (triangulate_points ypd (p :: rest)).
    destruct (triangulate_points ypd (p :: rest)); reflexivity.
Qed.

(** ** Examples *)
Local Open Scope Z_scope.
Definition ex_convex : list (Z * Z) := [(7, 2); (6, 0); (0, 0); (0, 1); (4, 11)]%Z.
Lemma ex_convex_convex : convex ex_convex.
Proof.
  exists (-1)%Z. split; [now right|]. intros i j k d A B C. cbn [length ex_convex] in C.
  destruct k as [|[|[|[|[|k]]]]]; try lia; destruct j as [|[|[|[|j]]]]; try lia; destruct i as [|[|[|i]]]; try lia; reflexivity.
Qed.
Ltac small_tac := split; [repeat (constructor; [unfold small_point; cbn [fst snd]; lia|]); constructor|cbn [length]; lia].
Lemma ex_convex_small : small_polygon ex_convex. Proof. unfold ex_convex. small_tac. Qed.
Lemma ex_not_delaunay : exists es, triangulate_points false (map fpt ex_convex) = Ok es /\
  In (fpt (7, 2), fpt (0, 0)) es /\ In (fpt (7, 2), fpt (6, 0)) es /\ In (fpt (6, 0), fpt (0, 0)) es /\ in_circle (0, 0) (6, 0) (7, 2) (0, 1).
Proof.
  eexists. split; [vm_compute; reflexivity|]. split; [vm_compute; tauto|]. split; [vm_compute; tauto|]. split; [vm_compute; tauto|]. reflexivity.
Qed.

Definition ex_crossed : list (Z * Z) := [(1, 8); (6, 2); (7, 6); (2, 7); (7, 8)]%Z.
Lemma ex_crossed_simple : simple_polygon ex_crossed.
Proof.
  split.
  - intros i I. cbn [length ex_crossed] in I. destruct i as [|[|[|[|[|i]]]]]; try lia; vm_compute; discriminate.
  - intros i j I J N A B. cbn [length ex_crossed] in I, J.
    destruct i as [|[|[|[|[|i]]]]]; try lia; destruct j as [|[|[|[|[|j]]]]]; try lia; cbn in A, B; try lia;
      unfold apart; first [left; vm_compute; reflexivity|right; vm_compute; reflexivity].
Qed.
Lemma ex_crossed_lines : exists es, triangulate_points false (map fpt ex_crossed) = Ok es /\
  In (fpt (7, 6), fpt (1, 8)) es /\ In (fpt (2, 7), fpt (7, 8)) es /\ proper_crossing (7, 6) (1, 8) (2, 7) (7, 8).
Proof. eexists. split; [vm_compute; reflexivity|]. split; [vm_compute; tauto|]. split; [vm_compute; tauto|]. split; reflexivity. Qed.

Definition ex_flat : list (Z * Z) := [(0, 0); (1, 0); (2, 0); (3, 0); (6, 2)]%Z.
Lemma ex_flat_colinear : area2 ex_flat <> 0%Z /\ triangulate_points false (map fpt ex_flat) = Err EAllColinear.
Proof. split; [vm_compute; discriminate|vm_compute; reflexivity]. Qed.
Definition ex_lost : list (Z * Z) := [(9, 9); (0, 0); (4, 0); (4, 4); (0, 0)]%Z.
Lemma ex_lost_lines : triangulate_points false (map fpt ex_lost) = Ok [(fpt (9, 9), fpt (0, 0))]%Z.
Proof. vm_compute. reflexivity. Qed.

Lemma ex_crossed_small : small_polygon ex_crossed. Proof. unfold ex_crossed. small_tac. Qed.
Lemma ex_flat_small : small_polygon ex_flat. Proof. unfold ex_flat. small_tac. Qed.
Lemma ex_lost_small : small_polygon ex_lost. Proof. unfold ex_lost. small_tac. Qed.
Lemma small_finite r : small_polygon r -> Forall finite_pt (map fpt r).
Proof. intros [S _]. apply Forall_forall. intros p H. apply in_map_iff in H as (z & <- & H). rewrite Forall_forall in S. now apply fpt_finite, S. Qed.
Lemma small_distinct r : small_polygon r -> NoDup r -> distinct (map fpt r).
Proof.
  intros S N. split; [now apply small_finite|]. destruct S as [S _]. rewrite map_map. induction N as [|z r Nz Nr IH]; [constructor|].
  inversion S as [|? ? Sz Sr]; subst. cbn [map]. constructor; [|now apply IH]. intros H. apply in_map_iff in H as (y & E & Y).
  rewrite Forall_forall in Sr. apply fpt_inj in E; [|now apply Sr|exact Sz]. now subst.
Qed.
Lemma ex_crossed_distinct : distinct (map fpt ex_crossed).
Proof.
  apply small_distinct; [exact ex_crossed_small|]. unfold ex_crossed. repeat (constructor; [cbn [In]; intuition congruence|]). constructor.
Qed.
Lemma always_ends ypd pts : Forall finite_pt pts -> triangulate_points ypd pts <> Err EOutOfFuel.
Proof. intros F. exact (proj1 (triangulate_ends ypd (S (length pts)) pts F (Nat.lt_succ_diag_r _))). Qed.
Lemma lines_join ypd pts lines : Forall finite_pt pts -> triangulate_points ypd pts = Ok lines -> forall l, In l lines -> joins pts l.
Proof. intros F. exact (proj2 (triangulate_ends ypd (S (length pts)) pts F (Nat.lt_succ_diag_r _)) lines). Qed.
Lemma small_outcomes ypd r : small_polygon r ->
  (exists lines, triangulate_points ypd (map fpt r) = Ok lines) \/
  triangulate_points ypd (map fpt r) = Err ETooSmall \/ triangulate_points ypd (map fpt r) = Err EAllColinear.
Proof.
  intros S. pose proof (always_ends ypd _ (small_finite r S)) as E. destruct S as [S L].
  assert (F : Forall smallf (map fpt r)).
  { apply Forall_forall. intros p H. apply in_map_iff in H as (z & <- & H). exists z. split; [|reflexivity]. rewrite Forall_forall in S. now apply S. }
  destruct (small_safe ypd (Datatypes.S (length (map fpt r))) (map fpt r) F ltac:(now rewrite map_length)) as [P X].
  fold (triangulate_points ypd (map fpt r)) in P, X.
  destruct (triangulate_points ypd (map fpt r)) as [l|[| | |]|]; [left; now exists l|right; now left|right; now right| | |]; congruence.
Qed.
Lemma crossing_lines : exists r, simple_polygon r /\ small_polygon r /\
  exists lines a b c d, triangulate_points false (map fpt r) = Ok lines /\
    In (fpt a, fpt b) lines /\ In (fpt c, fpt d) lines /\ proper_crossing a b c d.
Proof.
  exists ex_crossed. split; [exact ex_crossed_simple|]. split; [exact ex_crossed_small|].
  destruct ex_crossed_lines as (l & H). exists l, (7, 6), (1, 8), (2, 7), (7, 8). exact H.
Qed.
Lemma colinear_run : exists r, small_polygon r /\ area2 r <> 0 /\ triangulate_points false (map fpt r) = Err EAllColinear.
Proof. exists ex_flat. split; [exact ex_flat_small|exact ex_flat_colinear]. Qed.
Lemma not_delaunay : exists r, convex r /\ small_polygon r /\
  exists lines a b c p, triangulate_points false (map fpt r) = Ok lines /\
    In (fpt a, fpt b) lines /\ In (fpt a, fpt c) lines /\ In (fpt c, fpt b) lines /\ In p r /\ in_circle b c a p.
Proof.
  exists ex_convex. split; [exact ex_convex_convex|]. split; [exact ex_convex_small|].
  destruct ex_not_delaunay as (l & H1 & H2 & H3 & H4 & H5). exists l, (7, 2), (0, 0), (6, 0), (0, 1).
  repeat (split; [assumption|]). split; [cbn; tauto|exact H5].
Qed.
Lemma lost_ring : exists r, small_polygon r /\ length r = 5%nat /\ area2 r <> 0 /\
  exists a b, triangulate_points false (map fpt r) = Ok [(fpt a, fpt b)].
Proof.
  exists ex_lost. split; [exact ex_lost_small|]. split; [reflexivity|]. split; [vm_compute; discriminate|]. exists (9, 9), (0, 0). exact ex_lost_lines.
Qed.
