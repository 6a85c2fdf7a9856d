(** * Proofs about quadedge.Validate: vertices which are accepted *)
From Coq Require Import Bool List Arith ZArith Lia Permutation.
From Verif Require Import Base_F64 Base_Res Base_Geom M_Cmp M_Walker M_Sweep S_Sweep S_Winding M_Quadedge S_Quadedge P_Quadedge P_Quadedge2 P_Quadedge3 P_QuadedgeTop M_ResolveEdge S_ResolveEdge P_ResolveEdge3 P_ResolveEdge5 S_Face M_Face P_Face2 M_Validate S_Validate P_Validate.
Import ListNotations.
Local Open Scope Z_scope.

Lemma ring_oprev (m : mem (point f64)) ring x : history m -> (forall y, In y ring -> exists_in m y) -> around_origin m ring -> In x ring -> In (oprev m x) ring.
Proof.
  intros H E C I. apply in_rev. apply (cycle_in (oprev m)); [|apply in_rev in I; exact I]. apply (cycle_rev (onext m)); [|exact C].
  intros y J. apply oprev_onext; [apply history_wf, H|apply E, J].
Qed.
Lemma sgn_low z : -1 <= Z.sgn z. Proof. destruct z; cbn; lia. Qed.
Lemma sgn_one z : 0 < z -> Z.sgn z = 1. Proof. destruct z; cbn; lia. Qed.
Lemma moderate_dec (p q : Z * Z) : p = q \/ p <> q.
Proof. destruct (Z.eq_dec (fst p) (fst q)), (Z.eq_dec (snd p) (snd q)); destruct p, q; cbn in *; subst; auto; right; congruence. Qed.
Lemma square z : z <> 0 -> 0 < z * z. Proof. intros N. nia. Qed.
Lemma same_point ypd (o p q : Z * Z) : p <> o -> p = q -> same_dir (vec ypd o p) (vec ypd o q).
Proof.
  intros N <-. split; [unfold cross; ring|]. unfold dot, vec. cbn [fst snd]. destruct o as [a b], p as [c d]. cbn [fst snd].
  assert (c <> a \/ d <> b) by (destruct (Z.eq_dec c a), (Z.eq_dec d b); subst; auto). pose proof (Z.square_nonneg (c - a)). pose proof (Z.square_nonneg (d - b)). pose proof (Z.square_nonneg (b - d)).
  destruct H as [H|H]; [pose proof (square (c - a))|pose proof (square (d - b)); pose proof (square (b - d))]; destruct ypd; lia.
Qed.

Lemma validate_star sort ypd m e l o at_ : sorts sort -> history m -> star ypd m (e :: l) o at_ ->
  validate sort ypd m e = Ok ((length (e :: l) <=? 2)%nat || (0 <? total (g2 ypd m o at_) (e :: l)) && (0 <? total (g1 ypd m o at_) (e :: l))).
Proof.
  intros Hs H St. pose proof (ring_quads ypd m (e :: l) o at_ H St) as NQ. destruct St as (C & O & P & D).
  assert (Ie : In e (e :: l)) by (left; reflexivity). destruct (P e Ie) as (Ee & Oe & De & Me & Ne).
  assert (Ex : forall y, In y (e :: l) -> exists_in m y) by (intros y I; apply (P y I)).
  unfold validate. rewrite (good_rots e (proj2 Ee)). cbn [negb]. rewrite Oe.
  destruct (walks m (fun _ => true) e l H Ee C NQ) as [W _]. rewrite W, up_to_all.
  destruct (visits_ok ypd m (e :: l) o at_ O) with (es := e :: l) (s := start) as (s & V & B & L & C1 & C2).
  - intros x I. destruct (P x I) as (_ & X1 & X2 & X3 & _). split; [exact X1|split; [exact X2|exact X3]].
  - intros x y I J Q. apply (D x y I J). destruct (P x I) as (_ & _ & _ & _ & N). apply same_point; assumption.
  - intros x I. split; [apply (cycle_in (onext m) _ _ C I)|apply (ring_oprev m _ x H Ex C I)].
  - apply (cycle_nodup (onext m)), C.
  - intros x I. exact I.
  - intros p x [].
  - reflexivity.
  - rewrite V. cbn [bind]. rewrite B, De. cbn [deref bind]. rewrite (decide_eq sort _ s Hs (share_int o _ O)). cbn [start s_points s_ccw s_cw] in L, C1, C2.
    rewrite L, C1, C2. reflexivity.
Qed.
Lemma prev_next ypd m e l o at_ x : history m -> star ypd m (e :: l) o at_ -> In x (e :: l) -> In (oprev m x) (e :: l) /\ onext m (oprev m x) = x.
Proof.
  intros H (C & _ & P & _) I. split; [apply ring_oprev; [exact H|intros y J; apply (P y J)|exact C|exact I]|]. apply onext_oprev; [apply history_wf, H|apply (P x I)].
Qed.
Lemma validate_accepts sort ypd m e l o at_ : sorts sort -> history m -> star ypd m (e :: l) o at_ ->
  (length (e :: l) <= 2)%nat \/ (exists x0, convex_but ypd m (e :: l) o at_ x0) -> validate sort ypd m e = Ok true.
Proof.
  intros Hs H St T. rewrite (validate_star sort ypd m e l o at_ Hs H St). f_equal. destruct T as [T|(x0 & T)].
  - apply Nat.leb_le in T. rewrite T. reflexivity.
  - destruct (length (e :: l) <=? 2)%nat eqn:K; [reflexivity|]. apply Nat.leb_gt in K. cbn [orb].
    assert (N : NoDup (e :: l)) by (apply (cycle_nodup (onext m)), St).
    assert (B1 : Z.of_nat (length (e :: l)) - 2 <= total (g1 ypd m o at_) (e :: l)).
    { apply (total_bound _ x0); [exact N|intros x I; apply sgn_low|]. intros x I X. apply sgn_one, T; assumption. }
    assert (B2 : Z.of_nat (length (e :: l)) - 2 <= total (g2 ypd m o at_) (e :: l)).
    { apply (total_bound _ (onext m x0)); [exact N|intros x I; apply sgn_low|]. intros x I X. unfold g2. apply sgn_one.
      destruct (prev_next ypd m e l o at_ x H St I) as [J Q]. rewrite <- Q at 2. apply T; [exact J|]. intros Z. apply X. rewrite <- Z. symmetry. exact Q. }
    apply andb_true_iff. split; apply Z.ltb_lt; lia.
Qed.
Lemma total_neg g l : (forall x, In x l -> g x <= 0) -> total g l <= 0.
Proof.
  induction l as [|a l IH]; intros G; [reflexivity|]. change (total g (a :: l)) with (g a + total g l).
  assert (total g l <= 0) by (apply IH; intros x I; apply G; right; exact I). pose proof (G a (or_introl eq_refl)). lia.
Qed.
Lemma validate_rejects sort ypd m e l o at_ : sorts sort -> history m -> star ypd m (e :: l) o at_ -> (2 < length (e :: l))%nat ->
  (forall x, In x (e :: l) -> cross (vec ypd o (at_ x)) (vec ypd o (at_ (onext m x))) < 0) -> validate sort ypd m e = Ok false.
Proof.
  intros Hs H St L T. rewrite (validate_star sort ypd m e l o at_ Hs H St). f_equal. apply Nat.leb_gt in L. rewrite L. cbn [orb].
  assert (B1 : total (g1 ypd m o at_) (e :: l) <= 0).
  { apply total_neg. intros x I. specialize (T x I). unfold g1. rewrite (Z.sgn_neg _ T). lia. }
  assert (X : (0 <? total (g1 ypd m o at_) (e :: l)) = false) by (apply Z.ltb_ge; exact B1). rewrite X. apply andb_false_r.
Qed.

(** ** Vertices which should not be accepted *)
Definition swapped : list (Z * Z) := [(10, 0); (3, 10); (-8, -6); (-8, 6); (3, -10)].
Definition covered : list (Z * Z) := [(10, 0); (20, 0); (-5, 8); (-5, -8)].
Definition twice : list (Z * Z) := [(10, 0); (-8, 6); (3, -10); (3, 10); (-8, -6)].
Definition ring_of (ps : list (Z * Z)) : list edge := map (fun k => (k, 0%nat)) (seq 0 (length ps)).
Definition accepted (m : mem (point f64)) (es : list edge) (o : Z * Z) : bool :=
  match visit_all false m (fpt o) start es with
  | Ok s => negb (s_bad s) && ((length (s_points s) <=? 2)%nat || (0 <? s_cw s) && (0 <? s_ccw s))
  | _ => false
  end.
Lemma accept_run sort m e es o d : sorts sort -> (snd e < 4)%nat -> moderate o -> orig m e = Some (fpt o) -> dest m e = Some (fpt d) ->
  walk_all_onext m (fun _ => true) e = Some es -> accepted m es o = true -> validate sort false m e = Ok true.
Proof.
  intros Hs L O Oe De W A. unfold validate. rewrite (good_rots e L). cbn [negb]. rewrite Oe, W. unfold accepted in A.
  destruct (visit_all false m (fpt o) start es) as [s| |]; try discriminate A. cbn [bind]. apply andb_true_iff in A. destruct A as [A1 A2]. apply negb_true_iff in A1. rewrite A1, De.
  cbn [deref bind]. rewrite (decide_eq sort _ s Hs (share_int o _ O)), A2. reflexivity.
Qed.
Lemma origin_ok : moderate (0, 0). Proof. split; cbn; lia. Qed.
Ltac leave := split; [split; [repeat constructor; cbn; intuition discriminate|vm_compute; repeat (split; [reflexivity|]); exact I]|split; [intros x Hx; cases; vm_compute; reflexivity|vm_compute; reflexivity]].
Lemma accepts_swapped : exists m, history m /\ leaves m (ring_of swapped) (0, 0) swapped
  /\ forall sort, sorts sort -> validate sort false m (0, 0)%nat = Ok true.
Proof.
  exists (fan (0, 0) (rev swapped) 0). split; [apply fan_history|]. split; [unfold ring_of; cbn [swapped length seq map]; leave|].
  intros sort Hs. apply (accept_run sort _ _ (ring_of swapped) (0, 0) (10, 0)); [exact Hs|cbn; lia|apply origin_ok|vm_compute; reflexivity|vm_compute; reflexivity|vm_compute; reflexivity|vm_compute; reflexivity].
Qed.
Lemma accepts_covered : exists m, history m /\ leaves m (ring_of covered) (0, 0) covered
  /\ forall sort, sorts sort -> validate sort false m (0, 0)%nat = Ok true.
Proof.
  exists (fan (0, 0) (rev covered) 0). split; [apply fan_history|]. split; [unfold ring_of; cbn [covered length seq map]; leave|].
  intros sort Hs. apply (accept_run sort _ _ (ring_of covered) (0, 0) (10, 0)); [exact Hs|cbn; lia|apply origin_ok|vm_compute; reflexivity|vm_compute; reflexivity|vm_compute; reflexivity|vm_compute; reflexivity].
Qed.
Lemma accepts_twice : exists m, history m /\ leaves m (ring_of twice) (0, 0) twice
  /\ forall sort, sorts sort -> validate sort false m (0, 0)%nat = Ok true.
Proof.
  exists (fan (0, 0) (rev twice) 0). split; [apply fan_history|]. split; [unfold ring_of; cbn [twice length seq map]; leave|].
  intros sort Hs. apply (accept_run sort _ _ (ring_of twice) (0, 0) (10, 0)); [exact Hs|cbn; lia|apply origin_ok|vm_compute; reflexivity|vm_compute; reflexivity|vm_compute; reflexivity|vm_compute; reflexivity].
Qed.
(** A vertex in the right order, and the same seen in a mirror. *)
Lemma three_accepted : history (fan (0, 0) three 0) /\ (forall ypd, star ypd (fan (0, 0) three 0) [(0, 0); (1, 0); (2, 0)]%nat (0, 0) (ends three))
  /\ convex_but false (fan (0, 0) three 0) [(0, 0); (1, 0); (2, 0)]%nat (0, 0) (ends three) (2, 0)%nat
  /\ (forall x, In x [(0, 0); (1, 0); (2, 0)]%nat -> cross (vec true (0, 0) (ends three x)) (vec true (0, 0) (ends three (onext (fan (0, 0) three 0) x))) < 0)
  /\ NoDup (map fst [(0, 0); (1, 0); (2, 0)]%nat).
Proof.
  split; [apply fan_history|]. split; [apply three_star|]. split; [intros x Hx _; cases; vm_compute; reflexivity|]. split; [intros x Hx; cases; vm_compute; reflexivity|].
  repeat constructor; cbn; intuition discriminate.
Qed.
