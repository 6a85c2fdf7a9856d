(** * Proofs about the methods of subdivision.Triangle: a computed run *)
From Coq Require Import Bool List Arith ZArith Lia.
From Verif Require P_MvtPrepare3 S_MvtPrepare.
From Verif Require Import Base_F64 Base_Res Base_Geom M_Cmp M_Walker S_Winding M_Quadedge S_Quadedge P_Quadedge P_Insert S_Subdivision P_Subdivision S_ResolveEdge M_Insert S_Insert S_InsertRun P_Insert10 M_Constraint S_Constraint P_Constraint3 M_Face S_Face P_Face.
Import ListNotations.
Local Open Scope Z_scope.

Definition hi_eq : pt -> pt -> bool := point_equal hi_cmp.
Lemma tells_int l p : Forall moderate l -> moderate p -> tells hi_eq (map fpt l) (fpt p).
Proof.
  intros L M q I. apply in_map_iff in I. destruct I as (z & <- & I). rewrite Forall_forall in L. specialize (L z I).
  assert (R : forall z, moderate z -> S_MvtPrepare.pixel_range z) by (intros y [A B]; split; lia).
  assert (G : forall x y, moderate x -> moderate y -> hi_eq (fpt x) (fpt y) = true <-> fpt x = fpt y).
  { intros x y X Y. unfold hi_eq. rewrite (P_MvtPrepare3.same_int x y (R x X) (R y Y)). split.
    - unfold S_MvtPrepare.same_zpt. rewrite andb_true_iff, !Z.eqb_eq. intros [A B]. destruct x, y. cbn in *. subst. reflexivity.
    - intros E. rewrite <- (P_MvtPrepare3.same_int x y (R x X) (R y Y)), E, (P_MvtPrepare3.same_int y y (R y Y) (R y Y)). unfold S_MvtPrepare.same_zpt. rewrite !Z.eqb_refl. reflexivity. }
  split; [apply G; assumption|]. rewrite (G p z M L). split; intros E; symmetry; exact E.
Qed.

Definition face_test (m : mem pt) (e : edge) (a b c : Z * Z) : bool :=
  let x := lnext m (sym e) in
  let y := lnext m x in
  (fst e <? count m)%nat && (snd e <? 4)%nat && Nat.even (snd e) && edge_eqb (lnext m y) (sym e) && negb (edge_eqb (sym e) x) && negb (edge_eqb (sym e) y) && negb (edge_eqb x y)
  && is_pt (dest m e) a && is_pt (orig m e) b && is_pt (orig m y) c.
Lemma face_tested m e a b c : face_test m e a b c = true -> primal m e /\ right_face m e (fpt a) (fpt b) (fpt c).
Proof.
  unfold face_test. cbv zeta. intros T. apply andb_prop in T. destruct T as [T Oc]. apply andb_prop in T. destruct T as [T Ob]. apply andb_prop in T. destruct T as [T Oa].
  apply andb_prop in T. destruct T as [T N3]. apply andb_prop in T. destruct T as [T N2]. apply andb_prop in T. destruct T as [T N1]. apply andb_prop in T. destruct T as [T L3].
  apply andb_prop in T. destruct T as [T E3]. apply andb_prop in T. destruct T as [E1 E2].
  split; [split; [split; [apply Nat.ltb_lt, E1|apply Nat.ltb_lt, E2]|exact E3]|].
  exists (lnext m (sym e)), (lnext m (lnext m (sym e))). apply P_Quadedge.eqb_spec in L3. apply neg_false in N1, N2, N3.
  assert (NE : forall u v, edge_eqb u v = false -> u <> v) by (intros u v Q ->; rewrite (proj2 (P_Quadedge.eqb_spec v v) eq_refl) in Q; discriminate Q).
  apply NE in N1, N2, N3. split; [|split; [apply is_pt_ok, Oa|split; [apply is_pt_ok, Ob|apply is_pt_ok, Oc]]].
  split; [|cbn [chain]; auto]. constructor; [intros [Q|[Q|[]]]; symmetry in Q; contradiction|]. constructor; [intros [Q|[]]; symmetry in Q; contradiction|]. constructor; [intros []|constructor].
Qed.

(** The two triangles at the edge from (0,1000) to (10,0). *)
Definition pair_test (m : mem pt) (e : edge) : bool :=
  face_test m e (10, 0) (0, 1000) (-1000, -1000) && face_test m (sym e) (0, 1000) (10, 0) (1000, -1000)
  && match opposite_vertex hi_eq m e (sym e) with Ok v => is_pt v (-1000, -1000) | _ => false end
  && match shared_edge hi_eq m e (sym e) with Ok (Some x) => edge_eqb x e | _ => false end
  && match opposite_triangle hi_eq m e (fpt (-1000, -1000)) with Ok (Some x) => edge_eqb x (sym e) | _ => false end.
Definition some_pair (sd : subdivision) : bool := forallb (fun a => same_end (orig (sd_mem sd) (onext (sd_mem sd) a)) (orig (sd_mem sd) a)) (even_edges (sd_mem sd)) && existsb (pair_test (sd_mem sd)) (even_edges (sd_mem sd)).
Lemma pair_mem m e : pair_test m e = true -> (primal m e /\ primal m (sym e)) /\ (right_face m e (fpt (10, 0)) (fpt (0, 1000)) (fpt (-1000, -1000)) /\ right_face m (sym e) (fpt (0, 1000)) (fpt (10, 0)) (fpt (1000, -1000)))
  /\ opposite_vertex hi_eq m e (sym e) = Ok (Some (fpt (-1000, -1000))) /\ shared_edge hi_eq m e (sym e) = Ok (Some e) /\ opposite_triangle hi_eq m e (fpt (-1000, -1000)) = Ok (Some (sym e)).
Proof.
  unfold pair_test. intros T. apply andb_prop in T. destruct T as [T T5].
  apply andb_prop in T. destruct T as [T T4]. apply andb_prop in T. destruct T as [T T3]. apply andb_prop in T. destruct T as [T1 T2].
  apply face_tested in T1, T2. destruct T1 as [P1 F1], T2 as [P2 F2]. split; [split; assumption|]. split; [split; assumption|].
  destruct (opposite_vertex hi_eq m e (sym e)) as [v| |]; [|discriminate T3|discriminate T3]. apply is_pt_ok in T3. rewrite T3. split; [reflexivity|].
  destruct (shared_edge hi_eq m e (sym e)) as [[x|]| |]; try discriminate T4. apply P_Quadedge.eqb_spec in T4. rewrite T4. split; [reflexivity|].
  destruct (opposite_triangle hi_eq m e (fpt (-1000, -1000))) as [[z|]| |]; try discriminate T5. apply P_Quadedge.eqb_spec in T5. rewrite T5. reflexivity.
Qed.
Definition pair_in (m : mem pt) : Prop := exists e,
  (history m /\ same_points m) /\ (primal m e /\ primal m (sym e)) /\ (right_face m e (fpt (10, 0)) (fpt (0, 1000)) (fpt (-1000, -1000)) /\ right_face m (sym e) (fpt (0, 1000)) (fpt (10, 0)) (fpt (1000, -1000)))
  /\ opposite_vertex hi_eq m e (sym e) = Ok (Some (fpt (-1000, -1000))) /\ shared_edge hi_eq m e (sym e) = Ok (Some e) /\ opposite_triangle hi_eq m e (fpt (-1000, -1000)) = Ok (Some (sym e)).
Lemma some_pair_mem sd : history (sd_mem sd) -> some_pair sd = true -> pair_in (sd_mem sd).
Proof.
  intros H Q. unfold some_pair in Q. apply andb_prop in Q. destruct Q as [S X]. apply existsb_exists in X. destruct X as (e & _ & X). exists e.
  assert (U : same_points (sd_mem sd)) by (intros x P; apply same_end_eq; rewrite forallb_forall in S; apply S, even_in, P). split; [split; [exact H|exact U]|]. exact (pair_mem _ e X).
Qed.
Definition one_point : list (Z * Z) := [(10, 0)].
Lemma by_pair xs : match run f0 frame_points xs with Some sd => some_pair sd | None => false end = true -> reached false (run_of xs) (rev xs ++ frame_points) /\ some_pair (run_of xs) = true.
Proof.
  intros T. split; [apply by_run; destruct (run f0 frame_points xs); [reflexivity|discriminate]|]. unfold run_of. destruct (run f0 frame_points xs) as [sd|]; [exact T|discriminate].
Qed.
Lemma pair_one : reached false (run_of one_point) (rev one_point ++ frame_points) /\ pair_in (sd_mem (run_of one_point)).
Proof.
  destruct (by_pair one_point) as [R Q]; [vm_compute; reflexivity|]. split; [exact R|].
  apply some_pair_mem; [|exact Q]. pose proof (reached_ok _ _ _ R) as ((H & _) & _). exact H.
Qed.
Lemma wrong_vertex : reached false (run_of one_point) (rev one_point ++ frame_points)
  /\ exists e, right_face (sd_mem (run_of one_point)) e (fpt (10, 0)) (fpt (0, 1000)) (fpt (-1000, -1000))
     /\ right_face (sd_mem (run_of one_point)) (sym e) (fpt (0, 1000)) (fpt (10, 0)) (fpt (1000, -1000))
     /\ opposite_vertex hi_eq (sd_mem (run_of one_point)) e (sym e) = Ok (Some (fpt (-1000, -1000))).
Proof.
  destruct pair_one as [R (e & _ & _ & [F1 F2] & V & _)]. split; [exact R|]. exists e. split; [exact F1|]. split; [exact F2|exact V].
Qed.
Lemma face_case : exists m e, (history m /\ same_points m) /\ (primal m e /\ primal m (sym e))
  /\ (right_face m e (fpt (10, 0)) (fpt (0, 1000)) (fpt (-1000, -1000)) /\ right_face m (sym e) (fpt (0, 1000)) (fpt (10, 0)) (fpt (1000, -1000)))
  /\ shared_edge hi_eq m e (sym e) = Ok (Some e) /\ opposite_triangle hi_eq m e (fpt (-1000, -1000)) = Ok (Some (sym e)).
Proof.
  destruct pair_one as [_ (e & H & P & F & _ & G)]. exists (sd_mem (run_of one_point)), e. split; [exact H|]. split; [exact P|]. split; [exact F|exact G].
Qed.
Lemma inside_case : counter_clockwise (10, 0) (0, 1000) (-1000, -1000) /\ in_triangle (10, 0) (0, 1000) (-1000, -1000) (-100, 0) /\ ~ in_triangle (10, 0) (0, 1000) (-1000, -1000) (25, 1).
Proof. unfold counter_clockwise, in_triangle, cross, vec. cbn [fst snd]. lia. Qed.
