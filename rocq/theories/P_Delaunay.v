(** * Proofs: a subdivision which is not a Delaunay triangulation *)
From Coq Require Import Bool List Arith ZArith Lia.
From Verif Require Import Base_F64 Base_Res Base_Geom M_Cmp M_Walker M_Triangle S_Winding M_Quadedge S_Quadedge S_Subdivision M_ResolveEdge S_ResolveEdge M_Insert S_Insert S_InsertRun S_Delaunay
  P_Quadedge P_Quadedge2 P_Quadedge3 P_Quadedge4 P_QuadedgeTop P_Subdivision P_Subdivision2 P_Subdivision3 P_Subdivision5 P_ResolveEdge P_ResolveEdge2 P_ResolveEdge3 P_ResolveEdge5 P_Insert P_Insert2 P_Insert8 P_Insert9 P_Insert10 P_Insert11.
Import ListNotations.
Local Open Scope Z_scope.

Definition d0 : subdivision := Subd (new_triangle (fpt (-1000000, -900000)) (fpt (1000000, -900000)) (fpt (0, 1000000))) (0, 0)%nat 3.
Definition d1 := next_sd d0 (100000, 0).
Definition d2 := next_sd d1 (-100000, 0).
Definition d3 := next_sd d2 (0, -100000).
Definition d4 := next_sd d3 (48320, 87551).
Definition near_points : list (Z * Z) :=
  [(48320, 87551); (0, -100000); (-100000, 0); (100000, 0); (-1000000, -900000); (1000000, -900000); (0, 1000000)].

Lemma near0 : reached false d0 (skipn 4 near_points).
Proof.
  unfold d0, near_points. cbn [skipn]. apply r_new; try (apply dec_moderate; reflexivity); try discriminate.
  assert (Q : match new_subdivision false (fpt (-1000000, -900000)) (fpt (1000000, -900000)) (fpt (0, 1000000)) with Ok (_, Some e) => edge_eqb e (0, 0)%nat | _ => false end = true) by (vm_compute; reflexivity).
  unfold new_subdivision in *. destruct (resolve_edge false (new_triangle (fpt (-1000000, -900000)) (fpt (1000000, -900000)) (fpt (0, 1000000))) (0, 0)%nat
    (M_Triangle.center (fpt (-1000000, -900000), fpt (1000000, -900000), fpt (0, 1000000)))) as [[r [er|]]|er|]; cbn [bind] in *; try discriminate.
  destruct r as [e|]; [|discriminate]. apply P_Quadedge.eqb_spec in Q. subst e. reflexivity.
Qed.
Lemma free_step sd ps x : reached false sd ps -> moderate x -> ~ In x ps ->
  forallb (fun a => negb (on_edge (sd_mem sd) (fpt x) a) || existsb (edge_eqb a) []) (even_edges (sd_mem sd)) = true ->
  on_edge (sd_mem sd) (fpt x) (sd_start sd) = false -> on_edge (sd_mem sd) (fpt x) (sym (sd_start sd)) = false ->
  ins_is sd x true = true -> reached false (next_sd sd x) (x :: ps).
Proof.
  intros R M N On S1 S2 I. apply (r_insert false sd ps x (next_sd sd x) true R M N).
  - intros a C A. exfalso. pose proof (reached_ok _ _ _ R) as ((H & S & _) & _).
    apply (only_on _ _ x [] H S On) in A; [destruct A|exact C].
  - split; assumption.
  - apply next_eq, I.
Qed.
Ltac is_new := let Q := fresh in intros Q; cbn in Q; repeat (destruct Q as [Q|Q]; [discriminate Q|]); exact Q.
Lemma near1 : reached false d1 (skipn 3 near_points).
Proof. apply (free_step d0 _ (100000, 0) near0); [apply dec_moderate; reflexivity|is_new|vm_compute; reflexivity..]. Qed.
Lemma near2 : reached false d2 (skipn 2 near_points).
Proof. apply (free_step d1 _ (-100000, 0) near1); [apply dec_moderate; reflexivity|is_new|vm_compute; reflexivity..]. Qed.
Lemma near3 : reached false d3 (skipn 1 near_points).
Proof. apply (free_step d2 _ (0, -100000) near2); [apply dec_moderate; reflexivity|is_new|vm_compute; reflexivity..]. Qed.
Lemma near4 : reached false d4 near_points.
Proof. apply (free_step d3 _ (48320, 87551) near3); [apply dec_moderate; reflexivity|is_new|vm_compute; reflexivity..]. Qed.

(** Four insertions into a frame: the triangle (48320,87551), (0,-100000), (100000,0)
    has (-100000,0) in its circle. *)
Definition bad_edge : edge := Eval vm_compute in
  hd (0, 0)%nat (filter (fun a => is_pt (orig (sd_mem d4) a) (48320, 87551) && is_pt (dest (sd_mem d4) a) (0, -100000)) (even_edges (sd_mem d4))).
Fixpoint follow (m : mem pt) (a : edge) (path : list bool) : edge :=
  match path with [] => a | b :: path => follow m (if b then onext m a else sym a) path end.
Fixpoint fits (m : mem pt) (a : edge) (path : list bool) : bool :=
  match path with [] => true | b :: path => (fst a <? count m)%nat && (snd a <? 4)%nat && fits m (if b then onext m a else sym a) path end.
Lemma follow_ok m path : forall a, fits m a path = true -> connected m a (follow m a path).
Proof.
  induction path as [|b path IH]; intros a F; cbn [fits follow] in *; [apply c_refl|].
  rewrite !andb_true_iff, !Nat.ltb_lt in F. destruct F as [[A B] F]. apply (c_trans m a (if b then onext m a else sym a)); [|apply IH, F].
  destruct b; [apply c_onext|apply c_sym]; split; assumption.
Qed.
Fixpoint all_paths (n : nat) : list (list bool) :=
  match n with O => [[]] | S n => let l := all_paths n in l ++ flat_map (fun p => [true :: p; false :: p]) (filter (fun p => Nat.eqb (length p) n) l) end.
Definition bad_path : list bool := Eval vm_compute in
  match find (fun p => edge_eqb (follow (sd_mem d4) (0, 0)%nat p) bad_edge) (all_paths 9) with Some p => p | None => [] end.
Lemma not_delaunay : reached false d4 near_points /\ ~ delaunay false (sd_mem d4) (sd_start d4).
Proof.
  split; [exact near4|]. intros D.
  assert (St : edge_eqb (sd_start d4) (0, 0)%nat = true) by (vm_compute; reflexivity). apply P_Quadedge.eqb_spec in St.
  assert (Be : edge_eqb (follow (sd_mem d4) (0, 0)%nat bad_path) bad_edge = true) by (vm_compute; reflexivity). apply P_Quadedge.eqb_spec in Be.
  apply (D bad_edge (48320, 87551) (0, -100000) (100000, 0) (-100000, 0)); try (apply dec_moderate; reflexivity).
  - rewrite St, <- Be. apply follow_ok. vm_compute. reflexivity.
  - split; [|split]; apply is_pt_ok; vm_compute; reflexivity.
  - vm_compute. reflexivity.
  - apply (reached_ok _ _ _ near4). exists (-100000, 0). split; [cbn; auto|reflexivity].
  - exists 278462, (-1), (1). split; [|split; [|split]]; vm_compute; reflexivity.
Qed.

(** The frame of [sd0] alone is one. *)
Lemma frame_delaunay : delaunay false (sd_mem sd0) (sd_start sd0).
Proof.
  destruct (reached_ok _ _ _ reached0) as ((H & S & _) & _ & V).
  assert (I : forall z, moderate z -> vertex_of (sd_mem sd0) (sd_start sd0) (fpt z) -> z = (0, 0) \/ z = (100, 0) \/ z = (0, 100)).
  { intros z Mz Hz. apply V in Hz. destruct Hz as (y & Y & Q). 
    assert (My : moderate y) by (cbn in Y; destruct Y as [<-|[<-|[<-|[]]]]; apply dec_moderate; reflexivity).
    apply (fpt_same z y Mz My) in Q. subst y. cbn in Y. intuition auto. }
  intros e p q r v Mp Mq Mr Mv C (O & De & Ol) W Vv (n & cx & cy & N & E1 & E2 & L).
  pose proof (proj1 (connected_primal _ _ _ (history_wf _ H) C) S) as Pe.
  assert (Pv := I v Mv Vv).
  assert (Pp : p = (0, 0) \/ p = (100, 0) \/ p = (0, 100)) by (apply (I p Mp); exists e; split; assumption).
  assert (Pq : q = (0, 0) \/ q = (100, 0) \/ q = (0, 100)).
  { apply (I q Mq). exists (sym e). split; [|exact De]. apply (c_trans _ _ e _ C), c_sym, Pe. }
  assert (Pr : r = (0, 0) \/ r = (100, 0) \/ r = (0, 100)).
  { apply (I r Mr). exists (lprev (sd_mem sd0) e). split; [|exact Ol].
    apply (c_trans _ _ (onext (sd_mem sd0) e)); [apply (c_trans _ _ e _ C), c_onext, Pe|]. apply c_sym, (step_onext _ (history_wf _ H)); apply Pe. }
  unfold ccw_triangle in W. unfold dist2 in *.
  destruct Pp as [->|[->| ->]], Pq as [->|[->| ->]], Pr as [->|[->| ->]]; vm_compute in W; try discriminate W;
    destruct Pv as [->|[->| ->]]; cbn [fst snd] in *; lia.
Qed.
