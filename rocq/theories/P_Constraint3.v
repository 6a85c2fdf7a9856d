(** * Proofs about inserting constraints: runs which are computed *)
From Coq Require Import Bool List Arith ZArith Lia.
From Verif Require Import Base_F64 Base_Res Base_Geom M_Cmp M_Walker M_Triangle S_Winding M_Quadedge S_Quadedge M_Subdivision S_Subdivision M_ResolveEdge S_ResolveEdge M_Insert S_Insert S_InsertRun
  P_Quadedge P_Insert10 P_Delaunay M_Constraint S_Constraint P_Constraint P_Constraint2 M_Intersect M_Planar.
Import ListNotations.
Local Open Scope Z_scope.

Definition same_z (p q : Z * Z) : bool := (fst p =? fst q) && (snd p =? snd q).
Definition free_ok (sd : subdivision) (ps : list (Z * Z)) (x : Z * Z) : bool :=
  (Z.abs (fst x) <=? 2 ^ 20) && (Z.abs (snd x) <=? 2 ^ 20) && negb (existsb (same_z x) ps)
  && forallb (fun a => negb (on_edge (sd_mem sd) (fpt x) a) || existsb (edge_eqb a) []) (even_edges (sd_mem sd))
  && negb (on_edge (sd_mem sd) (fpt x) (sd_start sd)) && negb (on_edge (sd_mem sd) (fpt x) (sym (sd_start sd))).
(** Inserts the points one after the other. *)
Fixpoint run (sd : subdivision) (ps xs : list (Z * Z)) : option subdivision :=
  match xs with
  | [] => Some sd
  | x :: xs => if free_ok sd ps x then match insert_site false sd (fpt x) with Ok (sd', true) => run sd' (x :: ps) xs | _ => None end else None
  end.
Lemma run_reached : forall xs sd ps sd', reached false sd ps -> run sd ps xs = Some sd' -> reached false sd' (rev xs ++ ps).
Proof.
  induction xs as [|x xs IH]; intros sd ps sd' R Q; cbn [run] in Q; [injection Q as <-; exact R|].
  destruct (free_ok sd ps x) eqn:F; [|discriminate]. unfold free_ok in F. rewrite !andb_true_iff, !negb_true_iff in F.
  destruct F as [[[[[M1 M2] N] On] S1] S2]. destruct (insert_site false sd (fpt x)) as [[sd1 []]|er|] eqn:I; try discriminate.
  cbn [rev]. rewrite <- app_assoc. apply (IH sd1 (x :: ps) sd'); [|exact Q].
  assert (E : next_sd sd x = sd1) by (unfold next_sd; rewrite I; reflexivity). rewrite <- E.
  apply free_step; try assumption.
  - apply dec_moderate. rewrite M1, M2. reflexivity.
  - intros Hin. assert (X : existsb (same_z x) ps = true); [|congruence]. apply existsb_exists. exists x. split; [exact Hin|]. unfold same_z. rewrite !Z.eqb_refl. reflexivity.
  - unfold ins_is. rewrite I. reflexivity.
Qed.

Definition f0 : subdivision := Subd (new_triangle (fpt (-1000, -1000)) (fpt (1000, -1000)) (fpt (0, 1000))) (0, 0)%nat 3.
Definition frame_points : list (Z * Z) := [(-1000, -1000); (1000, -1000); (0, 1000)].
Definition frame0 : pt * pt * pt := (fpt (-1000, -1000), fpt (1000, -1000), fpt (0, 1000)).
Lemma reached_f0 : reached false f0 frame_points.
Proof.
  unfold f0, frame_points. apply r_new; try (apply dec_moderate; reflexivity); try discriminate.
  assert (Q : match new_subdivision false (fpt (-1000, -1000)) (fpt (1000, -1000)) (fpt (0, 1000)) with Ok (_, Some e) => edge_eqb e (0, 0)%nat | _ => false end = true) by (vm_compute; reflexivity).
  unfold new_subdivision in *. destruct (resolve_edge false (new_triangle (fpt (-1000, -1000)) (fpt (1000, -1000)) (fpt (0, 1000))) (0, 0)%nat
    (M_Triangle.center (fpt (-1000, -1000), fpt (1000, -1000), fpt (0, 1000)))) as [[r [er|]]|er|]; cbn [bind] in *; try discriminate.
  destruct r as [e|]; [|discriminate]. apply P_Quadedge.eqb_spec in Q. subst e. reflexivity.
Qed.
Definition run_of (xs : list (Z * Z)) : subdivision := match run f0 frame_points xs with Some sd => sd | None => f0 end.
Definition diamond : list (Z * Z) := [(10, 0); (30, 0); (20, 5); (20, -5)].
Definition beads : list (Z * Z) := [(10, 0); (30, 0); (20, 5); (20, -5); (0, 0); (40, 0)].
Lemma by_run xs : match run f0 frame_points xs with Some _ => true | None => false end = true -> reached false (run_of xs) (rev xs ++ frame_points).
Proof. intros Q. unfold run_of. destruct (run f0 frame_points xs) as [sd|] eqn:E; [|discriminate]. exact (run_reached _ _ _ _ reached_f0 E). Qed.
(** The run, the index and the constraint, and a test of the result. *)
Definition test (xs : list (Z * Z)) (s t : Z * Z) (ok : subdivision -> vindex -> c_result -> bool) : bool :=
  match run f0 frame_points xs with
  | None => false
  | Some sd =>
      match new_vertex_index go_eq round_pt (sd_mem sd) (Some (sd_start sd)) with
      | Ok vx => match insert_constraint false frame0 (sd_mem sd) vx (fpt s) (fpt t) with Ok r => ok sd vx r | _ => false end
      | _ => false
      end
  end.
Lemma by_test xs s t ok : test xs s t ok = true ->
  reached false (run_of xs) (rev xs ++ frame_points)
  /\ exists vx r, new_vertex_index go_eq round_pt (sd_mem (run_of xs)) (Some (sd_start (run_of xs))) = Ok vx
     /\ insert_constraint false frame0 (sd_mem (run_of xs)) vx (fpt s) (fpt t) = Ok r /\ ok (run_of xs) vx r = true.
Proof.
  intros T. unfold test in T. split; [apply by_run; destruct (run f0 frame_points xs); [reflexivity|discriminate]|].
  unfold run_of. destruct (run f0 frame_points xs) as [sd|]; [|discriminate].
  destruct (new_vertex_index go_eq round_pt (sd_mem sd) (Some (sd_start sd))) as [vx|er|]; try discriminate.
  destruct (insert_constraint false frame0 (sd_mem sd) vx (fpt s) (fpt t)) as [r|er|] eqn:C; try discriminate. exists vx, r.
  split; [reflexivity|]. split; [exact C|exact T].
Qed.

(** At most 21 edges are found. *)
Lemma loop_length n m ln last w l : crossing_loop n m ln last w = Some l -> (length l <= n)%nat.
Proof.
  revert w l. induction n as [|n IH]; intros w l Q; cbn [crossing_loop] in Q; [discriminate|].
  assert (H : (length (if snd (segment_intersect ln (as_line m w)) then [w] else []) <= 1)%nat) by (destruct (snd _); cbn; lia).
  destruct (fst last =? fst w)%nat; [injection Q as <-; lia|].
  destruct (crossing_loop n m ln last _) as [l'|] eqn:E; [|discriminate]. apply IH in E. injection Q as <-. rewrite app_length. lia.
Qed.
Lemma ok_inj {E A} (x y : A) : @Ok E A x = Ok y -> x = y.
Proof. intros Q. injection Q as Q. exact Q. Qed.
Lemma found_length ypd m se ee l : find_intersecting ypd m se ee = Ok (Some l) -> (length l <= 21)%nat.
Proof.
  intros Q. unfold find_intersecting in Q. destruct se as [se|]; [|injection Q as <-; cbn; lia]. destruct ee as [ee|]; [|injection Q as <-; cbn; lia].
  destruct (orig m se) as [s|]; [|discriminate]. destruct (orig m ee) as [e|]; [|discriminate].
  destruct (f64_eq (length_squared (s, e)) f64_zero); [injection Q as <-; cbn; lia|].
  destruct (resolve_edge ypd m se e) as [r1| |]; cbn [bind] in Q; try discriminate. destruct (resolve_edge ypd m ee s) as [r2| |]; cbn [bind] in Q; try discriminate.
  destruct (fst r1) as [se'|]; [|discriminate]. destruct (fst r2) as [ee'|]; [|discriminate]. destruct (dest m se') as [sd|]; [|discriminate]. destruct (dest m ee') as [ed|]; [|discriminate].
  destruct (_ || _); [injection Q as <-; cbn; lia|]. apply ok_inj in Q. exact (loop_length 21 _ _ _ _ _ Q).
Qed.

Definition connects (m : mem pt) (se : edge) (path : list bool) (p q : Z * Z) : bool :=
  fits m se path && is_pt (orig m (follow m se path)) p && is_pt (dest m (follow m se path)) q.
Lemma connects_ok m se path p q : connects m se path p q = true -> exists e, connected m se e /\ orig m e = Some (fpt p) /\ dest m e = Some (fpt q).
Proof.
  unfold connects. rewrite !andb_true_iff. intros [[F O] D]. exists (follow m se path). split; [apply follow_ok, F|]. split; apply is_pt_ok; assumption.
Qed.
Definition bead_path : list bool := [true; false; true; true; true; true].
Lemma not_cleared : reached false (run_of beads) (rev beads ++ frame_points)
  /\ exists m vx e, constrain frame0 (run_of beads) (0, 0) (40, 0) (m, vx, None)
     /\ connected m (sd_start (run_of beads)) e /\ orig m e = Some (fpt (20, -5)) /\ dest m e = Some (fpt (20, 5)).
Proof.
  destruct (by_test beads (0, 0) (40, 0) (fun sd _ r => match snd r with None => connects (fst (fst r)) (sd_start sd) bead_path (20, -5) (20, 5) | _ => false end))
    as [R (vx & [[m vx'] er] & V & C & Q)]; [vm_compute; reflexivity|].
  split; [exact R|]. cbn [fst snd] in Q. destruct er as [er|]; [discriminate Q|]. destruct (connects_ok _ _ _ _ _ Q) as (e & A & O & D).
  exists m, vx', e. split; [exists vx; split; [exact V|exact C]|]. split; [exact A|]. split; [exact O|exact D].
Qed.

Lemma not_cleared_cut : reached false (run_of beads) (rev beads ++ frame_points)
  /\ (exists m vx e, constrain frame0 (run_of beads) (0, 0) (40, 0) (m, vx, None)
     /\ connected m (sd_start (run_of beads)) e /\ orig m e = Some (fpt (20, -5)) /\ dest m e = Some (fpt (20, 5)))
  /\ cut (0, 0) (40, 0) (20, -5) (20, 5).
Proof. split; [apply not_cleared|]. split; [apply not_cleared|]. split; vm_compute; reflexivity. Qed.

(** ** A case which meets the hypotheses *)
Definition same_end (a b : option pt) : bool :=
  match a, b with Some p, Some q => (fst p =? fst q) && (snd p =? snd q) | None, None => true | _, _ => false end.
Lemma same_end_eq a b : same_end a b = true -> a = b.
Proof.
  destruct a as [[a1 a2]|], b as [[b1 b2]|]; cbn; try discriminate; [|reflexivity]. rewrite andb_true_iff, !Z.eqb_eq. intros [-> ->]. reflexivity.
Qed.
Definition sound_test (m : mem pt) (vx : vindex) : bool :=
  forallb (fun a => same_end (orig m (onext m a)) (orig m a)) (even_edges m)
  && forallb (fun '(k, e) => (fst e <? count m)%nat && (snd e <? 4)%nat && Nat.even (snd e)
                              && match orig m e with Some p => go_eq k (round_pt p) | None => false end) vx.
Lemma sound_by_test m vx : history m -> sound_test m vx = true -> sound m vx.
Proof.
  intros H T. unfold sound_test in T. rewrite andb_true_iff, !forallb_forall in T. destruct T as [U I]. split; [exact H|]. split.
  - intros e P. apply same_end_eq, U, even_in, P.
  - intros k e L. assert (X : exists q, In (q, e) vx /\ go_eq k q = true).
    { clear I. induction vx as [|[q f] vx IH]; [discriminate|]. cbn [lookup] in L. destruct (go_eq k q) eqn:G; [injection L as <-; exists q; split; [left; reflexivity|exact G]|].
      destruct (IH L) as (q' & Hq & Gq). exists q'. split; [right; exact Hq|exact Gq]. }
    destruct X as (q & Hin & G). specialize (I _ Hin). cbn in I. rewrite !andb_true_iff in I. destruct I as [[[A B] Ev] O].
    split; [split; [split; [apply Nat.ltb_lt, A|apply Nat.ltb_lt, B]|exact Ev]|]. destruct (orig m e) as [p|]; [|discriminate]. exists p. split; [reflexivity|exact (go_eq_trans _ _ _ G O)].
Qed.
Definition at_b (s : Z * Z) (o : option pt) : bool :=
  match o with Some p => go_eq (round_pt (round_pt (fpt s))) (round_pt p) || point_equal hi_cmp (round_pt (fpt s)) p | None => false end.
Definition jn (m : mem pt) : bool := existsb (fun a => at_b (10, 0) (orig m a) && at_b (30, 0) (dest m a)) (even_edges m).
Lemma both_true a b : a && b = true -> a = true /\ b = true.
Proof. apply andb_prop. Qed.
Lemma neg_false b : negb b = true -> b = false.
Proof. apply negb_true_iff. Qed.
Lemma constrained_diamond : exists vx m' vx', sound (sd_mem (run_of diamond)) vx
  /\ insert_constraint false frame0 (sd_mem (run_of diamond)) vx (fpt (10, 0)) (fpt (30, 0)) = Ok (m', vx', None)
  /\ joined m' (fpt (10, 0)) (fpt (30, 0)) /\ ~ joined (sd_mem (run_of diamond)) (fpt (10, 0)) (fpt (30, 0)).
Proof.
  destruct (by_test diamond (10, 0) (30, 0) (fun sd vx r => match snd r with None => sound_test (sd_mem sd) vx && jn (fst (fst r)) && negb (jn (sd_mem sd)) | _ => false end))
    as [R (vx & [[m vx'] er] & V & C & Q)]; [vm_compute; reflexivity|].
  cbn [fst snd] in Q. destruct er as [er|]; [discriminate Q|]. destruct (both_true _ _ Q) as [Q1 N]. destruct (both_true _ _ Q1) as [S J]. clear Q Q1.
  assert (H : history (sd_mem (run_of diamond))) by (pose proof (reached_ok _ _ _ R) as ((H & _) & _); exact H).
  assert (At : forall s o, at_b s o = true <-> exists p, o = Some p /\ is_at (fpt s) p).
  { intros s o. unfold at_b, is_at. destruct o as [p|]; [|split; [discriminate|intros (p & Q & _); discriminate Q]]. rewrite orb_true_iff.
    split; [intros X; exists p; split; [reflexivity|exact X]|intros (q & Q & X); injection Q as <-; exact X]. }
  assert (Jn : forall m, jn m = true -> history m -> joined m (fpt (10, 0)) (fpt (30, 0))).
  { intros m0 Q H0. unfold jn in Q. apply existsb_exists in Q. destruct Q as (a & Ha & Q). apply andb_true_iff in Q. destruct Q as [A B].
    apply At in A. apply At in B. destruct A as (p & Op & Ap), B as (q & Oq & Aq). exists a, p, q. split; [|auto].
    unfold even_edges in Ha. apply in_flat_map in Ha. destruct Ha as (n & Hn & Ha). apply in_seq in Hn. destruct Ha as [<-|[<-|[]]]; (split; [split; cbn; lia|reflexivity]). }
  assert (So := sound_by_test _ _ H S).
  exists vx, m, vx'. split; [exact So|]. split; [exact C|]. split.
  - apply Jn; [exact J|]. pose proof (insert_constraint_sound false frame0 _ _ (fpt (10, 0)) (fpt (30, 0)) So) as G. rewrite C in G. apply G.
  - intros (e & p & q & Pe & O & D & Ap & Aq). assert (X : jn (sd_mem (run_of diamond)) = true); [|apply neg_false in N; rewrite X in N; discriminate N].
    unfold jn. apply existsb_exists. exists e. split; [apply even_in, Pe|]. apply andb_true_iff. split; apply At; [exists p|exists q]; split; assumption.
Qed.

(** The edge between (20,-5) and (20,5) is found. *)
Definition found_test (m : mem pt) (vx : vindex) : bool * bool * bool * bool * bool :=
  (sound_test m vx, is_pt (orig m (9, 0)%nat) (10, 0), is_pt (orig m (10, 0)%nat) (30, 0), (11 <=? count m)%nat,
   match find_intersecting false m (Some (9, 0)%nat) (Some (10, 0)%nat) with Ok (Some (_ :: _)) => true | _ => false end).
Definition all_five (x : bool * bool * bool * bool * bool) : bool := let '(a, b, c, d, e) := x in a && b && c && d && e.
Lemma five_true a b c d e : all_five (a, b, c, d, e) = true -> a = true /\ b = true /\ c = true /\ d = true /\ e = true.
Proof. destruct a, b, c, d, e; intros H; try discriminate H. auto. Qed.
Lemma found_mem m vx : history m -> all_five (found_test m vx) = true -> exists e f l, (history m /\ uniform m /\ primal m e /\ primal m f)
  /\ orig m e = Some (fpt (10, 0)) /\ orig m f = Some (fpt (30, 0)) /\ find_intersecting false m (Some e) (Some f) = Ok (Some l) /\ l <> [].
Proof.
  intros H Q. unfold found_test in Q. apply five_true in Q. destruct Q as (S & O1 & O2 & N & F).
  destruct (sound_by_test _ _ H S) as (_ & U & _). apply Nat.leb_le in N. revert F.
  destruct (find_intersecting false m (Some (9, 0)%nat) (Some (10, 0)%nat)) as [[[|x l]|]|er|] eqn:E; intros F; try discriminate F.
  exists (9, 0)%nat, (10, 0)%nat, (x :: l). split.
  { split; [exact H|]. split; [exact U|]. split; (split; [split; cbn [fst snd]; lia|reflexivity]). }
  split; [apply is_pt_ok, O1|]. split; [apply is_pt_ok, O2|]. split; [exact E|discriminate].
Qed.
Lemma found_diamond : exists e f l, (history (sd_mem (run_of diamond)) /\ uniform (sd_mem (run_of diamond)) /\ primal (sd_mem (run_of diamond)) e /\ primal (sd_mem (run_of diamond)) f)
  /\ orig (sd_mem (run_of diamond)) e = Some (fpt (10, 0)) /\ orig (sd_mem (run_of diamond)) f = Some (fpt (30, 0))
  /\ find_intersecting false (sd_mem (run_of diamond)) (Some e) (Some f) = Ok (Some l) /\ l <> [].
Proof.
  destruct (by_test diamond (10, 0) (30, 0) (fun sd vx _ => all_five (found_test (sd_mem sd) vx))) as [R (vx & r & V & C & Q)]; [vm_compute; reflexivity|].
  apply (found_mem _ vx); [|exact Q]. pose proof (reached_ok _ _ _ R) as ((H & _) & _). exact H.
Qed.

(** ** NewForPoints *)
Definition near_zero : list pt := [(0x3F1A36E2EB1C432D, 0); fpt (10, 0); fpt (0, 10)].
Lemma slice_changed : exists pts sd, new_for_points false (fun _ => false) near_zero = (pts, Ok (Some sd)) /\ pts <> near_zero.
Proof.
  assert (Q : match new_for_points false (fun _ => false) near_zero with (p :: _, Ok (Some _)) => fst p =? 0 | _ => false end = true) by (vm_compute; reflexivity).
  destruct (new_for_points false (fun _ => false) near_zero) as [[|[x y] pts] [[sd|]|er|]]; try discriminate Q.
  exists ((x, y) :: pts), sd. split; [reflexivity|]. cbn [fst] in Q. apply Z.eqb_eq in Q. subst x. intros E. discriminate E.
Qed.
