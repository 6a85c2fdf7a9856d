(** * Proofs about the constrained triangulation of points *)
From Coq Require Import Bool List Arith ZArith Lia.
From Verif Require P_SimplifyR.
From Verif Require Import Base_F64 Base_F64Arith P_F64Flocq Base_Res Base_Geom M_Cmp M_Walker M_Triangle M_Planar S_Winding M_Quadedge M_Subdivision M_Insert M_Pseudo M_Constraint M_GeojsonAlias M_Constrained S_Constrained P_Constraint P_Walker2.
Import ListNotations.

Definition known (acc : list pt) (p : pt) : Prop := existsb (go_eq p) acc = true.
Lemma known_iff acc p : known acc p <-> exists q, In q acc /\ go_eq p q = true.
Proof. apply existsb_exists. Qed.
Lemma known_eq acc p q : go_eq q p = true -> known acc q -> known acc p.
Proof.
  intros E K. apply known_iff in K. destruct K as (r & I & G). apply known_iff. exists r. split; [exact I|].
  apply (go_eq_trans p q r); [|exact G]. rewrite go_eq_sym. exact E.
Qed.
Lemma known_add acc p r : known acc p -> known (add_unique acc r) p.
Proof.
  intros K. unfold add_unique. destruct (existsb (go_eq r) acc); [exact K|]. apply known_iff in K. destruct K as (q & I & G).
  apply known_iff. exists q. split; [apply in_or_app; left; exact I|exact G].
Qed.
Lemma add_known acc p : go_eq p p = true -> known (add_unique acc p) p.
Proof.
  intros E. unfold add_unique. destruct (existsb (go_eq p) acc) eqn:Q; [exact Q|]. apply known_iff. exists p. split; [apply in_or_app; right; left; reflexivity|exact E].
Qed.
Lemma known_fold l : forall acc p, known acc p -> known (fold_left add_unique l acc) p.
Proof. induction l as [|r l IH]; intros acc p K; [exact K|]. cbn [fold_left]. apply IH, known_add, K. Qed.
Lemma fold_known l : forall acc p, In p l -> go_eq p p = true -> known (fold_left add_unique l acc) p.
Proof.
  induction l as [|r l IH]; intros acc p I E; [destruct I|]. cbn [fold_left]. destruct I as [->|I]; [apply known_fold, add_known, E|apply IH; assumption].
Qed.
Lemma skip_known acc p : known acc p -> add_unique acc p = acc.
Proof. intros K. unfold add_unique. rewrite K. reflexivity. Qed.

(** Repeated points *)
Lemma points_repeat l1 l2 cs p q : In q l1 -> go_eq q p = true -> gc_points (l1 ++ p :: l2) cs = gc_points (l1 ++ l2) cs.
Proof.
  intros I E. unfold gc_points. rewrite !fold_left_app. cbn [fold_left].
  rewrite (skip_known (fold_left add_unique l1 []) p); [reflexivity|]. apply (known_eq _ p q E), fold_known; [exact I|]. exact (go_eq_refl_l q p E).
Qed.
Lemma repeat_ok ypd enabled cancelled fr l1 l2 cs p q : In q l1 -> go_eq q p = true ->
  gc_triangles ypd enabled cancelled fr (l1 ++ p :: l2) cs = gc_triangles ypd enabled cancelled fr (l1 ++ l2) cs.
Proof. intros I E. unfold gc_triangles. rewrite (points_repeat l1 l2 cs p q I E). reflexivity. Qed.
(** Constraints without length *)
Lemma no_length p : f64_wf (fst p) = true -> f64_finite (fst p) = true -> f64_wf (snd p) = true -> f64_finite (snd p) = true -> has_length (p, p) = false.
Proof.
  intros W1 F1 W2 F2. unfold has_length, length_squared. cbn [fst snd]. rewrite (P_SimplifyR.sub_self (fst p) W1 F1), (P_SimplifyR.sub_self (snd p) W2 F2). vm_compute. reflexivity.
Qed.
Lemma no_length_ok ypd enabled cancelled fr points c1 c2 p : f64_wf (fst p) = true -> f64_finite (fst p) = true -> f64_wf (snd p) = true -> f64_finite (snd p) = true ->
  gc_triangles ypd enabled cancelled fr points (c1 ++ (p, p) :: c2) = gc_triangles ypd enabled cancelled fr points (c1 ++ c2).
Proof.
  intros W1 F1 W2 F2. assert (E : filter has_length (c1 ++ (p, p) :: c2) = filter has_length (c1 ++ c2)).
  { rewrite !filter_app. cbn [filter]. rewrite (no_length p W1 F1 W2 F2). reflexivity. }
  unfold gc_triangles, gc_points. rewrite E. reflexivity.
Qed.

(** The points are given to NewForPoints once. *)
Lemma fold_flat cs : forall acc, fold_left (fun pts (l : line) => add_unique (add_unique pts (fst l)) (snd l)) cs acc
  = fold_left add_unique (flat_map (fun l => [fst l; snd l]) cs) acc.
Proof. induction cs as [|c cs IH]; intros acc; [reflexivity|]. cbn [fold_left flat_map app]. apply IH. Qed.
Lemma gc_flat points cs : gc_points points cs = fold_left add_unique (points ++ flat_map (fun l => [fst l; snd l]) (filter has_length cs)) [].
Proof. unfold gc_points. rewrite fold_flat, fold_left_app. reflexivity. Qed.
Lemma pairs_snoc {A} (R : A -> A -> Prop) l x : ForallOrdPairs R l -> Forall (fun y => R y x) l -> ForallOrdPairs R (l ++ [x]).
Proof.
  induction l as [|y l IH]; intros P F; [repeat constructor|]. inversion P; subst. inversion F; subst. cbn [app]. constructor; [|apply IH; assumption].
  apply Forall_app. split; [assumption|repeat constructor; assumption].
Qed.
Lemma fold_once l : forall acc, ForallOrdPairs (fun p q => go_eq p q = false) acc ->
  ForallOrdPairs (fun p q => go_eq p q = false) (fold_left add_unique l acc) /\ incl (fold_left add_unique l acc) (acc ++ l).
Proof.
  induction l as [|r l IH]; intros acc P; [split; [exact P|rewrite app_nil_r; apply incl_refl]|]. cbn [fold_left].
  assert (P' : ForallOrdPairs (fun p q => go_eq p q = false) (add_unique acc r)).
  { unfold add_unique. destruct (existsb (go_eq r) acc) eqn:Q; [exact P|]. apply pairs_snoc; [exact P|]. apply Forall_forall. intros y I.
    destruct (go_eq y r) eqn:G; [|reflexivity]. exfalso. assert (X : known acc r); [|unfold known in X; congruence]. apply known_iff. exists y. split; [exact I|]. rewrite go_eq_sym. exact G. }
  destruct (IH _ P') as [A B]. split; [exact A|]. intros x I. apply B in I. apply in_app_or in I. apply in_or_app. destruct I as [I|I]; [|right; right; exact I].
  unfold add_unique in I. destruct (existsb (go_eq r) acc); [left; exact I|]. apply in_app_or in I. destruct I as [I|[<-|[]]]; [left; exact I|right; left; reflexivity].
Qed.
Lemma gc_once points cs : each_once (points ++ flat_map (fun l => [fst l; snd l]) (filter has_length cs)) (gc_points points cs).
Proof.
  rewrite gc_flat. destruct (fold_once (points ++ flat_map (fun l => [fst l; snd l]) (filter has_length cs)) [] (FOP_nil _)) as [A B].
  split; [exact A|]. split; [exact B|]. intros p I E. apply known_iff, fold_known; assumption.
Qed.

(** ** Cases *)
Local Open Scope Z_scope.
Definition kite : list pt := [fpt (0, 0); fpt (10, 1); fpt (20, 0); fpt (10, -1)].
Definition never : nat -> bool := fun _ => false.
Definition diagonal : line := (fpt (0, 0), fpt (20, 0)).
Definition same_pt (p q : pt) : bool := (fst p =? fst q) && (snd p =? snd q).
Definition cornerb (p : pt) (t : pt * pt * pt) : bool := same_pt p (fst (fst t)) || same_pt p (snd (fst t)) || same_pt p (snd t).
Lemma same_pt_eq p q : same_pt p q = true <-> p = q.
Proof.
  unfold same_pt. rewrite andb_true_iff, !Z.eqb_eq. destruct p, q. cbn [fst snd]. split; [intros [-> ->]; reflexivity|intros E; inversion E; auto].
Qed.
Lemma cornerb_ok p t : cornerb p t = true <-> corner p t.
Proof. unfold cornerb, corner. rewrite !orb_true_iff, !same_pt_eq. tauto. Qed.
Definition has_diagonal (r : res unit (option (list (pt * pt * pt)))) : bool :=
  match r with Ok (Some ts) => existsb (fun t => cornerb (fst diagonal) t && cornerb (snd diagonal) t) ts | _ => false end.
Definition some_triangles (r : res unit (option (list (pt * pt * pt)))) : bool := match r with Ok (Some (_ :: _)) => true | _ => false end.
Lemma without_diagonal r : some_triangles r = true -> has_diagonal r = false ->
  exists ts, r = Ok (Some ts) /\ ts <> [] /\ forall t, In t ts -> ~ (corner (fst diagonal) t /\ corner (snd diagonal) t).
Proof.
  destruct r as [[[|t0 ts]|]| |]; intros S D; try discriminate S. exists (t0 :: ts). split; [reflexivity|]. split; [intros E; discriminate E|].
  intros t I [A B]. apply cornerb_ok in A, B. cbn [has_diagonal] in D. assert (X : existsb (fun t => cornerb (fst diagonal) t && cornerb (snd diagonal) t) (t0 :: ts) = true); [|congruence].
  apply existsb_exists. exists t. split; [exact I|]. rewrite A, B. reflexivity.
Qed.
Lemma ignored : exists ts, gc_triangles false false never false kite [diagonal] = Ok (Some ts) /\ ts <> []
  /\ forall t, In t ts -> ~ (corner (fst diagonal) t /\ corner (snd diagonal) t).
Proof. apply without_diagonal; vm_compute; reflexivity. Qed.
Lemma with_diagonal r : has_diagonal r = true -> exists ts t, r = Ok (Some ts) /\ In t ts /\ corner (fst diagonal) t /\ corner (snd diagonal) t.
Proof.
  destruct r as [[ts|]| |]; intros D; try discriminate D. apply existsb_exists in D. destruct D as (t & I & D). apply andb_true_iff in D. rewrite !cornerb_ok in D.
  exists ts, t. split; [reflexivity|]. split; [exact I|exact D].
Qed.
Lemma respected : exists ts t, gc_triangles false true never false kite [diagonal] = Ok (Some ts) /\ In t ts /\ corner (fst diagonal) t /\ corner (snd diagonal) t.
Proof. apply with_diagonal. vm_compute. reflexivity. Qed.

(** ** Memory *)
Definition third : f64 := 0x3FD5555555555555.
Definition arr : list pt := [(third, 0); fpt (10, 1); fpt (20, 0); fpt (7, 7); fpt (8, 8)].
Lemma memory_changed : let m := [arr] in let points := Hdr 0 0 3 5 in let behind := Hdr 0 3 2 2 in
  let after := fst (c_triangles false false never false m points [diagonal]) in
  read m behind = [fpt (7, 7); fpt (8, 8)] /\ read after behind = [fst diagonal; snd diagonal]
  /\ hd_error (read m points) = Some (third, 0) /\ hd_error (read after points) <> Some (third, 0).
Proof.
  cbv zeta. split; [reflexivity|]. split; [vm_compute; reflexivity|]. split; [reflexivity|].
  intros E. assert (X : option_map fst (hd_error (read (fst (c_triangles false false never false [arr] (Hdr 0 0 3 5) [diagonal])) (Hdr 0 0 3 5))) = Some 0x3FD54FDF3B645A1D) by (vm_compute; reflexivity).
  rewrite E in X. cbn [option_map fst] in X. unfold third in X. discriminate X.
Qed.
(** Without spare capacity and with constraints nothing is changed. *)
Lemma set_above {A} (l : list A) : forall n i x, (n <= i)%nat -> firstn n (M_GeojsonAlias.set i x l) = firstn n l.
Proof.
  induction l as [|y l IH]; intros n i x L; [destruct i; reflexivity|]. destruct i as [|i]; [replace n with 0%nat by lia; reflexivity|].
  destruct n as [|n]; [reflexivity|]. cbn. rewrite IH by lia. reflexivity.
Qed.
Lemma append_fresh n (m0 : memory) cs : forall m h, firstn n m = m0 -> length m0 = n -> (n <= h_arr h)%nat ->
  firstn n (fst (append_ends m h cs)) = m0 /\ (n <= h_arr (snd (append_ends m h cs)))%nat.
Proof.
  induction cs as [|[p q] cs IH]; intros m h F L A; [split; assumption|]. cbn [append_ends].
  destruct (append2 m h p q) as [m' h'] eqn:E. assert (G : firstn n m' = m0 /\ (n <= h_arr h')%nat); [|destruct G; apply IH; assumption].
  unfold append2 in E. destruct (h_len h + 2 <=? h_cap h)%nat; inversion E; subst m' h'; cbn [h_arr].
  - rewrite set_above by exact A. split; assumption.
  - assert (n <= length m)%nat by (rewrite <- L, <- F, firstn_length; lia). rewrite firstn_app. replace (n - length m)%nat with 0%nat by lia. rewrite app_nil_r. split; assumption.
Qed.
Lemma memory_kept ypd enabled cancelled fr m h c cs : (h_cap h < h_len h + 2)%nat ->
  firstn (length m) (fst (c_triangles ypd enabled cancelled fr m h (c :: cs))) = m.
Proof.
  intros C. unfold c_triangles. destruct c as [p q]. cbn [append_ends]. unfold append2. replace (h_len h + 2 <=? h_cap h)%nat with false by (symmetry; apply Nat.leb_gt; exact C).
  pose proof (append_fresh (length m) m cs (m ++ [read m h ++ [p; q]]) (Hdr (length m) 0 (h_len h + 2) (h_len h + 2))) as G.
  destruct (append_ends (m ++ [read m h ++ [p; q]]) (Hdr (length m) 0 (h_len h + 2) (h_len h + 2)) cs) as [m' h'].
  destruct G as [F A]; [rewrite firstn_app, Nat.sub_diag, firstn_all, app_nil_r; reflexivity|reflexivity|cbn; lia|]. cbn [fst snd] in *.
  destruct (read m' h') as [|r l]; cbn [fst]; [exact F|]. unfold write. rewrite set_above by exact A. exact F.
Qed.
