(** Proofs about planar/makevalid/walker: areas of rings, cut, removeBridge *)
From Coq Require Import ZArith Bool List Lia Reals Lra Permutation.
From Flocq Require Import Core.Core.
From Verif Require Import Base_Res Base_F64 Base_F64Arith Base_Geom M_Geom M_Extent M_Cmp M_Planar M_Triangle M_Winding M_Walker
  P_F64 P_F64Flocq S_Intersect S_Walker P_Cmp.
Import ListNotations.
Local Open Scope R_scope.

(** ** Areas *)
Lemma path_app l p l' : path_sumR (l ++ p :: l') = path_sumR (l ++ [p]) + path_sumR (p :: l').
Proof.
  induction l as [|q l IH].
  - cbn [app]. change (path_sumR [p]) with 0. ring.
  - destruct l as [|r l]; cbn [app] in *.
    + change (path_sumR (q :: p :: l')) with (crossR q p + path_sumR (p :: l')). cbn. ring.
    + change (path_sumR (q :: r :: l ++ p :: l')) with (crossR q r + path_sumR (r :: l ++ p :: l')).
      change (path_sumR (q :: r :: l ++ [p])) with (crossR q r + path_sumR (r :: l ++ [p])). rewrite IH. ring.
Qed.

Lemma area_cons p l : areaR (p :: l) = path_sumR (p :: l ++ [p]).
Proof. reflexivity. Qed.

Lemma area_rot l m : areaR (l ++ m) = areaR (m ++ l).
Proof.
  destruct l as [|p l]; [now rewrite app_nil_r|]. destruct m as [|q m]; [now rewrite app_nil_r|].
  cbn [app]. rewrite !area_cons, <- !app_assoc. cbn [app].
  change (p :: l ++ q :: m ++ [p]) with ((p :: l) ++ q :: m ++ [p]). rewrite (path_app (p :: l) q (m ++ [p])).
  change (q :: m ++ p :: l ++ [q]) with ((q :: m) ++ p :: l ++ [q]). rewrite (path_app (q :: m) p (l ++ [q])). cbn [app]. ring.
Qed.

(** A ring that passes a point twice is two rings. *)
Lemma area_split l b m l' : areaR (l ++ b :: m ++ b :: l') = areaR (b :: m) + areaR (l ++ b :: l').
Proof.
  rewrite (area_rot l (b :: m ++ b :: l')), (area_rot l (b :: l')). cbn [app]. rewrite !area_cons, <- !app_assoc. cbn [app].
  exact (path_app (b :: m) b (l' ++ l ++ [b])).
Qed.

Lemma cross_self p : crossR p p = 0. Proof. unfold crossR. ring. Qed.
Lemma cross_anti p q : crossR p q = - crossR q p. Proof. unfold crossR. ring. Qed.

Lemma area_1 p : areaR [p] = 0.
Proof. cbn. rewrite cross_self. ring. Qed.
Lemma area_2 p q : areaR [p; q] = 0.
Proof. cbn. rewrite (cross_anti q p). ring. Qed.
Lemma area_short l : (length l <= 2)%nat -> areaR l = 0.
Proof. destruct l as [|p [|q [|r l]]]; cbn [length]; intros H; [reflexivity|apply area_1|apply area_2|lia]. Qed.

(** A point between [a] and [c]. *)
Lemma area_remove l a p c l' : areaR (l ++ a :: p :: c :: l') = areaR (l ++ a :: c :: l') + areaR [a; p; c].
Proof.
  rewrite (area_rot l (a :: p :: c :: l')), (area_rot l (a :: c :: l')). cbn [app]. rewrite !(area_cons a). cbn [app].
  set (m := (l' ++ l) ++ [a]).
  change (path_sumR (a :: p :: c :: m)) with (crossR a p + (crossR p c + path_sumR (c :: m))).
  change (path_sumR (a :: c :: m)) with (crossR a c + path_sumR (c :: m)). cbn. rewrite (cross_anti c a). ring.
Qed.

(** The sliver of a bubble ab...ba. *)
Lemma area_bubble a b m l : areaR (a :: b :: m ++ b :: a :: l) = areaR (m ++ [b]) + areaR (a :: l).
Proof.
  change (a :: b :: m ++ b :: a :: l) with ([a] ++ b :: m ++ b :: a :: l). rewrite area_split.
  rewrite (area_rot m [b]). cbn [app].
  change (a :: b :: a :: l) with ([] ++ a :: [b] ++ a :: l). rewrite area_split, area_2. cbn [app]. ring.
Qed.

(** ** == *)
Lemma f64_eq_trans a b c : f64_eq a b = true -> f64_eq b c = true -> f64_eq a c = true.
Proof. intros H1 H2. apply eq_inv in H1 as (?&?&?), H2 as (?&?&?). rewrite eq_key by auto. apply Z.eqb_eq. congruence. Qed.
Lemma go_eq_sym a b : go_eq a b = go_eq b a.
Proof. unfold go_eq. now rewrite (f64_eq_sym (fst a)), (f64_eq_sym (snd a)). Qed.
Lemma go_eq_trans a b c : go_eq a b = true -> go_eq b c = true -> go_eq a c = true.
Proof.
  unfold go_eq. intros H1 H2. apply andb_prop in H1, H2. destruct H1, H2.
  now rewrite (f64_eq_trans (fst a) (fst b) (fst c)), (f64_eq_trans (snd a) (snd b) (snd c)).
Qed.
Lemma go_eq_R p q : finite_pt p -> finite_pt q -> go_eq p q = true -> rpt p = rpt q.
Proof.
  intros (A1 & A2 & A3 & A4) (B1 & B2 & B3 & B4) H. unfold go_eq in H. apply andb_prop in H. destruct H as [H1 H2].
  unfold rpt. f_equal; now apply eq_R.
Qed.
Lemma go_eq_R' p q : finite_pt p -> finite_pt q -> rpt p = rpt q -> go_eq p q = true.
Proof.
  intros (A1 & A2 & A3 & A4) (B1 & B2 & B3 & B4) H. unfold rpt in H. apply pair_equal_spec in H. destruct H as [H1 H2].
  unfold go_eq. apply andb_true_iff. split; now apply eq_R.
Qed.

(** ** removeBridge *)
Lemma last_app_ne {A} (l m : list A) d : m <> [] -> last (l ++ m) d = last m d.
Proof.
  intros N. induction l as [|x l IH]; [reflexivity|]. cbn [app]. destruct (l ++ m) eqn:E; [destruct l; cbn in E; [now subst|discriminate]|].
  rewrite <- IH. reflexivity.
Qed.
Lemma last_indep {A} (l : list A) d d' : l <> [] -> last l d = last l d'.
Proof. induction l as [|x [|y l] IH]; intros N; [now elim N|reflexivity|]. change (last (y :: l) d = last (y :: l) d'). now apply IH. Qed.
Lemma last_in {A} (l : list A) d : l <> [] -> In (last l d) l.
Proof. induction l as [|x [|y l] IH]; intros N; [now elim N|now left|]. right. now apply IH. Qed.
Lemma skipn_nth {A} (l : list A) i p : nth_error l i = Some p -> skipn i l = p :: skipn (S i) l.
Proof.
  revert l. induction i as [|i IH]; intros [|x l] E; try discriminate; cbn in *; [congruence|]. now apply IH.
Qed.

Definition fin_ring (rng nrng : list pt) (add : bool) (d : pt) : list pt := if add then nrng ++ [last rng d] else nrng.

Lemma bridge_loop_spec d rng : rng <> [] -> forall k li i nrng add, (length rng - i <= k)%nat -> (i <= length rng)%nat ->
  (li < length rng)%nat -> add = negb (i =? length rng)%nat ->
  exists nrng' add', bridge_loop k rng li i nrng add = Ok (nrng', add') /\
    (exists dr, Permutation (nrng ++ skipn i rng) (fin_ring rng nrng' add' d ++ dr)) /\
    (Forall finite_pt rng -> Forall finite_pt nrng -> (forall l, nth_error rng li = Some l -> skipn i rng <> [] -> rpt l = rpt (last nrng (last rng d))) ->
     ring_area (fin_ring rng nrng' add' d) = ring_area (nrng ++ skipn i rng)).
Proof.
  intros N. induction k as [|k IH]; intros li i nrng add Hk Hi Hl Ha.
  - assert (i = length rng) by lia. subst i. unfold bridge_loop. rewrite (proj2 (Nat.ltb_ge _ _)) by lia.
    exists nrng, add. split; [reflexivity|]. rewrite Nat.eqb_refl in Ha. cbn in Ha. subst add. cbn [fin_ring].
    rewrite skipn_all, app_nil_r. split; [exists []; rewrite app_nil_r; apply Permutation_refl|reflexivity].
  - cbn [bridge_loop]. destruct (Nat.ltb_spec (i + 1) (length rng)) as [L|L].
    + destruct (nth_error rng li) as [l|] eqn:El; [|apply nth_error_None in El; lia].
      destruct (nth_error rng (i + 1)) as [nx|] eqn:En; [|apply nth_error_None in En; lia].
      destruct (nth_error rng i) as [p|] eqn:Ep; [|apply nth_error_None in Ep; lia].
      assert (Sk : skipn i rng = p :: nx :: skipn (i + 2) rng).
      { rewrite (skipn_nth _ _ _ Ep). f_equal. replace (i + 2)%nat with (S (i + 1)) by lia. rewrite <- (skipn_nth _ _ _ En). f_equal. lia. }
      destruct (go_eq l nx) eqn:Eq.
      * destruct (IH (i + 1)%nat (i + 2)%nat nrng (negb (i + 2 =? length rng)%nat)) as (nr & ad & E & I & A); [lia|lia|lia|reflexivity|].
        exists nr, ad. split; [exact E|]. split.
        { destruct I as [dr I]. exists (dr ++ [p; nx]). rewrite Sk, app_assoc, <- I, <- app_assoc. apply Permutation_app_head.
          apply (Permutation_app_comm [p; nx]). }
        intros Fr Fn Pr. rewrite A; [|exact Fr|exact Fn|].
        -- rewrite Sk in Pr |- *. specialize (Pr l eq_refl ltac:(discriminate)).
           assert (Fl : finite_pt l) by (rewrite Forall_forall in Fr; eapply Fr, nth_error_In, El).
           assert (Fx : finite_pt nx) by (rewrite Forall_forall in Fr; eapply Fr, nth_error_In, En).
           apply go_eq_R in Eq; [|exact Fl|exact Fx]. rewrite Pr in Eq. unfold ring_area. rewrite !map_app. cbn [map]. rewrite <- Eq.
           assert (Ls : nrng = [] -> last rng d = last (p :: nx :: skipn (i + 2) rng) d).
           { intros _. rewrite <- Sk. rewrite <- (firstn_skipn i rng) at 1. apply last_app_ne. rewrite Sk. discriminate. }
           clear - Ls Eq. destruct nrng as [|n0 ns] using rev_ind; [|clear IHns].
           ++ cbn [app map] in *. change (last [] (last rng d)) with (last rng d) in *. specialize (Ls eq_refl). destruct (skipn (i + 2) rng) as [|r0 rs] eqn:Er using rev_ind.
              ** cbn [map app] in *. rewrite area_2. reflexivity.
              ** clear IHrs. assert (L2 : last rng d = r0).
                 { rewrite Ls. change (last ((p :: nx :: rs) ++ [r0]) d = r0). apply last_last. }
                 rewrite L2. rewrite !map_app. cbn [map].
                 transitivity (areaR ([rpt p] ++ (rpt r0 :: map rpt rs ++ rpt r0 :: []))); [|reflexivity].
                 rewrite area_split. cbn [app]. rewrite area_2. rewrite (area_rot (map rpt rs)). cbn [app]. ring.
           ++ rewrite last_last in Eq |- *. rewrite map_app, <- !app_assoc. cbn [map app].
              change (rpt n0 :: rpt p :: rpt n0 :: map rpt (skipn (i + 2) rng)) with (rpt n0 :: [rpt p] ++ rpt n0 :: map rpt (skipn (i + 2) rng)).
              rewrite area_split, area_2. ring.
        -- intros x Ex Nx. rewrite En in Ex. injection Ex as <-. rewrite Sk in Pr. specialize (Pr l eq_refl ltac:(discriminate)).
           rewrite <- Pr. apply go_eq_R; [| |now rewrite go_eq_sym].
           ++ rewrite Forall_forall in Fr. eapply Fr, nth_error_In, En.
           ++ rewrite Forall_forall in Fr. eapply Fr, nth_error_In, El.
      * destruct (IH i (i + 1)%nat (nrng ++ [p]) add) as (nr & ad & E & I & A); [lia|lia|lia| |].
        { rewrite Ha. rewrite (proj2 (Nat.eqb_neq i _)), (proj2 (Nat.eqb_neq (i + 1) _)) by lia. reflexivity. }
        assert (Sk' : skipn i rng = p :: skipn (i + 1) rng) by (rewrite (skipn_nth _ _ _ Ep); f_equal; f_equal; lia).
        exists nr, ad. split; [exact E|]. rewrite <- app_assoc in I, A. cbn [app] in I, A. rewrite <- Sk' in I, A. split; [exact I|].
        intros Fr Fn Pr. apply A; [exact Fr| |].
        { apply Forall_app. split; [exact Fn|]. constructor; [|constructor]. rewrite Forall_forall in Fr. eapply Fr, nth_error_In, Ep. }
        intros x Ex _. rewrite Ep in Ex. injection Ex as <-. now rewrite last_last.
    + exists nrng, add. split; [reflexivity|]. assert (i = length rng \/ i = length rng - 1)%nat as [->| ->] by lia.
      * rewrite Nat.eqb_refl in Ha. cbn in Ha. subst add. cbn [fin_ring]. rewrite skipn_all, app_nil_r. split; [exists []; rewrite app_nil_r; apply Permutation_refl|reflexivity].
      * assert (length rng <> 0)%nat by (now destruct rng). rewrite (proj2 (Nat.eqb_neq _ _)) in Ha by lia. cbn in Ha. subst add. cbn [fin_ring].
        assert (Sk : skipn (length rng - 1) rng = [last rng d]).
        { clear - N. destruct rng as [|x r] using rev_ind; [now elim N|]. rewrite app_length. cbn [length]. rewrite last_last.
          replace (length r + 1 - 1)%nat with (length r) by lia. rewrite skipn_app, skipn_all, Nat.sub_diag. reflexivity. }
        rewrite Sk. split; [exists []; rewrite app_nil_r; apply Permutation_refl|reflexivity].
Qed.

Theorem remove_bridge_spec rng : rng <> [] -> exists r, remove_bridge rng = Ok r /\ (exists dr, Permutation rng (r ++ dr)) /\
  (Forall finite_pt rng -> ring_area r = ring_area rng).
Proof.
  intros N. destruct rng as [|d tl] eqn:Er; [now elim N|]. rewrite <- Er in *. 
  destruct (bridge_loop_spec d rng N (length rng) (length rng - 1) 0 [] true) as (nr & ad & E & I & A); [lia|lia|rewrite Er; cbn; lia| |].
  { rewrite Er. reflexivity. }
  exists (fin_ring rng nr ad d). unfold remove_bridge. rewrite E. cbn [bind]. split.
  { destruct ad; [|reflexivity]. rewrite Er. reflexivity. }
  split; [exact I|]. intros F. rewrite A; [reflexivity|exact F|constructor|].
  intros l El _. cbn [last]. f_equal.
  clear - El N. destruct rng as [|x r] using rev_ind; [now elim N|]. rewrite app_length in El. cbn [length] in El.
  replace (length r + 1 - 1)%nat with (length r) in El by lia. rewrite nth_error_app2, Nat.sub_diag in El by lia. cbn in El. injection El as <-.
  now rewrite last_last.
Qed.

(** ** cut *)
Lemma cut_middle l1 m l2 : m <> [] -> cut (l1 ++ m ++ l2) (length l1) (length l1 + length m) = Ok (m, l1 ++ l2).
Proof.
  intros N. assert (0 < length m)%nat by (destruct m; [now elim N|cbn; lia]). unfold cut. rewrite !app_length.
  rewrite (proj2 (Nat.leb_gt _ _)), (proj2 (Nat.ltb_ge _ _)), (proj2 (Nat.ltb_ge _ _)), (proj2 (Nat.eqb_neq _ _)) by lia. cbn [orb].
  f_equal. f_equal.
  - rewrite skipn_app, skipn_all, Nat.sub_diag. cbn [app skipn]. replace (length l1 + length m - length l1)%nat with (length m + 0)%nat by lia.
    rewrite firstn_app_2. cbn. apply app_nil_r.
  - rewrite firstn_app, firstn_all, Nat.sub_diag. cbn [firstn]. rewrite app_nil_r. f_equal.
    rewrite skipn_app. rewrite skipn_all2 by lia. cbn [app]. replace (length l1 + length m - length l1)%nat with (length m) by lia.
    now rewrite skipn_app, skipn_all, Nat.sub_diag.
Qed.
Lemma cut_around l1 m l2 : m <> [] -> l2 <> [] -> cut (l1 ++ m ++ l2) (length l1 + length m) (length l1) = Ok (l2 ++ l1, m).
Proof.
  intros N N2. assert (0 < length m)%nat by (destruct m; [now elim N|cbn; lia]). assert (0 < length l2)%nat by (destruct l2; [now elim N2|cbn; lia]).
  unfold cut. rewrite !app_length.
  rewrite (proj2 (Nat.leb_gt _ _)), (proj2 (Nat.ltb_ge _ _)), (proj2 (Nat.ltb_lt _ _)) by lia. cbn [orb].
  f_equal. f_equal.
  - rewrite skipn_app. rewrite skipn_all2 by lia. cbn [app]. replace (length l1 + length m - length l1)%nat with (length m) by lia.
    rewrite skipn_app, skipn_all, Nat.sub_diag. cbn [app skipn]. rewrite firstn_app, firstn_all, Nat.sub_diag. cbn. now rewrite app_nil_r.
  - rewrite skipn_app, skipn_all, Nat.sub_diag. cbn [app skipn]. replace (length l1 + length m - length l1)%nat with (length m + 0)%nat by lia.
    rewrite firstn_app_2. cbn. apply app_nil_r.
Qed.
