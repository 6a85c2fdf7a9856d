(** Proofs about clipping: lines on small grids, and the top statements *)
From Coq Require Import ZArith Bool List Lia Reals Lra.
From Flocq Require Import Core.Core.
From Verif Require Import Base_Res Base_F64 Base_F64Arith Base_Geom M_Geom M_Extent M_Cmp M_Intersect M_Clip S_Intersect S_Winding S_Cmp S_Clip
  P_F64 P_F64Flocq P_F64Round P_F64Grid P_Intersect P_Intersect2 P_Intersect3 P_Cmp2 P_Clip P_Clip2.
Import ListNotations.
Open Scope Z_scope.

Lemma contains_inside b p : contains_point (Some b) p = inside b p.
Proof. reflexivity. Qed.

Lemma rounded_self p : (f64_wf (fst p) = true /\ f64_finite (fst p) = true) -> (f64_wf (snd p) = true /\ f64_finite (snd p) = true) ->
  rounded p (rpt p).
Proof. intros [? ?] [? ?]. unfold rounded, rpt. cbn [fst snd]. now rewrite !rnd_id by assumption. Qed.
Lemma rounded_same c q q' p : positive c -> (f64_wf (fst q) = true /\ f64_wf (snd q) = true) -> (f64_wf (fst q') = true /\ f64_wf (snd q') = true) ->
  rounded q p -> rounded q' p -> point_equal c q q' = true.
Proof.
  intros Pc [? ?] [? ?] (? & ? & ? & ?) (? & ? & ? & ?). apply point_equal_same; auto.
  split; apply eq_R; auto; congruence.
Qed.
Lemma along_0 a b : along a b 0 = a.
Proof. unfold along. destruct a. cbn [fst snd]. f_equal; ring. Qed.
Lemma along_1 a b : along a b 1 = b.
Proof. unfold along. destruct a, b. cbn [fst snd]. f_equal; ring. Qed.

Lemma filter_one {A} (f : A -> bool) (l : list A) : (length l <= 2)%nat ->
  (forall a d, l = [a; d] -> f a = true -> f d = true -> False) -> (length (filter f l) <= 1)%nat.
Proof.
  intros H K. destruct l as [|a [|d [|? ?]]]; [cbn; lia | cbn; destruct (f a); cbn; lia | | cbn in H; lia].
  cbn. destruct (f a) eqn:Ea, (f d) eqn:Ed; cbn; try lia. exfalso. now apply (K a d).
Qed.

Section Grid.
  Variable c : compare.
  Hypothesis Pc : positive c.
  Variables (e : Z) (lo hi nu nw : Z * Z) (b : extent) (ln : line).
  Hypothesis G : on_clip_grid e lo hi nu nw b ln.

  Lemma unique_hit q : In q (unique_points c (Some b) ln) -> exists p t, hit b ln q p t.
  Proof.
    unfold unique_points. destruct (is_universe _); [intros []|]. intros H. apply points_from in H as [[]|(ed & I & E)].
    exact (hit_ok _ _ _ _ _ _ _ G _ _ I E).
  Qed.
  Lemma unique_two : (length (unique_points c (Some b) ln) <= 2)%nat /\
    forall a d, unique_points c (Some b) ln = [a; d] -> point_equal c a d = false.
  Proof. unfold unique_points. destruct (is_universe _); [cbn; split; [lia | discriminate]|]. apply points_two. cbn. lia. Qed.

  Lemma hits_apart q0 p0 t0 q1 p1 t1 : hit b ln q0 p0 t0 -> hit b ln q1 p1 t1 -> point_equal c q0 q1 = false -> t0 <> t1.
  Proof.
    intros H0 H1 N E. subst t1. rewrite (rounded_same c q0 q1 p0 Pc) in N; [discriminate| | | |];
      [apply H0 | apply H1 | apply H0 |]. pose proof (h_q _ _ _ _ _ H1) as K. rewrite (h_p _ _ _ _ _ H1) in K. rewrite (h_p _ _ _ _ _ H0). exact K.
  Qed.
  Lemma hit_start q p t : hit b ln q p t -> point_equal c q (fst ln) = false -> (0 < t)%R.
  Proof.
    intros H N. destruct (h_t _ _ _ _ _ H) as [T _]. destruct (Rle_lt_or_eq_dec _ _ T) as [L|<-]; [exact L|]. exfalso.
    destruct (ln_words _ _ _ _ _ _ _ G (fst ln) (or_introl eq_refl)) as [W1 W2].
    rewrite (rounded_same c q (fst ln) (rpt (fst ln)) Pc) in N; [discriminate| | | |].
    - apply H.
    - split; [apply W1 | apply W2].
    - pose proof (h_q _ _ _ _ _ H) as K. rewrite (h_p _ _ _ _ _ H), along_0 in K. exact K.
    - now apply rounded_self.
  Qed.

  Definition good (l : line) : Prop := part_of ln (fst l) (snd l) /\ inside b (fst l) = true /\ inside b (snd l) = true.

  Lemma good_pair a d s t : (0 <= s <= t)%R -> (t <= 1)%R ->
    rounded a (along (rpt (fst ln)) (rpt (snd ln)) s) -> rounded d (along (rpt (fst ln)) (rpt (snd ln)) t) ->
    inside b a = true -> inside b d = true -> good (a, d).
  Proof. intros. split; [exists s, t; auto | auto]. Qed.

  Lemma contribution_good : contribution c (Some b) ln = [] \/ exists a d, contribution c (Some b) ln = [(a, d)] /\ good (a, d).
  Proof.
    destruct (ln_words _ _ _ _ _ _ _ G (fst ln) (or_introl eq_refl)) as [Wu1 Wu2].
    destruct (ln_words _ _ _ _ _ _ _ G (snd ln) (or_intror eq_refl)) as [Ww1 Ww2].
    assert (Ru : rounded (fst ln) (along (rpt (fst ln)) (rpt (snd ln)) 0)) by (rewrite along_0; now apply rounded_self).
    assert (Rw : rounded (snd ln) (along (rpt (fst ln)) (rpt (snd ln)) 1)) by (rewrite along_1; now apply rounded_self).
    assert (Rh : forall q p t, hit b ln q p t -> rounded q (along (rpt (fst ln)) (rpt (snd ln)) t)).
    { intros q p t H. rewrite <- (h_p _ _ _ _ _ H). apply H. }
    unfold contribution. rewrite !contains_inside.
    pose proof unique_hit as Uh. destruct unique_two as [Ul Ue].
    destruct (inside b (fst ln)) eqn:Iu, (inside b (snd ln)) eqn:Iw.
    - right. exists (fst ln), (snd ln). split; [now rewrite <- surjective_pairing|].
      apply (good_pair _ _ 0 1); auto; lra.
    - set (us := unique_points c (Some b) ln) in *.
      assert (K : (length (filter (fun x => negb (point_equal c x (fst ln))) us) <= 1)%nat).
      { apply filter_one; [exact Ul|]. intros a d El Ea Ed. apply negb_true_iff in Ea, Ed. rewrite El in *.
        destruct (Uh a) as (p0 & t0 & H0); [now left|]. destruct (Uh d) as (p1 & t1 & H1); [right; now left|].
        pose proof (hits_apart _ _ _ _ _ _ H0 H1 (Ue _ _ eq_refl)) as N.
        pose proof (hit_start _ _ _ H0 Ea) as T0. pose proof (hit_start _ _ _ H1 Ed) as T1.
        apply (inside_real _ _ _ _ _ _ _ G) in Iu; auto.
        destruct (Rtotal_order t0 t1) as [L|[L|L]]; [|contradiction|].
        - exact (exit_once _ _ _ _ _ _ _ _ Iu H0 H1 T0 L).
        - exact (exit_once _ _ _ _ _ _ _ _ Iu H1 H0 T1 L). }
      destruct (filter (fun x => negb (point_equal c x (fst ln))) us) as [|a [|? ?]] eqn:Ef; [left; reflexivity| |cbn in K; lia].
      right. exists (fst ln), a. split; [reflexivity|].
      assert (Ia : In a us). { assert (J : In a [a]) by now left. rewrite <- Ef in J. apply filter_In in J. apply J. }
      destruct (Uh a Ia) as (p0 & t0 & H0). pose proof (h_t _ _ _ _ _ H0).
      apply (good_pair _ _ 0 t0); try lra; auto; solve [eapply Rh; eauto | eapply hit_inside; eauto].
    - destruct (unique_points c (Some b) ln) as [|a [|d us]] eqn:Eu; [now left| |].
      + right. exists a, (snd ln). split; [reflexivity|]. destruct (Uh a) as (p0 & t0 & H0); [now left|]. pose proof (h_t _ _ _ _ _ H0).
        apply (good_pair _ _ t0 1); try lra; auto; solve [eapply Rh; eauto | eapply hit_inside; eauto].
      + right. exists (if same_direction ln a d then a else d), (snd ln). split; [reflexivity|].
        destruct (Uh (if same_direction ln a d then a else d)) as (p0 & t0 & H0).
        { destruct (same_direction ln a d); [now left | right; now left]. }
        pose proof (h_t _ _ _ _ _ H0).
        apply (good_pair _ _ t0 1); try lra; auto; solve [eapply Rh; eauto | eapply hit_inside; eauto].
    - destruct (unique_points c (Some b) ln) as [|a [|d us]] eqn:Eu; [now left | now left |]. right.
      destruct us; [|cbn in Ul; lia].
      destruct (Uh a) as (p0 & t0 & H0); [now left|]. destruct (Uh d) as (p1 & t1 & H1); [right; now left|].
      pose proof (hits_apart _ _ _ _ _ _ H0 H1 (Ue _ _ eq_refl)) as N.
      pose proof (direction_ok _ _ _ _ _ _ _ G _ _ _ _ _ _ H0 H1 N) as D.
      pose proof (h_t _ _ _ _ _ H0) as T0. pose proof (h_t _ _ _ _ _ H1) as T1.
      destruct (same_direction ln a d).
      + exists a, d. split; [reflexivity|]. apply (good_pair _ _ t0 t1); try lra; auto; solve [eapply Rh; eauto | eapply hit_inside; eauto].
      + exists d, a. split; [reflexivity|]. apply (good_pair _ _ t1 t0); try lra; auto; solve [eapply Rh; eauto | eapply hit_inside; eauto].
  Qed.
End Grid.

(** ** Entering a box with an interior finds an intersection *)
Lemma points_none c : forall es ln pts, intersect_points c es ln pts = [] ->
  pts = [] /\ forall ed, In ed es -> snd (segment_intersect ed ln) = false.
Proof.
  induction es as [|ed es IH]; intros ln pts H; [cbn in H; split; [exact H | intros ed []]|].
  cbn [intersect_points] in H. destruct (segment_intersect ed ln) as [p ok] eqn:E. destruct ok; cbn [negb] in H.
  - exfalso. destruct (existsb _ pts) eqn:Ex; [subst; discriminate|].
    destruct (2 <=? length (pts ++ [p]))%nat; [now destruct pts|]. apply IH in H as [H _]. now destruct pts.
  - apply IH in H as [-> H]. split; [reflexivity|]. intros ed' [<-|I]; [now rewrite E | now apply H].
Qed.

(** When a coordinate going from [u] to [w] enters [l, h]. *)
Lemma enter (u w l h : R) : (l < h -> l <= w <= h ->
  exists t, 0 <= t <= 1 /\ (forall s, t <= s <= 1 -> l <= u + s * (w - u) <= h) /\
    (l <= u <= h -> t = 0) /\
    (0 < t -> (u + t * (w - u) = l \/ u + t * (w - u) = h) /\ u <> w))%R.
Proof.
  intros Lh Hw. destruct (Rlt_le_dec u l) as [A|A]; [|destruct (Rlt_le_dec h u) as [B|B]].
  - assert (P : (0 < w - u)%R) by lra.
    assert (E : (u + (l - u) / (w - u) * (w - u) = l)%R) by (field; lra).
    assert (I : (0 < / (w - u))%R) by now apply Rinv_0_lt_compat.
    exists ((l - u) / (w - u))%R. split; [|split; [|split]].
    + split; [unfold Rdiv; apply Rmult_le_pos; lra|]. apply Rmult_le_reg_r with (w - u)%R; [lra|]. lra.
    + intros s [S1 S2]. assert ((l - u) / (w - u) * (w - u) <= s * (w - u))%R by (apply Rmult_le_compat_r; lra).
      assert (s * (w - u) <= 1 * (w - u))%R by (apply Rmult_le_compat_r; lra). lra.
    + intros; lra.
    + intros _. split; [left; exact E | lra].
  - assert (P : (0 < u - w)%R) by lra.
    assert (E : (u + (u - h) / (u - w) * (w - u) = h)%R) by (field; lra).
    assert (E' : ((u - h) / (u - w) * (u - w) = u - h)%R) by (field; lra).
    assert (I : (0 < / (u - w))%R) by now apply Rinv_0_lt_compat.
    exists ((u - h) / (u - w))%R. split; [|split; [|split]].
    + split; [unfold Rdiv; apply Rmult_le_pos; lra|]. apply Rmult_le_reg_r with (u - w)%R; [lra|]. lra.
    + intros s [S1 S2]. assert ((u - h) / (u - w) * (u - w) <= s * (u - w))%R by (apply Rmult_le_compat_r; lra).
      assert (s * (u - w) <= 1 * (u - w))%R by (apply Rmult_le_compat_r; lra). lra.
    + intros; lra.
    + intros _. split; [right; exact E | lra].
  - exists 0%R. split; [lra|]. split; [|split; [auto | lra]].
    intros s S. destruct (Rle_or_lt u w); nra.
Qed.

Lemma fraction (l h v : R) : (l < h -> l <= v <= h -> exists t, 0 <= t <= 1 /\ v = l + t * (h - l))%R.
Proof.
  intros L V. exists ((v - l) / (h - l))%R. assert (I : (0 < / (h - l))%R) by (apply Rinv_0_lt_compat; lra).
  split; [split|field; lra].
  - unfold Rdiv. apply Rmult_le_pos; lra.
  - apply Rmult_le_reg_r with (h - l)%R; [lra|]. replace ((v - l) / (h - l) * (h - l))%R with (v - l)%R by (field; lra). lra.
Qed.
Lemma fraction' (l h v : R) : (l < h -> l <= v <= h -> exists t, 0 <= t <= 1 /\ v = h + t * (l - h))%R.
Proof. intros L V. destruct (fraction l h v L V) as (t & T & E). exists (1 - t)%R. split; [lra|]. rewrite E. ring. Qed.

Definition across (l : line) (U W : R * R) : Prop :=
  ((fst (rpt (snd l)) - fst (rpt (fst l))) * (snd W - snd U) <> (snd (rpt (snd l)) - snd (rpt (fst l))) * (fst W - fst U))%R.

Lemma enter_real b U W : (f64_R (e0 b) < f64_R (e2 b))%R -> (f64_R (e1 b) < f64_R (e3 b))%R ->
  ~ real_in b U -> real_in b W ->
  exists ed t, In ed (edges (Some b) None) /\ (0 <= t <= 1)%R /\ on_segment ed (along U W t) /\ across ed U W.
Proof.
  intros S1 S2 Iu' Iw. unfold real_in in *. destruct Iw as [Iw1 Iw2].
  unfold across, on_segment, along, rpt. cbn [fst snd].
  set (ux := fst U) in *. set (uy := snd U) in *.
  set (wx := fst W) in *. set (wy := snd W) in *.
  set (LX := f64_R (e0 b)) in *. set (LY := f64_R (e1 b)) in *. set (HX := f64_R (e2 b)) in *. set (HY := f64_R (e3 b)) in *.
  destruct (enter ux wx LX HX S1 Iw1) as (tx & Tx & Sx & Zx & Px).
  destruct (enter uy wy LY HY S2 Iw2) as (ty & Ty & Sy & Zy & Py).
  destruct (Rlt_le_dec tx ty) as [Lt|Lt].
  - (* y enters last *)
    destruct (Py ltac:(lra)) as [Ey Ny]. specialize (Sx ty ltac:(lra)).
    destruct Ey as [Ey|Ey].
    + destruct (fraction LX HX _ S1 Sx) as (s & S & Es).
      exists ((e0 b, e1 b), (e2 b, e1 b)), ty. split; [cbn; auto|]. split; [lra|].
      split; [exists s; split; [exact S|]; cbn [fst snd]; fold LX HX LY; f_equal; [exact Es | rewrite Ey; ring]|].
      cbn [fst snd]. fold LX HX LY. intros K.
      assert ((HX - LX) * (wy - uy) = 0)%R by lra. apply Rmult_integral in H. lra.
    + destruct (fraction' LX HX _ S1 Sx) as (s & S & Es).
      exists ((e2 b, e3 b), (e0 b, e3 b)), ty. split; [cbn; auto|]. split; [lra|].
      split; [exists s; split; [exact S|]; cbn [fst snd]; fold LX HX HY; f_equal; [exact Es | rewrite Ey; ring]|].
      cbn [fst snd]. fold LX HX HY. intros K.
      assert ((LX - HX) * (wy - uy) = 0)%R by lra. apply Rmult_integral in H. lra.
  - (* x enters last *)
    assert (T0 : (0 < tx)%R).
    { destruct (Rle_lt_or_eq_dec _ _ (proj1 Tx)) as [L|Z0]; [exact L|]. exfalso. apply Iu'.
      assert (Zy0 : ty = 0%R) by lra. rewrite <- Z0 in *. rewrite Zy0 in *.
      specialize (Sx 0%R ltac:(lra)). specialize (Sy 0%R ltac:(lra)). lra. }
    destruct (Px T0) as [Ex Nx]. specialize (Sy tx ltac:(lra)).
    destruct Ex as [Ex|Ex].
    + destruct (fraction' LY HY _ S2 Sy) as (s & S & Es).
      exists ((e0 b, e3 b), (e0 b, e1 b)), tx. split; [cbn; auto|]. split; [lra|].
      split; [exists s; split; [exact S|]; cbn [fst snd]; fold LX HY LY; f_equal; [rewrite Ex; ring | exact Es]|].
      cbn [fst snd]. fold LX HY LY. intros K.
      assert ((LY - HY) * (wx - ux) = 0)%R by lra. apply Rmult_integral in H. lra.
    + destruct (fraction LY HY _ S2 Sy) as (s & S & Es).
      exists ((e2 b, e1 b), (e2 b, e3 b)), tx. split; [cbn; auto|]. split; [lra|].
      split; [exists s; split; [exact S|]; cbn [fst snd]; fold HX HY LY; f_equal; [rewrite Ex; ring | exact Es]|].
      cbn [fst snd]. fold HX HY LY. intros K.
      assert ((HY - LY) * (wx - ux) = 0)%R by lra. apply Rmult_integral in H. lra.
Qed.

Section Enter.
  Variable c : compare.
  Variables (e : Z) (lo hi nu nw : Z * Z) (b : extent) (ln : line).
  Hypothesis G : on_clip_grid e lo hi nu nw b ln.
  Hypothesis Strict : f64_lt (e0 b) (e2 b) = true /\ f64_lt (e1 b) (e3 b) = true.

  Lemma strict_R : (f64_R (e0 b) < f64_R (e2 b))%R /\ (f64_R (e1 b) < f64_R (e3 b))%R.
  Proof.
    destruct (box_words _ _ _ _ _ _ _ G) as ([? ?] & [? ?] & [? ?] & [? ?]). destruct Strict as [S1 S2].
    apply lt_R in S1, S2; auto.
  Qed.

  Lemma entering_hits : inside b (fst ln) = false -> inside b (snd ln) = true ->
    exists ed, In ed (edges (Some b) None) /\ snd (segment_intersect ed ln) = true.
  Proof.
    intros Iu Iw. destruct strict_R as [S1 S2].
    destruct (ln_words _ _ _ _ _ _ _ G (fst ln) (or_introl eq_refl)) as [Wu1 Wu2].
    destruct (ln_words _ _ _ _ _ _ _ G (snd ln) (or_intror eq_refl)) as [Ww1 Ww2].
    apply (inside_real _ _ _ _ _ _ _ G) in Iw; auto.
    assert (Iu' : ~ real_in b (rpt (fst ln))).
    { intros K. apply (inside_real _ _ _ _ _ _ _ G) in K; auto. congruence. }
    destruct (enter_real b _ _ S1 S2 Iu' Iw) as (ed & t & I & T & O & A). exists ed. split; [exact I|].
    apply (segment_exact ed ln (small_near _ _ (edge_small _ _ _ _ _ _ _ G ed I))). split; [exact A|].
    eexists. split; [exact O|]. now exists t.
  Qed.

  Lemma entering_contributes : is_universe (Some b) = false -> inside b (fst ln) = false -> inside b (snd ln) = true ->
    exists a, contribution c (Some b) ln = [(a, snd ln)].
  Proof.
    intros Nu Iu Iw. unfold contribution. rewrite !contains_inside, Iu, Iw.
    destruct (unique_points c (Some b) ln) as [|a [|d us]] eqn:E; [|eexists; reflexivity | eexists; reflexivity].
    exfalso. unfold unique_points in E. rewrite Nu in E. apply points_none in E as [_ E].
    destruct (entering_hits Iu Iw) as (ed & I & K). rewrite (E ed I) in K. discriminate.
  Qed.
End Enter.

(** ** Top statements *)
Lemma segments_grid e ns ls : on_grid e ns ls -> forall ln, In ln (segments ls) ->
  exists nu nw, In nu ns /\ In nw ns /\ at_grid e nu (fst ln) /\ at_grid e nw (snd ln).
Proof.
  intros H. induction H as [|n p ns ls Hp H IH]; [intros ln []|].
  destruct H as [|n' p' ns' ls' Hp' H']; [intros ln []|].
  change (segments (p :: p' :: ls')) with ((p, p') :: segments (p' :: ls')). intros ln [<-|I].
  - exists n, n'. repeat split; try (apply Hp || apply Hp'); cbn; auto.
  - destruct (IH ln I) as (nu & nw & A & B & C). exists nu, nw. split; [now right|]. split; [now right | exact C].
Qed.

Lemma clip_grid_segment b ls : clip_grid b ls -> forall ln, In ln (segments ls) -> exists e lo hi nu nw, on_clip_grid e lo hi nu nw b ln.
Proof.
  intros (e & ns & lo & hi & He & Hg & Hb & Ho & Hd) ln I.
  destruct (segments_grid e ns ls Hg ln I) as (nu & nw & Iu & Iw & Gu & Gw).
  inversion Hb as [|? ? ? ? B1 B2]; subst. inversion B2 as [|? ? ? ? B3 B4]; subst.
  exists e, lo, hi, nu, nw. constructor; auto; apply Hd; cbn; auto.
Qed.

Lemma clip_line_loop c ctx n b ls out n' : is_universe (Some b) = false ->
  clip_line c ctx n (Some b) ls = (Ok out, n') ->
  flat_map segments out = flat_map (contribution c (Some b)) (segments ls).
Proof.
  intros Nu. destruct ls as [|p [|q ls]]; [intros E; injection E as <- <-; reflexivity | discriminate |].
  unfold clip_line. unfold contains_geom. rewrite Nu. cbn [add_geometry get_extent]. intros E.
  apply (loop_segments c ctx (Some b)) in E; [|reflexivity|].
  - rewrite E. cbn [flat_map app]. destruct (contains_point (Some b) p); reflexivity.
  - unfold ready. destruct (contains_point (Some b) p); [exists []; reflexivity | reflexivity].
Qed.

(** All words. *)
Theorem clip_order c ctx n b ls out n' : is_universe (Some b) = false ->
  clip_line c ctx n (Some b) ls = (Ok out, n') ->
  exists parts, flat_map segments out = concat parts /\
    Forall2 (fun ln part => inside b (fst ln) = true -> inside b (snd ln) = true -> part = [ln]) (segments ls) parts.
Proof.
  intros Nu E. apply clip_line_loop in E; [|exact Nu]. exists (map (contribution c (Some b)) (segments ls)).
  split; [rewrite E; apply flat_map_concat_map|]. clear E. induction (segments ls) as [|ln l IH]; constructor; [|exact IH].
  intros A B. unfold contribution. now rewrite !contains_inside, A, B.
Qed.

Theorem clip_exact c ctx n b ls out n' : positive c -> is_universe (Some b) = false -> clip_grid b ls ->
  clip_line c ctx n (Some b) ls = (Ok out, n') ->
  exists parts, flat_map segments out = concat parts /\
    Forall2 (fun ln part =>
      (part = [] \/ exists a d, part = [(a, d)] /\ part_of ln a d /\ inside b a = true /\ inside b d = true) /\
      (inside b (fst ln) = true -> inside b (snd ln) = true -> part = [ln]) /\
      (f64_lt (e0 b) (e2 b) = true -> f64_lt (e1 b) (e3 b) = true ->
       inside b (fst ln) = false -> inside b (snd ln) = true -> exists a, part = [(a, snd ln)]))
    (segments ls) parts.
Proof.
  intros Pc Nu Hg E. apply clip_line_loop in E; [|exact Nu]. exists (map (contribution c (Some b)) (segments ls)).
  split; [rewrite E; apply flat_map_concat_map|]. clear E. pose proof (clip_grid_segment b ls Hg) as K.
  induction (segments ls) as [|ln l IH]; constructor.
  - destruct (K ln (or_introl eq_refl)) as (e & lo & hi & nu & nw & G). split; [|split].
    + destruct (contribution_good c Pc _ _ _ _ _ _ _ G) as [H|(a & d & H & P & A & B)]; [now left|].
      right. exists a, d. auto.
    + intros A B. unfold contribution. now rewrite !contains_inside, A, B.
    + intros S1 S2 Iu Iw. exact (entering_contributes c _ _ _ _ _ _ _ G (conj S1 S2) Nu Iu Iw).
  - apply IH. intros ln' I. apply K. now right.
Qed.

Theorem clip_inside c ctx n b ls out n' : is_universe (Some b) = false -> clip_grid b ls ->
  clip_line c ctx n (Some b) ls = (Ok out, n') ->
  forall piece p, In piece out -> In p piece -> inside b p = true.
Proof.
  intros Nu Hg E. assert (F : Forall (Forall (fun p => inside b p = true)) out).
  { destruct ls as [|p [|q ls]]; [injection E as <- <-; constructor | discriminate |].
    unfold clip_line in E. unfold contains_geom in E. rewrite Nu in E. cbn [add_geometry get_extent] in E.
    apply (loop_points c ctx (Some b) (fun p => inside b p = true)) in E; auto.
    - intros ln a I H. destruct (clip_grid_segment b _ Hg ln I) as (e & lo & hi & nu & nw & G).
      destruct (unique_hit c _ _ _ _ _ _ _ G a H) as (x & t & Hh). exact (hit_inside _ _ _ _ _ _ _ G _ _ _ Hh).
    - destruct (contains_point (Some b) p) eqn:Ep; [|constructor]. constructor; [exact Ep | constructor]. }
  intros piece p I J. rewrite Forall_forall in F. specialize (F piece I). rewrite Forall_forall in F. now apply F.
Qed.

(** No panic; the errors. *)
Theorem clip_total c ctx n box ls :
  match clip_line c ctx n box ls with
  | (Ok _, _) => length ls <> 1%nat
  | (Err Cancelled, n') => exists i, (n <= i < n')%nat /\ ctx i = true
  | (Err InvalidLineString, _) => length ls = 1%nat
  | (Err Unsupported, _) | (Panic, _) => False
  end.
Proof.
  destruct ls as [|p [|q ls]]; [cbn; lia | reflexivity |].
  unfold clip_line. destruct (contains_geom box GUnknown) as [[|]|]; [cbn; lia | |].
  all: destruct (loop_total c ctx box (q :: ls) n p (contains_point box p) [] (if contains_point box p then [p] else []))
    as [(out & E & _)|(i & Hi & Hc & E)];
    [unfold ready; destruct (contains_point box p); [exists []; reflexivity | reflexivity]
    | rewrite E; cbn; lia | rewrite E; exists i; split; [lia | exact Hc]].
Qed.

Theorem clip_ctx c ctx n box ls out n' : clip_line c ctx n box ls = (Ok out, n') ->
  clip_line c (fun _ => false) n box ls = (Ok out, n').
Proof.
  destruct ls as [|p [|q ls]]; [auto | auto |].
  unfold clip_line. destruct (contains_geom box GUnknown) as [[|]|]; [auto | |]; intros E;
  apply (loop_ctx c ctx box (fun _ => false)) in E; auto.
Qed.

(** Several lines: the pieces of each, in order. *)
Lemma clip_lines_app c ctx box : forall mls n acc out n', clip_lines c ctx n box mls acc = (Ok out, n') ->
  exists outs, out = acc ++ concat outs /\ Forall2 (fun ls o => fst (clip_line c (fun _ => false) 0 box ls) = Ok o) mls outs.
Proof.
  assert (Z0 : forall ls n, fst (clip_line c (fun _ => false) n box ls) = fst (clip_line c (fun _ => false) 0 box ls)).
  { assert (L : forall rest n prev lin mls cls,
      fst (clip_loop c (fun _ => false) n box prev lin rest mls cls) = fst (clip_loop c (fun _ => false) 0 box prev lin rest mls cls)).
    { induction rest as [|p rest IH]; intros; [reflexivity|]. cbn [clip_loop].
      destruct lin, (contains_point box p); try (rewrite IH; symmetry; apply IH).
      destruct (unique_points c box (prev, p)); [rewrite IH; symmetry; apply IH|].
      destruct cls; [reflexivity|]. rewrite IH. symmetry. apply IH. }
    intros [|p [|q ls]] n; [reflexivity | reflexivity |]. unfold clip_line.
    destruct (contains_geom box GUnknown) as [[|]|]; [reflexivity | |]; rewrite L; symmetry; apply L. }
  induction mls as [|ls mls IH]; intros n acc out n' E.
  - cbn in E. injection E as <- <-. exists []. rewrite app_nil_r. split; [reflexivity | constructor].
  - cbn [clip_lines] in E. destruct (clip_line c ctx n box ls) as [[m|x|] n1] eqn:El; try discriminate.
    apply IH in E as (outs & -> & F). exists (m :: outs). split; [cbn; now rewrite app_assoc|]. constructor; [|exact F].
    apply clip_ctx in El. rewrite <- (Z0 ls n), El. reflexivity.
Qed.

Theorem clip_multi c ctx n b mls out n' : is_universe (Some b) = false ->
  clip_multiline c ctx n (Some b) mls = (Ok out, n') ->
  exists outs, out = concat outs /\ Forall2 (fun ls o => fst (clip_line c (fun _ => false) 0 (Some b) ls) = Ok o) mls outs.
Proof. unfold clip_multiline. intros ->. apply clip_lines_app. Qed.

(** Points. *)
Lemma clip_points_filter ctx b : forall ps n acc,
  match clip_points ctx n (Some b) ps acc with
  | (Ok out, n') => out = acc ++ filter (inside b) ps
  | (Err Cancelled, n') => exists i, (n <= i < n')%nat /\ ctx i = true
  | _ => False
  end.
Proof.
  induction ps as [|p ps IH]; intros n acc; [cbn; now rewrite app_nil_r|]. cbn [clip_points].
  destruct (ctx n) eqn:Ec; [exists n; split; [lia | exact Ec]|].
  specialize (IH (S n) (if contains_point (Some b) p then acc ++ [p] else acc)).
  destruct (clip_points ctx (S n) (Some b) ps _) as [[out|[]|] n1]; auto.
  - rewrite IH. rewrite contains_inside. cbn [filter]. destruct (inside b p); [|reflexivity]. now rewrite <- app_assoc.
  - destruct IH as (i & Hi & Hc). exists i. split; [lia | exact Hc].
Qed.
Theorem clip_points_exact ctx n b ps : is_universe (Some b) = false ->
  match clip_multipoint ctx n (Some b) ps with
  | (Ok out, n') => out = filter (inside b) ps
  | (Err Cancelled, n') => exists i, (n <= i < n')%nat /\ ctx i = true
  | _ => False
  end.
Proof. intros Nu. unfold clip_multipoint. rewrite Nu. exact (clip_points_filter ctx b ps n []). Qed.
