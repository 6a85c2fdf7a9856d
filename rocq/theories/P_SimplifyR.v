(** The perpendicular distance and closed lines. *)
From Coq Require Import ZArith Bool List Reals Lra Lia.
From Flocq Require Import Core IEEE754.BinarySingleNaN IEEE754.Binary IEEE754.Bits.
From Verif Require Import Base_F64 Base_F64Arith Base_Geom Base_Res M_Geom M_Simplify S_Simplify P_F64
  P_F64Flocq P_F64Round P_List P_Simplify.
Import ListNotations.
Local Notation prec := 53%Z.
Local Notation emax := 1024%Z.

Lemma zero_b64 (x : binary64) : Binary.is_finite prec emax x = true -> Binary.B2R prec emax x = 0%R ->
  Binary.Bsign prec emax x = false -> bits_of_b64 x = f64_zero.
Proof.
  destruct x as [s|s|s pl e|s m e H]; cbn [Binary.Bsign Binary.B2R Binary.is_finite]; try discriminate.
  - now intros _ _ ->.
  - intros _ E _. apply eq_0_F2R in E. destruct s; discriminate.
Qed.

Lemma sub_self a : f64_wf a = true -> f64_finite a = true -> f64_sub a a = f64_zero.
Proof.
  intros W F. set (x := b64_of_bits a).
  assert (Fx : Binary.is_finite prec emax x = true) by (unfold x; now rewrite is_finite_word).
  pose proof (Binary.Bminus_correct prec emax eq_refl eq_refl binop_nan_pl64 mode_NE x x Fx Fx) as H.
  replace (Binary.B2R prec emax x - Binary.B2R prec emax x)%R with 0%R in H by lra.
  rewrite round_0, Rabs_R0 in H by apply valid_rnd_round_mode.
  rewrite Rlt_bool_true in H by apply bpow_gt_0. destruct H as (E & Fi & S).
  rewrite Rcompare_Eq, andb_negb_r in S by reflexivity.
  apply zero_b64; assumption.
Qed.

Lemma perpendicular_closed p v : f64_wf (fst p) = true -> f64_wf (snd p) = true ->
  f64_finite (fst p) = true -> f64_finite (snd p) = true ->
  perpendicular_distance (p, p) v = f64_zero.
Proof.
  intros W1 W2 F1 F2. unfold perpendicular_distance. cbn [fst snd].
  rewrite (sub_self _ W1 F1), (sub_self _ W2 F2).
  replace (f64_eq (f64_sqrt (f64_add (f64_mul f64_zero f64_zero) (f64_mul f64_zero f64_zero))) f64_zero)
    with true by (vm_compute; reflexivity).
  reflexivity.
Qed.

Lemma rdp_collapse dist t p mid s : (forall v, f64_gt (dist (p, p) v) t = false) -> mid <> [] ->
  rdp dist t (p :: mid ++ [p]) s -> s = [p; p].
Proof.
  intros Z N R. inversion R as [l L E1 E2|p' mid' q' N' F E1 E2|p' m1 v m2 q' s1 s2 G FF R1 R2 E1 E2].
  - exfalso. subst. destruct mid as [|m mid]; [congruence|]. clear -L.
    cbn [app length] in L. rewrite app_length in L. cbn [length] in L. lia.
  - match goal with H : _ ++ [_] = _ ++ [_] |- _ => apply app_inj_tail in H; destruct H as [_ H]; now rewrite H end.
  - assert (q' = p).
    { match goal with H : _ ++ v :: m2 ++ [q'] = _ |- _ => rename H into H0 end.
      change (v :: m2 ++ [q']) with ((v :: m2) ++ [q']) in H0. rewrite app_assoc in H0.
      apply app_inj_tail in H0. tauto. }
    subst. rewrite Z in G. discriminate.
Qed.

Theorem closed_line_collapses t p mid : f64_wf (fst p) = true -> f64_wf (snd p) = true ->
  f64_finite (fst p) = true -> f64_finite (snd p) = true -> f64_le t f64_zero = false -> mid <> [] ->
  douglas_peucker perpendicular_distance t None (p :: mid ++ [p]) = Ok ([p; p], false, None).
Proof.
  intros W1 W2 F1 F2 T N.
  destruct (dp_uncancelled perpendicular_distance t (p :: mid ++ [p])) as (r & E). rewrite E.
  apply dp_rdp in E; [|exact T]. apply rdp_collapse in E; auto; [now subst|].
  intros v. rewrite perpendicular_closed by assumption. unfold f64_gt, f64_lt.
  destruct (f64_isnan t) eqn:Nt; [reflexivity|].
  unfold f64_le in T. rewrite Nt in T. change (f64_isnan f64_zero) with false in *. cbn [negb andb] in *.
  apply Z.leb_gt in T. apply Z.ltb_ge. lia.
Qed.

(** planar.Simplify with Douglas-Peucker on a polygon whose rings repeat their
    first vertex at the end. *)
Theorem closed_rings_vanish t rs : f64_le t f64_zero = false ->
  Forall (fun r => exists p mid, r = p :: mid ++ [p] /\ mid <> [] /\
    f64_wf (fst p) = true /\ f64_wf (snd p) = true /\
    f64_finite (fst p) = true /\ f64_finite (snd p) = true) rs ->
  simplify (dp_simplifier perpendicular_distance t) None (GPolygon rs) =
  (None, Some (GPolygon (map (fun _ => []) rs))).
Proof.
  intros T F. cbn [simplify].
  assert (E : simplify_rings (dp_simplifier perpendicular_distance t) None rs true = (None, Some (map (fun _ => []) rs))).
  { induction F as [|r rs (p & mid & -> & N & W1 & W2 & F1 & F2) F IH]; [reflexivity|].
    cbn [simplify_rings]. unfold dp_simplifier at 1. rewrite closed_line_collapses by assumption.
    cbn [length Nat.ltb Nat.leb orb negb map]. now rewrite IH. }
  now rewrite E.
Qed.

Lemma dp_simplifier_keeps dist t c l b c' r : dp_simplifier dist t c l b = (c', Some r) -> keeps dist t l r.
Proof.
  unfold dp_simplifier. destruct (douglas_peucker dist t c l) as [[[r1 e] c1]|u|] eqn:E; try discriminate.
  destruct e; [discriminate|]. intros H. injection H as <- <-. eapply dp_keeps; eauto.
Qed.

Lemma dp_simplifier_background dist t l b : exists r, dp_simplifier dist t None l b = (None, Some r).
Proof. unfold dp_simplifier. destruct (dp_uncancelled dist t l) as (r & ->). eauto. Qed.

(** No error without cancellation *)
Section NoError.
  Context {St : Type} (simp : St -> list pt -> bool -> St * option (list pt)) (Inv : St -> Prop).
  Hypothesis HI : forall s l b, Inv s -> exists s' r, simp s l b = (s', Some r) /\ Inv s'.

  Lemma simplify_rings_total rs b : forall s, Inv s -> exists s' r, simplify_rings simp s rs b = (s', Some r) /\ Inv s'.
  Proof.
    induction rs as [|r rs IH]; intros s I; cbn [simplify_rings]; [eauto|].
    destruct (HI s r b I) as (s1 & r1 & -> & I1). destruct (IH s1 I1) as (s2 & rs2 & -> & I2). eauto.
  Qed.

  Lemma simplify_polygons_total ps : forall s, Inv s -> exists s' r, simplify_polygons simp s ps = (s', Some r) /\ Inv s'.
  Proof.
    induction ps as [|p ps IH]; intros s I; cbn [simplify_polygons]; [eauto|].
    destruct (simplify_rings_total p true s I) as (s1 & r1 & -> & I1). destruct (IH s1 I1) as (s2 & rs2 & -> & I2). eauto.
  Qed.

  Theorem simplify_total g : forall s, Inv s -> exists s' r, simplify simp s g = (s', Some r) /\ Inv s'.
  Proof.
    induction g as [p|ps|ps|ls|rs|pls|gs IH|] using geom_ind'; intros s I; cbn [simplify]; eauto.
    - destruct (HI s ps false I) as (s1 & r1 & -> & I1). cbn. eauto.
    - destruct (simplify_rings_total ls false s I) as (s1 & r1 & -> & I1). cbn. eauto.
    - destruct (simplify_rings_total rs true s I) as (s1 & r1 & -> & I1). cbn. eauto.
    - destruct (simplify_polygons_total pls s I) as (s1 & r1 & -> & I1). cbn. eauto.
    - match goal with |- context [let '(_, _) := ?f s gs in _] => set (go := f) end.
      assert (T : forall s, Inv s -> exists s' r, go s gs = (s', Some r) /\ Inv s').
      { clear s I. induction IH as [|x gs Hx _ IH]; intros s I; cbn; [eauto|].
        destruct (Hx s I) as (s1 & x1 & -> & I1). fold go.
        destruct (IH s1 I1) as (s2 & l2 & -> & I2). eauto. }
      destruct (T s I) as (s1 & l & -> & I1). cbn. eauto.
  Qed.
End NoError.

Theorem simplify_dp_background dist t g :
  exists g', simplify (dp_simplifier dist t) None g = (None, Some g').
Proof.
  destruct (simplify_total (dp_simplifier dist t) (fun c => c = None)
    (fun s l b I => match eq_sym I in _ = s0 return exists s' r, dp_simplifier dist t s0 l b = (s', Some r) /\ s' = None with
                    | eq_refl => match dp_simplifier_background dist t l b with ex_intro _ r E => ex_intro _ None (ex_intro _ r (conj E eq_refl)) end
                    end) g None eq_refl) as (s' & g' & E & ->). eauto.
Qed.

  Lemma concat_le (R : list pt -> list pt -> Prop) ls ls' : (forall l r, R l r -> (length r <= length l)%nat) ->
    Forall2 R ls ls' -> (length (List.concat ls') <= length (List.concat ls))%nat.
  Proof.
    intros H F. induction F as [|a b ls ls' X _ IH]; [auto|]. cbn. rewrite !app_length. specialize (H _ _ X). lia.
  Qed.

Section Points.
  Variables lr rr : list pt -> list pt -> Prop.
  Hypothesis Hl : forall l r, lr l r -> (length r <= length l)%nat.
  Hypothesis Hr : forall l r, rr l r -> (length r <= length l)%nat.

  Theorem structure_points g : forall g', same_structure lr rr g g' -> (points g' <= points g)%nat.
  Proof.
    induction g as [p|ps|ps|ls|rs|pls|gs IH|] using geom_ind'; intros g' H; inversion H; subst; cbn [points]; auto.
    - eapply concat_le; [|eassumption]; assumption.
    - eapply concat_le; [|eassumption]; assumption.
    - match goal with F : Forall2 (Forall2 rr) _ _ |- _ => rename F into F2 end.
      clear -F2 Hr. induction F2 as [|a b ls ls' X _ IH]; [auto|]. cbn. rewrite !concat_app, !app_length.
      apply concat_le in X; [lia|exact Hr].
    - match goal with F : Forall2 (same_structure _ _) _ _ |- _ => rename F into F2 end.
      clear H. revert gs' F2. induction IH as [|x gs Hx _ IH]; intros gs' F2; inversion F2; subst; cbn; [auto|].
      match goal with A : same_structure _ _ x ?y, B : Forall2 _ gs ?l |- _ => specialize (Hx _ A); specialize (IH _ B) end. lia.
  Qed.
End Points.

Theorem simplify_dp_full dist t g :
  exists g', simplify (dp_simplifier dist t) None g = (None, Some g') /\
  same_structure (keeps dist t) (ring_result (fun _ => keeps dist t)) g g' /\
  (points g' <= points g)%nat.
Proof.
  destruct (simplify_dp_background dist t g) as (g' & E). exists g'. split; [exact E|].
  assert (S : same_structure (keeps dist t) (ring_result (fun _ => keeps dist t)) g g').
  { apply (simplify_structure (dp_simplifier dist t) (fun _ => keeps dist t)) in E; [exact E|].
    intros s l b s' r. apply dp_simplifier_keeps. }
  split; [exact S|]. eapply structure_points; [| |exact S].
  - intros l r. apply keeps_length.
  - intros l r [[K _]|[-> _]]; [now apply keeps_length in K|cbn; lia].
Qed.
