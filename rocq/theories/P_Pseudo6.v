(** Proofs about pseudopolygon: small integer points never panic; convex polygons *)
From Coq Require Import ZArith Bool List Lia Arith Reals Lra.
From Flocq Require Import Core.Core.
From Verif Require Import Base_Res Base_F64 Base_F64Arith Base_Geom M_Cmp M_Winding M_Triangle M_Planar M_Walker M_Pseudo
  S_Intersect S_Winding S_Walker S_Pseudo P_F64Flocq P_F64Round P_F64Grid P_Winding P_Winding2 P_Walker P_Walker7 P_Extent2 P_PlanarLine P_Circle
  P_Pseudo P_Pseudo2 P_Pseudo3 P_Pseudo4 P_Pseudo5.
Import ListNotations.
Local Open Scope nat_scope.

(** ** The search finds a point *)
Lemma closest_step ypd pts pe c x cands i p1 p2 d : closest ypd pts pe c i (x :: cands) p1 p2 d =
  if f64_lt (point_distance c x) d && negb (colinear3 ypd (at_ pts 0) (at_ pts i) (at_ pts pe))
  then closest ypd pts pe c (S i) cands (Some i) p1 (point_distance c x) else closest ypd pts pe c (S i) cands p1 p2 d.
Proof. lazy beta iota zeta delta [closest]. reflexivity. Qed.
Lemma closest_found ypd pts pe c cands : forall i p1 p2 d, p1 <> None -> fst (closest ypd pts pe c i cands p1 p2 d) <> None.
Proof.
  induction cands as [|x cands IH]; intros i p1 p2 d N; [exact N|].
  destruct (closest_cons ypd pts pe c x cands i p1 p2 d) as (b & d' & ->). destruct b; apply IH; [discriminate|exact N].
Qed.
Lemma closest_some ypd pts pe c cands : forall i p2, (exists t x, nth_error cands t = Some x /\ f64_lt (point_distance c x) f64_pinf = true /\
    colinear3 ypd (at_ pts 0) (at_ pts (i + t)) (at_ pts pe) = false) ->
  fst (closest ypd pts pe c i cands None p2 f64_pinf) <> None.
Proof.
  induction cands as [|y cands IH]; intros i p2 (t & x & E & L & C); [destruct t; discriminate|].
  rewrite closest_step. destruct t as [|t].
  - injection E as <-. rewrite Nat.add_0_r in C. rewrite L, C. cbn [negb andb]. apply closest_found. discriminate.
  - match goal with |- context [if ?b then _ else _] => destruct b end; [apply closest_found; discriminate|].
    apply IH. exists t, x. replace (S i + t) with (i + S t) by lia. now split.
Qed.

Lemma split_shape2 tri ypd pts edges : distinct pts -> 4 <= length pts ->
  (exists i, 1 <= i < length pts - 1 /\ colinear3 ypd (at_ pts 0) (at_ pts i) (at_ pts (length pts - 1)) = false /\
     f64_lt (point_distance (f64_div (f64_add (fst (at_ pts 0)) (fst (at_ pts (length pts - 1)))) f64_two,
                             f64_div (f64_add (snd (at_ pts 0)) (snd (at_ pts (length pts - 1)))) f64_two) (at_ pts i)) f64_pinf = true) ->
  (forall i, i < length pts -> circle_from_points 2 (at_ pts i) (at_ pts 0) (at_ pts (length pts - 1)) <> None) ->
  exists pe p1 ps p2, pe < length pts /\ p1 < length pts /\ pe <> p1 /\ ~ adjacent (length pts) pe p1 /\
    split_polygon tri ypd pts edges =
      if length pts =? 4 then
        Ok (edges ++ [(at_ pts ps, at_ pts p1); (at_ pts pe, at_ pts ps); (at_ pts pe, at_ pts p1);
                      (at_ pts p1, at_ pts p2); (at_ pts p2, at_ pts pe)])
      else do e1 <- tri (arc pts pe p1); do e2 <- tri (arc pts p1 pe); Ok (edges ++ e1 ++ e2).
Proof.
  intros D L (i & I & Cl & Lt) Ci. unfold split_polygon.
  match goal with |- context [closest ?a ?b ?c ?d ?e ?f ?g ?h ?i] => pose proof (closest_some a b c d f e h) as Some1; destruct (closest a b c d e f g h i) as [[p1|] p2] eqn:Cs end.
  2: { exfalso. cbn [fst] in Some1. apply Some1; [|reflexivity]. exists (i - 1), (at_ pts i). split; [|split; [exact Lt|]].
       - assert (Q : at_ pts i = at_ (firstn (length pts - 1 - 1) (skipn 1 pts)) (i - 1)).
         { rewrite at_firstn by lia. destruct pts as [|p pts]; [cbn in L; lia|]. cbn [skipn]. unfold at_. destruct i as [|i]; [lia|]. cbn [nth]. f_equal. lia. }
         rewrite Q. apply nth_error_nth'. rewrite firstn_length, skipn_length. lia.
       - replace (1 + (i - 1)) with i by lia. exact Cl. }
  clear Some1. apply closest_range in Cs; [|exact Logic.I|exact Logic.I|lia]. rewrite firstn_length, skipn_length in Cs.
  set (n := length pts) in *. replace (Nat.min (n - 1 - 1) (n - 1)) with (n - 2) in Cs by lia.
  destruct Cs as [R1 R2]. cbv zeta.
  set (q := match p2 with Some p2 => p2 | None => if (p1 - 1 =? 0) || (p1 - 1 =? n - 1) then p1 + 1 else p1 - 1 end).
  assert (Q : 1 <= q < n - 1 /\ q <> p1).
  { subst q. destruct p2 as [b|]; [lia|]. destruct (Nat.eqb_spec (p1 - 1) 0), (Nat.eqb_spec (p1 - 1) (n - 1)); cbn [orb]; lia. }
  assert (Fl : exists f, flips ypd pts 0 p1 q (n - 1) = Ok f).
  { unfold flips. destruct (circle_from_points 2 (at_ pts p1) (at_ pts 0) (at_ pts (n - 1))) as [r|] eqn:X; [eexists; reflexivity|]. exfalso. apply (Ci p1); [lia|exact X]. }
  destruct Fl as (f & ->). cbn [bind]. set (r := if f then _ else _).
  assert (R : exists ps a b pe, r = (ps, a, b, pe) /\ ((ps = 0 /\ pe = n - 1) \/ (pe = 0 /\ ps = n - 1)) /\ 1 <= a < n - 1 /\ 1 <= b < n - 1 /\ a <> b).
  { subst r. destruct f; [exists (n - 1), q, p1, 0|exists 0, p1, q, (n - 1)]; (split; [reflexivity|lia]). }
  clearbody r q. destruct R as (ps & a & b & pe & -> & H1 & H2 & H3 & H4).
  destruct (rotate_spec pts pe a ps b D L H2 H1) as (pe' & p1' & ps' & -> & NA & H5).
  exists pe', p1', ps', b. fold n in NA. repeat (split; [lia|]). split; [exact NA|]. reflexivity.
Qed.

(** ** Colinear points have no area *)
Fixpoint fan (p : Z * Z) (l : list (Z * Z)) : Z :=
  match l with a :: (b :: _) as tl => turn p a b + fan p tl | _ => 0 end.
Lemma fan_path p a l : fan p (a :: l) = (path_sum (a :: l) + cross p a + cross (last (a :: l) p) p)%Z.
Proof.
  revert a. induction l as [|b l IH]; intros a.
  - cbn. unfold cross. lia.
  - change (fan p (a :: b :: l)) with (turn p a b + fan p (b :: l))%Z. rewrite IH.
    change (path_sum (a :: b :: l)) with (cross a b + path_sum (b :: l))%Z. change (last (a :: b :: l) p) with (last (b :: l) p).
    unfold turn, cross. lia.
Qed.
Lemma area2_fan p l : area2 (p :: l) = fan p l.
Proof.
  destruct l as [|a l]; [cbn; unfold cross; lia|]. rewrite fan_path. unfold area2. cbn [app].
  change (path_sum (p :: a :: l ++ [p])) with (cross p a + path_sum (a :: l ++ [p]))%Z.
  enough (H : path_sum ((a :: l) ++ [p]) = (path_sum (a :: l) + cross (last (a :: l) p) p)%Z) by (cbn [app] in H; rewrite H; lia).
  revert a. induction l as [|b l IH]; intros a; [cbn; lia|].
  change (path_sum ((a :: b :: l) ++ [p])) with (cross a b + path_sum ((b :: l) ++ [p]))%Z. rewrite IH.
  change (path_sum (a :: b :: l)) with (cross a b + path_sum (b :: l))%Z. change (last (a :: b :: l) p) with (last (b :: l) p). lia.
Qed.
Lemma parallel p q a b : p <> q -> turn p a q = 0%Z -> turn p b q = 0%Z -> turn p a b = 0%Z.
Proof.
  intros N A B. unfold turn in *. destruct p as [px py], q as [qx qy], a as [ax ay], b as [bx by_]. cbn [fst snd] in *.
  set (dx := (qx - px)%Z) in *. set (dy := (qy - py)%Z) in *. set (ux := (ax - px)%Z) in *. set (uy := (ay - py)%Z) in *. set (vx := (bx - px)%Z) in *. set (vy := (by_ - py)%Z) in *.
  assert (Dn : (dx <> 0 \/ dy <> 0)%Z) by (destruct (Z.eq_dec dx 0), (Z.eq_dec dy 0); try tauto; exfalso; apply N; subst dx dy; f_equal; lia).
  clearbody dx dy ux uy vx vy. clear N.
  destruct Dn as [Dn|Dn].
  - apply (Z.mul_reg_r _ _ dx Dn). transitivity (ux * (vy * dx) - (uy * dx) * vx)%Z; [ring|]. replace (vy * dx)%Z with (vx * dy)%Z by lia. replace (uy * dx)%Z with (ux * dy)%Z by lia. ring.
  - apply (Z.mul_reg_r _ _ dy Dn). transitivity ((ux * dy) * vy - uy * (vx * dy))%Z; [ring|]. replace (vx * dy)%Z with (vy * dx)%Z by lia. replace (ux * dy)%Z with (uy * dx)%Z by lia. ring.
Qed.
Lemma fan_zero p q l : p <> q -> (forall a, In a l -> turn p a q = 0%Z) -> fan p l = 0%Z.
Proof.
  intros N. induction l as [|a l IH]; intros H; [reflexivity|]. destruct l as [|b l]; [reflexivity|].
  change (fan p (a :: b :: l)) with (turn p a b + fan p (b :: l))%Z. rewrite IH by (intros x X; apply H; now right).
  rewrite (parallel p q a b N); [reflexivity|apply H; now left|apply H; right; now left].
Qed.

(** ** Small integer points *)
Lemma circle_small a b c : small a -> small b -> small c -> circle_from_points 2 (fpt a) (fpt b) (fpt c) <> None.
Proof.
  intros A B C. assert (F : forall p, small p -> S_Triangle.finite_pt (fpt p)) by (intros p S; destruct (fpt_finite p S) as (? & ? & ? & ?); repeat split; assumption).
  assert (Df : forall p q, small p -> small q -> f64_finite (f64_sub (snd (fpt p)) (snd (fpt q))) = true).
  { intros p q [_ P] [_ Q]. unfold fpt. cbn [snd]. assert (R : repr 0 (snd p - snd q) (f64_sub (f64_ofZ (snd p)) (f64_ofZ (snd q)))).
    { apply repr_sub; [lia|unfold two53; lia|apply repr_ofZ; unfold two53; lia|apply repr_ofZ; unfold two53; lia]. }
    apply R. }
  destruct (circle_terminates (fpt a) (fpt b) (fpt c) (F a A) (F b B) (F c C) (Df b a B A) (Df c b C B)) as (r & H). rewrite (H 2) by lia. discriminate.
Qed.
Lemma at_fpt r i : i < length r -> at_ (map fpt r) i = fpt (nth i r (0, 0)%Z).
Proof. intros H. unfold at_. rewrite (nth_indep _ _ (fpt (0, 0)%Z)) by now rewrite map_length. apply map_nth. Qed.
Lemma split_small tri ypd r edges : Forall small r -> distinct (map fpt r) -> 4 <= length r ->
  (exists i, 1 <= i < length r - 1 /\ turn (nth 0 r (0, 0)%Z) (nth i r (0, 0)%Z) (nth (length r - 1) r (0, 0)%Z) <> 0%Z) ->
  exists pe p1 ps p2, pe < length r /\ p1 < length r /\ pe <> p1 /\ ~ adjacent (length r) pe p1 /\
    split_polygon tri ypd (map fpt r) edges =
      if length r =? 4 then
        Ok (edges ++ [(at_ (map fpt r) ps, at_ (map fpt r) p1); (at_ (map fpt r) pe, at_ (map fpt r) ps); (at_ (map fpt r) pe, at_ (map fpt r) p1);
                      (at_ (map fpt r) p1, at_ (map fpt r) p2); (at_ (map fpt r) p2, at_ (map fpt r) pe)])
      else do e1 <- tri (arc (map fpt r) pe p1); do e2 <- tri (arc (map fpt r) p1 pe); Ok (edges ++ e1 ++ e2).
Proof.
  intros S D L (i & I & N). rewrite <- (map_length fpt r) in *. rewrite Forall_forall in S.
  assert (Sm : forall k, k < length (map fpt r) -> small (nth k r (0, 0)%Z)) by (intros k K; apply S, nth_In; now rewrite map_length in K).
  assert (At : forall k, k < length (map fpt r) -> at_ (map fpt r) k = fpt (nth k r (0, 0)%Z)) by (intros k K; apply at_fpt; now rewrite map_length in K).
  apply split_shape2; [exact D|exact L| |].
  - exists i. split; [exact I|]. rewrite !At by lia. split.
    + rewrite colinear3_small by (apply Sm; lia). now apply Z.eqb_neq.
    + apply middle_near; apply Sm; lia.
  - intros k K. rewrite !At by lia. apply circle_small; apply Sm; lia.
Qed.
Lemma distinct_ends r : Forall small r -> distinct (map fpt r) -> 2 <= length r -> nth 0 r (0, 0)%Z <> nth (length r - 1) r (0, 0)%Z.
Proof.
  intros S D L E. assert (X : 0 = length r - 1); [|lia]. apply (at_inj (map fpt r)); [exact D|rewrite map_length; lia|rewrite map_length; lia|].
  rewrite !at_fpt by lia. now rewrite E.
Qed.
Lemma noncolinear_candidate r : Forall small r -> distinct (map fpt r) -> 4 <= length r -> area2 r <> 0%Z ->
  exists i, 1 <= i < length r - 1 /\ turn (nth 0 r (0, 0)%Z) (nth i r (0, 0)%Z) (nth (length r - 1) r (0, 0)%Z) <> 0%Z.
Proof.
  intros S D L A. pose proof (distinct_ends r S D ltac:(lia)) as N. set (p := nth 0 r (0, 0)%Z) in *. set (q := nth (length r - 1) r (0, 0)%Z) in *.
  assert (Dec : (exists i, 1 <= i < length r - 1 /\ turn p (nth i r (0, 0)%Z) q <> 0%Z) \/ (forall i, 1 <= i < length r - 1 -> turn p (nth i r (0, 0)%Z) q = 0%Z)).
  { generalize (length r - 1). intros m. induction m as [|m [(i & I & H)|H]]; [right; lia|left; exists i; split; [lia|exact H]|].
    destruct (Nat.eq_dec m 0) as [->|M0]; [right; lia|]. destruct (Z.eq_dec (turn p (nth m r (0, 0)%Z) q) 0) as [E|E].
    - right. intros i I. destruct (Nat.eq_dec i m) as [->|]; [exact E|apply H; lia].
    - left. exists m. split; [lia|exact E]. }
  destruct Dec as [H|H]; [exact H|]. exfalso. apply A. destruct r as [|p' l]; [cbn in L; lia|]. rewrite area2_fan.
  apply (fan_zero p q); [exact N|]. intros a Ha. apply (In_nth _ _ (0, 0)%Z) in Ha as (k & K & <-).
  destruct (Nat.eq_dec k (length l - 1)) as [->|Nk].
  - replace (nth (length l - 1) l (0, 0)%Z) with q; [unfold turn; ring|]. subst q. cbn [length]. replace (Datatypes.S (length l) - 1) with (Datatypes.S (length l - 1)) by lia. reflexivity.
  - specialize (H (Datatypes.S k)). cbn [length nth] in H. apply H. lia.
Qed.

Definition smallf (p : pt) : Prop := exists z, small z /\ p = fpt z.
Lemma smallf_list o : Forall smallf o -> exists r, o = map fpt r /\ Forall small r.
Proof.
  induction 1 as [|p o (z & Z & ->) _ (r & -> & R)]; [now exists []|]. exists (z :: r). split; [reflexivity|now constructor].
Qed.
Lemma smallf_finite o : Forall smallf o -> Forall finite_pt o.
Proof. intros H. eapply Forall_impl; [|exact H]. intros p (z & Z & ->). now apply fpt_finite. Qed.

Theorem small_safe ypd fuel : forall o, Forall smallf o -> (Z.of_nat (length o) <= 2 ^ 18)%Z ->
  triangulate fuel ypd o <> Panic /\ triangulate fuel ypd o <> Err EEndless.
Proof.
  induction fuel as [|fuel IH]; intros o F L; [split; discriminate|]. rewrite triangulate_finish.
  assert (Sub : forall n, incl n o -> length n <= length o -> triangulate fuel ypd n <> Panic /\ triangulate fuel ypd n <> Err EEndless).
  { intros n I Ln. apply IH; [|lia]. apply Forall_forall. intros x X. rewrite Forall_forall in F. apply F, I, X. }
  destruct (sub_rings_start (triangulate fuel ypd) o (smallf_finite o F)) as [(n & e & S & T & R)|[(n & S & T & R)|(pts & edges & R & D & Ic & Ln & He)]];
    rewrite R; cbn [bind].
  - split; [discriminate|]. intros Q. injection Q as ->. apply (proj2 (Sub n (proj1 S) ltac:(destruct S as (_ & S & _); lia)) T).
  - exfalso. apply (proj1 (Sub n (proj1 S) ltac:(destruct S as (_ & S & _); lia)) T).
  - destruct (finish_cases (triangulate fuel ypd) ypd pts edges) as [[_ ->]|[[_ ->]|[(a & b & _ & ->)|[(a & b & c & _ & ->)|(L4 & Or & ->)]]]];
      [split; discriminate|split; discriminate|split; discriminate|split; discriminate|].
    assert (Fp : Forall smallf pts) by (apply Forall_forall; intros x X; rewrite Forall_forall in F; now apply F, Ic).
    destruct (smallf_list pts Fp) as (r & -> & Sr). rewrite map_length in *.
    rewrite orientation_small in Or by (try assumption; lia).
    assert (A : area2 r <> 0%Z) by (intros A; apply Or; rewrite A; now destruct ypd).
    destruct (split_small (triangulate fuel ypd) ypd r edges Sr D L4 (noncolinear_candidate r Sr D L4 A)) as (pe & p1 & ps & p2 & H1 & H2 & H3 & NA & ->).
    destruct (length r =? 4); [split; discriminate|].
    destruct (nonadj_span (length r) pe p1 L4 H1 H2 H3 NA) as (S1 & S2 & S3 & S4).
    assert (Arc : forall a b, a < length r -> b < length r -> a <> b -> length (arc (map fpt r) a b) <= length o ->
      triangulate fuel ypd (arc (map fpt r) a b) <> Panic /\ triangulate fuel ypd (arc (map fpt r) a b) <> Err EEndless).
    { intros a b A1 B1 N1 La. apply Sub; [|exact La]. intros x X. apply Ic. apply (arc_in _ a b); try (rewrite map_length); assumption. }
    destruct (Arc pe p1 H1 H2 H3 ltac:(rewrite arc_len by (rewrite ?map_length; assumption); rewrite map_length; lia)) as [T1 T1'].
    destruct (Arc p1 pe H2 H1 (not_eq_sym H3) ltac:(rewrite arc_len by (rewrite ?map_length; try assumption; now apply not_eq_sym); rewrite map_length; lia)) as [T2 T2'].
    destruct (triangulate fuel ypd (arc (map fpt r) pe p1)) as [e1|e|]; cbn [bind]; [|split; congruence|split; congruence].
    destruct (triangulate fuel ypd (arc (map fpt r) p1 pe)) as [e2|e|]; cbn [bind]; [|split; congruence|split; congruence].
    split; discriminate.
Qed.
