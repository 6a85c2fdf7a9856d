(** Proofs about pseudopolygon: it ends; small integer points *)
From Coq Require Import ZArith Bool List Lia Arith Reals Lra.
From Flocq Require Import Core.Core.
From Verif Require Import Base_Res Base_F64 Base_F64Arith Base_Geom M_Cmp M_Winding M_Triangle M_Planar M_Walker M_Pseudo
  S_Intersect S_Winding S_Walker S_Pseudo P_F64Flocq P_F64Round P_F64Grid P_Winding P_Winding2 P_Walker P_Walker7 P_Extent2 P_PlanarLine P_Circle
  P_Pseudo P_Pseudo2 P_Pseudo3 P_Pseudo4.
Import ListNotations.
Local Open Scope nat_scope.

(** ** After the rings *)
Definition finish (tri : list pt -> res pp_err (list line)) (ypd : bool) (points : list pt) (edges : list line) : res pp_err (list line) :=
  match points with
  | [] | [_] => Err ETooSmall
  | [a; b] => Ok [(a, b)]
  | a :: b :: c :: rest =>
      if (orientation ypd points =? wColinear)%Z then Err EAllColinear
      else match rest with
           | [] => Ok (edges ++ [(a, b); (b, c); (c, a)])
           | _ => split_polygon tri ypd points edges
           end
  end.
Lemma triangulate_finish fuel ypd o : triangulate (S fuel) ypd o =
  do (points, edges) <- sub_rings (triangulate fuel ypd) o 0 o [] [] []; finish (triangulate fuel ypd) ypd points edges.
Proof. rewrite triangulate_S. reflexivity. Qed.
Lemma finish_cases tri ypd points edges :
  (length points < 2 /\ finish tri ypd points edges = Err ETooSmall) \/
  (orientation ypd points = wColinear /\ finish tri ypd points edges = Err EAllColinear) \/
  (exists a b, points = [a; b] /\ finish tri ypd points edges = Ok [(a, b)]) \/
  (exists a b c, points = [a; b; c] /\ finish tri ypd points edges = Ok (edges ++ [(a, b); (b, c); (c, a)])) \/
  (4 <= length points /\ orientation ypd points <> wColinear /\ finish tri ypd points edges = split_polygon tri ypd points edges).
Proof.
  destruct points as [|a [|b [|c rest]]].
  - left. split; [cbn; lia|reflexivity].
  - left. split; [cbn; lia|reflexivity].
  - right; right; left. now exists a, b.
  - unfold finish. destruct (Z.eqb_spec (orientation ypd (a :: b :: c :: rest)) wColinear) as [E|E]; [right; left; split; [exact E|reflexivity]|].
    destruct rest as [|d rest]; right; right; right.
    + left. now exists a, b, c.
    + right. cbn [length]. split; [lia|]. split; [exact E|reflexivity].
Qed.

Lemma arc_in pts a b x : a < length pts -> b < length pts -> a <> b -> In x (arc pts a b) -> In x pts.
Proof.
  intros A B N H. rewrite <- (map_at_seq pts) in H. rewrite arc_spec in H by (rewrite ?seq_length; assumption).
  apply in_map_iff in H as (k & <- & H). unfold arc_idx in H. apply in_map_iff in H as (t & <- & _). rewrite seq_length.
  rewrite seq_nth by (apply go_on_lt; lia). apply nth_In. apply go_on_lt. lia.
Qed.
Lemma arc_len pts a b : a < length pts -> b < length pts -> a <> b -> length (arc pts a b) = S (span (length pts) a b).
Proof.
  intros A B N. rewrite <- (map_at_seq pts) at 1. rewrite arc_spec by (rewrite ?seq_length; assumption).
  now rewrite map_length, arc_length, seq_length.
Qed.

Lemma joins_incl o o' l : incl o o' -> joins o l -> joins o' l.
Proof. intros I [A B]. split; now apply I. Qed.

Lemma split_ends tri ypd o pts edges :
  (forall l, Forall finite_pt l -> length l < length o -> tri l <> Err EOutOfFuel /\ forall es, tri l = Ok es -> forall e, In e es -> joins l e) ->
  distinct pts -> incl pts o -> 4 <= length pts -> length pts <= length o -> (forall e, In e edges -> joins o e) ->
  split_polygon tri ypd pts edges <> Err EOutOfFuel /\ forall es, split_polygon tri ypd pts edges = Ok es -> forall e, In e es -> joins o e.
Proof.
  intros IH D Ic L4 L He.
  destruct (split_shape tri ypd pts edges D L4) as [X|[X|(pe & p1 & ps & p2 & H1 & H2 & H3 & H4 & H5 & H6 & H7 & H8 & H9 & H10 & NA & X)]];
    rewrite X; clear X; [split; discriminate|split; discriminate|].
  destruct (Nat.eqb_spec (length pts) 4) as [E4|E4].
  - split; [discriminate|]. intros es Hs e Hin. injection Hs as <-. apply in_app_or in Hin as [Hin|Hin]; [now apply He|].
    assert (A : forall i, i < length pts -> In (at_ pts i) o) by (intros i I; apply Ic, nth_In, I).
    destruct Hin as [<-|[<-|[<-|[<-|[<-|[]]]]]]; split; cbn [fst snd]; now apply A.
  - destruct (nonadj_span (length pts) pe p1 L4 H1 H2 H5 NA) as (S1 & S2 & S3 & S4).
    assert (Fa : forall a b, a < length pts -> b < length pts -> a <> b -> Forall finite_pt (arc pts a b) /\ incl (arc pts a b) o).
    { intros a b A B N. split; [apply Forall_forall; intros x Hx; apply arc_in in Hx; try assumption; destruct D as [F _]; rewrite Forall_forall in F; now apply F|].
      intros x Hx. apply Ic. now apply (arc_in pts a b). }
    destruct (Fa pe p1 H1 H2 H5) as [F1 I1]. destruct (Fa p1 pe H2 H1 (not_eq_sym H5)) as [F2 I2].
    destruct (IH (arc pts pe p1) F1 ltac:(rewrite arc_len by assumption; lia)) as [T1 J1].
    destruct (IH (arc pts p1 pe) F2 ltac:(rewrite arc_len by (try assumption; now apply not_eq_sym); lia)) as [T2 J2].
    destruct (tri (arc pts pe p1)) as [e1|e|]; cbn [bind]; [|split; congruence|split; discriminate].
    destruct (tri (arc pts p1 pe)) as [e2|e|]; cbn [bind]; [|split; congruence|split; discriminate].
    split; [discriminate|]. intros es Hs e Hin. injection Hs as <-. apply in_app_or in Hin as [Hin|Hin]; [now apply He|].
    apply in_app_or in Hin as [Hin|Hin]; [apply (joins_incl _ _ _ I1), (J1 e1 eq_refl e Hin)|apply (joins_incl _ _ _ I2), (J2 e2 eq_refl e Hin)].
Qed.

Theorem triangulate_ends ypd fuel : forall o, Forall finite_pt o -> length o < fuel ->
  triangulate fuel ypd o <> Err EOutOfFuel /\ forall es, triangulate fuel ypd o = Ok es -> forall e, In e es -> joins o e.
Proof.
  induction fuel as [|fuel IH]; intros o F L; [lia|]. rewrite triangulate_finish.
  assert (Sub : forall n, sub_list o n -> Forall finite_pt n).
  { intros n (I & _). apply Forall_forall. intros x X. rewrite Forall_forall in F. apply F, I, X. }
  destruct (sub_rings_start (triangulate fuel ypd) o F) as [(n & e & S & T & R)|[(n & S & T & R)|(pts & edges & R & D & Ic & Ln & He)]];
    rewrite R; cbn [bind].
  - split; [|discriminate]. intros Q. injection Q as ->. apply (proj1 (IH n (Sub n S) ltac:(destruct S as (_ & S & _); lia)) T).
  - split; discriminate.
  - assert (Hj : forall e, In e edges -> joins o e).
    { intros e Hin. destruct (He e Hin) as (n & es & S & T & I). apply (joins_incl n); [apply S|].
      destruct (IH n (Sub n S) ltac:(destruct S as (_ & S & _); lia)) as [_ J]. exact (J es T e I). }
    destruct (finish_cases (triangulate fuel ypd) ypd pts edges) as [[_ ->]|[[_ ->]|[(a & b & -> & ->)|[(a & b & c & -> & ->)|(L4 & _ & ->)]]]].
    + split; discriminate.
    + split; discriminate.
    + split; [discriminate|]. intros es Q e Hin. injection Q as <-. destruct Hin as [<-|[]]. split; apply Ic; cbn; tauto.
    + split; [discriminate|]. intros es Q e Hin. injection Q as <-. apply in_app_or in Hin as [Hin|Hin]; [now apply Hj|].
      destruct Hin as [<-|[<-|[<-|[]]]]; split; apply Ic; cbn; tauto.
    + apply split_ends; try assumption. intros l Fl Ll. apply IH; [exact Fl|lia].
Qed.

(** ** Small integer points *)
Notation small := small_point.
Lemma fpt_finite p : small p -> finite_pt (fpt p).
Proof.
  intros [A B]. unfold fpt, finite_pt. cbn [fst snd].
  destruct (repr_ofZ (fst p)) as (W1 & F1 & _); [unfold two53; lia|]. destruct (repr_ofZ (snd p)) as (W2 & F2 & _); [unfold two53; lia|]. tauto.
Qed.
Lemma fpt_inj p q : small p -> small q -> rpt (fpt p) = rpt (fpt q) -> p = q.
Proof.
  intros [A B] [C D] E. unfold rpt, fpt in E. cbn [fst snd] in E. apply pair_equal_spec in E as [E1 E2].
  destruct (repr_ofZ (fst p)) as (_ & _ & V1); [unfold two53; lia|]. destruct (repr_ofZ (snd p)) as (_ & _ & V2); [unfold two53; lia|].
  destruct (repr_ofZ (fst q)) as (_ & _ & V3); [unfold two53; lia|]. destruct (repr_ofZ (snd q)) as (_ & _ & V4); [unfold two53; lia|].
  rewrite V1, V3 in E1. rewrite V2, V4 in E2. change (bpow radix2 0) with 1%R in *. rewrite !Rmult_1_r in *.
  apply eq_IZR in E1, E2. destruct p, q; cbn in *; congruence.
Qed.
Lemma small_is_ring r : Forall small r -> (Z.of_nat (length r) <= 2 ^ 18)%Z -> small_ring r.
Proof.
  intros S L. exists (2 ^ 17)%Z. rewrite Forall_forall in S. split; [|lia]. intros p q Hp Hq. destruct (S p Hp), (S q Hq). lia.
Qed.
Lemma orientation_small ypd r : Forall small r -> (Z.of_nat (length r) <= 2 ^ 18)%Z ->
  orientation ypd (map fpt r) = ((if ypd then -1 else 1) * Z.sgn (area2 r))%Z.
Proof.
  intros S L. apply orientation_int; [|now apply small_is_ring]. intros p Hp. rewrite Forall_forall in S. destruct (S p Hp). lia.
Qed.
Lemma turn_area a b c : area2 [a; b; c] = turn a b c.
Proof. unfold area2, turn, cross. cbn [app path_sum]. unfold cross. lia. Qed.
Lemma colinear3_small ypd a b c : small a -> small b -> small c -> colinear3 ypd (fpt a) (fpt b) (fpt c) = (turn a b c =? 0)%Z.
Proof.
  intros A B C. unfold colinear3. change [fpt a; fpt b; fpt c] with (map fpt [a; b; c]).
  rewrite orientation_small; [|constructor; [exact A|constructor; [exact B|constructor; [exact C|constructor]]]|cbn [length]; lia]. rewrite turn_area. unfold wColinear.
  destruct (Z.eqb_spec (turn a b c) 0) as [->|N]; [now destruct ypd|]. apply Z.eqb_neq. destruct ypd; lia.
Qed.

Lemma half_repr s w : (Z.abs s <= 2 ^ 20)%Z -> repr 0 s w -> repr (-1) s (f64_div w f64_two).
Proof.
  intros S (W & F & V). assert (T : f64_wf f64_two = true /\ f64_finite f64_two = true /\ f64_R f64_two = 2%R).
  { split; [reflexivity|]. split; [reflexivity|]. replace f64_two with (f64_ofZ 2) by reflexivity. destruct (repr_ofZ 2) as (_ & _ & V2); [unfold two53; lia|].
    rewrite V2. change (bpow radix2 0) with 1%R. lra. }
  destruct T as (W2 & F2 & V2).
  apply (is_round_repr (-1) s _ (f64_R w / f64_R f64_two)); [lia|unfold two53; lia| |].
  - apply div_round; try assumption. rewrite V2. lra.
  - rewrite V, V2. change (bpow radix2 0) with 1%R. change (bpow radix2 (-1)) with (/ 2)%R. field.
Qed.
Lemma repr_double n w : repr 0 n w -> repr (-1) (2 * n) w.
Proof.
  intros (W & F & V). split; [exact W|]. split; [exact F|]. rewrite V, mult_IZR. change (bpow radix2 0) with 1%R. change (bpow radix2 (-1)) with (/ 2)%R. field.
Qed.
Lemma finite_lt_inf w : f64_finite w = true -> f64_lt w f64_pinf = true.
Proof.
  intros F. pose proof (finite_key w F) as K. unfold f64_lt. rewrite key_pinf.
  replace (f64_isnan w) with false; [|symmetry; now apply finite_nn]. apply Z.ltb_lt. lia.
Qed.
Lemma middle_near a b c : small a -> small b -> small c ->
  f64_lt (point_distance (f64_div (f64_add (fst (fpt a)) (fst (fpt b))) f64_two, f64_div (f64_add (snd (fpt a)) (snd (fpt b))) f64_two) (fpt c)) f64_pinf = true.
Proof.
  intros [A1 A2] [B1 B2] [C1 C2].
  assert (H : forall x y, (Z.abs x <= 2 ^ 16)%Z -> (Z.abs y <= 2 ^ 16)%Z -> repr (-1) (x + y) (f64_div (f64_add (f64_ofZ x) (f64_ofZ y)) f64_two)).
  { intros x y X Y. apply half_repr; [lia|]. apply repr_add; [lia|unfold two53; lia| |]; apply repr_ofZ; unfold two53; lia. }
  set (p := (f64_div _ _, f64_div _ _)).
  destruct (distance_grid (-1) (fst a + fst b, snd a + snd b)%Z (2 * fst c, 2 * snd c)%Z p (fpt c)) as (_ & _ & F & _); cbn [fst snd]; [lia| |lia|lia|].
  - constructor; [split; cbn [fst snd]; unfold p, fpt; cbn [fst snd]; now apply H|]. constructor; [|constructor].
    split; unfold fpt; cbn [fst snd]; apply repr_double, repr_ofZ; unfold two53; lia.
  - now apply finite_lt_inf.
Qed.
