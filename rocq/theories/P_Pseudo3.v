(** Proofs about pseudopolygon: the result triangulates the polygon *)
From Coq Require Import ZArith Bool List Lia Arith Reals.
From Verif Require Import Base_Res Base_F64 Base_F64Arith Base_Geom M_Cmp M_Winding M_Triangle M_Planar M_Walker M_Pseudo
  S_Intersect S_Walker S_Pseudo P_F64Flocq P_Walker P_Walker7 P_Pseudo P_Pseudo2.
Import ListNotations.
Local Open Scope nat_scope.

Lemma tri3 l x y z : cyc_inc l -> l = [x; y; z] -> tri_on l [(x, y); (y, z); (z, x)].
Proof.
  intros C ->. pose proof (C 0 1 2 ltac:(lia) ltac:(lia) ltac:(cbn; lia)) as Q. cbn [nth] in Q. unfold cyc in Q. constructor.
  - intros i j [H|[H|[H|[]]]]; injection H as <- <-; cbn [In]; lia.
  - intros k K. cbn [length] in K. destruct k as [|[|[|k]]]; [| | |lia]; cbn; unfold joined; cbn [In]; tauto.
  - intros e f He Hf. unfold crossing, between, beyond.
    destruct He as [<-|[<-|[<-|[]]]], Hf as [<-|[<-|[<-|[]]]]; cbn [fst snd]; lia.
  - intros i j I J N. left. unfold joined. cbn [In] in *.
    destruct I as [<-|[<-|[<-|[]]]], J as [<-|[<-|[<-|[]]]]; try lia; tauto.
Qed.
Lemma tri_on_joined l E F : (forall i j, joined E i j <-> joined F i j) -> tri_on l E -> tri_on l F.
Proof.
  intros J T. assert (Swap : forall e f, crossing e f -> forall e', e' = e \/ e' = (snd e, fst e) -> forall f', f' = f \/ f' = (snd f, fst f) -> crossing e' f').
  { intros [a b] [c d] H e' He f' Hf. unfold crossing, between, beyond in *. destruct He as [-> | ->], Hf as [-> | ->]; cbn [fst snd] in *; lia. }
  assert (In2 : forall i j, In (i, j) F -> In (i, j) E \/ In (j, i) E) by (intros i j H; apply J; now left).
  constructor.
  - intros i j H. destruct (In2 i j H) as [H'|H']; apply (on_ends _ _ T) in H'; intuition congruence.
  - intros k K. apply J. now apply (on_sides _ _ T).
  - intros [i j] [i' j'] H H' X. destruct (In2 _ _ H) as [G|G], (In2 _ _ H') as [G'|G'];
      apply (on_planar _ _ T _ _ G G'); eapply Swap; try exact X; cbn [fst snd]; tauto.
  - intros i j I Jn N. destruct (on_maximal _ _ T i j I Jn N) as [M|([a b] & He & M)]; [left; now apply J|right].
    assert (Jab : joined F a b) by (apply J; now left). destruct Jab as [Q|Q]; eexists; (split; [exact Q|]); eapply Swap; try exact M; cbn [fst snd]; tauto.
Qed.

Lemma at_map P l k : k < length l -> at_ (map P l) k = P (nth k l 0).
Proof. intros K. unfold at_. rewrite (nth_indep _ _ (P 0)) by now rewrite map_length. apply map_nth. Qed.

Lemma tri4 l pe p1 ps p2 : cyc_inc l -> length l = 4 -> pe < 4 -> p1 < 4 -> ps < 4 -> p2 < 4 -> pe <> p1 -> ps <> pe -> ps <> p1 -> p2 <> pe -> p2 <> p1 -> p2 <> ps ->
  ~ adjacent 4 pe p1 ->
  tri_on l [(nth ps l 0, nth p1 l 0); (nth pe l 0, nth ps l 0); (nth pe l 0, nth p1 l 0); (nth p1 l 0, nth p2 l 0); (nth p2 l 0, nth pe l 0)].
Proof.
  intros C L E1 E2 E3 E4 N1 N2 N3 N4 N5 N6 A.
  assert (Z : (pe = 0 /\ p1 = 2) \/ (pe = 2 /\ p1 = 0) \/ (pe = 1 /\ p1 = 3) \/ (pe = 3 /\ p1 = 1)).
  { unfold adjacent in A. destruct pe as [|[|[|[|pe]]]], p1 as [|[|[|[|p1]]]]; try lia; cbn in A; lia. }
  pose (a1 := arc_idx l pe p1). pose (a2 := arc_idx l p1 pe).
  assert (C1 : cyc_inc a1) by (apply arc_cyc; try lia; assumption). assert (C2 : cyc_inc a2) by (apply arc_cyc; try lia; assumption).
  assert (X : forall x y, arc_idx l pe p1 = [nth pe l 0; x; nth p1 l 0] -> arc_idx l p1 pe = [nth p1 l 0; y; nth pe l 0] ->
    tri_on l ([(nth pe l 0, x); (x, nth p1 l 0); (nth p1 l 0, nth pe l 0)] ++ [(nth p1 l 0, y); (y, nth pe l 0); (nth pe l 0, nth p1 l 0)])).
  { intros x y Hx Hy. apply (tri_split l pe p1); try assumption; try lia.
    - rewrite L. unfold span. destruct (Nat.ltb_spec pe p1); lia.
    - rewrite L. unfold span. destruct (Nat.ltb_spec p1 pe); lia.
    - apply tri3; assumption.
    - apply tri3; assumption. }
  assert (Y : forall i j, i < 4 -> j = (i + 1) mod 4 -> forall k, k = (i + 2) mod 4 -> arc_idx l i k = [nth i l 0; nth j l 0; nth k l 0]).
  { intros i j I J k K. destruct l as [|u [|v [|w [|x [|]]]]]; try discriminate.
    destruct i as [|[|[|[|i]]]]; try lia; cbn in J, K; subst j k; reflexivity. }
  destruct Z as [[-> ->]|[[-> ->]|[[-> ->]|[-> ->]]]].
  - assert (P : (ps = 1 /\ p2 = 3) \/ (ps = 3 /\ p2 = 1)) by lia.
    specialize (X (nth 1 l 0) (nth 3 l 0) (Y 0 1 ltac:(lia) eq_refl 2 eq_refl) (Y 2 3 ltac:(lia) eq_refl 0 eq_refl)).
    eapply tri_on_joined; [|exact X]. intros i j. unfold joined. cbn [app In]. destruct P as [[-> ->]|[-> ->]]; rewrite !pair_equal_spec; clear; tauto.
  - assert (P : (ps = 1 /\ p2 = 3) \/ (ps = 3 /\ p2 = 1)) by lia.
    specialize (X (nth 3 l 0) (nth 1 l 0) (Y 2 3 ltac:(lia) eq_refl 0 eq_refl) (Y 0 1 ltac:(lia) eq_refl 2 eq_refl)).
    eapply tri_on_joined; [|exact X]. intros i j. unfold joined. cbn [app In]. destruct P as [[-> ->]|[-> ->]]; rewrite !pair_equal_spec; clear; tauto.
  - assert (P : (ps = 0 /\ p2 = 2) \/ (ps = 2 /\ p2 = 0)) by lia.
    specialize (X (nth 2 l 0) (nth 0 l 0) (Y 1 2 ltac:(lia) eq_refl 3 eq_refl) (Y 3 0 ltac:(lia) eq_refl 1 eq_refl)).
    eapply tri_on_joined; [|exact X]. intros i j. unfold joined. cbn [app In]. destruct P as [[-> ->]|[-> ->]]; rewrite !pair_equal_spec; clear; tauto.
  - assert (P : (ps = 0 /\ p2 = 2) \/ (ps = 2 /\ p2 = 0)) by lia.
    specialize (X (nth 0 l 0) (nth 2 l 0) (Y 3 0 ltac:(lia) eq_refl 1 eq_refl) (Y 1 2 ltac:(lia) eq_refl 3 eq_refl)).
    eapply tri_on_joined; [|exact X]. intros i j. unfold joined. cbn [app In]. destruct P as [[-> ->]|[-> ->]]; rewrite !pair_equal_spec; clear; tauto.
Qed.

Lemma arc_distinct P l a b : a < length l -> b < length l -> a <> b -> distinct (map P l) -> distinct (map P (arc_idx l a b)).
Proof.
  intros A B N D. destruct (span_lt (length l) a b A B N) as [S1 _]. pose proof D as [F _]. split.
  - rewrite Forall_forall in *. intros p H. apply in_map_iff in H as (i & <- & H). apply F. apply in_map.
    unfold arc_idx in H. apply in_map_iff in H as (t & <- & _). apply nth_In, go_on_lt. lia.
  - apply (NoDup_nth (map rpt (map P (arc_idx l a b))) (rpt (P 0))). rewrite !map_length, arc_length. intros i j I J E.
    rewrite !(map_nth rpt), !(map_nth P) in E. rewrite !arc_nth in E by lia. rewrite <- !at_map in E by (apply go_on_lt; lia).
    apply at_inj in E; [|exact D|rewrite map_length; apply go_on_lt; lia|rewrite map_length; apply go_on_lt; lia].
    rewrite !go_on_val in E by lia. destruct (Nat.ltb_spec (a + i) (length l)), (Nat.ltb_spec (a + j) (length l)); lia.
Qed.
Lemma nonadj_span n a b : 4 <= n -> a < n -> b < n -> a <> b -> ~ adjacent n a b -> 2 <= span n a b /\ 2 <= span n b a /\ S (span n a b) < n /\ S (span n b a) < n.
Proof.
  intros N A B D H. unfold adjacent in H. rewrite !go_on_val in H by lia. unfold span.
  destruct (Nat.ltb_spec a b), (Nat.ltb_spec b a), (Nat.ltb_spec (a + 1) n), (Nat.ltb_spec (b + 1) n); lia.
Qed.

Definition lines_of (P : nat -> pt) (E : list (nat * nat)) : list line := map (fun e => (P (fst e), P (snd e))) E.

(** What one step does with at least four distinct points. *)
Lemma split_shape tri ypd pts edges : distinct pts -> 4 <= length pts ->
  split_polygon tri ypd pts edges = Panic \/ split_polygon tri ypd pts edges = Err EEndless \/
  exists pe p1 ps p2, pe < length pts /\ p1 < length pts /\ ps < length pts /\ p2 < length pts /\
    pe <> p1 /\ ps <> pe /\ ps <> p1 /\ p2 <> pe /\ p2 <> p1 /\ p2 <> ps /\ ~ adjacent (length pts) pe p1 /\
    split_polygon tri ypd pts edges =
      if length pts =? 4 then
        Ok (edges ++ [(at_ pts ps, at_ pts p1); (at_ pts pe, at_ pts ps); (at_ pts pe, at_ pts p1);
                      (at_ pts p1, at_ pts p2); (at_ pts p2, at_ pts pe)])
      else do e1 <- tri (arc pts pe p1); do e2 <- tri (arc pts p1 pe); Ok (edges ++ e1 ++ e2).
Proof.
  intros D L. unfold split_polygon.
  match goal with |- context [closest ?a ?b ?c ?d ?e ?f ?g ?h ?i] => destruct (closest a b c d e f g h i) as [[p1|] p2] eqn:Cl; [|now left] end.
  apply closest_range in Cl; [|exact I|exact I|lia]. rewrite firstn_length, skipn_length in Cl.
  set (n := length pts) in *. replace (Nat.min (n - 1 - 1) (n - 1)) with (n - 2) in Cl by lia.
  destruct Cl as [R1 R2]. cbv zeta.
  set (q := match p2 with Some p2 => p2 | None => if (p1 - 1 =? 0) || (p1 - 1 =? n - 1) then p1 + 1 else p1 - 1 end).
  assert (Q : 1 <= q < n - 1 /\ q <> p1).
  { subst q. destruct p2 as [b|]; [lia|]. destruct (Nat.eqb_spec (p1 - 1) 0), (Nat.eqb_spec (p1 - 1) (n - 1)); cbn [orb]; lia. }
  destruct (flips ypd pts 0 p1 q (n - 1)) as [f|e|] eqn:Fl; cbn [bind].
  - set (r := if f then _ else _).
    assert (R : exists ps a b pe, r = (ps, a, b, pe) /\ ((ps = 0 /\ pe = n - 1) \/ (pe = 0 /\ ps = n - 1)) /\ 1 <= a < n - 1 /\ 1 <= b < n - 1 /\ a <> b).
    { subst r. destruct f; [exists (n - 1), q, p1, 0|exists 0, p1, q, (n - 1)]; (split; [reflexivity|lia]). }
    clearbody r q. destruct R as (ps & a & b & pe & -> & H1 & H2 & H3 & H4).
    destruct (rotate_spec pts pe a ps b D L H2 H1) as (pe' & p1' & ps' & -> & NA & H5).
    right; right. exists pe', p1', ps', b. fold n in NA. repeat (split; [lia|]). split; [exact NA|]. reflexivity.
  - right; left. unfold flips in Fl. destruct (circle_from_points 2 _ _ _); [discriminate|]. now injection Fl as <-.
  - now left.
Qed.

Lemma triangulate_S fuel ypd o : triangulate (S fuel) ypd o =
  do (points, edges) <- sub_rings (triangulate fuel ypd) o 0 o [] [] [];
  match points with
  | [] | [_] => Err ETooSmall
  | [a; b] => Ok [(a, b)]
  | a :: b :: c :: rest =>
      if (orientation ypd points =? wColinear)%Z then Err EAllColinear
      else match rest with
           | [] => Ok (edges ++ [(a, b); (b, c); (c, a)])
           | _ => split_polygon (triangulate fuel ypd) ypd points edges
           end
  end.
Proof. reflexivity. Qed.
Lemma triangulate_step fuel ypd a b c rest : distinct (a :: b :: c :: rest) -> triangulate (S fuel) ypd (a :: b :: c :: rest) =
  if (orientation ypd (a :: b :: c :: rest) =? wColinear)%Z then Err EAllColinear
  else match rest with
       | [] => Ok [(a, b); (b, c); (c, a)]
       | _ => split_polygon (triangulate fuel ypd) ypd (a :: b :: c :: rest) []
       end.
Proof. intros D. rewrite triangulate_S. rewrite sub_rings_distinct; [|exact D|intros q v []]. reflexivity. Qed.
Lemma if_ok (A : Type) (c : bool) (e : pp_err) (r : res pp_err A) v : (if c then Err e else r) = Ok v -> r = Ok v.
Proof. now destruct c. Qed.

Lemma split_on tri ypd P l edges :
  (forall l edges, cyc_inc l -> 3 <= length l -> distinct (map P l) -> tri (map P l) = Ok edges -> exists E, tri_on l E /\ edges = lines_of P E) ->
  cyc_inc l -> 4 <= length l -> distinct (map P l) -> split_polygon tri ypd (map P l) [] = Ok edges -> exists E, tri_on l E /\ edges = lines_of P E.
Proof.
  intros IH C L D H. assert (L4 : 4 <= length (map P l)) by now rewrite map_length.
  destruct (split_shape tri ypd (map P l) [] D L4) as [X|[X|(pe & p1 & ps & p2 & H1 & H2 & H3 & H4 & H5 & H6 & H7 & H8 & H9 & H10 & NA & X)]];
    rewrite X in H; clear X; [discriminate|discriminate|]. rewrite map_length in *.
  destruct (Nat.eqb_spec (length l) 4) as [E4|E4].
  - injection H as <-. rewrite E4 in *. eexists. split; [apply (tri4 l pe p1 ps p2); assumption|].
    unfold lines_of. cbn [map fst snd app]. rewrite !at_map by lia. reflexivity.
  - destruct (nonadj_span (length l) pe p1 L4 H1 H2 H5 NA) as (S1 & S2 & _).
    rewrite !arc_spec in H by (try assumption; now apply not_eq_sym).
    destruct (tri (map P (arc_idx l pe p1))) as [e1|e|] eqn:T1; cbn [bind] in H; [|discriminate|discriminate].
    destruct (tri (map P (arc_idx l p1 pe))) as [e2|e|] eqn:T2; cbn [bind] in H; [|discriminate|discriminate].
    injection H as <-.
    apply IH in T1; [|now apply arc_cyc|rewrite arc_length; lia|now apply arc_distinct].
    apply IH in T2; [|apply arc_cyc; try assumption; now apply not_eq_sym|rewrite arc_length; lia|apply arc_distinct; try assumption; now apply not_eq_sym].
    destruct T1 as (E1 & T1 & ->), T2 as (E2 & T2 & ->).
    exists (E1 ++ E2). split; [now apply (tri_split l pe p1)|]. unfold lines_of. now rewrite map_app.
Qed.
Lemma triangulate_cases fuel ypd (P : nat -> pt) l edges : 3 <= length l -> distinct (map P l) -> triangulate (S fuel) ypd (map P l) = Ok edges ->
  (exists x y z, l = [x; y; z] /\ edges = [(P x, P y); (P y, P z); (P z, P x)]) \/
  (4 <= length l /\ split_polygon (triangulate fuel ypd) ypd (map P l) [] = Ok edges).
Proof.
  intros L D H. destruct l as [|x [|y [|z [|w rest]]]]; [cbn [length] in L; lia|cbn [length] in L; lia|cbn [length] in L; lia| |].
  - left. exists x, y, z. split; [reflexivity|]. cbn [map] in H, D. rewrite triangulate_step in H by exact D. apply if_ok in H.
    injection H as <-. reflexivity.
  - right. split; [cbn [length]; lia|]. cbn [map] in *. rewrite triangulate_step in H by exact D. apply if_ok in H. cbv iota in H.
    exact H.
Qed.
Theorem triangulate_on ypd P fuel : forall l edges, cyc_inc l -> 3 <= length l -> distinct (map P l) ->
  triangulate fuel ypd (map P l) = Ok edges -> exists E, tri_on l E /\ edges = lines_of P E.
Proof.
  induction fuel as [|fuel IH]; intros l edges C L D H; [discriminate|].
  apply triangulate_cases in H; [|exact L|exact D]. destruct H as [(x & y & z & -> & ->)|[L4 H]].
  - exists [(x, y); (y, z); (z, x)]. split; [now apply tri3|reflexivity].
  - apply split_on with (2 := C) (3 := L4) (4 := D) in H; [exact H|exact IH].
Qed.

Lemma map_at_seq pts : map (at_ pts) (seq 0 (length pts)) = pts.
Proof.
  apply (nth_ext _ _ (at_ pts 0) (f64_zero, f64_zero)); [now rewrite map_length, seq_length|].
  intros k K. rewrite map_length, seq_length in K. rewrite map_nth, seq_nth by assumption. reflexivity.
Qed.
Theorem triangulates ypd pts edges : distinct pts -> 3 <= length pts -> triangulate_points ypd pts = Ok edges ->
  exists E, triangulation (length pts) E /\ edges = map (fun e => (at_ pts (fst e), at_ pts (snd e))) E.
Proof.
  intros D L H. unfold triangulate_points in H. rewrite <- (map_at_seq pts) in H at 2.
  apply triangulate_on in H; [|apply cyc_seq|now rewrite seq_length|now rewrite map_at_seq].
  destruct H as (E & T & ->). exists E. split; [|reflexivity]. constructor.
  - intros i j H. apply (on_ends _ _ T) in H. rewrite !in_seq in H. lia.
  - intros i I. pose proof (on_sides _ _ T i ltac:(now rewrite seq_length)) as S. rewrite seq_length in S.
    rewrite !seq_nth in S by (try apply go_on_lt; lia). exact S.
  - apply (on_planar _ _ T).
  - intros i j I J. apply (on_maximal _ _ T); apply in_seq; lia.
Qed.
