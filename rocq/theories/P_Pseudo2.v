(** Proofs about pseudopolygon: distinct points *)
From Coq Require Import ZArith Bool List Lia Arith Reals.
From Verif Require Import Base_Res Base_F64 Base_F64Arith Base_Geom M_Cmp M_Winding M_Triangle M_Planar M_Walker M_Pseudo
  S_Intersect S_Walker S_Pseudo P_F64Flocq P_Walker P_Walker7 P_Pseudo.
Import ListNotations.
Local Open Scope nat_scope.

Lemma seen_at_none m p : (forall q v, In (q, v) m -> go_eq q p = false) -> seen_at m p = None.
Proof.
  induction m as [|[q v] m IH]; intros H; [reflexivity|]. cbn [seen_at]. rewrite (H q v (or_introl eq_refl)).
  apply IH. intros q' v' I. apply (H q' v'). now right.
Qed.
Lemma go_eq_false p q : finite_pt p -> finite_pt q -> rpt p <> rpt q -> go_eq p q = false.
Proof. intros A B N. destruct (go_eq p q) eqn:E; [|reflexivity]. exfalso. now apply N, go_eq_R. Qed.
Lemma sub_rings_distinct tri o rest : forall i points edges seen, distinct rest ->
  (forall q v, In (q, v) seen -> forall p, In p rest -> go_eq q p = false) ->
  sub_rings tri o i rest points edges seen = Ok (points ++ rest, edges).
Proof.
  induction rest as [|p rest IH]; intros i points edges seen [F N] H; [cbn; now rewrite app_nil_r|].
  cbn [sub_rings]. rewrite seen_at_none by (intros q v I; apply (H q v I); now left).
  inversion F as [|? ? Fp Fr]; subst. cbn [map] in N. inversion N as [|? ? Np Nr]; subst.
  rewrite IH; [now rewrite <- app_assoc|now split|].
  intros q v I p' Ip'. destruct I as [I|I].
  - apply pair_equal_spec in I as [<- _]. rewrite Forall_forall in Fr. apply go_eq_false; [exact Fp|now apply Fr|].
    intros E. apply Np. rewrite E. now apply in_map.
  - apply filter_In in I as [I _]. apply (H q v I). now right.
Qed.

Lemma at_finite pts i : distinct pts -> i < length pts -> finite_pt (at_ pts i).
Proof. intros [F _] I. rewrite Forall_forall in F. apply F, nth_In, I. Qed.
Lemma at_inj pts i j : distinct pts -> i < length pts -> j < length pts -> rpt (at_ pts i) = rpt (at_ pts j) -> i = j.
Proof.
  intros [_ N] I J E. unfold at_ in E. rewrite <- !(map_nth rpt) in E.
  apply (proj1 (NoDup_nth (map rpt pts) (rpt (f64_zero, f64_zero))) N); [now rewrite map_length|now rewrite map_length|exact E].
Qed.

(** ** The map of sides *)
Lemma norm_same a b c d : finite_pt a -> finite_pt b -> finite_pt c -> finite_pt d -> rpt a <> rpt b -> rpt c <> rpt d ->
  edge_eq (normalize_line (a, b)) (normalize_line (c, d)) = true <-> (rpt a = rpt c /\ rpt b = rpt d) \/ (rpt a = rpt d /\ rpt b = rpt c).
Proof.
  intros Fa Fb Fc Fd Nab Ncd. unfold normalize_line, edge_eq. cbn [fst snd].
  assert (G : forall p q r s, finite_pt p -> finite_pt q -> finite_pt r -> finite_pt s ->
    go_eq p q && go_eq r s = true <-> rpt p = rpt q /\ rpt r = rpt s).
  { intros p q r s F1 F2 F3 F4. rewrite andb_true_iff. split; intros [H1 H2].
    - split; now apply go_eq_R.
    - split; now apply go_eq_R'. }
  assert (Less : forall p q r s, finite_pt p -> finite_pt q -> finite_pt r -> finite_pt s -> rpt p = rpt r -> rpt q = rpt s -> xy_less p q = xy_less r s).
  { clear. intros p q r s (A1 & A2 & A3 & A4) (B1 & B2 & B3 & B4) (C1 & C2 & C3 & C4) (D1 & D2 & D3 & D4) E1 E2.
    unfold rpt in E1, E2. apply pair_equal_spec in E1 as [E1 E1']. apply pair_equal_spec in E2 as [E2 E2'].
    unfold xy_less, f64_ne.
    assert (Q : forall a b c d, f64_wf a = true -> f64_wf b = true -> f64_wf c = true -> f64_wf d = true ->
      f64_finite a = true -> f64_finite b = true -> f64_finite c = true -> f64_finite d = true -> f64_R a = f64_R c -> f64_R b = f64_R d ->
      f64_eq a b = f64_eq c d /\ f64_lt a b = f64_lt c d).
    { intros a b c d ? ? ? ? ? ? ? ? U V. split; apply eq_true_iff_eq; [rewrite !P_F64Flocq.eq_R by assumption|rewrite !P_F64Flocq.lt_R by assumption]; rewrite U, V; tauto. }
    destruct (Q (fst p) (fst q) (fst r) (fst s)) as [Q1 Q2]; try assumption.
    destruct (Q (snd p) (snd q) (snd r) (snd s)) as [Q3 Q4]; try assumption.
    now rewrite Q1, Q2, Q4. }
  pose proof (xy_less_total a b Fa Fb Nab) as Tab. pose proof (xy_less_total c d Fc Fd Ncd) as Tcd.
  destruct (xy_less a b) eqn:Lab, (xy_less c d) eqn:Lcd; cbn [fst snd]; rewrite G by assumption.
  - split; [intros [H1 H2]; left; now split|intros [[H1 H2]|[H1 H2]]; [now split|]].
    rewrite (Less a b d c) in Lab by assumption. rewrite Lab in Tcd. discriminate.
  - split; [intros [H1 H2]; right; now split|intros [[H1 H2]|[H1 H2]]; [|now split]].
    rewrite (Less a b c d) in Lab by assumption. congruence.
  - split; [intros [H1 H2]; right; now split|intros [[H1 H2]|[H1 H2]]; [|now split]].
    rewrite (Less a b c d) in Lab by assumption. congruence.
  - split; [intros [H1 H2]; left; now split|intros [[H1 H2]|[H1 H2]]; [now split|]].
    rewrite (Less a b d c) in Lab by assumption. rewrite Lab in Tcd. discriminate.
Qed.
Lemma em_sides_in pts e d : forall em lp, In e (em_sides em lp pts) <->
  In e em \/ exists k, k < length pts /\ e = normalize_line (nth k (lp :: pts) d, nth k pts d).
Proof.
  induction pts as [|p pts IH]; intros em lp; cbn [em_sides].
  - split; [now left|intros [H|(k & K & _)]; [exact H|cbn in K; lia]].
  - rewrite IH. unfold em_add. cbn [In length]. split.
    + intros [[H|H]|(k & K & H)]; [right; exists 0; split; [lia|now rewrite <- H]|now left|right; exists (S k); split; [lia|exact H]].
    + intros [H|(k & K & H)]; [left; now right|]. destruct k as [|k]; [left; left; now rewrite H|right; exists k; split; [lia|exact H]].
Qed.
Lemma last_indep (l : list pt) a b : l <> [] -> last l a = last l b.
Proof. intros N. induction l as [|x l IH]; [now destruct N|]. destruct l as [|y l]; [reflexivity|]. apply IH. discriminate. Qed.
Definition adjacent (n i j : nat) : Prop := (i < n /\ j = go_on n i 1) \/ (j < n /\ i = go_on n j 1).
Lemma new_edge_map_in pts e : In e (new_edge_map pts) <->
  exists k, k < length pts /\ e = normalize_line (at_ pts k, at_ pts (go_on (length pts) k 1)).
Proof.
  destruct pts as [|p tl]; [split; [intros []|intros (k & K & _); cbn in K; lia]|].
  unfold new_edge_map. rewrite (em_sides_in _ _ (f64_zero, f64_zero)). cbn [In].
  set (pts := p :: tl). assert (L : 0 < length pts) by (subst pts; cbn; lia).
  assert (La : last pts p = at_ pts (length pts - 1)).
  { unfold at_. clear L. subst pts. revert p. induction tl as [|q tl IH]; intros p; [reflexivity|].
    change (last (p :: q :: tl) p) with (last (q :: tl) p). rewrite (last_indep (q :: tl) p q) by discriminate.
    rewrite IH. cbn [length nth]. replace (S (length tl) - 1) with (length tl) by lia. replace (S (S (length tl)) - 1) with (S (length tl)) by lia. reflexivity. }
  split.
  - intros [[]|(k & K & ->)]. destruct k as [|k].
    + exists (length pts - 1). split; [lia|]. replace (go_on (length pts) (length pts - 1) 1) with 0; [cbn [nth]; now rewrite La|].
      unfold go_on. replace (length pts - 1 + 1) with (length pts) by lia. symmetry. apply Nat.mod_same. lia.
    + exists k. split; [lia|]. rewrite go_on_val by lia. rewrite Nat.add_1_r. destruct (Nat.ltb_spec (S k) (length pts)); [reflexivity|lia].
  - intros (k & K & ->). right. destruct (Nat.eq_dec k (length pts - 1)) as [->|N].
    + exists 0. split; [exact L|]. cbn [nth]. rewrite La. unfold go_on. replace (length pts - 1 + 1) with (length pts) by lia.
      rewrite Nat.mod_same by lia. reflexivity.
    + exists (S k). split; [lia|]. rewrite go_on_val by lia. rewrite Nat.add_1_r. destruct (Nat.ltb_spec (S k) (length pts)); [reflexivity|lia].
Qed.
Lemma go_on_lt n k t : 0 < n -> go_on n k t < n.
Proof. intros H. apply Nat.mod_upper_bound. lia. Qed.
Lemma em_contains_adj pts i j : distinct pts -> 2 <= length pts -> i < length pts -> j < length pts -> i <> j ->
  em_contains (new_edge_map pts) (at_ pts i) (at_ pts j) = true <-> adjacent (length pts) i j.
Proof.
  intros D L I J N. unfold em_contains. rewrite existsb_exists.
  assert (Nx : forall k, k < length pts -> k <> go_on (length pts) k 1).
  { intros k K. rewrite go_on_val by lia. destruct (Nat.ltb_spec (k + 1) (length pts)); lia. }
  split.
  - intros (e & He & H). apply new_edge_map_in in He as (k & K & ->). pose proof (go_on_lt (length pts) k 1 ltac:(lia)) as G.
    apply norm_same in H; try now apply at_finite.
    + destruct H as [[H1 H2]|[H1 H2]]; apply at_inj in H1, H2; try assumption; subst; [left|right]; now split.
    + intros E. apply N. now apply (at_inj pts).
    + intros E. apply (Nx k K). now apply (at_inj pts).
  - assert (Go : forall x y, x < length pts -> y < length pts -> x <> y -> y = go_on (length pts) x 1 ->
      forall a b, (a = x /\ b = y) \/ (a = y /\ b = x) -> edge_eq (normalize_line (at_ pts a, at_ pts b)) (normalize_line (at_ pts x, at_ pts y)) = true).
    { intros x y X Y XY E a b AB. apply norm_same; try (apply at_finite; [exact D|destruct AB as [[-> ->]|[-> ->]]; assumption]); try (now apply at_finite).
      - intros Q. apply XY. destruct AB as [[-> ->]|[-> ->]]; [|symmetry]; now apply (at_inj pts).
      - intros Q. apply XY. now apply (at_inj pts).
      - destruct AB as [[-> ->]|[-> ->]]; [left|right]; now split. }
    intros [[X E]|[X E]].
    + exists (normalize_line (at_ pts i, at_ pts j)). split; [apply new_edge_map_in; exists i; split; [exact I|now rewrite <- E]|].
      apply Go; try assumption. now left.
    + exists (normalize_line (at_ pts j, at_ pts i)). split; [apply new_edge_map_in; exists j; split; [exact J|now rewrite <- E]|].
      apply Go; try assumption; [now apply not_eq_sym|now right].
Qed.

(** ** The point closest to the middle of the side *)
Lemma closest_cons ypd pts pe c x cands i p1 p2 d : exists (b : bool) (d' : f64),
  closest ypd pts pe c i (x :: cands) p1 p2 d = if b then closest ypd pts pe c (S i) cands (Some i) p1 d' else closest ypd pts pe c (S i) cands p1 p2 d.
Proof. eexists. eexists. lazy beta iota zeta delta [closest]. reflexivity. Qed.
Lemma closest_range ypd pts pe c cands : forall i p1 p2 d q1 q2, closest ypd pts pe c i cands p1 p2 d = (q1, q2) ->
  match p1 with Some a => 1 <= a < i | None => True end -> match p2, p1 with Some b, Some a => 1 <= b < a | Some _, None => False | None, _ => True end -> 1 <= i ->
  match q1 with Some a => 1 <= a < i + length cands | None => True end /\
  match q2, q1 with Some b, Some a => 1 <= b < a | Some _, None => False | None, _ => True end.
Proof.
  induction cands as [|x cands IH]; intros i p1 p2 d q1 q2 H A B I.
  - cbn [closest] in H. injection H as <- <-. split; [destruct p1; [cbn [length]; lia|exact Logic.I]|exact B].
  - destruct (closest_cons ypd pts pe c x cands i p1 p2 d) as (b & d' & E). rewrite E in H. clear E.
    replace (i + length (x :: cands)) with (S i + length cands) by (cbn [length]; lia).
    destruct b.
    + apply IH in H; [exact H|lia| |lia]. destruct p1; [lia|exact Logic.I].
    + apply IH in H; [exact H| |exact B|lia]. destruct p1; [lia|exact Logic.I].
Qed.

(** ** Rotating the edge *)
Lemma rotate_step fuel em pts pe p1 ps p2 count : count < 3 ->
  rotate_edge (S fuel) em pts pe p1 ps p2 count false =
  if em_contains em (at_ pts pe) (at_ pts p1) then rotate_edge fuel em pts ps pe p1 p2 (S count) false else Some (pe, p1, ps, p2, false).
Proof.
  intros C. cbn [rotate_edge]. destruct (em_contains em (at_ pts pe) (at_ pts p1)); [|reflexivity].
  destruct (Nat.ltb_spec 3 (S count)); [lia|reflexivity].
Qed.
Lemma rotate_spec pts pe p1 ps p2 : distinct pts -> 4 <= length pts -> 1 <= p1 < length pts - 1 ->
  (ps = 0 /\ pe = length pts - 1) \/ (pe = 0 /\ ps = length pts - 1) ->
  exists pe' p1' ps', rotate_edge 9 (new_edge_map pts) pts pe p1 ps p2 0 false = Some (pe', p1', ps', p2, false) /\
    ~ adjacent (length pts) pe' p1' /\ ((pe' = pe /\ p1' = p1 /\ ps' = ps) \/ (pe' = p1 /\ p1' = ps /\ ps' = pe)).
Proof.
  intros D L P1 E.
  assert (C : forall i j, i < length pts -> j < length pts -> i <> j -> ~ adjacent (length pts) i j -> em_contains (new_edge_map pts) (at_ pts i) (at_ pts j) = false).
  { intros i j I J N NA. destruct (em_contains (new_edge_map pts) (at_ pts i) (at_ pts j)) eqn:Q; [|reflexivity].
    exfalso. apply NA. apply em_contains_adj; try assumption. lia. }
  assert (Adj : em_contains (new_edge_map pts) (at_ pts ps) (at_ pts pe) = true).
  { apply em_contains_adj; [exact D|lia|lia|lia|lia|]. unfold adjacent. rewrite !go_on_val by lia.
    destruct (Nat.ltb_spec (ps + 1) (length pts)), (Nat.ltb_spec (pe + 1) (length pts)); lia. }
  set (em := new_edge_map pts) in *. rewrite rotate_step by lia.
  destruct (em_contains em (at_ pts pe) (at_ pts p1)) eqn:H1.
  - rewrite rotate_step by lia. rewrite Adj.
    assert (NA : ~ adjacent (length pts) p1 ps).
    { subst em. apply em_contains_adj in H1; [|exact D|lia|lia|lia|lia]. unfold adjacent in *. clear C Adj. rewrite !go_on_val in * by lia.
      destruct (Nat.ltb_spec (ps + 1) (length pts)), (Nat.ltb_spec (pe + 1) (length pts)), (Nat.ltb_spec (p1 + 1) (length pts)); lia. }
    exists p1, ps, pe. split; [|split; [exact NA|right; tauto]].
    rewrite rotate_step by lia. rewrite C; [reflexivity|lia|lia|lia|exact NA].
  - exists pe, p1, ps. split; [reflexivity|]. split; [|left; tauto].
    intros Q. apply (em_contains_adj pts) in Q; [subst em; congruence|exact D|lia|lia|lia|lia].
Qed.

(** ** Arcs *)
Lemma arc_after_spec pts d : forall fuel i, i < length pts -> S d < length pts -> S d <= fuel ->
  arc_after fuel pts i (go_on (length pts) i (S d)) = map (fun t => at_ pts (go_on (length pts) i t)) (seq 1 (S d)).
Proof.
  induction d as [|d IH]; intros fuel i I L F; (destruct fuel as [|fuel]; [lia|]); cbn [arc_after].
  - assert (N : (if length pts <=? S i then 0 else S i) = go_on (length pts) i 1).
    { rewrite go_on_val by lia. destruct (Nat.leb_spec (length pts) (S i)), (Nat.ltb_spec (i + 1) (length pts)); lia. }
    rewrite N, Nat.eqb_refl. reflexivity.
  - assert (N : (if length pts <=? S i then 0 else S i) = go_on (length pts) i 1).
    { rewrite go_on_val by lia. destruct (Nat.leb_spec (length pts) (S i)), (Nat.ltb_spec (i + 1) (length pts)); lia. }
    rewrite N. destruct (Nat.eqb_spec (go_on (length pts) i 1) (go_on (length pts) i (S (S d)))) as [E|E].
    + exfalso. rewrite !go_on_val in E by lia. destruct (Nat.ltb_spec (i + 1) (length pts)), (Nat.ltb_spec (i + S (S d)) (length pts)); lia.
    + assert (G : forall t, go_on (length pts) i (S t) = go_on (length pts) (go_on (length pts) i 1) t).
      { intros t. unfold go_on. rewrite Nat.add_mod_idemp_l by lia. f_equal. lia. }
      rewrite (G (S d)). rewrite IH by (try lia; apply go_on_lt; lia).
      change (seq 1 (S (S d))) with (1 :: seq 2 (S d)). cbn [map]. f_equal.
      rewrite <- (seq_shift (S d) 1), map_map. apply map_ext. intros t. now rewrite (G t).
Qed.
Lemma arc_spec P l a b : a < length l -> b < length l -> a <> b -> arc (map P l) a b = map P (arc_idx l a b).
Proof.
  intros A B N. destruct (span_lt (length l) a b A B N) as [S1 S0]. unfold arc.
  assert (Nth : forall k, k < length l -> at_ (map P l) k = P (nth k l 0)).
  { intros k K. unfold at_. rewrite (nth_indep _ _ (P 0)) by now rewrite map_length. apply map_nth. }
  rewrite <- (go_on_end (length l) a b A B N) at 1.
  destruct (span (length l) a b) as [|d] eqn:E; [lia|].
  pose proof (arc_after_spec (map P l) d (length (map P l)) a) as G. rewrite map_length in *. rewrite G by lia. clear G.
  unfold arc_idx. rewrite E. rewrite map_map. change (seq 0 (S (S d))) with (0 :: seq 1 (S d)). cbn [map]. f_equal.
  - rewrite Nth by assumption. unfold go_on. rewrite Nat.add_0_r, Nat.mod_small by assumption. reflexivity.
  - apply map_ext. intros t. apply Nth. apply go_on_lt. lia.
Qed.
