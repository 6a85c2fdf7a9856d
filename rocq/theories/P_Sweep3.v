(** * The calls of FindIntersects *)
From Coq Require Import ZArith Bool List Lia Permutation Sorted Reals Lra.
From Verif Require Import Base_Res Base_F64 Base_Geom M_Geom M_Cmp M_Intersect M_Sweep S_Cmp S_Winding S_Intersect S_Sweep
  P_F64 P_F64Flocq P_F64Round P_F64Grid P_Cmp2 P_Cmp3 P_Intersect P_Intersect3 P_Intersect4 P_Sweep P_Sweep2.
Import ListNotations.
Local Open Scope nat_scope.

Lemma share_end_touch c a b : share_end c a b = true <-> touch_ends c a b.
Proof.
  unfold share_end, touch_ends, ends. destruct a as [a1 a2], b as [b1 b2]. cbn [fst snd In]. rewrite !orb_true_iff. split.
  - intros [[H|H]|[H|H]]; [exists a1, b1|exists a1, b2|exists a2, b1|exists a2, b2]; auto.
  - intros (p & q & [<-|[<-|[]]] & [<-|[<-|[]]] & H); auto.
Qed.
Lemma touch_sym c a b : positive c -> touch_ends c a b -> touch_ends c b a.
Proof. intros P (p & q & Hp & Hq & H). exists q, p. rewrite point_equal_sym by exact P. auto. Qed.
Lemma number_wf segs l : number_segments segs -> In l segs -> wf_line l.
Proof. intros N H p Hp. destruct (N l p H Hp) as [W _]. exact W. Qed.
Lemma reported_sym c k a b : positive c -> wf_line a -> wf_line b -> reported c k a b -> reported c k b a.
Proof.
  intros P Wa Wb [H N]. split; [rewrite (proj1 (segment_symmetric b a Wb Wa)); exact H|].
  intros [Hk T]. apply N. split; [exact Hk|]. now apply touch_sym.
Qed.

Lemma pick_in c segs connected i j x : In x (pick c segs connected (i, j)) <->
  exists a b, nth_error segs i = Some a /\ nth_error segs j = Some b /\ reported c connected a b /\ x = (i, j, fst (segment_intersect a b)).
Proof.
  unfold pick, reported. cbn [fst snd].
  destruct (nth_error segs i) as [a|]; [|split; [intros []|intros (? & ? & ? & _); discriminate]].
  destruct (nth_error segs j) as [b|]; [|split; [intros []|intros (? & ? & _ & ? & _); discriminate]].
  assert (S : connected && share_end c a b = true <-> connected = true /\ touch_ends c a b) by (rewrite andb_true_iff, share_end_touch; reflexivity).
  destruct (connected && share_end c a b).
  { split; [intros []|]. intros (a' & b' & E & F & [_ N] & _). injection E as <-. injection F as <-. exfalso. apply N, S. reflexivity. }
  destruct (segment_intersect a b) as [p ok] eqn:SI. destruct ok; cbn [negb].
  - split.
    + intros [<-|[]]. exists a, b. rewrite SI. cbn [fst snd]. repeat split; auto. intros K. apply S in K. discriminate.
    + intros (a' & b' & E & F & _ & ->). injection E as <-. injection F as <-. rewrite SI. now left.
  - split; [intros []|]. intros (a' & b' & E & F & [K _] & _). injection E as <-. injection F as <-. rewrite SI in K. discriminate.
Qed.
Lemma pick_short c segs connected ij : length (pick c segs connected ij) <= 1.
Proof.
  unfold pick. destruct (nth_error _ _); [|cbn; lia]. destruct (nth_error _ _); [|cbn; lia]. destruct (_ && _); [cbn; lia|].
  destruct (segment_intersect _ _) as [p [|]]; cbn; lia.
Qed.
Lemma pick_pair c segs connected ij x : In x (pick c segs connected ij) -> pair_of x = ij.
Proof. destruct ij as [i j]. intros H. apply pick_in in H as (a & b & _ & _ & _ & ->). reflexivity. Qed.
Lemma flat_pairs c segs connected l : NoDup l -> NoDup (map pair_of (flat_map (pick c segs connected) l)).
Proof.
  induction l as [|x l IH]; intros N; cbn [flat_map map]; [constructor|]. inversion_clear N as [|? ? N1 N2]. rewrite map_app.
  pose proof (pick_short c segs connected x) as S. pose proof (pick_pair c segs connected x) as Q.
  destruct (pick c segs connected x) as [|y [|z t]]; cbn [length] in S; [cbn [app map]; now apply IH| |lia].
  cbn [map app]. constructor; [|now apply IH]. rewrite (Q y) by now left. intros H. apply in_map_iff in H as (z & E & H).
  apply in_flat_map in H as (w & Hw & H). apply pick_pair in H. congruence.
Qed.

Section Main.
  Variable sort : (event -> event -> bool) -> list event -> list event.
  Hypothesis Hsort : sorts sort.
  Variable segs : list line.
  Hypothesis Num : number_segments segs.
  Variable c : compare.
  Hypothesis Pc : positive c.
  Variable connected : bool.
  Notation evs := (new_event_queue sort segs).

  Lemma queue_edges e : In e evs -> ev_edge e < length segs.
  Proof.
    intros He. apply (Permutation_in _ (Permutation_sym (queue_perm sort Hsort segs))) in He. apply all_events_in in He as (k & l & Hk & He).
    apply events_edge in He. assert (k < length segs) by (apply nth_error_Some; congruence). lia.
  Qed.

  Definition the_calls : list call := all_calls c segs connected evs.
  Theorem find_calls : 
    (forall E (fn : list call -> call -> answer E), find_intersects c segs connected fn (fun _ => None) evs = call_each fn [] the_calls) /\
    (forall i j p, In (i, j, p) the_calls ->
       i <> j /\ exists a b, nth_error segs i = Some a /\ nth_error segs j = Some b /\ overlap_x a b /\
         reported c connected a b /\ p = fst (segment_intersect a b)) /\
    (forall i j a b, i <> j -> nth_error segs i = Some a -> nth_error segs j = Some b -> overlap_x a b -> reported c connected a b ->
       exists p, In (i, j, p) the_calls \/ In (j, i, p) the_calls) /\
    (forall m n x y, nth_error the_calls m = Some x -> nth_error the_calls n = Some y -> same_pair (pair_of x) (pair_of y) -> m = n).
  Proof.
    unfold the_calls, all_calls. split; [|split; [|split]].
    - intros E fn. unfold find_intersects. rewrite sweep_calls; [reflexivity|apply queue_edges|intros ? []].
    - intros i j p H. apply in_flat_map in H as ([i' j'] & Hx & H). pose proof (pick_pair _ _ _ _ _ H) as Q. cbn in Q. injection Q as <- <-.
      apply pick_in in H as (a & b & Ha & Hb & R & Ep). injection Ep as ->.
      destruct (examined_edges sort Hsort segs i j Hx) as (_ & _ & Ne). split; [exact Ne|].
      exists a, b. split; [exact Ha|]. split; [exact Hb|]. split; [|auto].
      apply (examined_once sort Hsort segs Num i j a b Ne Ha Hb). now left.
    - intros i j a b Ne Ha Hb Ov R. apply (examined_once sort Hsort segs Num i j a b Ne Ha Hb) in Ov as [X|X].
      + exists (fst (segment_intersect a b)). left. apply in_flat_map. exists (i, j). split; [exact X|]. apply pick_in. exists a, b. auto.
      + exists (fst (segment_intersect b a)). right. apply in_flat_map. exists (j, i). split; [exact X|]. apply pick_in. exists b, a. split; [exact Hb|]. split; [exact Ha|].
        split; [|reflexivity]. apply reported_sym; try assumption; apply (number_wf segs); try assumption; now apply nth_error_In in Ha, Hb.
    - intros m n x y Hm Hn [E|E].
      + eapply NoDup_map_nth; [|exact Hm|exact Hn|exact E]. apply flat_pairs, examined_nodup; [apply queue_tags; assumption|constructor].
      + exfalso. apply nth_error_In in Hm, Hn. apply in_flat_map in Hm as (ij & X1 & H1), Hn as (ij' & X2 & H2).
        apply pick_pair in H1, H2. subst ij ij'. destruct (pair_of y) as [i j]. cbn [fst snd] in E. rewrite E in X1.
        destruct (examined_edges sort Hsort segs i j X2) as (Li & Lj & Ne).
        apply nth_error_Some in Li, Lj. destruct (nth_error segs i) as [a|] eqn:Ha; [|congruence]. destruct (nth_error segs j) as [b|] eqn:Hb; [|congruence].
        apply (examined_once sort Hsort segs Num i j a b Ne Ha Hb). now split.
  Qed.
End Main.

(** ** Cancelling *)
Lemma scan_made {E} c segs connected (fn : list call -> call -> answer E) i seg keys : forall made,
  exists more, fst (scan c segs connected fn i seg keys made) = made ++ more.
Proof.
  induction keys as [|j keys IH]; intros made; cbn [scan]; [exists []; now rewrite app_nil_r|].
  destruct (nth_error segs j) as [seg1|]; [|exists []; cbn; now rewrite app_nil_r].
  destruct (_ && _); [apply IH|]. destruct (segment_intersect seg seg1) as [p ok]. destruct ok; cbn [negb]; [|apply IH].
  destruct (fn made (i, j, p)); [|exists [(i, j, p)]; reflexivity|exists [(i, j, p)]; reflexivity].
  destruct (IH (made ++ [(i, j, p)])) as [more ->]. exists ((i, j, p) :: more). now rewrite <- app_assoc.
Qed.
Lemma sweep_made {E} c segs connected (fn : list call -> call -> answer E) ctx evs : forall n m made,
  exists more, fst (sweep c segs connected fn ctx n evs m made) = made ++ more.
Proof.
  induction evs as [|e evs IH]; intros n m made; cbn [sweep]; [exists []; now rewrite app_nil_r|].
  destruct (ctx n); [exists []; now rewrite app_nil_r|]. destruct (ev_type e); [apply IH|].
  destruct (nth_error segs _) as [seg|]; [|exists []; now rewrite app_nil_r].
  destruct (scan_made c segs connected fn (ev_edge e) seg (delete_key (ev_edge e) m) made) as [more Hm].
  destruct (scan _ _ _ _ _ _ _ made) as [made' [r|]]; cbn [fst] in Hm; [exists more; exact Hm|].
  destruct (IH (S n) (delete_key (ev_edge e) m) made') as [more' ->]. exists (more ++ more'). now rewrite Hm, app_assoc.
Qed.
Lemma sweep_cancel {E} c segs connected (fn : list call -> call -> answer E) ctx evs : forall n m made,
  sweep c segs connected fn ctx n evs m made = sweep c segs connected fn (fun _ => None) n evs m made \/
  (exists k err, n <= k < n + length evs /\ ctx k = Some err /\ snd (sweep c segs connected fn ctx n evs m made) = Err err) /\
  exists rest, fst (sweep c segs connected fn (fun _ => None) n evs m made) = fst (sweep c segs connected fn ctx n evs m made) ++ rest.
Proof.
  induction evs as [|e evs IH]; intros n m made; [now left|]. 
  destruct (ctx n) as [err|] eqn:C.
  { right. split; [exists n, err; cbn [sweep length]; rewrite C; repeat split; auto; lia|].
    replace (sweep c segs connected fn ctx n (e :: evs) m made) with (made, @Err E unit err) by (cbn [sweep]; now rewrite C).
    apply sweep_made. }
  cbn [sweep]. rewrite C.
  assert (Up : forall m made, 
    sweep c segs connected fn ctx (S n) evs m made = sweep c segs connected fn (fun _ => None) (S n) evs m made \/
    (exists k err, n <= k < n + length (e :: evs) /\ ctx k = Some err /\ snd (sweep c segs connected fn ctx (S n) evs m made) = Err err) /\
    exists rest, fst (sweep c segs connected fn (fun _ => None) (S n) evs m made) = fst (sweep c segs connected fn ctx (S n) evs m made) ++ rest).
  { intros m' made'. destruct (IH (S n) m' made') as [H|[(k & err & L & H) K]]; [now left|right]. split; [|exact K].
    exists k, err. cbn [length]. split; [lia|exact H]. }
  destruct (ev_type e); [apply Up|]. destruct (nth_error segs _) as [seg|]; [|now left].
  destruct (scan _ _ _ _ _ _ _ made) as [made' [r|]]; [now left|]. apply Up.
Qed.
Theorem find_cancelled {E} c segs connected (fn : list call -> call -> answer E) ctx evs :
  find_intersects c segs connected fn ctx evs = find_intersects c segs connected fn (fun _ => None) evs \/
  (exists k err, k < length evs /\ ctx k = Some err /\ snd (find_intersects c segs connected fn ctx evs) = Err err) /\
  exists rest, fst (find_intersects c segs connected fn (fun _ => None) evs) = fst (find_intersects c segs connected fn ctx evs) ++ rest.
Proof.
  unfold find_intersects. destruct (sweep_cancel c segs connected fn ctx evs 0 [] []) as [H|[(k & err & L & H) K]]; [now left|right].
  split; [|exact K]. exists k, err. split; [lia|exact H].
Qed.

(** ** On a grid *)
Lemma near_grid_finite l1 l2 : near_grid l1 l2 -> finite_line l1 /\ finite_line l2.
Proof.
  intros (e & ns & G & O & _).
  assert (K : forall p, In p (ends l1 ++ ends l2) -> (f64_wf (fst p) = true /\ f64_finite (fst p) = true) /\ f64_wf (snd p) = true /\ f64_finite (snd p) = true).
  { revert O. generalize (ends l1 ++ ends l2). clear. intros l O. unfold on_grid in O. induction O as [|n p ns ps [H1 H2] _ IH]; [intros ? []|].
    intros q [<-|Hq]; [|auto]. destruct H1 as (? & ? & _), H2 as (? & ? & _). auto. }
  assert (K1 : forall p, In p (ends l1) -> (f64_wf (fst p) = true /\ f64_finite (fst p) = true) /\ f64_wf (snd p) = true /\ f64_finite (snd p) = true)
    by (intros p Hp; apply K, in_app_iff; auto).
  assert (K2 : forall p, In p (ends l2) -> (f64_wf (fst p) = true /\ f64_finite (fst p) = true) /\ f64_wf (snd p) = true /\ f64_finite (snd p) = true)
    by (intros p Hp; apply K, in_app_iff; auto).
  clear - K1 K2. split; (split; [intros p Hp|intros p Hp]); first [destruct (K1 p Hp) as [[? ?] [? ?]]|destruct (K2 p Hp) as [[? ?] [? ?]]]; auto.
Qed.
Lemma grid_number segs : grid_segments segs -> number_segments segs.
Proof.
  intros G l p Hl Hp. destruct (near_grid_finite l l (G l l Hl Hl)) as [[W F] _]. destruct (W p Hp), (F p Hp).
  split; split; auto; now apply finite_nn.
Qed.

Lemma real_overlap (a b d e x t u : R) : (0 <= t <= 1)%R -> (0 <= u <= 1)%R ->
  x = (a + t * (b - a))%R -> x = (d + u * (e - d))%R ->
  let bt p q v := (p <= v /\ v <= q \/ q <= v /\ v <= p)%R in
  (bt d e a \/ bt d e b \/ bt a b d \/ bt a b e).
Proof.
  intros T U X1 X2 bt.
  assert (B : forall p q s, (0 <= s <= 1)%R -> bt p q (p + s * (q - p))%R).
  { clear. intros p q s S. unfold bt. destruct (Rle_dec p q) as [H|H]; [left|right]; split; nra. }
  pose proof (B a b t T) as B1. pose proof (B d e u U) as B2. rewrite <- X1 in B1. rewrite <- X2 in B2.
  clear - B1 B2. unfold bt in *. lra.
Qed.
Lemma meet_overlap a b p : finite_line a -> finite_line b -> on_segment a p -> on_segment b p -> overlap_x a b.
Proof.
  destruct a as [[x1 y1] [x2 y2]], b as [[x3 y3] [x4 y4]]. intros [Wa Fa] [Wb Fb] (t & T & E1) (u & U & E2).
  unfold rpt, along in E1, E2. cbn [fst snd] in E1, E2.
  destruct (Wa (x1, y1)) as [W1 _]; [now left|]. destruct (Wa (x2, y2)) as [W2 _]; [right; now left|].
  destruct (Wb (x3, y3)) as [W3 _]; [now left|]. destruct (Wb (x4, y4)) as [W4 _]; [right; now left|].
  destruct (Fa (x1, y1)) as [F1 _]; [now left|]. destruct (Fa (x2, y2)) as [F2 _]; [right; now left|].
  destruct (Fb (x3, y3)) as [F3 _]; [now left|]. destruct (Fb (x4, y4)) as [F4 _]; [right; now left|].
  cbn [fst snd] in *. clear Wa Wb Fa Fb.
  pose proof (f_equal fst E1) as X1. pose proof (f_equal fst E2) as X2. cbn [fst] in X1, X2. clear E1 E2.
  pose proof (real_overlap (f64_R x1) (f64_R x2) (f64_R x3) (f64_R x4) (fst p) t u T U X1 X2) as B.
  unfold overlap_x. cbn [fst snd]. unfold between.
  assert (Rf : forall v, (v <= v)%R) by (intros; lra).
  destruct B as [B|[B|[B|B]]]; [exists x1|exists x2|exists x3|exists x4]; rewrite !le_R by assumption; split; auto; clear - B; lra.
Qed.

(** The pairs called are those which meet in a point. *)
Theorem find_grid sort segs : sorts sort -> grid_segments segs -> exists calls,
  (forall E (fn : list call -> call -> answer E),
     find_intersects default_compare segs false fn (fun _ => None) (new_event_queue sort segs) = call_each fn [] calls) /\
  (forall i j a b, i <> j -> nth_error segs i = Some a -> nth_error segs j = Some b ->
     ((exists p, In (i, j, p) calls \/ In (j, i, p) calls) <->
      ~ parallel a b /\ exists p, on_segment a p /\ on_segment b p)) /\
  (forall i j p, In (i, j, p) calls -> i <> j /\ i < length segs /\ j < length segs) /\
  (forall m n x y, nth_error calls m = Some x -> nth_error calls n = Some y -> same_pair (pair_of x) (pair_of y) -> m = n).
Proof.
  intros Hs G. pose proof (grid_number segs G) as N. exists (the_calls sort segs default_compare false).
  destruct (find_calls sort Hs segs N default_compare default_positive false) as (F1 & F2 & F3 & F4).
  split; [exact F1|]. split; [|split; [|exact F4]].
  - intros i j a b Ne Ha Hb.
    assert (Hga : In a segs) by (now apply nth_error_In in Ha). assert (Hgb : In b segs) by (now apply nth_error_In in Hb).
    assert (R : reported default_compare false a b <-> ~ parallel a b /\ exists p, on_segment a p /\ on_segment b p).
    { unfold reported. rewrite <- (proj1 (segment_exact a b (G a b Hga Hgb))). split; [tauto|]. intros H. split; [exact H|]. intros [K _]. discriminate. }
    assert (Wa : wf_line a) by (now apply (number_wf segs)). assert (Wb : wf_line b) by (now apply (number_wf segs)).
    rewrite <- R. split.
    + intros (p & [H|H]); apply F2 in H as (_ & a' & b' & Ha' & Hb' & _ & H & _).
      * congruence.
      * apply reported_sym; [apply default_positive|assumption|assumption|]. congruence.
    + intros H. apply (F3 i j a b); try assumption. apply R in H as [_ (p & P1 & P2)].
      destruct (near_grid_finite a b (G a b Hga Hgb)). now apply (meet_overlap a b p).
  - intros i j p H. apply F2 in H as (Ne & a & b & Ha & Hb & _). split; [exact Ne|]. split; apply nth_error_Some; congruence.
Qed.

(** ** A routine which sorts; examples *)
Lemma isort_sorts {A} : sorts (fun (less : A -> A -> bool) => isort less).
Proof.
  intros less l. split; [apply isort_perm|]. intros Ir Tr Nt. apply strongly_in_order.
  pose proof (isort_sorted less (fun x => In x l) (fun a b => In a l /\ In b l /\ less a b = true)) as H.
  assert (K : StronglySorted (fun a b => ~ (In b l /\ In a l /\ less b a = true)) (isort less l)).
  { apply H.
    - intros a b Ha Hb. tauto.
    - intros a b (Ha & Hb & E) (_ & _ & F). pose proof (Tr a b a Ha Hb Ha E F). pose proof (Ir a Ha). congruence.
    - intros a b d Ha Hb Hd N1 N2 (_ & _ & E).
      assert (less d a = false); [|congruence]. apply (Nt d b a); auto.
      + destruct (less d b) eqn:X; [|reflexivity]. tauto.
      + destruct (less b a) eqn:X; [|reflexivity]. tauto.
    - rewrite Forall_forall. auto. }
  assert (Inl : forall x, In x (isort less l) -> In x l).
  { intros x. apply Permutation_in. apply Permutation_sym, isort_perm. }
  clear H. induction K as [|x r Hs IH Hf]; constructor.
  - apply IH. intros y Hy. apply Inl. now right.
  - rewrite Forall_forall in *. intros y Hy E. apply (Hf y Hy). split; [apply Inl; now right|]. split; [apply Inl; now left|exact E].
Qed.

(** Two crossing diagonals, a vertical line through the crossing, and one apart. *)
Definition star : list line :=
  [zline ((0, 0), (4, 4)); zline ((4, 0), (0, 4)); zline ((2, 9), (2, -9)); zline ((7, 0), (7, 1))]%Z.
Lemma star_grid : grid_segments star.
Proof.
  intros a b [<-|[<-|[<-|[<-|[]]]]] [<-|[<-|[<-|[<-|[]]]]]; apply zline_near; cbn [fst snd In];
    first [intros p [<-|[<-|[<-|[<-|[]]]]]; split; vm_compute; discriminate
          |intros p q [<-|[<-|[<-|[<-|[]]]]] [<-|[<-|[<-|[<-|[]]]]]; split; vm_compute; discriminate].
Qed.
Definition go_on {E} : list call -> call -> answer E := fun _ _ => Continue.
Lemma star_calls : find_intersects (E := nat) default_compare star false go_on (fun _ => None) (new_event_queue (fun less => isort less) star) =
  ([(2, 0, zpt (2, 2)%Z); (2, 1, zpt (2, 2)%Z); (1, 0, zpt (2, 2)%Z)], Ok tt).
Proof. vm_compute. reflexivity. Qed.
Lemma star_cancelled : find_intersects default_compare star false go_on (fun n => if n =? 4 then Some 77 else None) (new_event_queue (fun less => isort less) star) =
  ([(2, 0, zpt (2, 2)%Z); (2, 1, zpt (2, 2)%Z)], Err 77).
Proof. vm_compute. reflexivity. Qed.

(** Two crossing segments 10^-9 long. *)
Definition tiny : f64 := 0x3e10000000000000%Z.
Definition tiny_cross : list line := [((f64_zero, f64_zero), (tiny, tiny)); ((f64_zero, tiny), (tiny, f64_zero))].
Lemma tiny_missed : grid_segments tiny_cross /\
  snd (find_intersects (E := nat) default_compare tiny_cross false go_on (fun _ => None) (new_event_queue (fun less => isort less) tiny_cross)) = Ok tt /\
  length (fst (find_intersects (E := nat) default_compare tiny_cross false go_on (fun _ => None) (new_event_queue (fun less => isort less) tiny_cross))) = 1 /\
  fst (find_intersects (E := nat) default_compare tiny_cross true go_on (fun _ => None) (new_event_queue (fun less => isort less) tiny_cross)) = [].
Proof.
  split; [|vm_compute; auto].
  assert (Z0 : repr (-30) 0 f64_zero) by (apply repr_zero).
  assert (Z1 : repr (-30) 1 tiny).
  { split; [reflexivity|]. split; [reflexivity|]. unfold f64_R. vm_compute. lra. }
  assert (M : forall a b, In a tiny_cross -> In b tiny_cross -> exists ns, on_grid (-30) ns (ends a ++ ends b) /\
    forall p, In p ns -> (0 <= fst p <= 1 /\ 0 <= snd p <= 1)%Z).
  { intros a b [<-|[<-|[]]] [<-|[<-|[]]].
    - exists [(0, 0); (1, 1); (0, 0); (1, 1)]%Z. split; [repeat (constructor; [split; assumption|]); constructor|]. intros p [<-|[<-|[<-|[<-|[]]]]]; cbn; lia.
    - exists [(0, 0); (1, 1); (0, 1); (1, 0)]%Z. split; [repeat (constructor; [split; assumption|]); constructor|]. intros p [<-|[<-|[<-|[<-|[]]]]]; cbn; lia.
    - exists [(0, 1); (1, 0); (0, 0); (1, 1)]%Z. split; [repeat (constructor; [split; assumption|]); constructor|]. intros p [<-|[<-|[<-|[<-|[]]]]]; cbn; lia.
    - exists [(0, 1); (1, 0); (0, 1); (1, 0)]%Z. split; [repeat (constructor; [split; assumption|]); constructor|]. intros p [<-|[<-|[<-|[<-|[]]]]]; cbn; lia. }
  intros a b Ha Hb. destruct (M a b Ha Hb) as (ns & O & B). exists (-30)%Z, ns. split; [split; intros H; discriminate|]. split; [exact O|].
  intros p q Hp Hq. apply B in Hp, Hq. lia.
Qed.
