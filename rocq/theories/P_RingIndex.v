(** * The index of segments and the loop of Ring.ContainsPoint *)
From Coq Require Import ZArith Bool List Lia Reals Lra Permutation Sorted.
From Flocq Require Import Core.Core IEEE754.BinarySingleNaN IEEE754.Binary IEEE754.Bits.
From Verif Require Import Base_Res Base_F64 Base_F64Arith Base_Geom M_Geom M_Extent M_Cmp M_Intersect M_Planar M_Rtree M_Ring
  S_Cmp S_Winding S_Intersect S_Rtree S_Ring
  P_F64 P_F64Flocq P_F64Round P_F64Grid P_F64Err P_F64X P_Cmp P_CmpR P_Rtree P_Rtree2 P_RtreeTop.
Import ListNotations.
Local Open Scope R_scope.

(** ** The boxes *)
Definition xadd (a b : xr) : xr := xsub a (xopp b).
Lemma add_xr a b : f64_wf a = true -> f64_wf b = true -> xval (f64_add a b) = xadd (xval a) (xval b).
Proof.
  intros Wa Wb. destruct (word_cases a Wa) as [Xa Na|sa Ea|Fa Xa], (word_cases b Wb) as [Xb Nb|sb Eb|Fb Xb].
  9: { rewrite Xa, Xb. cbn [xadd xopp xsub]. unfold xadd. cbn [xopp xsub]. replace (f64_R a - - f64_R b) with (f64_R a + f64_R b) by ring. apply xof_round. now apply add_round. }
  all: unfold f64_add; rewrite xval_bits; subst; unfold xval in *; rewrite ?inf_b in *.
  all: repeat match goal with
       | H : f64_finite _ = true |- _ => rewrite <- is_finite_word in H by assumption
       | H : f64_isnan _ = true |- _ => clear H
       end.
  all: try (destruct (b64_of_bits a) as [s1|s1|s1 p1 e1|s1 m1 e1 H1]; try discriminate).
  all: try (destruct (b64_of_bits b) as [s2|s2|s2 p2 e2|s2 m2 e2 H2]; try discriminate).
  all: try destruct sa; try destruct sb; reflexivity.
Qed.

Lemma ep_R : 99 / 10000000 < f64_R small_ep < 101 / 10000000.
Proof. vm_compute. lra. Qed.
Lemma ep_x : xval small_ep = XR (f64_R small_ep).
Proof. apply xval_finite; reflexivity. Qed.

Lemma xof_pos r : 0 <= r -> xof r = XI false \/ exists s, xof r = XR s /\ 0 <= s /\ (f64_R small_ep <= r -> 0 < s).
Proof.
  intros H. unfold xof. destruct (Rlt_bool (Rabs (rnd r)) huge).
  - right. exists (rnd r). split; [reflexivity|]. apply rnd_le in H. rewrite rnd_0 in H. split; [exact H|].
    intros L. apply rnd_le in L. rewrite rnd_id in L by reflexivity. pose proof ep_R. lra.
  - left. unfold negb_R. now rewrite Rlt_bool_false.
Qed.
Lemma delta_pos a b : f64_wf a = true -> f64_wf b = true -> f64_lt a b = false -> f64_le (f64_add (f64_sub a b) small_ep) f64_zero = false.
Proof.
  intros Wa Wb L. rewrite le_xr by (reflexivity || apply add_wf). rewrite add_xr by (reflexivity || apply sub_wf). rewrite sub_xr by assumption.
  rewrite ep_x, xval_zero.
  assert (O : f64_isnan a = true \/ f64_isnan b = true \/ f64_le b a = true).
  { destruct (f64_isnan a) eqn:Na; [auto|]. destruct (f64_isnan b) eqn:Nb; [auto|]. right; right.
    rewrite lt_key in L by assumption. rewrite le_key by assumption. apply Z.leb_le. apply Z.ltb_ge in L. exact L. }
  pose proof (xval_nan a Wa) as Xa. pose proof (xval_nan b Wb) as Xb. rewrite le_xr in O by assumption.
  pose proof ep_R as E.
  destruct (xval a) as [|sa|ra]; [reflexivity| |]; (destruct (xval b) as [|sb|rb]; [try destruct sa; reflexivity| |]).
  all: destruct O as [O|[O|O]]; [apply Xa in O; discriminate|apply Xb in O; discriminate|].
  - destruct sa, sb; cbn in *; try discriminate; reflexivity.
  - cbn [xle] in O. destruct sa; [discriminate|reflexivity].
  - cbn [xle] in O. destruct sb; [reflexivity|discriminate].
  - cbn [xle xsub] in *. assert (H : 0 <= ra - rb) by (destruct (Rle_bool_spec rb ra); [lra|discriminate]).
    destruct (xof_pos _ H) as [->|(s & -> & P & _)]; [reflexivity|]. unfold xadd. cbn [xopp xsub].
    destruct (xof_pos (s - - f64_R small_ep)) as [->|(t & -> & _ & Q)]; [lra|reflexivity|]. cbn [xle]. apply Rle_bool_false. apply Q. lra.
Qed.
Definition wf_line (l : line) : Prop :=
  f64_wf (fst (fst l)) = true /\ f64_wf (snd (fst l)) = true /\ f64_wf (fst (snd l)) = true /\ f64_wf (snd (snd l)) = true.
Definition interval (a b : f64) : f64 * f64 := (fst (min_and_delta a b), f64_add (fst (min_and_delta a b)) (snd (min_and_delta a b))).
Definition box (s : line) : rect := [interval (fst (fst s)) (fst (snd s)); interval (snd (fst s)) (snd (snd s))].
Lemma delta_not_le a b : f64_wf a = true -> f64_wf b = true -> f64_le (snd (min_and_delta a b)) f64_zero = false.
Proof.
  intros Wa Wb. unfold min_and_delta, f64_gt. destruct (f64_lt b a) eqn:L; cbn [snd]; apply delta_pos; try assumption.
  destruct (f64_lt a b) eqn:L2; [|reflexivity]. apply lt_inv in L, L2. lia.
Qed.
Theorem rect_never_panics s : wf_line s -> rect_for_segment s = Ok (box s).
Proof.
  intros (A & B & C & D). unfold rect_for_segment, box, interval.
  pose proof (delta_not_le _ _ A C) as X. pose proof (delta_not_le _ _ B D) as Y.
  destruct (min_and_delta (fst (fst s)) (fst (snd s))) as [m d], (min_and_delta (snd (fst s)) (snd (snd s))) as [m' d']. cbn [fst snd] in *.
  cbn [new_rect]. now rewrite X, Y.
Qed.

(** The interval of two words reaches a little over the greater. *)
Lemma interval_R a b : mid_word a -> mid_word b ->
  f64_wf (fst (interval a b)) = true /\ f64_finite (fst (interval a b)) = true /\ f64_wf (snd (interval a b)) = true /\ f64_finite (snd (interval a b)) = true /\
  f64_R (fst (interval a b)) = Rmin (f64_R a) (f64_R b) /\
  Rmax (f64_R a) (f64_R b) < f64_R (snd (interval a b)) <= Rmax (f64_R a) (f64_R b) + 2 / 100000.
Proof.
  assert (K : forall a b, mid_word a -> mid_word b -> f64_R a <= f64_R b ->
    let w := f64_add a (f64_add (f64_sub b a) small_ep) in f64_wf w = true /\ f64_finite w = true /\ f64_R b < f64_R w <= f64_R b + 2 / 100000).
  { clear. intros a b (Wa & Fa & Ba) (Wb & Fb & Bb) L. apply Rabs_le_inv in Ba, Bb. pose proof ep_R as E.
    pose proof (ap_sub 32 _ _ _ _ _ _ ltac:(lia) (ap_exact b Wb Fb) (ap_exact a Wa Fa)) as S.
    change (bpow radix2 32) with 4294967296 in S. change (bpow radix2 (32 - 53)) with (/ 2097152) in S.
    assert (S' := S ltac:(rewrite Rabs_pos_eq; lra)). clear S. rewrite !Rplus_0_l in S'.
    pose proof (ap_add 32 _ _ _ _ _ _ ltac:(lia) S' (ap_exact small_ep eq_refl eq_refl)) as A.
    change (bpow radix2 32) with 4294967296 in A. change (bpow radix2 (32 - 53)) with (/ 2097152) in A.
    assert (A' := A ltac:(rewrite Rabs_pos_eq; lra)). clear A.
    pose proof (ap_add 32 _ _ _ _ _ _ ltac:(lia) (ap_exact a Wa Fa) A') as C.
    change (bpow radix2 32) with 4294967296 in C. change (bpow radix2 (32 - 53)) with (/ 2097152) in C.
    assert (C' := C ltac:(apply Rabs_le || (assert (Rabs (f64_R a + (f64_R b - f64_R a + f64_R small_ep)) <= 2147483648) by (apply Rabs_le; lra); lra))). clear C.
    destruct C' as (Wc & Fc & Ec). cbn zeta. split; [exact Wc|]. split; [exact Fc|]. apply Rabs_le_inv in Ec. lra. }
  intros Ma Mb. pose proof Ma as (Wa & Fa & Ba). pose proof Mb as (Wb & Fb & Bb). unfold interval, min_and_delta, f64_gt.
  destruct (f64_lt b a) eqn:L; cbn [fst snd].
  - apply lt_R in L; try assumption. rewrite Rmin_right, Rmax_left by lra. destruct (K b a Mb Ma ltac:(lra)) as (? & ? & ?). auto 10.
  - assert (L' : f64_R a <= f64_R b) by (apply Rnot_lt_le; intros H; apply lt_R in H; congruence).
    rewrite Rmin_left, Rmax_right by lra. destruct (K a b Ma Mb L') as (? & ? & ?). auto 10.
Qed.
Lemma moderate_wf s : mid_line s -> wf_line s.
Proof. intros ((A & _) & (B & _) & (C & _) & (D & _)). repeat split; assumption. Qed.
Lemma box_ok s : mid_line s -> rect_ok 2 (box s).
Proof.
  intros (A & B & C & D). destruct (interval_R _ _ A C) as (? & ? & ? & ? & _), (interval_R _ _ B D) as (? & ? & ? & ? & _).
  split; [reflexivity|]. repeat constructor; now apply finite_nn.
Qed.
Lemma overlap_spec s t : overlap (box s) (box t) = true <->
  (f64_lt (fst (interval (fst (fst s)) (fst (snd s)))) (snd (interval (fst (fst t)) (fst (snd t)))) = true /\
   f64_lt (fst (interval (fst (fst t)) (fst (snd t)))) (snd (interval (fst (fst s)) (fst (snd s)))) = true) /\
  (f64_lt (fst (interval (snd (fst s)) (snd (snd s)))) (snd (interval (snd (fst t)) (snd (snd t)))) = true /\
   f64_lt (fst (interval (snd (fst t)) (snd (snd t)))) (snd (interval (snd (fst s)) (snd (snd s)))) = true).
Proof. unfold overlap, box. cbn [combine forallb fst snd]. rewrite !andb_true_iff. tauto. Qed.

Lemma along_range x y t : 0 <= t <= 1 -> Rmin x y <= x + t * (y - x) <= Rmax x y.
Proof. intros T. destruct (Rle_dec x y); [rewrite Rmin_left, Rmax_right by lra|rewrite Rmin_right, Rmax_left by lra]; split; nra. Qed.
Lemma shared_overlap s t : mid_line s -> mid_line t -> share_point s t -> overlap (box s) (box t) = true.
Proof.
  intros (A & B & C & D) (A' & B' & C' & D') (q & (u & U & Eu) & (v & V & Ev)). apply overlap_spec.
  destruct (interval_R _ _ A C) as (? & ? & ? & ? & I1 & J1), (interval_R _ _ B D) as (? & ? & ? & ? & I2 & J2),
    (interval_R _ _ A' C') as (? & ? & ? & ? & I3 & J3), (interval_R _ _ B' D') as (? & ? & ? & ? & I4 & J4).
  pose proof (f_equal fst Eu) as X1. pose proof (f_equal snd Eu) as Y1. pose proof (f_equal fst Ev) as X2. pose proof (f_equal snd Ev) as Y2.
  unfold along, rpt in X1, Y1, X2, Y2. cbn [fst snd] in X1, Y1, X2, Y2.
  pose proof (along_range (f64_R (fst (fst s))) (f64_R (fst (snd s))) u U) as P1. rewrite <- X1 in P1.
  pose proof (along_range (f64_R (snd (fst s))) (f64_R (snd (snd s))) u U) as P2. rewrite <- Y1 in P2.
  pose proof (along_range (f64_R (fst (fst t))) (f64_R (fst (snd t))) v V) as P3. rewrite <- X2 in P3.
  pose proof (along_range (f64_R (snd (fst t))) (f64_R (snd (snd t))) v V) as P4. rewrite <- Y2 in P4.
  rewrite !lt_R by assumption. rewrite I1, I2, I3, I4. clear - P1 P2 P3 P4 J1 J2 J3 J4.
  split; split; lra.
Qed.
Lemma overlap_near s t : mid_line s -> mid_line t -> overlap (box s) (box t) = true -> boxes_near (2 / 100000) s t.
Proof.
  intros (A & B & C & D) (A' & B' & C' & D') O. apply overlap_spec in O.
  destruct (interval_R _ _ A C) as (? & ? & ? & ? & I1 & J1), (interval_R _ _ B D) as (? & ? & ? & ? & I2 & J2),
    (interval_R _ _ A' C') as (? & ? & ? & ? & I3 & J3), (interval_R _ _ B' D') as (? & ? & ? & ? & I4 & J4).
  rewrite !lt_R in O by assumption. rewrite I1, I2, I3, I4 in O. destruct O as [[O1 O2] [O3 O4]].
  clear - O1 O2 O3 O4 J1 J2 J3 J4. unfold boxes_near, ranges_near. repeat split; lra.
Qed.

(** ** The indices *)
Lemma insert_int_perm x l : Permutation (insert_int x l) (x :: l).
Proof. induction l as [|y tl IH]; cbn [insert_int]; [reflexivity|]. destruct (x <=? y)%nat; [reflexivity|]. rewrite IH. apply perm_swap. Qed.
Lemma sort_ints_perm l : Permutation (sort_ints l) l.
Proof. induction l as [|x tl IH]; [reflexivity|]. unfold sort_ints in *. cbn [fold_right]. rewrite insert_int_perm. now constructor. Qed.
Lemma insert_int_sorted x l : StronglySorted le l -> StronglySorted le (insert_int x l).
Proof.
  induction 1 as [|y tl S IH F]; cbn [insert_int]; [repeat constructor|]. destruct (x <=? y)%nat eqn:L.
  - apply Nat.leb_le in L. repeat constructor; auto. rewrite Forall_forall in *. intros z Hz. specialize (F z Hz). lia.
  - apply Nat.leb_gt in L. constructor; [exact IH|]. rewrite Forall_forall in *. intros z Hz. apply (Permutation_in _ (insert_int_perm x tl)) in Hz as [<-|Hz]; [lia|auto].
Qed.
Lemma sort_ints_sorted l : StronglySorted le (sort_ints l).
Proof. induction l as [|x tl IH]; [constructor|]. now apply insert_int_sorted. Qed.
Lemma sorted_eq (l m : list nat) : Permutation l m -> StronglySorted le l -> StronglySorted le m -> l = m.
Proof.
  revert m. induction l as [|x tl IH]; intros m P S T; [now apply Permutation_nil in P|].
  destruct m as [|y tm]; [symmetry in P; now apply Permutation_nil in P|].
  inversion_clear S as [|? ? S1 F1]. inversion_clear T as [|? ? T1 G1]. rewrite Forall_forall in F1, G1.
  assert (E : x = y).
  { assert (X : In x (y :: tm)) by (apply (Permutation_in _ P); now left). assert (Y : In y (x :: tl)) by (apply (Permutation_in _ (Permutation_sym P)); now left).
    destruct X as [X|X]; [auto|]. destruct Y as [Y|Y]; [auto|]. specialize (F1 _ Y). specialize (G1 _ X). lia. }
  subst y. f_equal. apply IH; auto. now apply Permutation_cons_inv in P.
Qed.
Lemma seq_sorted n k : StronglySorted lt (seq k n).
Proof. revert k. induction n as [|n IH]; intros k; cbn [seq]; constructor; auto. apply Forall_forall. intros i Hi. apply in_seq in Hi. lia. Qed.
Lemma filter_sorted (R0 : nat -> nat -> Prop) f l : StronglySorted R0 l -> StronglySorted R0 (filter f l).
Proof.
  induction 1 as [|x tl S IH F]; cbn [filter]; [constructor|]. destruct (f x); [|exact IH]. constructor; [exact IH|].
  rewrite Forall_forall in *. intros y Hy. apply filter_In in Hy as [Hy _]. auto.
Qed.
Lemma lt_le_sorted l : StronglySorted lt l -> StronglySorted le l.
Proof. induction 1 as [|x tl S IH F]; constructor; auto. rewrite Forall_forall in *. intros y Hy. apply Nat.lt_le_incl. auto. Qed.

Fixpoint numbered (k : nat) (segs : list line) : list seg_rect :=
  match segs with [] => [] | s :: tl => (k, box s) :: numbered (S k) tl end.
Lemma seg_rects_ok segs : Forall wf_line segs -> forall k, seg_rects k segs = Ok (numbered k segs).
Proof. induction 1 as [|s tl W Wt IH]; intros k; cbn [seg_rects numbered]; [reflexivity|]. rewrite rect_never_panics by exact W. cbn [bind]. rewrite IH. reflexivity. Qed.
Lemma numbered_length segs : forall k, length (numbered k segs) = length segs.
Proof. induction segs as [|s tl IH]; intros k; cbn [numbered length]; auto. Qed.
Lemma numbered_ok segs : Forall mid_line segs -> forall k, Forall (fun a : seg_rect => rect_ok 2 (snd a)) (numbered k segs).
Proof. induction 1 as [|s tl W Wt IH]; intros k; cbn [numbered]; constructor; auto. now apply box_ok. Qed.

Definition hit (segs : list line) (bb : rect) (i : nat) : bool :=
  match nth_error segs i with Some s => overlap (box s) bb | None => false end.
Definition hits (segs : list line) (bb : rect) : list nat := filter (hit segs bb) (seq 0 (length segs)).
Lemma numbered_hits bb segs : forall k, map fst (filter (fun a : seg_rect => overlap (snd a) bb) (numbered k segs)) = map (fun i => (k + i)%nat) (hits segs bb).
Proof.
  unfold hits. induction segs as [|s tl IH]; intros k; [reflexivity|]. cbn [numbered length seq filter snd]. 
  assert (E : filter (hit (s :: tl) bb) (seq 1 (length tl)) = map S (filter (hit tl bb) (seq 0 (length tl)))).
  { rewrite <- seq_shift. generalize (seq 0 (length tl)). induction l as [|i l IHl]; [reflexivity|]. cbn [map filter]. 
    change (hit (s :: tl) bb (S i)) with (hit tl bb i). destruct (hit tl bb i); cbn [map]; now rewrite IHl. }
  rewrite E. change (hit (s :: tl) bb 0%nat) with (overlap (box s) bb).
  destruct (overlap (box s) bb); cbn [map fst]; rewrite IH, map_map, ?Nat.add_0_r; [f_equal|]; apply map_ext; intros; lia.
Qed.

Lemma keep_all seg results : forall idxs, keep [] seg results idxs = sort_ints (idxs ++ map fst results).
Proof.
  induction results as [|[i r] tl IH]; intros idxs; cbn [keep ask map fst]; [now rewrite app_nil_r|]. rewrite IH, <- app_assoc. reflexivity.
Qed.

Section Search.
  Variable sorted : nat -> list (entry seg_rect) -> list (entry seg_rect).
  Variable nums : list seg_rect -> nat * Z * Z * Z.
  Hypothesis Hsorted : forall i es, Permutation (sorted i es) es.
  Hypothesis Hnums : numbers_ok nums.

  Theorem search_hits segs : Forall mid_line segs -> (1 < length segs)%nat ->
    exists t, new_search sorted nums segs = Ok (Some t) /\
      forall seg, mid_line seg -> search_idxs (Some t) seg [] = Ok (hits segs (box seg)).
  Proof.
    intros M L. unfold new_search. replace (length segs <=? 1)%nat with false by (symmetry; apply Nat.leb_gt; exact L).
    rewrite seg_rects_ok by (eapply Forall_impl; [exact moderate_wf|exact M]). cbn [bind]. unfold build.
    pose proof (Hnums (numbered 0 segs)) as N. destruct (nums (numbered 0 segs)) as [[[fuel h] s] ns]. destruct N as (N1 & N2 & N3).
    destruct (bulk (A := seg_rect) snd 2 5 2 ltac:(lia) sorted Hsorted 1 fuel h s ns (numbered 0 segs) (numbered_ok segs M 0) N1 N2 N3) as (t & E & S & P & _).
    exists t. change (nat * rect)%type with seg_rect. rewrite E. cbn [bind]. split; [reflexivity|]. intros seg Ms.
    destruct (searched snd 2 t (box seg) (numbered 0 segs) S P (box_ok _ Ms)) as (r & Er & Pr).
    unfold search_idxs. rewrite rect_never_panics by now apply moderate_wf. cbn [bind]. unfold seg_rect in *. rewrite Er. cbn [bind]. f_equal. rewrite keep_all. cbn [app].
    apply sorted_eq.
    - rewrite sort_ints_perm, Pr. change (nat * rect)%type with seg_rect. rewrite numbered_hits, map_id. reflexivity.
    - apply sort_ints_sorted.
    - apply lt_le_sorted, filter_sorted, seq_sorted.
  Qed.
End Search.

(** ** The loop over the indices *)
Definition at_index (c : compare) (l : line) (p : pt) (segs : list line) (i : nat) : verdict :=
  match nth_error segs i with Some s => look c l p s | None => Skip end.
Definition is_border (v : verdict) : bool := match v with Border => true | _ => false end.
Definition is_count (v : verdict) : bool := match v with Count => true | _ => false end.
Lemma ray_spec c border l p segs idxs : (forall i, In i idxs -> (i < length segs)%nat) -> forall n,
  ray c border l p segs idxs n =
    Ok (if existsb is_border (map (at_index c l p segs) idxs) then border
        else Nat.odd (n + length (filter is_count (map (at_index c l p segs) idxs)))).
Proof.
  induction idxs as [|i tl IH]; intros V n; cbn [ray map existsb filter length]; [now rewrite Nat.add_0_r|].
  assert (Vi := V i (or_introl eq_refl)). unfold at_index at 1 3. destruct (nth_error segs i) as [s|] eqn:E; [|apply nth_error_None in E; lia].
  destruct (look c l p s); cbn [is_border is_count orb]; [reflexivity| |]; rewrite IH by (intros j Hj; apply V; now right).
  - reflexivity.
  - cbn [length]. rewrite Nat.add_succ_r. reflexivity.
Qed.
Lemma at_seq c l p segs : map (at_index c l p segs) (seq 0 (length segs)) = map (look c l p) segs.
Proof.
  induction segs as [|s tl IH]; [reflexivity|]. cbn [length seq map]. f_equal. rewrite <- seq_shift, map_map, <- IH. reflexivity.
Qed.
(** Leaving out what is skipped changes nothing. *)
Lemma skipped {X} (f : X -> verdict) (g : X -> bool) l : (forall x, In x l -> g x = false -> f x = Skip) ->
  existsb is_border (map f (filter g l)) = existsb is_border (map f l) /\
  filter is_count (map f (filter g l)) = filter is_count (map f l).
Proof.
  induction l as [|x tl IH]; intros H; [split; reflexivity|]. destruct IH as [I1 I2]; [intros y Hy; apply H; now right|].
  cbn [filter map existsb]. destruct (g x) eqn:G; cbn [map existsb filter].
  - rewrite I1, I2. split; reflexivity.
  - rewrite (H x (or_introl eq_refl) G). cbn [is_border is_count orb]. split; assumption.
Qed.
