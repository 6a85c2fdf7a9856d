(** * Ring.ContainsPoint follows the even-odd rule *)
From Coq Require Import ZArith Bool List Lia Reals Lra Permutation Sorted.
From Flocq Require Import Core.Core.
From Verif Require Import Base_Res Base_F64 Base_F64Arith Base_Geom M_Geom M_Extent M_Cmp M_Intersect M_Planar M_Rtree M_Ring
  S_Cmp S_Winding S_Intersect S_Rtree S_Ring
  P_F64 P_F64Flocq P_F64Round P_F64Grid P_Cmp3 P_RingMath P_Ring P_RingIndex.
Import ListNotations.
Local Open Scope R_scope.

Definition side (s : line) : (R * R) * (R * R) := (rpt (fst s), rpt (snd s)).
Definition small_line (s : line) : Prop := small_pt (fst s) /\ small_pt (snd s).

Lemma small_val w : small_int w -> f64_wf w = true /\ f64_finite w = true /\ exists n, repr 0 n w /\ (Z.abs n <= 512)%Z /\ f64_R w = IZR n.
Proof. intros (n & R0 & B). destruct (repr_int _ _ R0) as (A & C & D). split; [exact A|]. split; [exact C|]. now exists n. Qed.
Lemma small_num w : small_int w -> num w.
Proof. intros H. apply small_val in H as (A & B & _). split; [exact A|now apply finite_nn]. Qed.
Lemma min_small a b : small_int a -> small_int b -> small_int (f64_min a b) /\ f64_R (f64_min a b) <= f64_R a /\ f64_R (f64_min a b) <= f64_R b.
Proof.
  intros A B. pose proof (small_num _ A) as Na. pose proof (small_num _ B) as Nb.
  assert (M : small_int (f64_min a b)) by (destruct (min_case a b Na Nb) as [-> | ->]; assumption).
  split; [exact M|]. destruct (small_val _ A) as (? & ? & _), (small_val _ B) as (? & ? & _), (small_val _ M) as (? & ? & _).
  rewrite <- !le_R by assumption. split; [now apply min_le_l|now apply min_le_r].
Qed.
Lemma max_small a b : small_int a -> small_int b -> small_int (f64_maxf a b) /\ f64_R a <= f64_R (f64_maxf a b) /\ f64_R b <= f64_R (f64_maxf a b).
Proof.
  intros A B. pose proof (small_num _ A) as Na. pose proof (small_num _ B) as Nb.
  assert (M : small_int (f64_maxf a b)) by (destruct (max_case a b Na Nb) as [-> | ->]; assumption).
  split; [exact M|]. destruct (small_val _ A) as (? & ? & _), (small_val _ B) as (? & ? & _), (small_val _ M) as (? & ? & _).
  rewrite <- !le_R by assumption. split; [now apply max_ge_l|now apply max_ge_r].
Qed.

(** ** The box *)
Definition around (e : extent) (q : R * R) : Prop := f64_R (e0 e) <= fst q <= f64_R (e2 e) /\ f64_R (e1 e) <= snd q <= f64_R (e3 e).
Definition small_ext (e : extent) : Prop := small_int (e0 e) /\ small_int (e1 e) /\ small_int (e2 e) /\ small_int (e3 e).
Lemma grow e p : small_ext e -> small_pt p -> small_ext (add_point1 e p) /\ around (add_point1 e p) (rpt p) /\
  forall q, around e q -> around (add_point1 e p) q.
Proof.
  intros (A & B & C & D) (X & Y). unfold small_ext, around, add_point1, rpt. cbn [e0 e1 e2 e3 fst snd].
  destruct (min_small _ _ X A) as (S0 & L0 & M0), (min_small _ _ Y B) as (S1 & L1 & M1), (max_small _ _ X C) as (S2 & L2 & M2), (max_small _ _ Y D) as (S3 & L3 & M3).
  split; [auto|]. split; [lra|]. intros q Q. lra.
Qed.
Lemma bbox_around segs : Forall small_line segs -> small_ext (ring_bbox segs) /\
  around (ring_bbox segs) (0, 0) /\ forall s, In s segs -> around (ring_bbox segs) (rpt (fst s)) /\ around (ring_bbox segs) (rpt (snd s)).
Proof.
  unfold ring_bbox. set (z := Ext f64_zero f64_zero f64_zero f64_zero).
  assert (Z0 : small_int f64_zero) by (exists 0%Z; split; [apply repr_zero|cbn; lia]).
  assert (Sz : small_ext z) by (repeat split; exact Z0).
  assert (Az : around z (0, 0)). { unfold around, z. cbn [e0 e1 e2 e3 fst snd]. destruct (repr_int _ _ (repr_zero 0)) as (_ & _ & ->). lra. }
  assert (K : forall segs e (P : R * R -> Prop), Forall small_line segs -> small_ext e -> (forall q, P q -> around e q) ->
    let b := fold_left (fun e l => add_point1 (add_point1 e (fst l)) (snd l)) segs e in
    small_ext b /\ (forall q, P q -> around b q) /\ forall s, In s segs -> around b (rpt (fst s)) /\ around b (rpt (snd s))).
  { clear. induction segs as [|s tl IH]; intros e P F Se Pe; [cbn; auto using in_nil; split; [exact Se|split; [exact Pe|intros s []]]|].
    inversion_clear F as [|? ? [Sa Sb] Ft]. cbn [fold_left].
    destruct (grow e (fst s) Se Sa) as (S1 & A1 & K1), (grow _ (snd s) (proj1 (grow e (fst s) Se Sa)) Sb) as (S2 & A2 & K2).
    destruct (IH _ (fun q => P q \/ q = rpt (fst s) \/ q = rpt (snd s)) Ft S2) as (J1 & J2 & J3).
    { intros q [H|[-> | ->]]; auto. }
    split; [exact J1|]. split; [auto|]. intros s' [<-|H]; [split; apply J2; auto|now apply J3]. }
  intros F. destruct (K segs z (fun q => q = (0, 0)) F Sz) as (J1 & J2 & J3); [intros q ->; exact Az|]. auto.
Qed.
Lemma in_bbox e p : small_ext e -> small_pt p -> contains_point (Some e) p = true <-> around e (rpt p).
Proof.
  intros (A & B & C & D) (X & Y). unfold contains_point, around, rpt. cbn [fst snd].
  destruct (small_val _ A) as (? & ? & _), (small_val _ B) as (? & ? & _), (small_val _ C) as (? & ? & _), (small_val _ D) as (? & ? & _), (small_val _ X) as (? & ? & _), (small_val _ Y) as (? & ? & _).
  rewrite !andb_true_iff, !le_R by assumption. tauto.
Qed.

(** ** All sides *)
Definition touched (segs : list line) (q : R * R) : Prop := exists s, In s segs /\ on_side (side s) q.
Definition odd_passes (segs : list line) (q : R * R) : bool := Nat.odd (length (filter (passes q) (map side segs))).

Section Point.
  Variables (segs : list line) (p : pt).
  Hypothesis Hs : Forall small_line segs.
  Hypothesis Hp : small_pt p.
  Let b := ring_bbox segs.
  Let l : line := ((f64_sub (e0 b) f64_one, snd p), p).

  Lemma ray_start : around b (rpt p) -> exists k, repr 0 k (f64_sub (e0 b) f64_one) /\ (Z.abs k <= 513)%Z /\ (IZR k < f64_R (fst p)) /\
    forall s, In s segs -> IZR k < f64_R (fst (fst s)) /\ IZR k < f64_R (fst (snd s)).
  Proof.
    intros A. destruct (bbox_around segs Hs) as ((S0 & _) & _ & H). fold b in S0, H. destruct (small_val _ S0) as (_ & _ & n & Rn & Bn & En).
    exists (n - 1)%Z. split; [apply repr_sub; [lia|unfold two53; lia|exact Rn|apply (repr_ofZ 1); vm_compute; discriminate]|]. split; [lia|].
    rewrite minus_IZR. destruct A as [[A _] _]. unfold rpt in A. cbn [fst] in A. split; [lra|].
    intros s Hin. destruct (H s Hin) as [[[K1 _] _] [[K2 _] _]]. unfold rpt in K1, K2. cbn [fst] in K1, K2. lra.
  Qed.

  Lemma each : around b (rpt p) -> forall s, In s segs ->
    (look default_compare l p s = Border /\ on_side (side s) (rpt p) \/
     look default_compare l p s = (if passes (rpt p) (side s) then Count else Skip) /\ ~ on_side (side s) (rpt p)) /\
    (look default_compare l p s <> Skip -> share_point l s).
  Proof.
    intros A s Hin. destruct (ray_start A) as (k & Rk & Bk & Lp & Ls). destruct (Ls s Hin) as [L1 L2].
    assert (Hl := proj1 (Forall_forall _ _) Hs s Hin). destruct Hl as [[X1 Y1] [X2 Y2]]. pose proof Hp as [X Y]. unfold l.
    destruct p as [px py], s as [[ax ay] [bx by_]]. unfold side, rpt. cbn [fst snd] in *.
    destruct (small_val _ X1) as (_ & _ & ka & R1 & B1 & E1), (small_val _ Y1) as (_ & _ & la & R2 & B2 & E2), (small_val _ X2) as (_ & _ & kb & R3 & B3 & E3),
      (small_val _ Y2) as (_ & _ & lb & R4 & B4 & E4), (small_val _ X) as (_ & _ & kx & R5 & B5 & E5), (small_val _ Y) as (_ & _ & ky & R6 & B6 & E6).
    rewrite E5 in Lp. rewrite E1 in L1. rewrite E3 in L2. apply lt_IZR in Lp, L1, L2. rewrite E1, E2, E3, E4, E5, E6.
    generalize (f64_sub (e0 b) f64_one) Rk. intros lx Rl. split.
    - exact (look_spec lx px py ax ay bx by_ k kx ky ka la kb lb Rl R5 R6 R1 R2 R3 R4 Bk B5 B6 B1 B2 B3 B4 Lp L1 L2).
    - exact (look_shared lx px py ax ay bx by_ k kx ky ka la kb lb Rl R5 R6 R1 R2 R3 R4 Bk B5 B6 B1 B2 B3 B4 Lp L1 L2).
  Qed.

  Lemma all_looks : around b (rpt p) -> forall border,
    let v := if existsb is_border (map (look default_compare l p) segs) then border
             else Nat.odd (0 + length (filter is_count (map (look default_compare l p) segs))) in
    (touched segs (rpt p) -> v = border) /\ (~ touched segs (rpt p) -> v = odd_passes segs (rpt p)).
  Proof.
    intros A border v. pose proof (each A) as H. unfold v, odd_passes. cbn [Nat.add]. clear v. split.
    - intros (s & Hin & On). assert (E : existsb is_border (map (look default_compare l p) segs) = true); [|now rewrite E].
      apply existsb_exists. exists Border. split; [|reflexivity]. apply in_map_iff. exists s. split; [|exact Hin].
      destruct (proj1 (H s Hin)) as [[E _]|[_ N]]; [exact E|contradiction].
    - intros N. assert (K : forall s, In s segs -> look default_compare l p s = if passes (rpt p) (side s) then Count else Skip).
      { intros s Hin. destruct (proj1 (H s Hin)) as [[_ On]|[E _]]; [|exact E]. exfalso. apply N. now exists s. }
      clear - K. assert (E : existsb is_border (map (look default_compare l p) segs) = false /\
        length (filter is_count (map (look default_compare l p) segs)) = length (filter (passes (rpt p)) (map side segs))).
      { generalize (look default_compare l p) K. clear K. intros f K. induction segs as [|s tl IH]; [split; reflexivity|].
        destruct IH as [I1 I2]; [intros x Hx; apply K; now right|]. cbn [map existsb filter]. rewrite (K s (or_introl eq_refl)).
        destruct (passes (rpt p) (side s)); cbn [is_border is_count orb length]; auto. }
      destruct E as [E1 E2]. rewrite E1, E2. reflexivity.
  Qed.

  Lemma small_moderate w : small_int w -> mid_word w.
  Proof.
    intros H. destruct (small_val _ H) as (W & F & n & _ & B & E). split; [exact W|]. split; [exact F|]. rewrite E, <- abs_IZR. apply IZR_le. lia.
  Qed.
  Lemma ray_moderate : around b (rpt p) -> mid_line l.
  Proof.
    intros A. destruct (ray_start A) as (k & Rk & Bk & _). destruct Hp as [X Y]. unfold l, mid_line. cbn [fst snd].
    split; [|split; [|split]]; try (apply small_moderate; assumption).
    destruct (repr_int _ _ Rk) as (W & F & E). split; [exact W|]. split; [exact F|]. rewrite E, <- abs_IZR. apply IZR_le. lia.
  Qed.
  Lemma outside_box : ~ around b (rpt p) -> ~ touched segs (rpt p).
  Proof.
    intros N. destruct (bbox_around segs Hs) as (_ & _ & H). fold b in H. intros (s & Hin & t & T & E). apply N. destruct (H s Hin) as [((A1 & A2) & A3 & A4) ((B1 & B2) & B3 & B4)].
      rewrite E. unfold side, along, around. cbn [fst snd]. clear - T A1 A2 A3 A4 B1 B2 B3 B4.
      assert (K : forall lo hi x y, lo <= x <= hi -> lo <= y <= hi -> lo <= x + t * (y - x) <= hi).
      { intros lo hi x y X Y. pose proof (along_range x y t T). destruct (Rle_dec x y); [rewrite Rmin_left, Rmax_right in H by lra|rewrite Rmin_right, Rmax_left in H by lra]; lra. }
      split; apply K; split; assumption.
  Qed.
End Point.

(** ** The points of a ring *)
Definition segs_of (pts : list pt) : list line := match pts with [] => [] | p :: _ => ring_segs (last pts p) pts end.
Lemma path_segs pts : forall q, path_sides (rpt q) (map rpt pts) = map side (ring_segs q pts).
Proof. induction pts as [|p tl IH]; intros q; cbn [path_sides ring_segs map]; [reflexivity|]. f_equal. apply IH. Qed.
Lemma last_map {X Y} (f : X -> Y) l d : last (map f l) (f d) = f (last l d).
Proof. induction l as [|x tl IH]; [reflexivity|]. cbn [map]. destruct tl as [|y tl]; [reflexivity|]. exact IH. Qed.
Lemma sides_segs pts : sides (map rpt pts) = map side (segs_of pts).
Proof.
  destruct pts as [|p tl]; [reflexivity|]. unfold segs_of. rewrite <- path_segs, <- last_map. reflexivity.
Qed.
Lemma in_segs pts s : forall q, In s (ring_segs q pts) -> In (fst s) (q :: pts) /\ In (snd s) pts.
Proof.
  induction pts as [|p tl IH]; intros q; cbn [ring_segs In]; [tauto|]. intros [<-|H]; [cbn; auto|]. apply IH in H as [H1 H2]. split; [|auto]. destruct H1; auto.
Qed.
Lemma last_in (pts : list pt) p : In p pts -> In (last pts p) pts.
Proof.
  intros H. assert (N : pts <> []) by (destruct pts; [contradiction|discriminate]). clear H. revert N. induction pts as [|x tl IH]; [congruence|].
  intros _. destruct tl as [|y tl]; [now left|]. right. apply IH. discriminate.
Qed.
Lemma segs_points pts s : In s (segs_of pts) -> In (fst s) pts /\ In (snd s) pts.
Proof.
  unfold segs_of. destruct pts as [|p tl]; [intros []|]. intros H. apply in_segs in H as [[<-|H1] H2]; split; auto. apply last_in. now left.
Qed.
Lemma point_seg pts p : In p pts -> exists s, In s (segs_of pts) /\ snd s = p.
Proof.
  unfold segs_of. destruct pts as [|p0 tl]; [intros []|]. generalize (last (p0 :: tl) p0). generalize (p0 :: tl). clear. intros l.
  induction l as [|x tl IH]; intros q; [intros []|]. cbn [In ring_segs]. intros [Ex|H]; [exists (q, x); split; [left; reflexivity|exact Ex]|]. destruct (IH x H) as (s & H1 & H2). exists s. auto.
Qed.
Lemma segs_small pts : Forall small_pt pts -> Forall small_line (segs_of pts).
Proof. rewrite !Forall_forall. intros H s Hs. apply segs_points in Hs as [H1 H2]. split; auto. Qed.
Lemma on_ring_segs pts q : on_ring (map rpt pts) q <-> touched (segs_of pts) q.
Proof.
  unfold on_ring, touched. rewrite sides_segs. split; [intros (e & H & On); apply in_map_iff in H as (s & <- & H); eauto|intros (s & H & On); exists (side s); split; [now apply in_map|exact On]].
Qed.
Lemma inside_segs pts q : inside (map rpt pts) q = odd_passes (segs_of pts) q.
Proof. unfold inside, odd_passes. now rewrite sides_segs. Qed.
Lemma not_around pts p : Forall small_pt pts -> ~ around (ring_bbox (segs_of pts)) (rpt p) -> beyond (map rpt pts) (rpt p).
Proof.
  intros F N. destruct (bbox_around _ (segs_small _ F)) as (_ & _ & H).
  assert (A : forall q, In q (map rpt pts) -> around (ring_bbox (segs_of pts)) q).
  { intros q Hq. apply in_map_iff in Hq as (x & <- & Hx). apply point_seg in Hx as (s & Hs & <-). apply (H s Hs). }
  unfold beyond. set (b := ring_bbox (segs_of pts)) in *. unfold around in *.
  destruct (Rlt_dec (fst (rpt p)) (f64_R (e0 b))); [left; intros q Hq; destruct (A q Hq); lra|].
  destruct (Rlt_dec (f64_R (e2 b)) (fst (rpt p))); [right; left; intros q Hq; destruct (A q Hq); lra|].
  destruct (Rlt_dec (snd (rpt p)) (f64_R (e1 b))); [right; right; left; intros q Hq; destruct (A q Hq); lra|].
  destruct (Rlt_dec (f64_R (e3 b)) (snd (rpt p))); [right; right; right; intros q Hq; destruct (A q Hq); lra|].
  exfalso. apply N. lra.
Qed.

Section Contains.
  Variable sorted : nat -> list (entry seg_rect) -> list (entry seg_rect).
  Variable nums : list seg_rect -> nat * Z * Z * Z.
  Hypothesis Hsorted : forall i es, Permutation (sorted i es) es.
  Hypothesis Hnums : numbers_ok nums.

  Theorem ring_parity border pts : Forall small_pt pts ->
    exists r, new_ring_from_points sorted nums default_compare border pts = Ok r /\
      forall p, small_pt p -> exists v, ring_contains (Some r) p = Ok v /\
        (on_ring (map rpt pts) (rpt p) -> v = border) /\ (~ on_ring (map rpt pts) (rpt p) -> v = inside (map rpt pts) (rpt p)).
  Proof.
    intros F. pose proof (segs_small pts F) as Fs. unfold new_ring_from_points, new_ring. fold (segs_of pts).
    assert (Fm : Forall mid_line (segs_of pts)).
    { eapply Forall_impl; [|exact Fs]. intros s [[A B] [C D]]. repeat split; now apply small_moderate. }
    assert (I : exists index, (if (static_len <? length (segs_of pts))%nat then new_search sorted nums (segs_of pts) else Ok None) = Ok index /\
      forall l, mid_line l -> match index with
        | Some t => search_idxs (Some t) l [] = Ok (hits (segs_of pts) (box l))
        | None => (length (segs_of pts) <= static_len)%nat end).
    { destruct (Nat.ltb_spec static_len (length (segs_of pts))) as [L|L].
      - destruct (search_hits sorted nums Hsorted Hnums (segs_of pts) Fm) as (t & Et & St); [unfold static_len in L; lia|]. exists (Some t). auto.
      - exists None. auto. }
    destruct I as (index & -> & Hi). cbn [bind]. eexists. split; [reflexivity|]. intros p Hp. cbn [ring_contains r_bbox r_segs r_index r_cmp r_border].
    set (segs := segs_of pts) in *. set (b := ring_bbox segs) in *.
    setoid_rewrite on_ring_segs. rewrite inside_segs. fold segs.
    destruct (contains_point (Some b) p) eqn:C; cbn [negb].
    2: { exists false. split; [reflexivity|]. assert (N : ~ around b (rpt p)) by (intros A; apply in_bbox in A; [congruence|apply bbox_around; exact Fs|exact Hp]).
         split; [intros T; now apply outside_box in N|]. intros _. unfold segs. rewrite <- inside_segs. symmetry. apply beyond_outside. now apply not_around. }
    apply in_bbox in C; [|apply bbox_around; exact Fs|exact Hp].
    set (l := ((f64_sub (e0 b) f64_one, snd p), p)). pose proof (ray_moderate segs p Fs Hp C) as Ml. fold b l in Ml.
    pose proof (all_looks segs p Fs Hp C border) as K. cbn zeta in K. fold b l in K.
    specialize (Hi l Ml). destruct index as [t|].
    - rewrite Hi. cbn [bind]. rewrite ray_spec by (intros i H; apply filter_In in H as [H _]; apply in_seq in H; lia).
      destruct (skipped (at_index default_compare l p segs) (hit segs (box l)) (seq 0 (length segs))) as [S1 S2].
      { intros i _ H. unfold at_index. unfold hit in H. destruct (nth_error segs i) as [s|] eqn:E; [|reflexivity]. apply nth_error_In in E.
        destruct (look default_compare l p s) eqn:Lk; [exfalso|reflexivity|exfalso].
        all: assert (Sh : share_point l s) by (apply (proj2 (each segs p Fs Hp C s E)); fold b l; rewrite Lk; discriminate).
        all: assert (O : overlap (box s) (box l) = true) by (apply shared_overlap; [now apply (proj1 (Forall_forall _ _) Fm)|exact Ml|destruct Sh as (q & Q1 & Q2); now exists q]); congruence. }
      unfold hits. rewrite S1, S2, at_seq. eexists. split; [reflexivity|exact K].
    - rewrite (proj2 (Nat.leb_le _ _) Hi). cbn [bind]. rewrite ray_spec by (intros i H; apply in_seq in H; lia). rewrite at_seq. eexists. split; [reflexivity|exact K].
  Qed.
End Contains.
