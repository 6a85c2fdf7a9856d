(** * Consequences, examples and counterexamples for rings *)
From Coq Require Import ZArith Bool List Lia Reals Lra Permutation Sorted.
From Flocq Require Import Core.Core.
From Verif Require Import Base_Res Base_F64 Base_F64Arith Base_Geom M_Geom M_Extent M_Cmp M_Intersect M_Planar M_Rtree M_Ring
  S_Cmp S_Winding S_Intersect S_Rtree S_Extent S_Ring S_RtreeEx
  P_F64 P_F64Flocq P_F64Round P_F64Grid P_Cmp3 P_Intersect4 P_Extent P_RingMath P_Ring P_RingIndex P_Ring2.
Import ListNotations.
Local Open Scope R_scope.

(** ** Search *)
Section Search.
  Variable sorted : nat -> list (entry seg_rect) -> list (entry seg_rect).
  Variable nums : list seg_rect -> nat * Z * Z * Z.
  Hypothesis Hsorted : forall i es, Permutation (sorted i es) es.
  Hypothesis Hnums : numbers_ok nums.
  Lemma hits_spec segs seg : Forall mid_line segs -> mid_line seg ->
    StronglySorted lt (hits segs (box seg)) /\
    (forall i, In i (hits segs (box seg)) -> exists s, nth_error segs i = Some s /\ boxes_near (2 / 100000) s seg) /\
    (forall i s, nth_error segs i = Some s -> share_point s seg -> In i (hits segs (box seg))).
  Proof.
    intros M Ms. split; [apply filter_sorted, seq_sorted|]. split.
    - intros i H. apply filter_In in H as [_ H]. unfold hit in H. destruct (nth_error segs i) as [s|] eqn:E; [|discriminate]. exists s. split; [reflexivity|].
      apply overlap_near; auto. apply (proj1 (Forall_forall _ _) M). now apply nth_error_In in E.
    - intros i s E Sh. apply filter_In. split; [apply in_seq; split; [lia|]; apply nth_error_Some; congruence|]. unfold hit. rewrite E.
      apply shared_overlap; auto. apply (proj1 (Forall_forall _ _) M). now apply nth_error_In in E.
  Qed.
  Theorem search_spec segs : Forall mid_line segs -> (1 < length segs)%nat ->
    exists index, new_search sorted nums segs = Ok index /\
      forall seg, mid_line seg -> exists idxs, search_idxs index seg [] = Ok idxs /\
        StronglySorted lt idxs /\
        (forall i, In i idxs -> exists s, nth_error segs i = Some s /\ boxes_near (2 / 100000) s seg) /\
        (forall i s, nth_error segs i = Some s -> share_point s seg -> In i idxs).
  Proof.
    intros M L. destruct (search_hits sorted nums Hsorted Hnums segs M L) as (t & E & H). exists (Some t). split; [exact E|]. intros seg Ms.
    exists (hits segs (box seg)). split; [now apply H|]. now apply hits_spec.
  Qed.

  (** ** Paths *)
  Lemma same_answer border pts r p q : Forall small_pt pts -> new_ring_from_points sorted nums default_compare border pts = Ok r -> small_pt p -> small_pt q ->
    ~ on_ring (map rpt pts) (rpt p) -> ~ on_ring (map rpt pts) (rpt q) ->
    exists b, ring_contains (Some r) p = Ok b /\ ring_contains (Some r) q = Ok (xorb b (xorb (inside (map rpt pts) (rpt p)) (inside (map rpt pts) (rpt q)))).
  Proof.
    intros F E P Q Np Nq. destruct (ring_parity sorted nums Hsorted Hnums border pts F) as (r' & E' & K). rewrite E in E'. injection E' as <-.
    destruct (K p P) as (v & Ev & _ & Hv). destruct (K q Q) as (w & Ew & _ & Hw). exists v. split; [exact Ev|]. rewrite Ew. f_equal.
    rewrite (Hv Np), (Hw Nq). now destruct (inside (map rpt pts) (rpt p)), (inside (map rpt pts) (rpt q)).
  Qed.
End Search.

Lemma joined_ends r p q : ~ on_ring r p -> joined r p q -> ~ on_ring r q.
Proof.
  intros N J. induction J as [p|p q s H J IH]; [exact N|]. apply IH. specialize (H 1 ltac:(lra)). unfold along in H.
  replace (fst p + 1 * (fst q - fst p), snd p + 1 * (snd q - snd p)) with q in H; [exact H|]. destruct q as [x y]. cbn [fst snd]. f_equal; ring.
Qed.

(** ** The box *)
Definition origin_box : extent := Ext f64_zero f64_zero f64_zero f64_zero.
Lemma bbox_points segs : ring_bbox segs = fold_left add_point1 (flat_map (fun l : line => [fst l; snd l]) segs) origin_box.
Proof.
  unfold ring_bbox, origin_box. generalize (Ext f64_zero f64_zero f64_zero f64_zero). induction segs as [|s tl IH]; intros e; [reflexivity|].
  cbn [fold_left flat_map app]. apply IH.
Qed.
Lemma inside_within e p : S_Extent.inside e p <-> box_within (pt_box p) e.
Proof. unfold S_Extent.inside, box_within, pt_box. cbn [e0 e1 e2 e3]. reflexivity. Qed.
Theorem bbox_least pts : Forall num_pt pts -> let b := ring_bbox (segs_of pts) in
  S_Extent.inside b (f64_zero, f64_zero) /\ (forall p, In p pts -> S_Extent.inside b p) /\
  forall e, S_Extent.inside e (f64_zero, f64_zero) -> (forall p, In p pts -> S_Extent.inside e p) -> box_within b e.
Proof.
  intros F b. unfold b. rewrite bbox_points. set (l := flat_map (fun l : line => [fst l; snd l]) (segs_of pts)).
  assert (In1 : forall p, In p l -> In p pts).
  { intros p H. apply in_flat_map in H as (s & Hs & H). apply segs_points in Hs as [H1 H2]. destruct H as [<-|[<-|[]]]; assumption. }
  assert (In2 : forall p, In p pts -> In p l).
  { intros p H. apply point_seg in H as (s & Hs & <-). apply in_flat_map. exists s. split; [exact Hs|right; now left]. }
  assert (Fl : Forall num_pt l) by (rewrite Forall_forall in *; auto).
  assert (N0 : num_box origin_box) by (repeat split; reflexivity).
  assert (Fb : Forall num_box (map pt_box l)).
  { rewrite Forall_forall in *. intros x Hx. apply in_map_iff in Hx as (p & <- & Hp). apply pt_box_num, Fl, Hp. }
  rewrite fold_add_points by assumption.
  destruct (fold_join_ub (map pt_box l) origin_box N0 Fb) as [U1 U2]. split; [|split].
  - apply inside_within. exact U1.
  - intros p Hp. apply inside_within, U2, in_map, In2, Hp.
  - intros e He Hp. apply fold_join_least; [exact N0|exact Fb|exact (proj1 (inside_within e (f64_zero, f64_zero)) He)|].
    intros x Hx. apply in_map_iff in Hx as (p & <- & Hx). apply inside_within, Hp, In1, Hx.
Qed.

(** ** Rings with integer coordinates, decided by integer arithmetic *)
Local Open Scope Z_scope.
Definition zside := ((Z * Z) * (Z * Z))%type.
Definition rz (p : Z * Z) : R * R := (IZR (fst p), IZR (snd p)).
Definition passes_z (q : Z * Z) (e : zside) : bool :=
  let '((ka, la), (kb, lb)) := e in let '(kx, ky) := q in
  xorb (la <? ky) (lb <? ky) &&
  (if la <? lb then ((ky - la) * (kb - ka) <? (kx - ka) * (lb - la)) else ((kx - ka) * (lb - la) <? (ky - la) * (kb - ka))).
Lemma rltb_z n m : rltb (IZR n) (IZR m) = (n <? m).
Proof. unfold rltb. destruct (Rlt_dec (IZR n) (IZR m)) as [H|H]; symmetry; [apply Z.ltb_lt; now apply lt_IZR|apply Z.ltb_ge; apply Z.nlt_ge; intros K; apply H; now apply IZR_lt]. Qed.
Lemma passes_rz q e : passes (rz q) (rz (fst e), rz (snd e)) = passes_z q e.
Proof.
  destruct q as [kx ky], e as [[ka la] [kb lb]]. unfold passes, below, rz, passes_z. cbn [fst snd]. rewrite !rltb_z.
  destruct (la <? ky) eqn:A, (lb <? ky) eqn:B; cbn [xorb andb]; try reflexivity.
  all: rewrite ?Z.ltb_lt, ?Z.ltb_ge in A, B; unfold x_at; cbn [fst snd].
  all: assert (N : (IZR lb - IZR la <> 0)%R) by (intros H; assert (lb = la) by (apply eq_IZR; lra); lia).
  - replace (la <? lb) with true by (symmetry; apply Z.ltb_lt; lia).
    assert (P : (0 < IZR lb - IZR la)%R) by (rewrite <- minus_IZR; apply IZR_lt; lia).
    rewrite <- rltb_z. unfold rltb. rewrite !mult_IZR, !minus_IZR.
    assert (Q : (IZR ka + (IZR ky - IZR la) / (IZR lb - IZR la) * (IZR kb - IZR ka) < IZR kx <-> (IZR ky - IZR la) * (IZR kb - IZR ka) < (IZR kx - IZR ka) * (IZR lb - IZR la))%R).
    { replace ((IZR ky - IZR la) * (IZR kb - IZR ka))%R with ((IZR ky - IZR la) / (IZR lb - IZR la) * (IZR kb - IZR ka) * (IZR lb - IZR la))%R by (field; exact N).
      split; intros H; [apply Rmult_lt_compat_r; lra|apply Rmult_lt_reg_r in H; lra]. }
    destruct (Rlt_dec _ _) as [H|H], (Rlt_dec _ _) as [H2|H2]; tauto || reflexivity.
  - replace (la <? lb) with false by (symmetry; apply Z.ltb_ge; lia).
    assert (P : (0 < IZR la - IZR lb)%R) by (rewrite <- minus_IZR; apply IZR_lt; lia).
    rewrite <- rltb_z. unfold rltb. rewrite !mult_IZR, !minus_IZR.
    assert (Q : (IZR ka + (IZR ky - IZR la) / (IZR lb - IZR la) * (IZR kb - IZR ka) < IZR kx <-> (IZR kx - IZR ka) * (IZR lb - IZR la) < (IZR ky - IZR la) * (IZR kb - IZR ka))%R).
    { replace ((IZR ky - IZR la) * (IZR kb - IZR ka))%R with ((IZR ky - IZR la) / (IZR lb - IZR la) * (IZR kb - IZR ka) * (IZR lb - IZR la))%R by (field; exact N).
      generalize ((IZR ky - IZR la) / (IZR lb - IZR la) * (IZR kb - IZR ka))%R. intros t. split; intros H.
      - assert (t * (IZR la - IZR lb) < (IZR kx - IZR ka) * (IZR la - IZR lb))%R by (apply Rmult_lt_compat_r; lra). lra.
      - assert (t < IZR kx - IZR ka)%R by (apply Rmult_lt_reg_r with (IZR la - IZR lb)%R; lra). lra. }
    destruct (Rlt_dec _ _) as [H|H], (Rlt_dec _ _) as [H2|H2]; tauto || reflexivity.
Qed.
Fixpoint path_z (p : Z * Z) (r : list (Z * Z)) : list zside := match r with [] => [] | q :: tl => (p, q) :: path_z q tl end.
Definition sides_z (r : list (Z * Z)) : list zside := match r with [] => [] | p :: _ => path_z (last r p) r end.
Lemma path_rz r : forall p, path_sides (rz p) (map rz r) = map (fun e => (rz (fst e), rz (snd e))) (path_z p r).
Proof. induction r as [|q tl IH]; intros p; [reflexivity|]. cbn [map path_sides path_z]. f_equal. apply IH. Qed.
Lemma sides_rz r : sides (map rz r) = map (fun e => (rz (fst e), rz (snd e))) (sides_z r).
Proof. destruct r as [|p tl]; [reflexivity|]. unfold sides_z. rewrite <- path_rz, <- last_map. reflexivity. Qed.
Definition inside_z (r : list (Z * Z)) (q : Z * Z) : bool := Nat.odd (length (filter (passes_z q) (sides_z r))).
Lemma inside_rz r q : S_Ring.inside (map rz r) (rz q) = inside_z r q.
Proof.
  unfold S_Ring.inside, inside_z. f_equal. rewrite sides_rz. generalize (sides_z r). induction l as [|e tl IH]; [reflexivity|].
  cbn [map filter]. rewrite passes_rz. destruct (passes_z q e); cbn [length]; now rewrite IH.
Qed.
Definition off_z (q : Z * Z) (e : zside) : bool :=
  let '((ka, la), (kb, lb)) := e in let '(kx, ky) := q in
  negb ((kx - ka) * (lb - la) =? (ky - la) * (kb - ka)) ||
  (Z.max ka kb <? kx) || (kx <? Z.min ka kb) || (Z.max la lb <? ky) || (ky <? Z.min la lb).
Lemma off_rz q e : off_z q e = true -> ~ on_side (rz (fst e), rz (snd e)) (rz q).
Proof.
  destruct q as [kx ky], e as [[ka la] [kb lb]]. unfold off_z, on_side, rz, along. cbn [fst snd]. intros H (t & T & E).
  pose proof (f_equal fst E) as X. pose proof (f_equal snd E) as Y. cbn [fst snd] in X, Y. clear E.
  pose proof (along_range (IZR ka) (IZR kb) t T) as P. pose proof (along_range (IZR la) (IZR lb) t T) as Q. rewrite <- X in P. rewrite <- Y in Q.
  assert (M1 : IZR (Z.min ka kb) = Rmin (IZR ka) (IZR kb) /\ IZR (Z.max ka kb) = Rmax (IZR ka) (IZR kb)).
  { clear. destruct (Z.le_ge_cases ka kb) as [L|L]; [rewrite Z.min_l, Z.max_r by exact L; apply IZR_le in L; rewrite Rmin_left, Rmax_right by exact L; auto|].
    rewrite Z.min_r, Z.max_l by exact L. apply IZR_le in L. rewrite Rmin_right, Rmax_left by exact L. auto. }
  assert (M2 : IZR (Z.min la lb) = Rmin (IZR la) (IZR lb) /\ IZR (Z.max la lb) = Rmax (IZR la) (IZR lb)).
  { clear. destruct (Z.le_ge_cases la lb) as [L|L]; [rewrite Z.min_l, Z.max_r by exact L; apply IZR_le in L; rewrite Rmin_left, Rmax_right by exact L; auto|].
    rewrite Z.min_r, Z.max_l by exact L. apply IZR_le in L. rewrite Rmin_right, Rmax_left by exact L. auto. }
  destruct M1 as [M1 M1'], M2 as [M2 M2']. rewrite <- M1, <- M1' in P. rewrite <- M2, <- M2' in Q. destruct P as [P1 P2], Q as [Q1 Q2]. apply le_IZR in P1, P2, Q1, Q2.
  assert (C : (kx - ka) * (lb - la) = (ky - la) * (kb - ka)) by (apply eq_IZR; rewrite !mult_IZR, !minus_IZR, X, Y; ring).
  rewrite C, Z.eqb_refl in H. cbn [negb orb] in H. rewrite !orb_true_iff, !Z.ltb_lt in H. lia.
Qed.
Definition off_ring_z (r : list (Z * Z)) (q : Z * Z) : bool := forallb (off_z q) (sides_z r).
Lemma off_ring_rz r q : off_ring_z r q = true -> ~ on_ring (map rz r) (rz q).
Proof.
  intros H (e & He & On). rewrite sides_rz in He. apply in_map_iff in He as (z & <- & Hz). unfold off_ring_z in H. rewrite forallb_forall in H.
  exact (off_rz q z (H z Hz) On).
Qed.

Lemma zpt_rz p : Z.abs (fst p) <= two53 -> Z.abs (snd p) <= two53 -> rpt (zpt p) = rz p.
Proof. intros A B. destruct (zpt_grid p A B) as [X Y]. destruct (repr_int _ _ X) as (_ & _ & EX), (repr_int _ _ Y) as (_ & _ & EY). unfold rpt, rz. now rewrite EX, EY. Qed.
Definition small_z (r : list (Z * Z)) : bool := forallb (fun p => (Z.abs (fst p) <=? two53) && (Z.abs (snd p) <=? two53)) r.
Lemma zpts_rz r : small_z r = true -> map rpt (map zpt r) = map rz r.
Proof.
  unfold small_z. rewrite forallb_forall. intros H. rewrite map_map. apply map_ext_in. intros p Hp. apply H, andb_true_iff in Hp as [A B].
  apply zpt_rz; now apply Z.leb_le.
Qed.
(** A ring and a point with integer coordinates. *)
Lemma z_inside r q : small_z (q :: r) = true -> off_ring_z r q = true ->
  ~ on_ring (map rpt (map zpt r)) (rpt (zpt q)) /\ S_Ring.inside (map rpt (map zpt r)) (rpt (zpt q)) = inside_z r q.
Proof.
  intros H O. unfold small_z in H. cbn [forallb] in H. apply andb_true_iff in H as [Hq Hr]. rewrite zpts_rz by exact Hr. apply andb_true_iff in Hq as [A B].
  rewrite zpt_rz by (now apply Z.leb_le). split; [now apply off_ring_rz|apply inside_rz].
Qed.
Lemma zpt_small p : Z.abs (fst p) <= 512 -> Z.abs (snd p) <= 512 -> small_pt (zpt p).
Proof. intros A B. destruct (zpt_grid p) as [X Y]; [unfold two53; lia|unfold two53; lia|]. split; [exists (fst p)|exists (snd p)]; auto. Qed.
Lemma zpts_small r : forallb (fun p => (Z.abs (fst p) <=? 512) && (Z.abs (snd p) <=? 512)) r = true -> Forall small_pt (map zpt r).
Proof.
  rewrite forallb_forall. intros H. apply Forall_forall. intros x Hx. apply in_map_iff in Hx as (p & <- & Hp). apply H, andb_true_iff in Hp as [A B].
  apply zpt_small; now apply Z.leb_le.
Qed.

(** The numbers of NewTree for 18 objects: log 18 / log 5 = 1.8, 18 / 5 = 3.6. *)
Definition numbers18 (l : list seg_rect) : nat * Z * Z * Z := ((length l + 5)%nat, 2, 4, 2).
(** Numbers which are right for every length. *)
Definition numbers_any (l : list seg_rect) : nat * Z * Z * Z := ((length l + 5)%nat, 3, 2, 1).
Lemma numbers_any_ok : numbers_ok numbers_any.
Proof. intros l. unfold numbers_any. split; [lia|]. split; [lia|]. cbn. lia. Qed.
Lemma sort_dim_perm {A} i (es : list (entry A)) : Permutation (sort_dim i es) es.
Proof.
  assert (K : forall X le (x : X) l, Permutation (ins le x l) (x :: l)).
  { intros X le x l. induction l as [|y tl IH]; cbn [ins]; [reflexivity|]. destruct (le x y); [reflexivity|]. rewrite IH. apply perm_swap. }
  unfold sort_dim, S_RtreeEx.isort. induction es as [|e tl IH]; [reflexivity|]. cbn [fold_right]. rewrite K. now constructor.
Qed.
