(** * Paths, examples and counterexamples for rings *)
From Coq Require Import ZArith Bool List Lia Reals Lra Permutation Sorted.
From Flocq Require Import Core.Core.
From Verif Require Import Base_Res Base_F64 Base_F64Arith Base_Geom M_Geom M_Extent M_Cmp M_Intersect M_Planar M_Rtree M_Ring
  S_Cmp S_Winding S_Intersect S_Rtree S_Extent S_Ring S_RtreeEx
  P_F64 P_F64Flocq P_F64Round P_F64Grid P_Cmp3 P_Intersect4 P_Extent P_RingMath P_Ring P_RingIndex P_Ring2 P_Ring3.
Import ListNotations.
Local Open Scope R_scope.

Section Paths.
  Variable sorted : nat -> list (entry seg_rect) -> list (entry seg_rect).
  Variable nums : list seg_rect -> nat * Z * Z * Z.
  Hypothesis Hsorted : forall i es, Permutation (sorted i es) es.
  Hypothesis Hnums : numbers_ok nums.
  Variables (border : bool) (pts : list pt) (r : ring).
  Hypothesis F : Forall small_pt pts.
  Hypothesis E : new_ring_from_points sorted nums default_compare border pts = Ok r.

  Lemma answer p : small_pt p -> ~ on_ring (map rpt pts) (rpt p) -> ring_contains (Some r) p = Ok (S_Ring.inside (map rpt pts) (rpt p)).
  Proof.
    intros P N. destruct (ring_parity sorted nums Hsorted Hnums border pts F) as (r' & E' & K). rewrite E in E'. injection E' as <-.
    destruct (K p P) as (v & Ev & _ & Hv). rewrite Ev. f_equal. auto.
  Qed.
  Theorem joined_same' p q : small_pt p -> small_pt q -> ~ on_ring (map rpt pts) (rpt p) -> joined (map rpt pts) (rpt p) (rpt q) ->
    exists b, ring_contains (Some r) p = Ok b /\ ring_contains (Some r) q = Ok b.
  Proof.
    intros P Q N J. exists (S_Ring.inside (map rpt pts) (rpt p)). split; [now apply answer|]. rewrite (same_joined _ _ _ J). apply answer; [exact Q|].
    now apply (joined_ends _ (rpt p)).
  Qed.
  Theorem joined_beyond' p q : small_pt p -> ~ on_ring (map rpt pts) (rpt p) -> joined (map rpt pts) (rpt p) q -> beyond (map rpt pts) q ->
    ring_contains (Some r) p = Ok false.
  Proof. intros P N J B. rewrite answer by assumption. f_equal. rewrite (same_joined _ _ _ J). now apply beyond_outside. Qed.
  Theorem crossing_changes' p q l1 e l2 : small_pt p -> small_pt q -> ~ on_ring (map rpt pts) (rpt p) -> ~ on_ring (map rpt pts) (rpt q) ->
    sides (map rpt pts) = l1 ++ e :: l2 -> crosses (rpt p) (rpt q) e ->
    (forall e' t, In e' (l1 ++ l2) -> 0 <= t <= 1 -> ~ on_side e' (along (rpt p) (rpt q) t)) ->
    exists b, ring_contains (Some r) p = Ok b /\ ring_contains (Some r) q = Ok (negb b).
  Proof.
    intros P Q Np Nq S C O. exists (S_Ring.inside (map rpt pts) (rpt p)). split; [now apply answer|].
    rewrite <- (changed_crossing _ _ _ _ _ _ S C O). now apply answer.
  Qed.
End Paths.
Definition joined_same sorted nums Hs Hn border pts r p q F E := joined_same' sorted nums Hs Hn border pts r F E p q.
Definition joined_beyond sorted nums Hs Hn border pts r p q F E := joined_beyond' sorted nums Hs Hn border pts r F E p q.
Definition crossing_changes sorted nums Hs Hn border pts r p q l1 e l2 F E := crossing_changes' sorted nums Hs Hn border pts r F E p q l1 e l2.

(** ** Examples *)
Definition far : Z := (2 ^ 38)%Z.
Lemma far_missed : exists index, new_search sort_dim numbers_any [zline ((0, 0), (0, far))%Z; zline ((2, 0), (2, far))%Z] = Ok index /\
  share_point (zline ((0, 0), (0, far))%Z) (zline ((0, far), (3, far))%Z) /\
  search_idxs index (zline ((0, far), (3, far))%Z) [] = Ok [].
Proof.
  eexists. split; [vm_compute; reflexivity|]. split; [|vm_compute; reflexivity].
  exists (rz (0, far)%Z). unfold on_segment, zline. cbn [fst snd].
  rewrite !zpt_rz by (cbv; discriminate). split; [exists 1|exists 0]; (split; [lra|]); unfold along, rz; cbn [fst snd]; f_equal; ring.
Qed.

Definition ell : list (Z * Z) := [(0, 0); (8, 0); (8, 3); (3, 3); (3, 8); (0, 8)]%Z.
Definition long_ell : list (Z * Z) :=
  ([(0, 0); (1, 0); (2, 0); (3, 0); (4, 0); (5, 0); (6, 0); (7, 0); (8, 0); (8, 1); (8, 2); (8, 3); (6, 3); (5, 3); (3, 3); (3, 6); (3, 8); (0, 8); (0, 4)])%Z.
Lemma ells : forall pts, pts = ell \/ pts = long_ell -> Forall small_pt (map zpt pts) /\
  exists r, new_ring_from_points sort_dim numbers_any default_compare true (map zpt pts) = Ok r /\
    map (fun q => ring_contains (Some r) (zpt q)) [(1, 3); (5, 5); (9, 9); (8, 1); (3, 3); (2, 8)]%Z =
      [Ok true; Ok false; Ok false; Ok true; Ok true; Ok true] /\
    S_Ring.inside (map rpt (map zpt pts)) (rpt (zpt (1, 3)%Z)) = true /\
    ~ on_ring (map rpt (map zpt pts)) (rpt (zpt (1, 3)%Z)) /\
    S_Ring.inside (map rpt (map zpt pts)) (rpt (zpt (5, 5)%Z)) = false.
Proof.
  intros pts H.
  destruct (z_inside pts (1, 3)%Z) as [A B]; [destruct H as [-> | ->]; reflexivity|destruct H as [-> | ->]; reflexivity|].
  destruct (z_inside pts (5, 5)%Z) as [C D]; [destruct H as [-> | ->]; reflexivity|destruct H as [-> | ->]; reflexivity|].
  split; [apply zpts_small; destruct H as [-> | ->]; reflexivity|]. rewrite B, D.
  destruct H as [-> | ->]; (eexists; split; [vm_compute; reflexivity|]; split; [vm_compute; reflexivity|]; split; [reflexivity|]; split; [exact A|reflexivity]).
Qed.

Lemma ell_paths : exists e l2, sides (map rpt (map zpt ell)) = e :: l2 /\ crosses (rpt (zpt (1, 3)%Z)) (rpt (zpt (-1, 3)%Z)) e /\
  (forall e' t, In e' l2 -> 0 <= t <= 1 -> ~ on_side e' (along (rpt (zpt (1, 3)%Z)) (rpt (zpt (-1, 3)%Z)) t)) /\
  beyond (map rpt (map zpt ell)) (rpt (zpt (-1, 3)%Z)) /\
  joined (map rpt (map zpt ell)) (rpt (zpt (1, 3)%Z)) (rpt (zpt (2, 5)%Z)).
Proof.
  rewrite zpts_rz by reflexivity. rewrite !zpt_rz by (cbv; discriminate). rewrite sides_rz.
  eexists _, _. split; [cbn [sides_z path_z map last ell]; reflexivity|]. split; [|split; [|split]].
  - exists (1/2), (5/8). unfold along, rz. cbn [fst snd]. split; [lra|]. split; [lra|]. split; [f_equal; lra|lra].
  - intros e' t He T. unfold rz, along, on_side in *. cbn [fst snd] in *.
    assert (K : forall s : R * R, (1 + t * (-1 - 1), 3 + t * (3 - 3)) = s -> fst s = 1 - 2 * t /\ snd s = 3) by (intros s <-; cbn [fst snd]; split; ring).
    cbn [In] in He. destruct He as [<-|[<-|[<-|[<-|[<-|[]]]]]]; intros (u & U & Eq); apply K in Eq; cbn [fst snd] in Eq; destruct Eq as [Eq1 Eq2]; clear K; unfold along in Eq1, Eq2; cbn [fst snd] in Eq1, Eq2; lra.
  - left. intros p Hp. apply in_map_iff in Hp as (z & <- & Hz). unfold rz. cbn [fst]. apply IZR_lt. cbn [In ell] in Hz.
    destruct Hz as [<-|[<-|[<-|[<-|[<-|[<-|[]]]]]]]; reflexivity.
  - apply joined_step with (q := rz (2, 5)%Z); [|constructor]. intros t T (e & He & (u & U & Eq)). rewrite sides_rz in He.
    unfold rz, along in *. cbn [fst snd] in *. 
    assert (K : forall s : R * R, (1 + t * (2 - 1), 3 + t * (5 - 3)) = s -> fst s = 1 + t /\ snd s = 3 + 2 * t) by (intros s <-; cbn [fst snd]; split; ring).
    apply K in Eq. cbn [fst snd] in Eq. destruct Eq as [Eq1 Eq2]. clear K.
    cbn [sides_z path_z map last ell In fst snd] in He. destruct He as [<-|[<-|[<-|[<-|[<-|[<-|[]]]]]]]; cbn [fst snd] in *; lra.
Qed.

Lemma relative : exists pts p, forall sorted nums,
  exists r, new_ring_from_points sorted nums default_compare false pts = Ok r /\ ring_contains (Some r) p = Ok false /\
    ~ on_ring (map rpt pts) (rpt p) /\ S_Ring.inside (map rpt pts) (rpt p) = true.
Proof.
  pose (sq := [(10000000, 10000000); (10000008, 10000000); (10000008, 10000008); (10000000, 10000008)]%Z). pose (c := (10000004, 10000004)%Z).
  exists (map zpt sq), (zpt c). intros sorted nums.
  destruct (z_inside sq c eq_refl eq_refl) as [A B].
  eexists. split; [unfold new_ring_from_points, new_ring; cbn [sq map ring_segs length last static_len Nat.ltb Nat.leb bind]; reflexivity|]. split; [vm_compute; reflexivity|].
  split; [exact A|]. rewrite B. reflexivity.
Qed.

(** 2^-30 *)
Definition hair : f64 := 0x3E10000000000000%Z.
Lemma hair_R : 0 < f64_R hair < / 1000.
Proof. vm_compute. lra. Qed.
Definition diamond : list (Z * Z) := [(0, 0); (10, -10); (20, 0); (10, 10)]%Z.
Lemma vertex : exists pts p, Forall small_pt pts /\ forall sorted nums,
  exists r, new_ring_from_points sorted nums default_compare false pts = Ok r /\ ring_contains (Some r) p = Ok false /\
    ~ on_ring (map rpt pts) (rpt p) /\ S_Ring.inside (map rpt pts) (rpt p) = true.
Proof.
  exists (map zpt diamond), (f64_ofZ 5, hair). split; [now apply zpts_small|]. intros sorted nums.
  eexists. split; [unfold new_ring_from_points, new_ring; cbn [diamond map ring_segs length last static_len Nat.ltb Nat.leb bind]; reflexivity|]. split; [vm_compute; reflexivity|].
  rewrite zpts_rz by reflexivity. unfold S_Ring.inside, on_ring. rewrite sides_rz. cbn [diamond sides_z path_z map last fst snd].
  assert (Q : rpt (f64_ofZ 5, hair) = (5, f64_R hair)).
  { unfold rpt. cbn [fst snd]. f_equal. destruct (repr_int _ _ (repr_ofZ 5 ltac:(vm_compute; discriminate))) as (_ & _ & K). exact K. }
  rewrite Q. pose proof hair_R as H. generalize dependent (f64_R hair). intros y _ Y. unfold rz. cbn [fst snd]. split.
  - intros (e & He & u & U & Eq). unfold along in Eq. pose proof (f_equal fst Eq) as E1. pose proof (f_equal snd Eq) as E2. clear Eq.
    cbn [In] in He. destruct He as [<-|[<-|[<-|[<-|[]]]]]; cbn [fst snd] in *; lra.
  -
    assert (P1 : passes (5, y) ((10, 10), (0, 0)) = true).
    { unfold passes, below, x_at, rltb. cbn [fst snd]. destruct (Rlt_dec 10 y); [lra|]. destruct (Rlt_dec 0 y); [|lra]. destruct (Rlt_dec _ 5) as [|N]; [reflexivity|]. exfalso. apply N. lra. }
    assert (P2 : passes (5, y) ((0, 0), (10, -10)) = false).
    { unfold passes, below, rltb. cbn [fst snd]. destruct (Rlt_dec 0 y); [|lra]. destruct (Rlt_dec (-10) y); [|lra]. reflexivity. }
    assert (P3 : passes (5, y) ((10, -10), (20, 0)) = false).
    { unfold passes, below, rltb. cbn [fst snd]. destruct (Rlt_dec 0 y); [|lra]. destruct (Rlt_dec (-10) y); [|lra]. reflexivity. }
    assert (P4 : passes (5, y) ((20, 0), (10, 10)) = false).
    { unfold passes, below, x_at, rltb. cbn [fst snd]. destruct (Rlt_dec (20 + _) 5) as [L|L]; [lra|apply andb_false_r]. }
    cbn [filter]. rewrite P1, P2, P3, P4. reflexivity.
Qed.

Definition scaled (p : Z * Z) : Z * Z := (2 ^ 22 * fst p, far + 2 ^ 22 * snd p)%Z.
Definition few_z : list (Z * Z) := map scaled [(0, -8); (16, -8); (16, 8); (0, 8); (0, 0)]%Z.
Definition many_z : list (Z * Z) := map scaled
  [(0, -8); (16, -8); (16, -7); (16, -6); (16, -5); (16, -4); (16, -3); (16, -2); (16, -1); (16, 1); (16, 2); (16, 3); (16, 4); (16, 5); (16, 6); (16, 8); (0, 8); (0, 0)]%Z.
Lemma indexed : exists few many p,
  ~ on_ring (map rpt many) (rpt p) /\ S_Ring.inside (map rpt many) (rpt p) = true /\
  exists r s, new_ring_from_points sort_dim numbers18 default_compare false few = Ok r /\ ring_contains (Some r) p = Ok true /\
    new_ring_from_points sort_dim numbers18 default_compare false many = Ok s /\ ring_contains (Some s) p = Ok false.
Proof.
  exists (map zpt few_z), (map zpt many_z), (zpt (scaled (8, 0)%Z)).
  destruct (z_inside many_z (scaled (8, 0)%Z) eq_refl eq_refl) as [A B]. split; [exact A|]. rewrite B. split; [reflexivity|].
  eexists _, _. split; [vm_compute; reflexivity|]. split; [vm_compute; reflexivity|]. split; [vm_compute; reflexivity|]. vm_compute. reflexivity.
Qed.

(** ** The extent *)
Lemma extent_least sorted nums c border pts r : Forall num_pt pts -> new_ring_from_points sorted nums c border pts = Ok r ->
  exists b, ring_extent (Some r) = Some b /\ S_Extent.inside b (f64_zero, f64_zero) /\ (forall p, In p pts -> S_Extent.inside b p) /\
    forall e, S_Extent.inside e (f64_zero, f64_zero) -> (forall p, In p pts -> S_Extent.inside e p) -> box_within b e.
Proof.
  intros F E. exists (ring_bbox (segs_of pts)). unfold new_ring_from_points, new_ring in E. fold (segs_of pts) in E.
  destruct (if (static_len <? length (segs_of pts))%nat then _ else _) as [index| |]; cbn [bind] in E; try discriminate. injection E as <-.
  split; [reflexivity|]. now apply bbox_least.
Qed.
Lemma extent_loose : exists pts, Forall num_pt pts /\ forall sorted nums, exists r b, new_ring_from_points sorted nums default_compare false pts = Ok r /\
  ring_extent (Some r) = Some b /\ (forall p, In p pts -> S_Extent.inside (Ext (f64_ofZ 5) (f64_ofZ 5) (f64_ofZ 7) (f64_ofZ 7)) p) /\
  e0 b = f64_zero /\ e1 b = f64_zero.
Proof.
  exists (map zpt [(5, 5); (7, 5); (7, 7)]%Z). split; [repeat constructor|]. intros sorted nums.
  eexists _, _. split; [unfold new_ring_from_points, new_ring; cbn [map ring_segs length last static_len Nat.ltb Nat.leb bind]; reflexivity|]. split; [reflexivity|].
  split; [|split; vm_compute; reflexivity]. intros p [<-|[<-|[<-|[]]]]; vm_compute; auto.
Qed.
