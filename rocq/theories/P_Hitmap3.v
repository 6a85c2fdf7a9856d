(** Proofs about planar/makevalid/hitmap: the rounding, and counterexamples *)
From Coq Require Import ZArith Bool List Lia Reals Lra Permutation.
From Flocq Require Import Core.Core Relative.
From Verif Require Import Base_Res Base_F64 Base_F64Arith Base_Geom M_Geom M_Extent M_Cmp M_Intersect M_Rtree M_Ring M_Hitmap
  S_Cmp S_Intersect S_RtreeEx S_Ring P_F64 P_F64Flocq P_F64Round P_F64Grid P_Cmp3 P_Intersect4 P_Ring P_Ring2 P_Ring3 P_Hitmap P_Hitmap2 P_Sweep3 S_Hitmap.
From Verif Require S_Sweep.
Import ListNotations.
Local Open Scope R_scope.


Theorem round20_nearest w : f64_wf w = true -> f64_finite w = true -> Rabs (f64_R w) <= bpow radix2 1023 ->
  exists w', round20 w = Ok w' /\ f64_finite w' = true /\ bits20 (f64_R w') /\
    (forall y, bits20 y -> Rabs (f64_R w' - f64_R w) <= Rabs (y - f64_R w)) /\
    Rabs (f64_R w' - f64_R w) <= bpow radix2 (-20) * Rabs (f64_R w).
Proof.
  intros W F B. destruct (round20_spec w W F B) as (w' & E & W' & F' & V). exists w'. split; [exact E|]. split; [exact F'|]. rewrite V. unfold rnd20.
  assert (Gf : forall y, bits20 y <-> generic_format radix2 (FLX_exp 20) y).
  { intros y. split.
    - intros (m & e & -> & M). destruct (Z.eq_dec (Z.abs m) (2 ^ 20)) as [Em|Nm].
      + assert (Q : (m = Z.sgn m * 2 ^ 20)%Z) by (rewrite <- Em; symmetry; rewrite Z.mul_comm; apply Z.abs_sgn). rewrite Q, mult_IZR. change (2 ^ 20)%Z with (Zpower radix2 20). rewrite IZR_Zpower by lia. rewrite Rmult_assoc, <- bpow_plus.
        apply generic_format_FLX. exists (Float radix2 (Z.sgn m) (20 + e)); [reflexivity|]. cbn [Fnum]. change (Zpower radix2 20) with 1048576%Z. lia.
      + apply generic_format_FLX. exists (Float radix2 m e); [reflexivity|]. cbn [Fnum]. change (Zpower radix2 20) with (2 ^ 20)%Z. lia.
    - intros G. apply FLX_format_generic in G; [|unfold Prec_gt_0; lia]. destruct G as [[m e] -> H]. cbn [Fnum] in H. exists m, e. split; [reflexivity|]. change (Zpower radix2 20) with (2 ^ 20)%Z in H. lia. }
  assert (P20 : Prec_gt_0 20) by (unfold Prec_gt_0; lia).
  split; [apply Gf, generic_format_round; [now apply FLX_exp_valid|apply valid_rnd_N]|]. split.
  - intros y Y. apply round_N_pt; [now apply FLX_exp_valid|]. now apply Gf.
  - eapply Rle_trans; [apply (relative_error_N_FLX radix2 20 P20)|]. apply Rmult_le_compat_r; [apply Rabs_pos|].
    assert (Q : bpow radix2 (-20) = / 2 * bpow radix2 (- (20) + 1)) by (replace (-20)%Z with (-1 + (- (20) + 1))%Z by reflexivity; rewrite bpow_plus; reflexivity). rewrite Q. apply Rle_refl.
Qed.

(** ** Counterexamples *)
Definition hsort_rings : (hring -> hring -> bool) -> list hring -> list hring := fun less => isort less.
Definition hsort_maps : (hitmap -> hitmap -> bool) -> list hitmap -> list hitmap := fun less => isort less.
Definition zsquare (a b : Z) : list (Z * Z) := [(a, a); (b, a); (b, b); (a, b)]%Z.
Definition square (a b : Z) : list pt := map zpt (zsquare a b).

Lemma off_within r q : small_z (q :: r) = true -> off_ring_z r q = true -> inside_z r q = true -> covers (map zpt r) (zpt q) /\ within (map zpt r) (zpt q).
Proof. intros S O I. destruct (z_inside r q S O) as [A B]. rewrite I in B. split; [right; exact B|split; assumption]. Qed.
Lemma off_beyond r q : small_z (q :: r) = true -> off_ring_z r q = true -> inside_z r q = false -> ~ covers (map zpt r) (zpt q) /\ ~ within (map zpt r) (zpt q).
Proof. intros S O I. destruct (z_inside r q S O) as [A B]. rewrite I in B. split; [intros [C|C]; [now apply A|congruence]|intros [_ C]; congruence]. Qed.

(** A square with a hole, and an island in the hole. *)
Definition lake : list (list (list pt)) := [[square 0 30; square 5 25]; [square 10 20]].
Lemma lake_small : Forall (Forall (Forall small_pt)) lake.
Proof.
  assert (Q : forall a b, (Z.abs a <=? 512)%Z = true -> (Z.abs b <=? 512)%Z = true -> Forall small_pt (square a b)).
  { intros a b A B. apply zpts_small. unfold zsquare. cbn [forallb fst snd]. now rewrite A, B. }
  apply Forall_cons; [apply Forall_cons; [|apply Forall_cons; [|apply Forall_nil]]|apply Forall_cons; [apply Forall_cons; [|apply Forall_nil]|apply Forall_nil]]; now apply Q.
Qed.
Theorem island_lost : in_polygons lake (zpt (15, 15)%Z) /\
  exists h, new_from_polygons sort_dim numbers_any hsort_rings None lake = Ok h /\ label_for h (zpt (15, 15)%Z) = Ok Outside.
Proof.
  split.
  - exists (square 10 20), []. split; [right; now left|]. split; [apply off_within; reflexivity|intros h []].
  - eexists. split; [vm_compute; reflexivity|]. vm_compute. reflexivity.
Qed.

(** Around 10^7, neighbouring values of 20 bits are 16 apart. *)
Definition remote : list (list (list pt)) := [[square 10000001 10000007]].
Theorem rounding_lost : in_polygons remote (zpt (10000004, 10000004)%Z) /\
  exists h, new_from_polygons sort_dim numbers_any hsort_rings None remote = Ok h /\ label_for h (zpt (10000004, 10000004)%Z) = Ok Outside.
Proof.
  split.
  - exists (square 10000001 10000007), []. split; [now left|]. split; [apply off_within; reflexivity|intros h []].
  - eexists. split; [vm_compute; reflexivity|]. vm_compute. reflexivity.
Qed.

Theorem nan_panics clip rings y : label_for (HPolygon clip rings) (f64_nan, y) = Panic.
Proof. reflexivity. Qed.

Section Clip.
  Variable sorted : nat -> list (entry seg_rect) -> list (entry seg_rect).
  Variable nums : list seg_rect -> nat * Z * Z * Z.
  Variable sort_rings : (hring -> hring -> bool) -> list hring -> list hring.
  Lemma holes_clip c hs : forall clip rs st, append_holes sorted nums (Some c) hs (clip, rs) = Ok st -> fst st = clip.
  Proof.
    induction hs as [|[|a h] hs IH]; intros clip rs st E.
    - injection E as <-. reflexivity.
    - exact (IH _ _ _ E).
    - cbn [append_holes] in E. destruct (new_hring _ _ _ _) as [r| |]; cbn [bind] in E; [|discriminate|discriminate]. exact (IH _ _ _ E).
  Qed.
  Lemma polygons_clip c plys : forall clip rs st, append_polygons sorted nums (Some c) plys (clip, rs) = Ok st -> fst st = clip.
  Proof.
    induction plys as [|[|[|a outer] holes] plys IH]; intros clip rs st E.
    - injection E as <-. reflexivity.
    - exact (IH _ _ _ E).
    - exact (IH _ _ _ E).
    - cbn [append_polygons] in E. destruct (new_hring _ _ _ _) as [r| |]; cbn [bind] in E; [|discriminate|discriminate].
      destruct (append_holes _ _ _ _ _) as [[c1 rs1]| |] eqn:Eh; cbn [bind] in E; [|discriminate|discriminate].
      apply holes_clip in Eh. cbn [fst] in Eh. subst c1. exact (IH _ _ _ E).
  Qed.
  (** With a clip box, only the origin may be labelled inside. *)
  Theorem clip_box_lost c plys h : new_from_polygons sorted nums sort_rings (Some c) plys = Ok h ->
    forall p, small_pt p -> rpt p <> (0, 0) -> label_for h p = Ok Outside.
  Proof.
    intros E p [Hx Hy] N. unfold new_from_polygons in E. destruct (append_polygons _ _ _ _ _) as [[clip rs]| |] eqn:Ep; cbn [bind fst snd] in E; [|discriminate|discriminate].
    apply polygons_clip in Ep. cbn [fst] in Ep. subst clip. injection E as <-. cbn [label_for]. unfold polygon_label.
    destruct (round_small _ Hx) as (x' & Ex & Sx & Vx), (round_small _ Hy) as (y' & Ey & Sy & Vy). rewrite Ex. cbn [bind]. rewrite Ey. cbn [bind].
    destruct (contains_point (Some zero_extent) (x', y')) eqn:C; [exfalso|reflexivity].
    apply in_bbox in C; [|exact zero_small|now split]. unfold around, zero_extent, rpt in C. cbn [e0 e1 e2 e3 fst snd] in C.
    destruct (repr_int _ _ (repr_zero 0)) as (_ & _ & Z0). rewrite Z0 in C. apply N. unfold rpt. f_equal; lra.
  Qed.
End Clip.
Theorem clip_box_missed : in_polygons [[square 1 9]] (zpt (5, 5)%Z) /\
  exists h, new_from_polygons sort_dim numbers_any hsort_rings (Some (Ext (f64_ofZ 0) (f64_ofZ 0) (f64_ofZ 10) (f64_ofZ 10))) [[square 1 9]] = Ok h /\
    label_for h (zpt (5, 5)%Z) = Ok Outside.
Proof.
  split.
  - exists (square 1 9), []. split; [now left|]. split; [apply off_within; reflexivity|intros h []].
  - eexists. split; [vm_compute; reflexivity|]. vm_compute. reflexivity.
Qed.

(** ** A worked case *)
Definition town : geom f64 := GCollection [GPoint (zpt (1, 1)%Z); GMultiPolygon lake; GCollection [GPolygon [square 40 50]]; GLineString (square 0 3)].
Lemma town_small : small_geom town.
Proof.
  unfold town. apply sg_collection. repeat apply Forall_cons; try apply Forall_nil; try constructor; try exact lake_small.
  repeat constructor; try (apply zpt_small; cbn; lia).
Qed.
Lemma town_labels : exists h, new_hitmap sort_dim numbers_any hsort_rings hsort_maps town = Ok (Some h) /\
  map (fun q => label_for h (zpt q)) [(3, 3); (15, 15); (45, 45); (5, 5); (30, 30); (35, 35)]%Z =
  [Ok Inside; Ok Outside; Ok Inside; Ok Inside; Ok Inside; Ok Outside].
Proof. eexists. split; [vm_compute; reflexivity|]. vm_compute. reflexivity. Qed.
Lemma extent_wide : exists h, new_from_polygons sort_dim numbers_any hsort_rings None [[square 1 9]] = Ok h /\
  hm_extent h = Ext (f64_ofZ 0) (f64_ofZ 0) (f64_ofZ 9) (f64_ofZ 9).
Proof. eexists. split; [vm_compute; reflexivity|]. vm_compute. reflexivity. Qed.
