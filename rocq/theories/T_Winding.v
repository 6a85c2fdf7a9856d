(** * Theorems about ring orientation (winding) *)
From Coq Require Import ZArith Bool List Lia.
From Verif Require Import Base_F64 Base_F64Arith Base_Geom P_F64Flocq P_F64Grid M_Winding S_Winding P_Winding P_Winding2.
Import ListNotations.
Open Scope Z_scope.

(** The orientation computed in float64 is the sign of the exact signed area
    for every ring on a binary grid whose extent and number of points leave
    room in 53 bits (in particular for integer coordinates). *)
Theorem C31_orientation_is_area_sign : forall e r pts ypd,
  grid_exp e -> on_grid e r pts -> small_ring r ->
  orientation ypd pts = (if ypd then -1 else 1) * Z.sgn (area2 r).
Proof. exact orientation_exact. Qed.
Print Assumptions C31_orientation_is_area_sign.

Theorem C31_reversing_flips : forall e r pts ypd,
  grid_exp e -> on_grid e r pts -> small_ring r ->
  orientation ypd (rev pts) = - orientation ypd pts.
Proof. exact orientation_reverse. Qed.
Print Assumptions C31_reversing_flips.

Theorem C31_starting_point_irrelevant : forall e r pts ypd k,
  grid_exp e -> on_grid e r pts -> small_ring r ->
  orientation ypd (rotate k pts) = orientation ypd pts.
Proof. exact orientation_rotate. Qed.
Print Assumptions C31_starting_point_irrelevant.

Theorem C31_translation_invariant : forall e r pts pts' v ypd,
  grid_exp e -> on_grid e r pts -> small_ring r ->
  on_grid e (map (translate v) r) pts' ->
  orientation ypd pts' = orientation ypd pts.
Proof. exact orientation_translate. Qed.
Print Assumptions C31_translation_invariant.

Theorem C31_mirroring_flips : forall e r pts pts' ypd,
  grid_exp e -> on_grid e r pts -> small_ring r ->
  on_grid e (map flip_y r) pts' ->
  orientation ypd pts' = - orientation ypd pts.
Proof. exact orientation_flip. Qed.
Print Assumptions C31_mirroring_flips.

(** The direction of the y axis: for all float64 rings. *)
Theorem C31_axis_flips : forall ypd pts, orientation (negb ypd) pts = - orientation ypd pts.
Proof. exact orientation_axis. Qed.
Print Assumptions C31_axis_flips.

Theorem C31_short_is_colinear : forall ypd pts, (length pts < 3)%nat -> orientation ypd pts = wColinear.
Proof. exact orientation_short. Qed.
Print Assumptions C31_short_is_colinear.

(** The integer rings up to [2^13] points with coordinates spread over [2^19]
    are covered, whatever their position below [2^53]. *)
Theorem C31_integer_rings : forall r ypd,
  (forall p, In p r -> Z.abs (fst p) <= 2 ^ 53 /\ Z.abs (snd p) <= 2 ^ 53) ->
  small_ring r ->
  orientation ypd (map fpt r) = (if ypd then -1 else 1) * Z.sgn (area2 r).
Proof. exact orientation_int. Qed.
Print Assumptions C31_integer_rings.

Example C31_nonvacuous :
  let r := [(0, 0); (10, 0); (10, 10); (0, 10)] in
  small_ring r /\ area2 r = 200 /\
  orientation false (map fpt r) = wCounterClockwise /\ orientation true (map fpt r) = wClockwise.
Proof.
  cbn zeta. split; [|vm_compute; auto].
  exists 10. split; [|cbn; lia].
  intros p q Hp Hq. cbn in Hp, Hq.
  repeat match goal with H : _ \/ _ |- _ => destruct H as [H|H] end; subst; try contradiction; cbn; lia.
Qed.

(** Beyond exact arithmetic the laws fail: a triangle whose orientation depends
    on the starting point, and a quadrilateral whose reversal has the same
    orientation. *)
Theorem C31_starting_point_rounding_refuted : exists pts ypd k,
  (forall p, In p pts -> f64_wf (fst p) = true /\ f64_wf (snd p) = true /\
                         f64_finite (fst p) = true /\ f64_finite (snd p) = true) /\
  orientation ypd (rotate k pts) = wCounterClockwise /\ orientation ypd pts = wClockwise.
Proof. exact rotation_rounding. Qed.
Print Assumptions C31_starting_point_rounding_refuted.

Theorem C31_reversing_rounding_refuted : exists pts ypd,
  (forall p, In p pts -> f64_wf (fst p) = true /\ f64_wf (snd p) = true /\
                         f64_finite (fst p) = true /\ f64_finite (snd p) = true) /\
  orientation ypd (rev pts) = wCounterClockwise /\ orientation ypd pts = wCounterClockwise.
Proof. exact reversal_rounding. Qed.
Print Assumptions C31_reversing_rounding_refuted.

(** RectifyPolygon: the first ring is clockwise and the others are
    counter-clockwise, when the rings' orientation is computed exactly. *)
Theorem C32_rectified_windings : forall ypd rs out inp,
  (forall r, In r rs -> exists e n, grid_exp e /\ on_grid e n r /\ small_ring n) ->
  rectify_polygon ypd rs = (Some out, inp) ->
  match out with
  | [] => rs = []
  | outer :: inner =>
      orientation ypd outer = wClockwise /\
      Forall (fun r => orientation ypd r = wCounterClockwise) inner
  end.
Proof. exact rectified_windings. Qed.
Print Assumptions C32_rectified_windings.

(** Every non-degenerate ring is kept, in order, as it was or reversed: for all
    float64 rings. *)
Theorem C32_rings_kept : forall ypd rs out inp,
  rectify_polygon ypd rs = (Some out, inp) ->
  Forall2 (fun r o => o = r \/ o = rev r)
          (filter (fun r => negb (orientation ypd r =? wColinear)) rs) out.
Proof. exact rectified_kept. Qed.
Print Assumptions C32_rings_kept.

Theorem C32_nil_iff : forall ypd rs,
  fst (rectify_polygon ypd rs) = None <->
  exists r tl, rs = r :: tl /\ orientation ypd r = wColinear.
Proof. exact rectified_nil. Qed.
Print Assumptions C32_nil_iff.

(** The rings of the argument are reversed in place where needed, and changed
    in no other way. *)
Theorem C32_argument_afterwards : forall ypd rs,
  Forall2 (fun r o => o = r \/ (o = rev r /\ orientation ypd r <> wColinear))
          rs (snd (rectify_polygon ypd rs)).
Proof. exact rectified_argument. Qed.
Print Assumptions C32_argument_afterwards.

Example C32_nonvacuous :
  let sq a b := map fpt [(a, a); (b, a); (b, b); (a, b)] in
  let line := map fpt [(0, 0); (1, 1); (2, 2)] in
  rectify_polygon false [sq 0 10; line; sq 2 4] =
    (Some [rev (sq 0 10); sq 2 4], [rev (sq 0 10); line; sq 2 4]) /\
  rectify_polygon false [line; sq 0 10] = (None, [line; sq 0 10]).
Proof. vm_compute. auto. Qed.

(** With rounding, a rectified ring can still be wound the wrong way. *)
Theorem C32_rounding_refuted : exists ypd rs outer inp,
  rectify_polygon ypd rs = (Some [outer], inp) /\ orientation ypd outer = wCounterClockwise.
Proof. exact rectified_rounding. Qed.
Print Assumptions C32_rounding_refuted.
