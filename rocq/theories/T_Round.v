(** * Theorems: rounding, the hull on a sphere, collinear points *)
From Coq Require Import Bool List ZArith Reals.
From Flocq Require Import Core.Core.
From Verif Require Import Base_F64 Base_F64Arith Base_Geom P_F64Flocq P_F64Round P_F64Grid S_Winding S_ResolveEdge M_Extent M_Cmp M_Walker M_Insert M_Constraint M_Round S_Round P_Round P_Round2.
Import ListNotations.
Local Open Scope Z_scope.

(** RoundToPrec returns the float64 nearest to a number with [p] decimals, it is not
    further away than half a unit and a bit, and rounding it again changes nothing. *)
Theorem C146_round : forall v p, 0 <= p <= 15 -> f64_wf v = true -> f64_finite v = true -> (Rabs (f64_R v * IZR (10 ^ p)) <= IZR (2 ^ 40))%R ->
  exists r, round_to_prec v p = Some r /\ f64_wf r = true /\ f64_finite r = true
  /\ (Rabs (f64_R r - f64_R v) * IZR (10 ^ p) <= / 2 + / 1024)%R
  /\ (exists k, f64_R r = rnd (IZR k / IZR (10 ^ p)))
  /\ exists r', round_to_prec r p = Some r' /\ f64_eq r' r = true.
Proof. exact prec_ok. Qed.
Print Assumptions C146_round.
(** So the points which NewForPoints has rounded are not changed by rounding them again. *)
Theorem C146_points : forall p, f64_wf (fst p) = true -> f64_finite (fst p) = true -> f64_wf (snd p) = true -> f64_finite (snd p) = true ->
  (Rabs (f64_R (fst p)) <= 1000000000)%R -> (Rabs (f64_R (snd p)) <= 1000000000)%R ->
  go_eq (round_pt (round_pt p)) (round_pt p) = true.
Proof. exact round_pt_again. Qed.
Print Assumptions C146_points.
(** 2^1023 is rounded to an infinity. *)
Theorem C146_finite_refuted : f64_finite big = true /\ exists r, round_to_prec big 3 = Some r /\ f64_finite r = false.
Proof. exact overflow. Qed.
Print Assumptions C146_finite_refuted.
(** -0.0001 is rounded to -0. *)
Theorem C146_zero_refuted : round_to_prec tiny 3 = Some 0x8000000000000000.
Proof. exact negative_zero. Qed.
Print Assumptions C146_zero_refuted.
(** 1/1024 at three decimals *)
Example C146_nonvacuous : (f64_wf kilo = true /\ f64_finite kilo = true /\ (Rabs (f64_R kilo * IZR (10 ^ 3)) <= IZR (2 ^ 40))%R)
  /\ exists r, round_to_prec kilo 3 = Some r /\ r <> kilo /\ r <> 0.
Proof. exact round_case. Qed.

(** Hull spans at most half a turn to the east, from one longitude to the other. *)
Theorem C147_hull : forall a b n m, repr (-40) n (fst a) -> repr (-40) m (fst b) -> longitude n -> longitude m -> f64_isnan (snd a) = false -> f64_isnan (snd b) = false ->
  let h := sph_hull a b in hull_of n m (snd a) (snd b) (e0 h) (e1 h) (e2 h) (e3 h).
Proof. exact hull_ok. Qed.
Print Assumptions C147_hull.
(** It does not depend on the order of the two points. *)
Theorem C147_symmetric : forall a b n m, repr (-40) n (fst a) -> repr (-40) m (fst b) -> longitude n -> longitude m -> f64_isnan (snd a) = false -> f64_isnan (snd b) = false ->
  let h := sph_hull a b in let k := sph_hull b a in
  f64_eq (e0 h) (e0 k) = true /\ f64_eq (e1 h) (e1 k) = true /\ f64_eq (e2 h) (e2 k) = true /\ f64_eq (e3 h) (e3 k) = true.
Proof. exact hull_sym. Qed.
Print Assumptions C147_symmetric.
(** (-170, 10) and (170, -10): the hull goes over the antimeridian. *)
Example C147_nonvacuous : (repr (-40) (-170 * 2 ^ 40) (f64_ofZ (-170)) /\ repr (-40) (170 * 2 ^ 40) (f64_ofZ 170) /\ longitude (-170 * 2 ^ 40) /\ longitude (170 * 2 ^ 40))
  /\ sph_hull (fpt (-170, 10)) (fpt (170, -10)) = Ext (f64_ofZ 170) (f64_ofZ (-10)) (f64_ofZ (-170)) (f64_ofZ 10).
Proof. exact hull_case. Qed.

(** Three integer points are reported to be collinear exactly if they are. *)
Theorem C148_collinear : forall c p q r, moderate p -> moderate q -> moderate r -> f64_wf (tol c) = true -> f64_finite (tol c) = true -> (0 < f64_R (tol c) <= / 2)%R ->
  three_colinear c (fpt p) (fpt q) (fpt r) = (twice_area p q r =? 0).
Proof. exact three_exact. Qed.
Print Assumptions C148_collinear.
Example C148_nonvacuous : f64_wf (tol default_cmp) = true /\ f64_finite (tol default_cmp) = true /\ (0 < f64_R (tol default_cmp) <= / 2)%R.
Proof. exact default_tol. Qed.
(** With the default tolerance (0,0), (1/1024,0), (0,1/1024) are reported to be
    collinear. *)
Theorem C148_small_refuted : repr (-10) 1 kilo /\ three_colinear default_cmp (f64_zero, f64_zero) (kilo, f64_zero) (f64_zero, kilo) = true /\ twice_area (0, 0) (1, 0) (0, 1) = 1.
Proof. exact small_right. Qed.
Print Assumptions C148_small_refuted.
