(** * Specification vocabulary for planar/makevalid *)
From Coq Require Import ZArith Bool List Reals.
From Verif Require Import Base_Res Base_F64 Base_Geom M_Geom M_Extent M_Cmp M_Triangle S_Intersect S_Ring S_Hitmap P_F64Flocq.
Import ListNotations.

(** The sides of the rings of three points and more: from the last point to the
    first, from the first to the second, ... *)
Definition ring_edges (r : list pt) : list line :=
  match r with
  | a :: _ :: _ :: _ => combine (last r a :: r) r
  | _ => []
  end.
Definition mp_edges (mp : list (list (list pt))) : list line := flat_map (flat_map ring_edges) mp.

(** Coordinates which are integers of at most 512. *)
Definition small_mp (mp : list (list (list pt))) : Prop :=
  forall poly r p, In poly mp -> In r poly -> In p r -> small_pt p.
(** Some point, every point. *)
Definition some_point (mp : list (list (list pt))) (P : pt -> Prop) : Prop :=
  exists poly r p, In poly mp /\ In r poly /\ In p r /\ P p.
Definition every_point (mp : list (list (list pt))) (P : pt -> Prop) : Prop :=
  forall poly r p, In poly mp -> In r poly -> In p r -> P p.

(** Two of the segments which are not parallel meet, if they do, at integers. *)
Definition meet_on_grid (ls : list line) : Prop :=
  forall a b q, In a ls -> In b ls -> ~ parallel a b -> on_segment a q -> on_segment b q ->
    exists n m : Z, q = (IZR n, IZR m).

(** [q] is on one of the segments which are longer than zero. *)
Definition drawn (ls : list line) (q : R * R) : Prop :=
  exists l, In l ls /\ rpt (fst l) <> rpt (snd l) /\ on_segment l q.

(** On small integers the comparator finds equal what is equal. *)
Definition tells_apart (c : compare) : Prop :=
  forall p q, small_pt p -> small_pt q -> (point_equal c p q = true <-> rpt p = rpt q).

(** In the box; a box of small integers with an inside; its four sides. *)
Definition in_clip (e : extent) (q : R * R) : Prop :=
  (f64_R (e0 e) <= fst q <= f64_R (e2 e) /\ f64_R (e1 e) <= snd q <= f64_R (e3 e))%R.
Definition clip_ok (e : extent) : Prop :=
  small_int (e0 e) /\ small_int (e1 e) /\ small_int (e2 e) /\ small_int (e3 e) /\
  (f64_R (e0 e) < f64_R (e2 e) /\ f64_R (e1 e) < f64_R (e3 e))%R.
Definition box_sides (e : extent) : list line :=
  let a := (e0 e, e1 e) in let b := (e2 e, e1 e) in let c := (e2 e, e3 e) in let d := (e0 e, e3 e) in
  [(a, b); (b, c); (c, d); (d, a)].

(** From left to right, or upwards. *)
Definition rightward (l : line) : Prop :=
  (fst (rpt (fst l)) < fst (rpt (snd l)) \/ fst (rpt (fst l)) = fst (rpt (snd l)) /\ snd (rpt (fst l)) < snd (rpt (snd l)))%R.

(** Where two segments meet both end, if they are not parallel. *)
Definition end_of (l : line) (q : R * R) : Prop := q = rpt (fst l) \/ q = rpt (snd l).
Definition noded (ls : list line) : Prop :=
  forall a b q, In a ls -> In b ls -> ~ parallel a b -> on_segment a q -> on_segment b q -> end_of a q /\ end_of b q.

(** The same two ends. *)
Definition same_line (a b : line) : Prop := rpt (fst a) = rpt (fst b) /\ rpt (snd a) = rpt (snd b).

(** Where an edge ends on another, parallel one, that one ends too or a third edge,
    not parallel to it, passes. *)
Definition corners (ls : list line) : Prop :=
  forall a b q, In a ls -> In b ls -> rpt (fst a) <> rpt (snd a) -> rpt (fst b) <> rpt (snd b) -> parallel a b ->
    end_of b q -> on_segment a q -> end_of a q \/ exists d, In d ls /\ ~ parallel a d /\ on_segment d q.
(** Two segments have nothing in common but ends, or they are the same. *)
Definition settled (ls : list line) : Prop :=
  forall a b q, In a ls -> In b ls -> on_segment a q -> on_segment b q -> end_of a q /\ end_of b q \/ same_line a b.

(** The centre of a triangle; triangles with small integer coordinates whose centre
    has integer coordinates. *)
Definition centroid (t : triangle) : R * R :=
  let '(a, b, c) := t in
  ((fst (rpt a) + fst (rpt b) + fst (rpt c)) / 3, (snd (rpt a) + snd (rpt b) + snd (rpt c)) / 3)%R.
Definition centred (t : triangle) : Prop :=
  (forall p, In p (let '(a, b, c) := t in [a; b; c]) -> small_pt p) /\ exists n m : Z, centroid t = (IZR n, IZR m).
(** The centre is in the polygons, as hit maps see it (C54). *)
Definition centre_hit (mp : list (list (list pt))) (t : triangle) : Prop :=
  exists p, rpt p = centroid t /\ hit mp p.

(** [l] is what is left of [ts], in its order, without the triangles for which [P]
    does not hold. *)
Inductive sifted {A} (P : A -> Prop) : list A -> list A -> Prop :=
| sifted_nil : sifted P [] []
| sifted_keep x ts l : P x -> sifted P ts l -> sifted P (x :: ts) (x :: l)
| sifted_drop x ts l : ~ P x -> sifted P ts l -> sifted P (x :: ts) l.

(** From left to right, below before above; segments by their first ends, then by
    their second. *)
Definition point_before (p q : R * R) : Prop := (fst p < fst q \/ fst p = fst q /\ snd p < snd q)%R.
Definition line_before (a b : line) : Prop :=
  point_before (rpt (fst a)) (rpt (fst b)) \/ rpt (fst a) = rpt (fst b) /\ point_before (rpt (snd a)) (rpt (snd b)).

(** Points and lines. *)
Definition flat (g : geom f64) : Prop :=
  match g with GPoint _ | GMultiPoint _ | GLineString _ | GMultiLineString _ => True | _ => False end.
