(** * Specification vocabulary for clipping *)
From Coq Require Import ZArith Bool List Reals.
From Flocq Require Import Core.Core.
From Verif Require Import Base_F64 Base_Geom M_Geom M_Extent M_Cmp P_F64Flocq P_F64Round P_F64Grid S_Winding S_Intersect.
Import ListNotations.

(** The point lies in the closed rectangle. *)
Definition inside (b : extent) (p : point f64) : bool :=
  f64_le (e0 b) (fst p) && f64_le (fst p) (e2 b) && f64_le (e1 b) (snd p) && f64_le (snd p) (e3 b).

(** Corners and vertices are integers up to 2^16 times [2^e]. *)
Definition clip_grid (b : extent) (ls : list (point f64)) : Prop :=
  exists e ns lo hi, (-350 <= e <= 320)%Z /\ on_grid e ns ls /\
    on_grid e [lo; hi] [(e0 b, e1 b); (e2 b, e3 b)] /\ (fst lo <= fst hi /\ snd lo <= snd hi)%Z /\
    forall p, In p (lo :: hi :: ns) -> (Z.abs (fst p) <= 2 ^ 16 /\ Z.abs (snd p) <= 2 ^ 16)%Z.

(** [q] is the point [p] of the plane, each coordinate rounded to float64. *)
Definition rounded (q : point f64) (p : R * R) : Prop :=
  f64_finite (fst q) = true /\ f64_finite (snd q) = true /\
  f64_R (fst q) = rnd (fst p) /\ f64_R (snd q) = rnd (snd p).

(** [a] and [b] are points of the segment [l], up to rounding, in its direction. *)
Definition part_of (l : line) (a b : point f64) : Prop :=
  exists s t, (0 <= s <= t)%R /\ (t <= 1)%R /\
    rounded a (along (rpt (fst l)) (rpt (snd l)) s) /\ rounded b (along (rpt (fst l)) (rpt (snd l)) t).

(** The segments between consecutive vertices of the lines. *)
Fixpoint segments {A} (v : list A) : list (A * A) :=
  match v with
  | p :: ((q :: _) as tl) => (p, q) :: segments tl
  | _ => []
  end.

(** The point of the plane lies in the closed rectangle. *)
Definition in_rect (b : extent) (p : R * R) : Prop :=
  (f64_R (e0 b) <= fst p <= f64_R (e2 b))%R /\ (f64_R (e1 b) <= snd p <= f64_R (e3 b))%R.

(** The sides of the box. *)
Definition sides (b : extent) : list line :=
  let ll := (e0 b, e1 b) in let lr := (e2 b, e1 b) in
  let ur := (e2 b, e3 b) in let ul := (e0 b, e3 b) in
  [(ll, lr); (lr, ur); (ur, ul); (ul, ll)].
(** [q] is a point where the segment meets the [i]-th side, rounded. *)
Definition meets_side (b : extent) (ln : line) (i : nat) (q : point f64) : Prop :=
  f64_wf (fst q) = true /\ f64_wf (snd q) = true /\
  exists side p, nth_error (sides b) i = Some side /\ on_segment side p /\ on_segment ln p /\ rounded q p.
(** The comparator tells the points on different sides apart; so the segment
    passes through no corner. *)
Definition apart (c : compare) (b : extent) (ln : line) : Prop :=
  forall i j q r, i <> j -> meets_side b ln i q -> meets_side b ln j r -> point_equal c q r = false.

(** [part] is the part of the segment in the box: nothing if no point of the
    segment is in the box; else one segment [(a, d)], whose ends are the first
    and the last point in the box, rounded.  A segment that leaves the box is
    dropped if the comparator takes the point where it leaves for its first end. *)
Definition clipped (c : compare) (b : extent) (ln : line) (part : list line) : Prop :=
  let at_ := along (rpt (fst ln)) (rpt (snd ln)) in
  (part = [] /\ forall r, (0 <= r <= 1)%R -> ~ in_rect b (at_ r)) \/
  (exists a d s t, (0 <= s <= t)%R /\ (t <= 1)%R /\ rounded a (at_ s) /\ rounded d (at_ t) /\
     (forall r, (0 <= r <= 1)%R -> in_rect b (at_ r) <-> (s <= r <= t)%R) /\
     (part = [(a, d)] \/
      part = [] /\ inside b (fst ln) = true /\ inside b (snd ln) = false /\ point_equal c d (fst ln) = true)).

(** The line cut at each vertex outside the box. *)
Fixpoint runs (b : extent) (v : list (point f64)) : list (list (point f64)) :=
  match v with
  | p :: ((q :: _) as tl) =>
      match runs b tl with
      | r :: rs => if inside b q then (p :: r) :: rs else [p; q] :: r :: rs
      | [] => [[p; q]]
      end
  | _ => []
  end.
