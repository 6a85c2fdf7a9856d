(** * Specification vocabulary for the sweep over segments *)
From Coq Require Import ZArith Bool List Permutation.
From Verif Require Import Base_Res Base_F64 Base_Geom M_Geom M_Cmp M_Intersect M_Sweep S_Cmp S_Intersect.
Import ListNotations.

(** What sort.Sort does: it reorders, and if Less is a strict weak order on
    these elements nothing stands ahead of something smaller. *)
Definition sorts {A} (sort : (A -> A -> bool) -> list A -> list A) : Prop :=
  forall less l,
    Permutation l (sort less l) /\
    ((forall a, In a l -> less a a = false) ->
     (forall a b d, In a l -> In b l -> In d l -> less a b = true -> less b d = true -> less a d = true) ->
     (forall a b d, In a l -> In b l -> In d l -> less a b = false -> less b d = false -> less a d = false) ->
     in_order (fun a b => less a b = true) (sort less l)).

(** Segments of words without NaN. *)
Definition number_segments (segs : list line) : Prop :=
  forall l p, In l segs -> In p (ends l) -> words p /\ number p.

(** Some x is between the ends of both. *)
Definition overlap_x (a b : line) : Prop :=
  exists x, between (fst (fst a)) (fst (snd a)) x /\ between (fst (fst b)) (fst (snd b)) x.

(** An end point of one equals, for the comparator, an end point of the other. *)
Definition touch_ends (c : compare) (a b : line) : Prop :=
  exists p q, In p (ends a) /\ In q (ends b) /\ point_equal c p q = true.

(** To be reported. *)
Definition reported (c : compare) (connected : bool) (a b : line) : Prop :=
  snd (segment_intersect a b) = true /\ ~ (connected = true /\ touch_ends c a b).

(** The two segments of a call. *)
Definition pair_of (x : call) : nat * nat := fst x.
Definition same_pair (x y : nat * nat) : Prop := x = y \/ x = (snd y, fst y).

(** Calling [fn] with each of [todo] in turn until it stops: the calls made
    and what is returned. *)
Fixpoint call_each {E} (fn : list call -> call -> answer E) (made todo : list call) : list call * res E unit :=
  match todo with
  | [] => (made, Ok tt)
  | x :: tl =>
      match fn made x with
      | Continue => call_each fn (made ++ [x]) tl
      | StopIteration => (made ++ [x], Ok tt)
      | Fail e => (made ++ [x], Err e)
      end
  end.

(** Any two of the segments are on a grid on which float64 is exact. *)
Definition grid_segments (segs : list line) : Prop := forall a b, In a segs -> In b segs -> near_grid a b.
