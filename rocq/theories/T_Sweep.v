(** * C93–C95: FindIntersects

    [find_intersects c segs connected fn ctx events] is FindIntersects of
    planar/intersect/xsweep.go on the queue [events] NewEventQueue made of
    [segs]; it gives the calls of [fn] and what is returned.  [fn] is any
    function of the calls before; [ctx n] is what ctx.Err() gives at the
    [n]-th event.  [call_each fn [] calls] calls [fn] with each of [calls] in
    turn until it returns an error, ErrStopIteration counting as success.
    [sorts] is what is assumed of sort.Sort. *)
From Coq Require Import ZArith Bool List Reals.
From Verif Require Import Base_Res Base_F64 Base_Geom M_Geom M_Cmp M_Intersect M_Sweep S_Cmp S_Intersect S_Sweep
  P_Cmp3 P_Intersect4 P_Sweep3.
Import ListNotations.
Local Open Scope nat_scope.

(** ** C93 *)
(** Segments without NaN: there is one list of calls, whatever [fn] does; it
    has every pair of different segments which overlap in x and are to be
    reported, in one order, once, and nothing else. *)
Theorem C93_calls : forall sort, sorts sort -> forall segs, number_segments segs -> forall c, positive c -> forall connected,
  exists calls,
    (forall E (fn : list call -> call -> answer E),
       find_intersects c segs connected fn (fun _ => None) (new_event_queue sort segs) = call_each fn [] calls) /\
    (forall i j p, In (i, j, p) calls ->
       i <> j /\ exists a b, nth_error segs i = Some a /\ nth_error segs j = Some b /\ overlap_x a b /\
         reported c connected a b /\ p = fst (segment_intersect a b)) /\
    (forall i j a b, i <> j -> nth_error segs i = Some a -> nth_error segs j = Some b ->
       overlap_x a b -> reported c connected a b ->
       exists p, In (i, j, p) calls \/ In (j, i, p) calls) /\
    (forall m n x y, nth_error calls m = Some x -> nth_error calls n = Some y -> same_pair (pair_of x) (pair_of y) -> m = n).
Proof. exact (fun sort Hs segs N c P k => ex_intro _ (the_calls sort segs c k) (find_calls sort Hs segs N c P k)). Qed.
Print Assumptions C93_calls.

(** Any words, any queue: a context which is cancelled only cuts the calls
    short, and then its error is returned. *)
Theorem C93_cancelled : forall E c segs connected (fn : list call -> call -> answer E) ctx events,
  find_intersects c segs connected fn ctx events = find_intersects c segs connected fn (fun _ => None) events \/
  (exists k err, k < length events /\ ctx k = Some err /\ snd (find_intersects c segs connected fn ctx events) = Err err) /\
  exists rest, fst (find_intersects c segs connected fn (fun _ => None) events) = fst (find_intersects c segs connected fn ctx events) ++ rest.
Proof. exact (fun E => find_cancelled (E := E)). Qed.
Print Assumptions C93_cancelled.

Example C93_nonvacuous : sorts (fun less : event -> event -> bool => isort less) /\ number_segments star /\ positive default_compare /\
  find_intersects (E := nat) default_compare star false go_on (fun _ => None) (new_event_queue (fun less => isort less) star) =
    ([(2, 0, zpt (2, 2)%Z); (2, 1, zpt (2, 2)%Z); (1, 0, zpt (2, 2)%Z)], Ok tt) /\
  find_intersects default_compare star false go_on (fun n => if n =? 4 then Some 77 else None) (new_event_queue (fun less => isort less) star) =
    ([(2, 0, zpt (2, 2)%Z); (2, 1, zpt (2, 2)%Z)], Err 77).
Proof. exact (conj isort_sorts (conj (grid_number star star_grid) (conj default_positive (conj star_calls star_cancelled)))). Qed.

(** ** C94 *)
(** On a grid the pairs are exactly those which are not parallel and have a
    point in common. *)
Theorem C94_meet : forall sort segs, sorts sort -> grid_segments segs -> exists calls,
  (forall E (fn : list call -> call -> answer E),
     find_intersects default_compare segs false fn (fun _ => None) (new_event_queue sort segs) = call_each fn [] calls) /\
  (forall i j a b, i <> j -> nth_error segs i = Some a -> nth_error segs j = Some b ->
     ((exists p, In (i, j, p) calls \/ In (j, i, p) calls) <->
      ~ parallel a b /\ exists p, on_segment a p /\ on_segment b p)) /\
  (forall i j p, In (i, j, p) calls -> i <> j /\ i < length segs /\ j < length segs) /\
  (forall m n x y, nth_error calls m = Some x -> nth_error calls n = Some y -> same_pair (pair_of x) (pair_of y) -> m = n).
Proof. exact find_grid. Qed.
Print Assumptions C94_meet.

Example C94_nonvacuous : grid_segments star /\ length star = 4.
Proof. exact (conj star_grid eq_refl). Qed.

(** ** C95 *)
(** With connected set, segments which cross away from their ends are not
    reported if their ends are equal within the tolerance. *)
Theorem C95_tiny_refuted : exists segs, grid_segments segs /\
  snd (find_intersects (E := nat) default_compare segs false go_on (fun _ => None) (new_event_queue (fun less => isort less) segs)) = Ok tt /\
  length (fst (find_intersects (E := nat) default_compare segs false go_on (fun _ => None) (new_event_queue (fun less => isort less) segs))) = 1 /\
  fst (find_intersects (E := nat) default_compare segs true go_on (fun _ => None) (new_event_queue (fun less => isort less) segs)) = [].
Proof. exact (ex_intro _ tiny_cross tiny_missed). Qed.
Print Assumptions C95_tiny_refuted.
