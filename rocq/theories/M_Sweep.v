(** * Model of planar/intersect/xsweep.go

    Not modelled: the logging, and EventQueue.CMP being exported. *)
From Coq Require Import ZArith Bool List.
From Verif Require Import Base_Res Base_F64 Base_Geom M_Geom M_Cmp M_Intersect.
Import ListNotations.

(** xsweep.go 17-22 *)
Inductive event_type := LEFT | RIGHT.
Definition type_eqb (a b : event_type) : bool :=
  match a, b with LEFT, LEFT | RIGHT, RIGHT => true | _, _ => false end.
(** xsweep.go 35-39 *)
Record event := Event { ev_edge : nat; ev_type : event_type; ev_pt : pt }.

(** xsweep.go 52-63, Less *)
Definition event_less (a b : event) : bool :=
  if f64_ne (fst (ev_pt a)) (fst (ev_pt b)) then f64_lt (fst (ev_pt a)) (fst (ev_pt b))
  else if negb (type_eqb (ev_type a) (ev_type b)) then type_eqb (ev_type a) LEFT
  else f64_lt (snd (ev_pt a)) (snd (ev_pt b)).

(** xsweep.go 73-88: the two events of segment [i] *)
Definition events_of (i : nat) (l : line) : list event :=
  let (p1, p2) := l in
  if f64_lt (fst p1) (fst p2) || (f64_eq (fst p1) (fst p2) && f64_lt (snd p1) (snd p2))
  then [Event i LEFT p1; Event i RIGHT p2]
  else [Event i RIGHT p1; Event i LEFT p2].
Fixpoint all_events (i : nat) (segs : list line) : list event :=
  match segs with [] => [] | l :: tl => events_of i l ++ all_events (S i) tl end.

Section Sweep.
  Variable sort : (event -> event -> bool) -> list event -> list event.   (* sort.Sort with this Less *)
  (** xsweep.go 66-101, NewEventQueue: the events; the segments are copied *)
  Definition new_event_queue (segs : list line) : list event := sort event_less (all_events 0 segs).
End Sweep.

(** The keys of segmap, ascending: what the sort of xsweep.go 127-132 gives. *)
Fixpoint add_key (k : nat) (m : list nat) : list nat :=
  match m with
  | [] => [k]
  | x :: tl => if (k <? x)%nat then k :: m else if (k =? x)%nat then m else x :: add_key k tl
  end.
Definition delete_key (k : nat) (m : list nat) : list nat := filter (fun x => negb (x =? k)%nat) m.

(** A call of fn: source, destination, point; and its answer *)
Definition call := (nat * nat * pt)%type.
Inductive answer (E : Type) := Continue | StopIteration | Fail (e : E).
Arguments Continue {E}. Arguments StopIteration {E}. Arguments Fail {E} _.

Section Find.
  Context {E : Type}.
  Variable c : compare.                          (* eq.CMP *)
  Variable segs : list line.                     (* eq.segments *)
  Variable connected : bool.
  Variable fn : list call -> call -> answer E.   (* fn, with the calls made before *)
  Variable ctx : nat -> option E.                (* ctx.Err() when looking at the n-th event *)

  (** xsweep.go 140-148 *)
  Definition share_end (seg seg1 : line) : bool :=
    (point_equal c (fst seg) (fst seg1) || point_equal c (fst seg) (snd seg1)) ||
    (point_equal c (snd seg) (fst seg1) || point_equal c (snd seg) (snd seg1)).

  (** xsweep.go 136-175: the loop over the keys.  The calls made, and what is
      returned if the function returns here *)
  Fixpoint scan (i : nat) (seg : line) (keys : list nat) (calls : list call) : list call * option (res E unit) :=
    match keys with
    | [] => (calls, None)
    | j :: tl =>
        match nth_error segs j with
        | None => (calls, Some Panic)
        | Some seg1 =>
            if connected && share_end seg seg1 then scan i seg tl calls
            else
              let (p, ok) := segment_intersect seg seg1 in
              if negb ok then scan i seg tl calls
              else
                let calls' := calls ++ [(i, j, p)] in
                match fn calls (i, j, p) with
                | Continue => scan i seg tl calls'
                | StopIteration => (calls', Some (Ok tt))
                | Fail e => (calls', Some (Err e))
                end
        end
    end.

  (** xsweep.go 107-178: the loop over the events, of which [n] are done *)
  Fixpoint sweep (n : nat) (evs : list event) (segmap : list nat) (calls : list call) : list call * res E unit :=
    match evs with
    | [] => (calls, Ok tt)
    | e :: tl =>
        match ctx n with
        | Some err => (calls, Err err)
        | None =>
            match ev_type e with
            | LEFT => sweep (S n) tl (add_key (ev_edge e) segmap) calls
            | RIGHT =>
                let segmap := delete_key (ev_edge e) segmap in
                match nth_error segs (ev_edge e) with
                | None => (calls, Panic)
                | Some seg =>
                    match scan (ev_edge e) seg segmap calls with
                    | (calls, Some r) => (calls, r)
                    | (calls, None) => sweep (S n) tl segmap calls
                    end
                end
            end
        end
    end.

  (** xsweep.go 103-179 *)
  Definition find_intersects (evs : list event) : list call * res E unit := sweep 0 evs [] [].
End Find.
