(** * Results of Go functions

    A Go function that can return an error or panic is modelled by a function
    into [res E A]: [Ok a] for a normal return with a nil error, [Err e] for a
    non-nil error, [Panic] for a run-time panic (index out of range, nil
    dereference, explicit [panic(...)]). *)
From Coq Require Import List.
Import ListNotations.

Inductive res (E A : Type) : Type :=
| Ok (a : A)
| Err (e : E)
| Panic.
Arguments Ok {E A} a.
Arguments Err {E A} e.
Arguments Panic {E A}.

Definition bind {E A B} (m : res E A) (f : A -> res E B) : res E B :=
  match m with
  | Ok a => f a
  | Err e => Err e
  | Panic => Panic
  end.

Definition map_res {E A B} (f : A -> B) (m : res E A) : res E B :=
  bind m (fun a => Ok (f a)).

Notation "'do' x <- m ; f" := (bind m (fun x => f))
  (at level 200, x pattern, m at level 100, f at level 200, right associativity).

Definition is_ok {E A} (m : res E A) : bool :=
  match m with Ok _ => true | _ => false end.

Definition is_err {E A} (m : res E A) : bool :=
  match m with Err _ => true | _ => false end.

Definition is_panic {E A} (m : res E A) : bool :=
  match m with Panic => true | _ => false end.
