(** * Model of planar/triangulate/delaunay/quadedge/quadedge.go 26-46: the ids of
    quad-edges created by several goroutines at once

    Any number of goroutines call NewQEdge, each any number of times.  A call
    is numbered in the order of its call; it takes one step for
    atomic.AddUint64(&glbIdx, 1) and one for each of the four writes of glbIdx
    (the other writes of Init touch only the new object and are left out).  A
    schedule says which call takes the next step.  [glb] is the field glbIdx of
    the four edges of the quad-edge of each call. *)
From Coq Require Import ZArith List Arith.
Import ListNotations.
Open Scope Z_scope.

(** What a call still has to do. *)
Inductive pc := Add | Write (gidx : Z) (k : nat) | Done (gidx : Z).
Record ids := Ids { counter : Z; calls : nat -> option pc; glb : nat -> nat -> Z }.

(** edge.go 17: glbIdx starts at 0 *)
Definition start : ids := Ids 0 (fun _ => None) (fun _ _ => 0).
Definition set_call (f : nat -> option pc) (i : nat) (p : pc) : nat -> option pc := fun j => if Nat.eqb j i then Some p else f j.
Definition set_glb (f : nat -> nat -> Z) (i k : nat) (x : Z) : nat -> nat -> Z :=
  fun j l => if Nat.eqb j i then (if Nat.eqb l k then x else f j l) else f j l.

(** One step of the call [i]: quadedge.go 27 and 29.  A call which is not there
    yet starts. *)
Definition step (s : ids) (i : nat) : ids :=
  match calls s i with
  | None => Ids (counter s) (set_call (calls s) i Add) (glb s)
  | Some Add =>
      let c := (counter s + 1) mod 2 ^ 64 in
      Ids c (set_call (calls s) i (Write c 0)) (glb s)
  | Some (Write g k) =>
      Ids (counter s) (set_call (calls s) i (if Nat.eqb k 3 then Done g else Write g (k + 1))) (set_glb (glb s) i k g)
  | Some (Done g) => s
  end.
Definition run (schedule : list nat) : ids := fold_left step schedule start.
