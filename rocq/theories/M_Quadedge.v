(** * Model of planar/triangulate/delaunay/quadedge: the edge algebra and the
    topological operators

    A quad-edge is a number (its place in the order of creation); an edge, a
    pointer to one of its four Edge values, is that number and the field num.
    The memory is the number of quad-edges and, for every edge, the fields next
    and v.  Nil pointers to edges are not modelled except for the result of
    ResolveEdge in Connect.  Points are an arbitrary type. *)
From Coq Require Import Bool List Arith.
From Verif Require Import Base_Res.
Import ListNotations.

Notation edge := (nat * nat)%type.
Definition edge_eqb (a b : edge) : bool := Nat.eqb (fst a) (fst b) && Nat.eqb (snd a) (snd b).

(** edge.go 85-93 *)
Definition rot (e : edge) : edge := if Nat.eqb (snd e) 3 then (fst e, 0) else (fst e, snd e + 1).
(** edge.go 97-105 *)
Definition invrot (e : edge) : edge := if Nat.eqb (snd e) 0 then (fst e, 3) else (fst e, snd e - 1).
(** edge.go 108-116 *)
Definition sym (e : edge) : edge := if Nat.ltb (snd e) 2 then (fst e, snd e + 2) else (fst e, snd e - 2).

Section Memory.
  Context {P : Type}.
  Record mem := Mem { count : nat; next : edge -> edge; vertex : edge -> option P }.

  Definition upd {A} (f : edge -> A) (e : edge) (x : A) : edge -> A := fun e' => if edge_eqb e' e then x else f e'.
  Definition set_next (m : mem) (e x : edge) : mem := Mem (count m) (upd (next m) e x) (vertex m).
  Definition set_vertex (m : mem) (e : edge) (x : option P) : mem := Mem (count m) (next m) (upd (vertex m) e x).

  (** edge.go 119-124 *)
  Definition onext (m : mem) (e : edge) : edge := next m e.
  (** edge.go 127-129 *)
  Definition oprev (m : mem) (e : edge) : edge := rot (onext m (rot e)).
  (** edge.go 132-134 *)
  Definition dnext (m : mem) (e : edge) : edge := sym (onext m (sym e)).
  (** edge.go 137-139 *)
  Definition dprev (m : mem) (e : edge) : edge := invrot (onext m (invrot e)).
  (** edge.go 142-144 *)
  Definition lnext (m : mem) (e : edge) : edge := rot (onext m (invrot e)).
  (** edge.go 147-149 *)
  Definition lprev (m : mem) (e : edge) : edge := sym (onext m e).
  (** edge.go 152-154 *)
  Definition rnext (m : mem) (e : edge) : edge := invrot (onext m (rot e)).
  (** edge.go 157-159 *)
  Definition rprev (m : mem) (e : edge) : edge := onext m (sym e).

  (** edge.go 50-60 *)
  Definition orig (m : mem) (e : edge) : option P := vertex m e.
  Definition dest (m : mem) (e : edge) : option P := orig m (sym e).
  (** EndPoints, edge.go 63-66 *)
  Definition end_points (m : mem) (e : edge) (o d : option P) : mem := set_vertex (set_vertex m e o) (sym e) d.

  (** No quad-edge yet. *)
  Definition empty : mem := Mem 0 (fun e => e) (fun _ => None).
  (** New, edge.go 29-32, NewQEdge and Init, quadedge.go 26-46, but for glbIdx (M_QuadedgeId) *)
  Definition new (m : mem) : mem * edge :=
    let q := count m in
    let m := Mem (S q) (next m) (fun e => if Nat.eqb (fst e) q then None else vertex m e) in
    let m := set_next m (q, 0) (q, 0) in
    let m := set_next m (q, 1) (q, 3) in
    let m := set_next m (q, 2) (q, 2) in
    let m := set_next m (q, 3) (q, 1) in
    (m, (q, 0)).

  (** Splice, topo.go 21-38 *)
  Definition splice (m : mem) (a b : edge) : mem :=
    let alpha := rot (onext m a) in
    let beta := rot (onext m b) in
    let t1 := onext m b in
    let t2 := onext m a in
    let t3 := onext m beta in
    let t4 := onext m alpha in
    set_next (set_next (set_next (set_next m a t1) b t2) alpha t3) beta t4.

  (** Connect, topo.go 43-120, without the debugging output.  [resolve] is
      ResolveEdge (its error is ignored): [None] for nil.  [*a.Dest()] panics
      without a destination. *)
  Definition connect (resolve : mem -> edge -> P -> option edge) (m : mem) (a b : edge) : res unit (mem * edge) :=
    match dest m a with
    | None => Panic
    | Some d =>
        let bb := resolve m b d in
        let '(m, e) := new m in
        let m := end_points m e (dest m a) (match bb with Some bb => orig m bb | None => None end) in
        let m := splice m e (lnext m a) in
        let m := match bb with Some bb => splice m (sym e) bb | None => m end in
        Ok (m, e)
    end.

  (** Swap, topo.go 124-132 *)
  Definition swap (m : mem) (e : edge) : mem :=
    let a := oprev m e in
    let b := oprev m (sym e) in
    let m := splice m e a in
    let m := splice m (sym e) b in
    let m := splice m e (lnext m a) in
    let m := splice m (sym e) (lnext m b) in
    end_points m e (dest m a) (dest m b).

  (** Delete, topo.go 135-146 *)
  Definition delete (m : mem) (e : edge) : mem :=
    let m := splice m e (oprev m e) in
    splice m (sym e) (oprev m (sym e)).

  (** The loop of WalkAllOPrev and WalkAllONext, edge.go 198-219, with [step] for
      OPrev or ONext and [fn] for what the callback returns: the edges it is called
      with.  [seen] is keyed by glbIdx, which the four edges of a quad-edge share.
      [None] when [fuel] is used up. *)
  Fixpoint walk (fuel : nat) (step : edge -> edge) (fn : edge -> bool) (seen : list nat) (e : edge)
    : option (list edge) :=
    match fuel with
    | O => None
    | S fuel =>
        if existsb (Nat.eqb (fst e)) seen then Some []
        else if negb (fn e) then Some [e]
        else match walk fuel step fn (fst e :: seen) (step e) with
             | Some l => Some (e :: l)
             | None => None
             end
    end.
  (** edge.go 209-219 *)
  Definition walk_all_onext (m : mem) (fn : edge -> bool) (e : edge) : option (list edge) :=
    walk (S (count m)) (onext m) fn [] e.
  (** edge.go 198-207 *)
  Definition walk_all_oprev (m : mem) (fn : edge -> bool) (e : edge) : option (list edge) :=
    walk (S (count m)) (oprev m) fn [] e.
  (** FindONextDest, edge.go 167-180, on a ring of at most [fuel] edges.  [eq] is
      cmp.GeomPointEqual. *)
  Fixpoint find_from (eq : P -> P -> bool) (fuel : nat) (m : mem) (p : P) (e ne : edge) : res unit (option edge) :=
    match fuel with
    | O => Err tt
    | S fuel =>
        if edge_eqb ne e then Ok None
        else match dest m ne with
             | None => Panic
             | Some d => if eq p d then Ok (Some ne) else find_from eq fuel m p e (onext m ne)
             end
    end.
  Definition find_onext_dest (eq : P -> P -> bool) (m : mem) (p : P) (e : edge) : res unit (option edge) :=
    match dest m e with
    | None => Panic
    | Some d => if eq p d then Ok (Some e) else find_from eq (4 * count m + 1) m p e (onext m e)
    end.
End Memory.
Arguments mem P : clear implicits.
