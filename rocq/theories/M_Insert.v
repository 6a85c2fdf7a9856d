(** * Model of planar/triangulate/delaunay/subdivision/subdivision.go: New, locate
    and InsertSite

    On the memory of M_Quadedge with points of float64 numbers.  The debugging
    output is left out.  A nil pointer which is dereferenced and a call of panic
    are [Panic]; [Err] stands for a loop which has not ended within the fuel. *)
From Coq Require Import Bool List Arith ZArith.
From Verif Require Import Base_F64 Base_F64Arith Base_Res Base_Geom M_Cmp M_Walker M_Winding M_Triangle M_Quadedge M_ResolveEdge.
Import ListNotations.

(** Subdivision, subdivision.go 29-37, without the frame, the cache of the vertex
    index, its lock and the order. *)
Record subdivision := Subd { sd_mem : mem pt; sd_start : edge; sd_count : nat }.

(** NewWithEndPoints, quadedge/edge.go 35-39 *)
Definition new_edge (m : mem pt) (o d : option pt) : mem pt * edge :=
  let '(m, e) := new m in (end_points m e o d, e).

(** New, subdivision.go 40-66, on a fresh memory: the memory and the starting edge,
    [None] if it is nil. *)
Definition new_triangle (a b c : pt) : mem pt :=
  let '(m, ea) := new empty in
  let m := end_points m ea (Some a) (Some b) in
  let '(m, eb) := new m in
  let m := splice m (sym ea) eb in
  let m := end_points m eb (Some b) (Some c) in
  let '(m, ec) := new m in
  let m := end_points m ec (Some c) (Some a) in
  let m := splice m (sym eb) ec in
  splice m (sym ec) ea.
Definition new_subdivision (ypd : bool) (a b c : pt) : res unit (mem pt * option edge) :=
  let m := new_triangle a b c in
  do r <- resolve_edge ypd m (0, 0)%nat (center (a, b, c)) ;
  match r with
  | (se, None) => Ok (m, se)
  | (_, Some _) => Panic
  end.

(** ptEqual, subdivision.go 891-896 *)
Definition pt_is (x : pt) (a : option pt) : bool :=
  match a with Some a => point_equal hi_cmp x a | None => false end.

(** testEdge, subdivision.go 900-941, on an edge which is not nil *)
Definition test_edge (ypd : bool) (m : mem pt) (x : pt) (e : edge) : edge * bool :=
  if pt_is x (orig m e) || pt_is x (dest m e) then (e, true)
  else if right_of ypd m x e then (sym e, false)
  else if negb (right_of ypd m x (onext m e)) then (onext m e, false)
  else if negb (right_of ypd m x (dprev m e)) then (dprev m e, false)
  else (e, true).

(** The loop of locate, subdivision.go 990-1012, for a positive limit: [n] is what
    is left of it.  [None] is the result false; the edge which the walk over all
    edges finds then is not used by InsertSite and left out. *)
Fixpoint locate_loop (n : nat) (ypd : bool) (m : mem pt) (x : pt) (se e : edge) : option edge :=
  match test_edge ypd m x e with
  | (e, true) => Some e
  | (e, false) =>
      match n with
      | O => None
      | S n => if edge_eqb e se then None else locate_loop n ypd m x se e
      end
  end.
(** locate, subdivision.go 969-1017 and 196-198, for a positive limit.  If
    ResolveEdge returns nil, testEdge returns nil and false (all fields of the nil
    edge are nil, RightOf is false), which is the starting edge of the loop: the
    result is false. *)
Definition locate (ypd : bool) (m : mem pt) (se : edge) (x : pt) (limit : nat) : res unit (option edge) :=
  do r <- resolve_edge ypd m se x ;
  Ok (match fst r with
      | None => None
      | Some se => locate_loop limit ypd m x se se
      end).

(** quadedge.Connect, topo.go 43-120, with ResolveEdge *)
Definition resolve_of (ypd : bool) (m : mem pt) (b : edge) (d : pt) : option edge :=
  match resolve_edge ypd m b d with Ok (r, _) => r | _ => None end.
Definition connect_at (ypd : bool) (m : mem pt) (a b : edge) : res unit (mem pt * edge) :=
  match dest m a with
  | None => Panic
  | Some d => do _ <- resolve_edge ypd m b d ; connect (resolve_of ypd) m a b
  end.

(** The loop which connects the new point to the corners, subdivision.go 296-334;
    [first] is startingEdge. *)
Fixpoint star_loop (fuel : nat) (ypd : bool) (m : mem pt) (first base e : edge) : res unit (mem pt * edge) :=
  if edge_eqb (lnext m e) first then Ok (m, e)
  else match fuel with
       | O => Err tt
       | S fuel => do (m, base) <- connect_at ypd m e (sym base) ; star_loop fuel ypd m first base (oprev m base)
       end.

(** winding/winding.go 249-267, with the default comparison of cmp/default_compare.go
    16-19 *)
Definition default_cmp : compare := new_compare 0x3EB0C6F7A0B5ED8D.
Definition three_colinear (p q r : pt) : bool :=
  let a := f64_sub (fst p) (fst q) in
  let b := f64_sub (fst q) (fst r) in
  let c := f64_sub (snd p) (snd q) in
  let d := f64_sub (snd q) (snd r) in
  cmp_float default_cmp (f64_mul half (f64_sub (f64_mul a d) (f64_mul b c))) f64_zero.
(** setOfThreeAreColinear, subdivision.go 204-219 *)
Definition some_colinear (ypd : bool) (p1 p2 p3 p4 : pt) : bool :=
  zero (orientation ypd [p1; p2; p3]) || zero (orientation ypd [p1; p2; p4])
  || zero (orientation ypd [p1; p3; p4]) || zero (orientation ypd [p2; p3; p4]).

(** Whether a suspect edge is swapped, subdivision.go 204-219 and 346-428 *)
Definition suspect (ypd : bool) (x : pt) (m : mem pt) (e : edge) : res unit bool :=
  match orig m e, dest m e, dest m (oprev m e) with
  | Some o, Some d, Some t =>
      do contains <- (if some_colinear ypd x o d t then Ok false
                      else match circle_from_points 2 o t d with
                           | None => Err tt
                           | Some (Ok c) => Ok (circle_contains c x)
                           | Some _ => Ok false
                           end) ;
      if right_of ypd m t e && contains then
        match dest m (oprev m (sym e)) with
        | None => Panic
        | Some s => if point_equal hi_cmp t s then Panic else Ok (negb (three_colinear d t s))
        end
      else Ok false
  | _, _, _ => Panic
  end.
(** The loop over the suspect edges, subdivision.go 344-455; [test] is [suspect]. *)
Fixpoint swap_loop (fuel : nat) (test : mem pt -> edge -> res unit bool) (m : mem pt) (first e : edge) : res unit (mem pt) :=
  match fuel with
  | O => Err tt
  | S fuel =>
      do sw <- test m e ;
      if sw then let m := swap m e in swap_loop fuel test m first (oprev m e)
      else if edge_eqb (onext m e) first then Ok m
      else swap_loop fuel test m first (lprev m (onext m e))
  end.

(** The new point goes into the left face of [e], subdivision.go 281-455 *)
Definition insert_at (ypd : bool) (m : mem pt) (e : edge) (x : pt) : res unit (mem pt) :=
  let '(m, first) := new_edge m (orig m e) (Some x) in
  let m := splice m first e in
  do (m, base) <- connect_at ypd m e (sym first) ;
  do (m, e) <- star_loop (4 * count m) ypd m first base (oprev m base) ;
  swap_loop (4 * count m + 1) (suspect ypd x) m first e.

(** InsertSite, subdivision.go 224-455 *)
Definition insert_site (ypd : bool) (sd : subdivision) (x : pt) : res unit (subdivision * bool) :=
  let m := sd_mem sd in
  let se := sd_start sd in
  let n := S (sd_count sd) in
  do l <- locate ypd m se x (2 * n) ;
  match l with
  | None => Ok (Subd m se n, false)
  | Some e =>
      if pt_is x (orig m e) || pt_is x (dest m e) then Ok (Subd m se n, true)
      else if on_edge m x e then
        let e := oprev m e in
        if pt_is x (orig m e) || pt_is x (dest m e) then Ok (Subd m se n, true)
        else
          let m := delete m (onext m e) in
          do m <- insert_at ypd m e x ; Ok (Subd m se n, true)
      else do m <- insert_at ypd m e x ; Ok (Subd m se n, true)
  end.
