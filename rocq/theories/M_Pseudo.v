(** * Model of planar/triangulate/delaunay/subdivision/pseudopolygon

    Logging is not modelled.  The slices of points are lists, which is right
    because no slice is written after it was handed out: the buffer [ply] (lines
    293-332) is reused only when the call that read it has returned, and the
    edges hold copies of points.  [ypd] is winding.Order.YPositiveDown. *)
From Coq Require Import ZArith Bool List.
From Verif Require Import Base_Res Base_F64 Base_F64Arith Base_Geom M_Cmp M_Winding M_Triangle M_Planar M_Walker.
Import ListNotations.
Open Scope nat_scope.

Inductive pp_err :=
| ETooSmall       (* ErrInvalidPseudoPolygonSize *)
| EAllColinear    (* ErrAllPointsColinear *)
| EEndless        (* not in the code: CircleFromPoints does not return (C92) *)
| EOutOfFuel.     (* not in the code: excluded by C123_ends *)

Definition line := (pt * pt)%type.

(** ** edgemap.go *)

(** edgemap.go 34-38 *)
Definition normalize_line (l : line) : line := if xy_less (fst l) (snd l) then (snd l, fst l) else l.
(** edgemap.go 10; the keys of the map, compared as Go compares arrays *)
Definition edge_map := list line.
(** edgemap.go 12-16 *)
Definition em_contains (em : edge_map) (p1 p2 : pt) : bool :=
  existsb (edge_eq (normalize_line (p1, p2))) em.
(** edgemap.go 17-20; a key added twice is in the list twice *)
Definition em_add (em : edge_map) (l : line) : edge_map := normalize_line l :: em.
(** edgemap.go 40-49; [lp] is the point at index lp *)
Fixpoint em_sides (em : edge_map) (lp : pt) (points : list pt) : edge_map :=
  match points with
  | [] => em
  | p :: tl => em_sides (em_add em (lp, p)) p tl
  end.
Definition new_edge_map (points : list pt) : edge_map :=
  match points with
  | [] => []
  | p :: _ => em_sides [] (last points p) points
  end.

(** ** pseudo_polygon.go *)

(** map[geom.Point][2]int *)
Definition seen_map := list (pt * (nat * nat)).
Fixpoint seen_at (m : seen_map) (p : pt) : option (nat * nat) :=
  match m with
  | [] => None
  | (q, v) :: tl => if go_eq q p then Some v else seen_at tl p
  end.
Definition seen_delete (m : seen_map) (p : pt) : seen_map := filter (fun e => negb (go_eq (fst e) p)) m.
Definition seen_set (m : seen_map) (p : pt) (v : nat * nat) : seen_map := (p, v) :: seen_delete m p.

(** pseudo_polygon.go 23-65, [i] the index of the head of [rest]; [tri] is the
    recursive call *)
Fixpoint sub_rings (tri : list pt -> res pp_err (list line)) (opoints : list pt)
    (i : nat) (rest points : list pt) (edges : list line) (seen : seen_map) : res pp_err (list pt * list line) :=
  match rest with
  | [] => Ok (points, edges)
  | p :: tl =>
      match seen_at seen p with
      | Some (i0, i1) =>
          if i0 =? i - 1 then sub_rings tri opoints (S i) tl points edges (seen_set seen p (i, i1))
          else
            let npts := firstn (i - i0) (skipn i0 opoints) in
            let points := firstn (i1 + 1) points in
            do newEdges <- tri npts;
            let seen := fold_left seen_delete npts seen in
            sub_rings tri opoints (S i) tl points (edges ++ newEdges) (seen_set seen p (i, length points - 1))
      | None => sub_rings tri opoints (S i) tl (points ++ [p]) edges (seen_set seen p (i, length points))
      end
  end.

(** points[i] *)
Definition at_ (points : list pt) (i : nat) : pt := nth i points (f64_zero, f64_zero).

(** order.OfGeomPoints(...).IsColinear() *)
Definition colinear3 (ypd : bool) (a b c : pt) : bool := (orientation ypd [a; b; c] =? wColinear)%Z.

(** pseudo_polygon.go 128-137, [i] the index of the head of [cands]; None is -1 *)
Fixpoint closest (ypd : bool) (points : list pt) (pe : nat) (cpoint : pt)
    (i : nat) (cands : list pt) (p1 p2 : option nat) (dist : f64) : option nat * option nat :=
  match cands with
  | [] => (p1, p2)
  | c :: tl =>
      let d := point_distance cpoint c in
      if f64_lt d dist && negb (colinear3 ypd (at_ points 0) (at_ points i) (at_ points pe))
      then closest ypd points pe cpoint (S i) tl (Some i) p1 d
      else closest ypd points pe cpoint (S i) tl p1 p2 dist
  end.

(** pseudo_polygon.go 178-193, 194-198 and 202-219: the circle through points p1,
    ps and pe contains point p2; the error for colinear points is ignored and
    leaves the circle of radius 0 around the origin *)
Definition flips (ypd : bool) (points : list pt) (ps p1 p2 pe : nat) : res pp_err bool :=
  match circle_from_points 2 (at_ points p1) (at_ points ps) (at_ points pe) with
  | None => Err EEndless
  | Some r =>
      let circle := match r with Ok c => c | _ => Circle (f64_zero, f64_zero) f64_zero end in
      Ok (negb (colinear3 ypd (at_ points ps) (at_ points p2) (at_ points pe)) && circle_contains circle (at_ points p2))
  end.

(** pseudo_polygon.go 240-269: (pe, p1, ps, p2, secondCount); None if it is still
    running after [fuel] rounds *)
Fixpoint rotate_edge (fuel : nat) (em : edge_map) (points : list pt) (pe p1 ps p2 count : nat) (second : bool)
    : option (nat * nat * nat * nat * bool) :=
  if em_contains em (at_ points pe) (at_ points p1) then
    match fuel with
    | O => None
    | S fuel =>
        let '(pe, p1, ps) := (ps, pe, p1) in
        let count := S count in
        if 3 <? count then
          if second then Some (pe, p1, ps, p2, second)
          else rotate_edge fuel em points pe p2 ps p1 0 true
        else rotate_edge fuel em points pe p1 ps p2 count second
    end
  else Some (pe, p1, ps, p2, second).

(** pseudo_polygon.go 293-306, 319-332: the points after index [i] up to [stop] *)
Fixpoint arc_after (fuel : nat) (points : list pt) (i stop : nat) : list pt :=
  match fuel with
  | O => []
  | S fuel =>
      let i := if length points <=? S i then 0 else S i in
      at_ points i :: (if i =? stop then [] else arc_after fuel points i stop)
  end.
Definition arc (points : list pt) (start stop : nat) : list pt :=
  at_ points start :: arc_after (length points) points start stop.

(** pseudo_polygon.go 108-345, [points] without repetitions, at least four and
    not colinear *)
Definition split_polygon (tri : list pt -> res pp_err (list line)) (ypd : bool) (points : list pt) (edges : list line)
    : res pp_err (list line) :=
  let plen := length points in
  let em := new_edge_map points in
  let ps := 0 in
  let pe := plen - 1 in
  let a := at_ points 0 in
  let b := at_ points pe in
  let cpoint := (f64_div (f64_add (fst a) (fst b)) f64_two, f64_div (f64_add (snd a) (snd b)) f64_two) in
  match closest ypd points pe cpoint 1 (firstn (pe - 1) (skipn 1 points)) None None f64_pinf with
  | (None, _) => Panic                                            (* points[-1] *)
  | (Some p1, p2) =>
      let p2 := match p2 with
                | Some p2 => p2
                | None => let p2 := p1 - 1 in if (p2 =? ps) || (p2 =? pe) then p1 + 1 else p2
                end in
      do f <- flips ypd points ps p1 p2 pe;
      let '(ps, p1, p2, pe) := if f then (pe, p2, p1, ps) else (ps, p1, p2, pe) in
      match rotate_edge 9 em points pe p1 ps p2 0 false with
      | None => Err EOutOfFuel
      | Some (pe, p1, ps, p2, true) => Panic                      (* "assumption failed" *)
      | Some (pe, p1, ps, p2, false) =>
          if plen =? 4 then
            Ok (edges ++ [(at_ points ps, at_ points p1); (at_ points pe, at_ points ps); (at_ points pe, at_ points p1);
                          (at_ points p1, at_ points p2); (at_ points p2, at_ points pe)])
          else
            do e1 <- tri (arc points pe p1);
            do e2 <- tri (arc points p1 pe);
            Ok (edges ++ e1 ++ e2)
      end
  end.

(** pseudo_polygon.go 70-345 *)
Fixpoint triangulate (fuel : nat) (ypd : bool) (opoints : list pt) : res pp_err (list line) :=
  match fuel with
  | O => Err EOutOfFuel
  | S fuel =>
      do (points, edges) <- sub_rings (triangulate fuel ypd) opoints 0 opoints [] [] [];
      match points with
      | [] | [_] => Err ETooSmall
      | [a; b] => Ok [(a, b)]
      | a :: b :: c :: rest =>
          if (orientation ypd points =? wColinear)%Z then Err EAllColinear
          else match rest with
               | [] => Ok (edges ++ [(a, b); (b, c); (c, a)])
               | _ => split_polygon (triangulate fuel ypd) ypd points edges
               end
      end
  end.
Definition triangulate_points (ypd : bool) (opoints : list pt) : res pp_err (list line) :=
  triangulate (S (length opoints)) ypd opoints.
