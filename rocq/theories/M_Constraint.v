(** * Model of planar/triangulate/delaunay/subdivision: NewForPoints,
    FindIntersectingEdges, InsertConstraint, insertEdge and the collector of the points
    beside a constraint; quadedge.Classify

    The debugging output and the logging are left out.  A nil pointer which is
    dereferenced is [Panic]; [Err tt] of a [res unit] stands for a loop which has not
    ended within the fuel.  Callbacks and the index are those of M_Subdivision. *)
From Coq Require Import Bool List Arith ZArith.
From Verif Require Import Base_F64 Base_F64Arith Base_Res Base_Geom M_Cmp M_Walker M_Winding M_Triangle M_Planar M_Intersect M_Quadedge M_ResolveEdge M_Insert M_Subdivision M_Pseudo M_Coord.
Import ListNotations.

(** math.Round: half away from zero; infinities, NaN and zeros are themselves. *)
Definition f64_round (w : f64) : f64 :=
  if f64_eq w f64_zero || f64_isnan w || f64_isinf w then w
  else
    let '(d, fr) := modf (if f64_lt w f64_zero then f64_neg w else w) in
    let r := if f64_ge fr half then f64_add d f64_one else d in
    if f64_lt w f64_zero then f64_neg r else r.
(** RoundingFactor, subdivision.go 26 *)
Definition rounding_factor : f64 := 0x408F400000000000.
(** roundGeomPoint, subdivision_constrained.go 19-25 *)
Definition round_pt (p : pt) : pt :=
  (f64_div (f64_round (f64_mul (fst p) rounding_factor)) rounding_factor,
   f64_div (f64_round (f64_mul (snd p) rounding_factor)) rounding_factor).

(** ** NewForPoints *)

(** The loop, subdivision.go 141-167; [i] is the index of the head of [pts] and
    [cancelled i] whether ctx.Err() is not nil then.  [None] is a nil subdivision with
    an error. *)
Fixpoint insert_all (ypd : bool) (cancelled : nat -> bool) (i : nat) (seen : list pt) (sd : subdivision) (pts : list pt)
  : res unit (option subdivision) :=
  match pts with
  | [] => Ok (Some sd)
  | p :: pts =>
      if cancelled i then Ok None
      else if existsb (go_eq p) seen then insert_all ypd cancelled (S i) seen sd pts
      else do r <- insert_site ypd sd p ;
           match r with
           | (sd, true) => insert_all ypd cancelled (S i) (p :: seen) sd pts
           | (_, false) => Ok None
           end
  end.
(** NewForPoints, subdivision.go 99-190, without the checks of the debug mode: what the
    slice of the caller holds afterwards, and the result.  A subdivision without a
    starting edge is a [Panic]: InsertSite dereferences it. *)
Definition new_for_points (ypd : bool) (cancelled : nat -> bool) (points : list pt) : list pt * res unit (option subdivision) :=
  let points := map round_pt points in
  (points,
   do t <- triangle_containing points ;
   let '(a, b, c) := t in
   do r <- new_subdivision ypd a b c ;
   match r with
   | (_, None) => Panic
   | (m, Some se) => insert_all ypd cancelled 0 [a; b; c] (Subd m se 3) points
   end).

(** ** FindIntersectingEdges *)

(** AsLine, quadedge/edge.go 68-79 *)
Definition as_line (m : mem pt) (e : edge) : line :=
  let p o := match o with Some p => p | None => (f64_nan, f64_nan) end in
  (p (orig m e), p (dest m e)).
(** The loop, subdivision.go 835-888; [n] is what is left of the 21 rounds, and [None]
    the error.  IsEqual (quadedge/edge.go 222-232) compares the quad-edges. *)
Fixpoint crossing_loop (n : nat) (m : mem pt) (ln : line) (last w : edge) : option (list edge) :=
  match n with
  | O => None
  | S n =>
      let here := if snd (segment_intersect ln (as_line m w)) then [w] else [] in
      if (fst last =? fst w)%nat then Some here
      else
        let nx := if snd (segment_intersect ln (as_line m (onext m w))) then onext m w
                  else onext m (sym (onext m w)) in
        match crossing_loop n m ln last nx with
        | Some l => Some (here ++ l)
        | None => None
        end
  end.
(** FindIntersectingEdges, subdivision.go 765-889 *)
Definition find_intersecting (ypd : bool) (m : mem pt) (se ee : option edge) : res unit (option (list edge)) :=
  match se, ee with
  | Some se, Some ee =>
      match orig m se, orig m ee with
      | Some s, Some e =>
          if f64_eq (length_squared (s, e)) f64_zero then Ok (Some [])
          else
            do r1 <- resolve_edge ypd m se e ;
            do r2 <- resolve_edge ypd m ee s ;
            match fst r1, fst r2 with
            | Some se, Some ee =>
                match dest m se, dest m ee with
                | Some sd, Some ed =>
                    if point_equal hi_cmp sd e || point_equal hi_cmp ed s then Ok (Some [])
                    else Ok (crossing_loop 21 m (s, e) (onext m (sym (onext m ee))) (onext m (sym (onext m se))))
                | _, _ => Panic
                end
            | _, _ => Panic
            end
      | _, _ => Panic
      end
  | _, _ => Ok (Some [])
  end.

(** ** Classify *)

Inductive q_type := LEFT | RIGHT | BEYOND | BEHIND | BETWEEN | ORIGIN | DESTINATION.
(** Classify, quadedge/qtype.go 50-73; Subtract, Multiply, CrossProduct and Magnitude,
    point.go 62-86 *)
Definition magnitude (p : pt) : f64 := f64_sqrt (f64_add (f64_mul (fst p) (fst p)) (f64_mul (snd p) (snd p))).
Definition classify (a b c : pt) : q_type :=
  let aa := sub_pt c b in
  let bb := sub_pt a b in
  let sa := f64_sub (f64_mul (fst aa) (snd bb)) (f64_mul (snd aa) (fst bb)) in
  if f64_gt sa f64_zero then LEFT
  else if f64_lt sa f64_zero then RIGHT
  else if f64_lt (f64_mul (fst aa) (fst bb)) f64_zero || f64_lt (f64_mul (snd aa) (snd bb)) f64_zero then BEHIND
  else if f64_lt (magnitude aa) (magnitude bb) then BEYOND
  else if point_equal hi_cmp a b then ORIGIN
  else if point_equal hi_cmp a c then DESTINATION
  else BETWEEN.

(** ** PseudoPolygonPointCollector *)

(** The two slices; the map seen holds Start once a point was added, and nothing else. *)
Record collector := Coll { upper : list pt; lower : list pt }.
(** AddPoint, subdivision_constrained.go 324-361 *)
Definition add_point (start end_ : pt) (c : collector) (p : pt) : collector :=
  let up := match upper c with [] => [start] | l => l end in
  let lo := match lower c with [] => [start] | l => l end in
  if go_eq p start then Coll up lo
  else match classify p start end_ with
       | LEFT => Coll up (lo ++ [p])
       | RIGHT => Coll (up ++ [p]) lo
       | _ => Coll up lo
       end.
(** AddEdge, subdivision_constrained.go 310-320 *)
Definition add_edge (start end_ : pt) (c : collector) (m : mem pt) (e : edge) : res unit collector :=
  match orig m e, dest m e with
  | Some o, Some d => Ok (add_point start end_ (add_point start end_ c o) d)
  | _, _ => Panic
  end.
(** Edges, subdivision_constrained.go 372-401 *)
Definition pp_edges (ypd : bool) (start end_ : pt) (c : collector) (up : bool) : res pp_err (list line) :=
  let pts := if up then upper c else lower c in
  let seen_end := match upper c with [] => false | _ => go_eq end_ start end in
  let pts := if seen_end then pts else pts ++ [end_] in
  if (length pts =? 2)%nat then Ok [(start, end_)] else triangulate_points ypd pts.

(** ** InsertConstraint *)

Inductive c_err := EStartVertex | EEndVertex | EInfinite | EResolve (e : r_err) | EPseudo (e : pp_err).
Definition vindex := @index pt.
(** The memory, the index and the error, nil for [None] *)
Definition c_result : Type := mem pt * vindex * option c_err.

(** insertEdge, subdivision_constrained.go 220-297, with an index *)
Definition insert_edge (ypd : bool) (m : mem pt) (vx : vindex) (start end_ : pt) : res unit c_result :=
  let start := round_pt start in
  let end_ := round_pt end_ in
  match vx_get go_eq round_pt vx start with
  | None => Ok (m, vx, Some EStartVertex)
  | Some te =>
      do f <- find_onext_dest (point_equal hi_cmp) m end_ te ;
      match f with
      | Some _ => Ok (m, vx, None)
      | None =>
          do r <- resolve_edge ypd m te end_ ;
          match r with
          | (_, Some EColinear) => Ok (m, vx, None)
          | (_, Some e) => Ok (m, vx, Some (EResolve e))
          | (None, None) => Ok (m, vx, Some EStartVertex)
          | (Some from, None) =>
              match vx_get go_eq round_pt vx end_ with
              | None => Ok (m, vx, Some EEndVertex)
              | Some te =>
                  do r <- resolve_edge ypd m te start ;
                  match r with
                  | (_, Some EColinear) => Ok (m, vx, None)
                  | (_, Some e) => Ok (m, vx, Some (EResolve e))
                  | (None, None) => Ok (m, vx, Some EEndVertex)
                  | (Some to, None) =>
                      do (m, e) <- connect_at ypd m (sym (onext m from)) to ;
                      do vx <- vx_add go_eq round_pt m vx e ;
                      Ok (m, vx, None)
                  end
              end
          end
      end
  end.
(** The loop over the edges of one side, subdivision_constrained.go 191-215.  Only
    ErrDidNotFindToFrom puts an edge into redoedges, and insertEdge does not return it. *)
Fixpoint insert_edges (ypd : bool) (m : mem pt) (vx : vindex) (es : list line) : res unit c_result :=
  match es with
  | [] => Ok (m, vx, None)
  | (p, q) :: es =>
      do r <- insert_edge ypd m vx p q ;
      match r with
      | (m, vx, None) => insert_edges ypd m vx es
      | _ => Ok r
      end
  end.
(** One side, subdivision_constrained.go 175-215 *)
Definition insert_side (ypd : bool) (m : mem pt) (vx : vindex) (start end_ : pt) (c : collector) (up : bool) : res unit c_result :=
  match pp_edges ypd start end_ c up with
  | Ok es => insert_edges ypd m vx es
  | Err e => Ok (m, vx, Some (EPseudo e))
  | Panic => Panic
  end.
(** The loop over the edges which are removed, subdivision_constrained.go 144-168 *)
Fixpoint remove_edges (frame : pt * pt * pt) (start end_ : pt) (m : mem pt) (vx : vindex) (c : collector) (es : list edge)
  : res unit (mem pt * vindex * collector) :=
  match es with
  | [] => Ok (m, vx, c)
  | e :: es =>
      do hard <- is_hard_frame_edge (point_equal hi_cmp) m frame e ;
      if hard then remove_edges frame start end_ m vx c es
      else
        do c <- add_edge start end_ c m e ;
        do vx <- vx_remove go_eq round_pt m vx e ;
        remove_edges frame start end_ (delete m e) vx c es
  end.

(** ResolveStartingEndingEdges, subdivision_constrained.go 27-66: the two edges, whether
    the edge exists, and the error *)
Definition resolve_ends (ypd : bool) (m : mem pt) (vx : vindex) (start end_ : pt)
  : res unit (option edge * option edge * bool * option c_err) :=
  let start := round_pt start in
  let end_ := round_pt end_ in
  match vx_get go_eq round_pt vx start with
  | None => Ok (None, None, false, Some EStartVertex)
  | Some se =>
      do f <- find_onext_dest (point_equal hi_cmp) m end_ se ;
      match f with
      | Some _ => Ok (None, None, true, None)
      | None =>
          match vx_get go_eq round_pt vx end_ with
          | None => Ok (None, None, false, Some EEndVertex)
          | Some ee =>
              do r1 <- resolve_edge ypd m se end_ ;
              do r2 <- resolve_edge ypd m ee start ;
              match snd r1, snd r2 with
              | Some EColinear, Some EColinear => Ok (None, None, true, None)
              | _, _ => Ok (fst r1, fst r2, false, None)
              end
          end
      end
  end.
(** InsertConstraint, subdivision_constrained.go 68-218, with an index *)
Definition insert_constraint (ypd : bool) (frame : pt * pt * pt) (m : mem pt) (vx : vindex) (start end_ : pt) : res unit c_result :=
  do r <- resolve_ends ypd m vx start end_ ;
  match r with
  | (_, _, _, Some e) => Ok (m, vx, Some e)
  | (_, _, true, None) => Ok (m, vx, None)
  | (se, ee, false, None) =>
      do l <- find_intersecting ypd m se ee ;
      match l with
      | None => Ok (m, vx, Some EInfinite)
      | Some [] => Ok (m, vx, None)
      | Some es =>
          do r <- remove_edges frame start end_ m vx (Coll [] []) es ;
          let '(m, vx, c) := r in
          do r <- insert_side ypd m vx start end_ c false ;
          match r with
          | (m, vx, None) => insert_side ypd m vx start end_ c true
          | _ => Ok r
          end
      end
  end.
