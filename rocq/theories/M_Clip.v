(** * Model of planar/clip

    The context is a function of the number of calls of ctx.Err so far: whether
    the n-th call returns an error.  Functions return the number of calls as
    well.  Logging is not modelled.  [c] is the comparator behind the functions
    of package cmp. *)
From Coq Require Import ZArith Bool List.
From Verif Require Import Base_Res Base_F64 Base_Geom M_Geom M_Extent M_Cmp M_Intersect.
Import ListNotations.

Definition context := nat -> bool.

Inductive clip_error := Cancelled | InvalidLineString | Unsupported.

Section Clip.
  Variable c : compare.
  Variable ctx : context.

  (** linestring.go 18-36: the loop over the edges, [pts] found so far *)
  Fixpoint intersect_points (es : list line) (ln : line) (pts : list pt) : list pt :=
    match es with
    | [] => pts
    | e :: tl =>
        let (p, ok) := segment_intersect e ln in
        if negb ok then intersect_points tl ln pts
        else if existsb (fun q => point_equal c q p) pts then pts
        else
          let pts := pts ++ [p] in
          if (2 <=? length pts)%nat then pts else intersect_points tl ln pts
    end.

  (** linestring.go 12-37, uniqueSegmentIntersectPoints *)
  Definition unique_points (box : option extent) (ln : line) : list pt :=
    if is_universe box then [] else intersect_points (edges box None) ln [].

  (** linestring.go 92-99, 120-128: the intersections in the direction of the line *)
  Definition same_direction (ln : line) (a b : pt) : bool :=
    Bool.eqb (xy_less (fst ln) (snd ln)) (xy_less a b).

  (** linestring.go 78-164: the loop.  [prev] is ls[i-1], [lin] whether it is in
      the box, [mls] the finished lines, [cls] the current one. *)
  Fixpoint clip_loop (n : nat) (box : option extent) (prev : pt) (lin : bool) (rest : list pt)
      (mls : list (list pt)) (cls : list pt) : res clip_error (list (list pt)) * nat :=
    match rest with
    | [] => (Ok (if (1 <? length cls)%nat then mls ++ [cls] else mls), n)
    | p :: tl =>
        if ctx n then (Err Cancelled, S n)
        else
          let n := S n in
          let ln := (prev, p) in
          let cin := contains_point box p in
          match lin, cin with
          | false, false =>
              let mls := match unique_points box ln with
                         | a :: b :: _ => mls ++ [if same_direction ln a b then [a; b] else [b; a]]
                         | _ => mls
                         end in
              clip_loop n box p cin tl mls cls
          | true, true => clip_loop n box p cin tl mls (cls ++ [p])
          | false, true =>
              let cls := match unique_points box ln with
                         | [] => cls
                         | [a] => cls ++ [a]
                         | a :: b :: _ => cls ++ [if same_direction ln a b then a else b]
                         end in
              clip_loop n box p cin tl mls (cls ++ [p])
          | true, false =>
              match unique_points box ln with
              | [] => clip_loop n box p cin tl (mls ++ [cls]) []
              | ipts =>
                  match cls with
                  | [] => (Panic, n) (* cls[-1] *)
                  | q :: _ =>
                      let last := List.last cls q in
                      let cls := cls ++ filter (fun x => negb (point_equal c x last)) ipts in
                      clip_loop n box p cin tl (mls ++ [cls]) []
                  end
              end
          end
    end.

  (** linestring.go 44-171, lineString.  ContainsGeom gets a [][2]float64, which
      is no geometry: an error unless the box is the universe. *)
  Definition clip_line (n : nat) (box : option extent) (ls : list pt) : res clip_error (list (list pt)) * nat :=
    match ls with
    | [] => (Ok [], n)
    | [_] => (Err InvalidLineString, n)
    | p :: tl =>
        match contains_geom box GUnknown with
        | Some true => (Ok [ls], n)
        | _ =>
            let lin := contains_point box p in
            clip_loop n box p lin tl [] (if lin then [p] else [])
        end
    end.

  (** linestring.go 181-188 *)
  Fixpoint clip_lines (n : nat) (box : option extent) (mls : list (list pt)) (nmls : list (list pt))
      : res clip_error (list (list pt)) * nat :=
    match mls with
    | [] => (Ok nmls, n)
    | ls :: tl =>
        match clip_line n box ls with
        | (Ok m, n) => clip_lines n box tl (nmls ++ m)
        | (Err e, n) => (Err e, n)
        | (Panic, n) => (Panic, n)
        end
    end.
  (** linestring.go 173-189, MultiLineStringer *)
  Definition clip_multiline (n : nat) (box : option extent) (mls : list (list pt)) : res clip_error (list (list pt)) * nat :=
    if is_universe box then (Ok mls, n) else clip_lines n box mls [].

  (** point.go 10-28, MultiPointer *)
  Fixpoint clip_points (n : nat) (box : option extent) (ps : list pt) (npts : list pt) : res clip_error (list pt) * nat :=
    match ps with
    | [] => (Ok npts, n)
    | p :: tl =>
        let npts := if contains_point box p then npts ++ [p] else npts in
        if ctx n then (Err Cancelled, S n) else clip_points (S n) box tl npts
    end.
  Definition clip_multipoint (n : nat) (box : option extent) (ps : list pt) : res clip_error (list pt) * nat :=
    if is_universe box then (Ok ps, n) else clip_points n box ps [].

  (** clip.go 18-43, Geometry; a nil geometry is None.  An unsupported geometry
      is returned with the error. *)
  Definition clip_geometry (box : option extent) (g : option (geom f64)) : res clip_error (option (geom f64)) :=
    if is_universe box then Ok g
    else
      match g with
      | None => Ok None
      | Some (GPoint p) => Ok (if contains_point box p then g else None)
      | Some (GMultiPoint ps) => do r <- fst (clip_multipoint 0 box ps); Ok (Some (GMultiPoint r))
      | Some (GLineString ls) => do r <- fst (clip_line 0 box ls); Ok (Some (GMultiLineString r))
      | Some (GMultiLineString ls) => do r <- fst (clip_multiline 0 box ls); Ok (Some (GMultiLineString r))
      | Some _ => Err Unsupported
      end.
End Clip.
