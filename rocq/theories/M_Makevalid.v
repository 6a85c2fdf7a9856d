(** * Model of planar/makevalid (makevalid.go, triangulate.go)

    Floats are words.  sort.Sort, the triangulation (delaunay.GeomConstrained) and
    the Clipper are arguments, and theorems assume of them only what they need.
    ctx.Err() is a function of the number of times it was asked: [ctx] in the sweep,
    [stop] between segments, [halt] between triangles and [walk] in the walker.
    Logging is not modelled. *)
From Coq Require Import ZArith Bool List.
From Verif Require Import Base_Res Base_F64 Base_F64Arith Base_Geom M_Geom M_Extent M_Cmp M_Intersect M_Sweep M_Triangle M_Rtree M_Ring M_Hitmap M_Walker.
Import ListNotations.
Open Scope nat_scope.

(** makevalid.go 31-66, asSegments; None is an error *)
Definition as_segments (g : geom f64) : option (list line) :=
  match g with
  | GLineString ls => ls_as_segments ls
  | GMultiLineString mls => option_map (@concat line) (mls_as_segments mls)
  | GPolygon p => Some (concat (polygon_as_segments p))
  | GMultiPolygon mp => Some (concat (map (@concat line) (mp_as_segments mp)))
  | _ => None
  end.

(** makevalid.go 68-72, ByXYPoint; cmp/compare.go 106-111 *)
Definition point_less (p q : pt) : bool := xy_less p q.
(** makevalid.go 74-80, ByXYLine *)
Definition line_less (a b : line) : bool :=
  xy_less (fst a) (fst b) || (point_equal hi_cmp (fst a) (fst b) && xy_less (snd a) (snd b)).

(** makevalid.go 153-165: the loop, [prev] being segs[i-1]; what is appended to
    uniqued.  A write is never ahead of the reads: segs[i-1] and segs[i] are still
    the sorted ones. *)
Fixpoint uniqued_after (prev : line) (segs : list line) : list line :=
  match segs with
  | [] => []
  | s :: tl =>
      if point_equal hi_cmp (fst s) (fst prev) && point_equal hi_cmp (snd s) (snd prev) then uniqued_after s tl
      else s :: uniqued_after s tl
  end.
Definition uniqued (segs : list line) : list line :=
  match segs with [] => [] | s :: tl => s :: uniqued_after s tl end.
(** makevalid.go 148, 152-165, unique: the caller's slice afterwards.  It has the length
    it had: uniqued overwrites its beginning. *)
Definition unique (sort_lines : (line -> line -> bool) -> list line -> list line) (segs : list line) : list line :=
  let sorted := sort_lines line_less segs in
  let u := uniqued sorted in
  u ++ skipn (length u) sorted.

(** makevalid.go 116-120: the points at which segment [i] is cut, in the order of the calls *)
Fixpoint break_points (i : nat) (calls : list call) : list pt :=
  match calls with
  | [] => []
  | (src, dest, p) :: tl =>
      (if src =? i then [p] else []) ++ (if dest =? i then [p] else []) ++ break_points i tl
  end.

(** makevalid.go 132-142: the pieces between neighbouring points *)
Fixpoint pieces (c : compare) (clip : option extent) (pts : list pt) : list line :=
  match pts with
  | a :: (b :: _) as tl =>
      if point_equal c a b then pieces c clip tl
      else if negb (contains_line clip (a, b)) then pieces c clip tl
      else (a, b) :: pieces c clip tl
  | _ => []
  end.

Section Destructure.
  Context {E : Type}.
  Variable sort_events : (event -> event -> bool) -> list event -> list event.
  Variable sort_pts : (pt -> pt -> bool) -> list pt -> list pt.
  Variable sort_lines : (line -> line -> bool) -> list line -> list line.
  Variable sweep_cmp : compare.                    (* cmp.DefaultCompare() *)
  Variable ctx : nat -> option E.
  Variable stop : nat -> bool.

  (** makevalid.go 126-146: the loop over the segments, [i] being the number of the
      head of [segs]; None: the context was cancelled *)
  Fixpoint split (c : compare) (clip : option extent) (calls : list call) (i : nat) (segs : list line) : option (list line) :=
    match segs with
    | [] => Some []
    | s :: tl =>
        let ps := pieces c clip (sort_pts point_less (fst s :: snd s :: break_points i calls)) in
        if stop i then None
        else option_map (app ps) (split c clip calls (S i) tl)
    end.

  (** makevalid.go 101-111: whether the clip box is used, and the segments *)
  Definition has_clipbox (clipbox : option extent) (gext : option extent) : bool :=
    match clipbox with None => false | Some _ => negb (contains clipbox (ext_values gext)) end.
  Definition source_segments (clipbox : option extent) (has : bool) (segs : list line) : list line :=
    if has then edges clipbox None ++ segs else segs.

  (** makevalid.go 87-150.  A cancelled context gives no segments and no error: err is
      nil in line 144; the error of FindIntersects is dropped.  [None] as an error is
      that of NewExtentFromGeometry. *)
  Definition destructure (c : compare) (clipbox : option extent) (mp : list (list (list pt))) : res unit (list line) :=
    match as_segments (GMultiPolygon mp), new_extent_from_geometry (GMultiPolygon mp) with
    | Some segs, Some gext =>
        let has := has_clipbox clipbox gext in
        let segs := source_segments clipbox has segs in
        let (calls, r) := find_intersects sweep_cmp segs true (fun _ _ => Continue) ctx (new_event_queue sort_events segs) in
        match r with
        | Panic => Panic
        | _ =>
            match split c (if has then clipbox else None) calls 0 segs with
            | None => Ok []
            | Some nsegs => Ok (unique sort_lines nsegs)
            end
        end
    | _, _ => Err tt
    end.
End Destructure.

Section Make.
  Context {E : Type}.
  Variable sort_events : (event -> event -> bool) -> list event -> list event.
  Variable sort_pts : (pt -> pt -> bool) -> list pt -> list pt.
  Variable sort_lines : (line -> line -> bool) -> list line -> list line.
  Variable sorted : nat -> list (entry seg_rect) -> list (entry seg_rect).
  Variable nums : list seg_rect -> nat * Z * Z * Z.
  Variable sort_hrings : (hring -> hring -> bool) -> list hring -> list hring.
  Variable sweep_cmp : compare.
  Variable triangulate : list line -> res E (list triangle).   (* GeomConstrained.Triangles(ctx, false) *)
  Variable ctx : nat -> option E.
  Variable stop : nat -> bool.
  Variable halt : nat -> option E.
  Variable walk : nat -> bool.
  Variable extent_error : E.                                   (* of NewExtentFromGeometry *)
  Variable unknown : E.                                        (* ErrUnknownGeometry *)

  (** triangulate.go 39-47 *)
  Fixpoint inside_triangles (hm : hitmap) (n : nat) (ts : list triangle) : res E (list triangle) :=
    match ts with
    | [] => Ok []
    | t :: tl =>
        match halt n with
        | Some e => Err e
        | None =>
            match label_for hm (center t) with
            | Ok Outside => inside_triangles hm (S n) tl
            | Ok _ => do rest <- inside_triangles hm (S n) tl; Ok (t :: rest)
            | _ => Panic
            end
        end
    end.
  (** triangulate.go 16-53 *)
  Definition inside_triangles_for_segments (segs : list line) (hm : hitmap) : res E (list triangle) :=
    do ts <- triangulate segs; inside_triangles hm 0 ts.
  (** triangulate.go 56-84; nil and the empty slice are one *)
  Definition inside_triangles_for_mp (clipbox : option extent) (mp : list (list (list pt))) (hm : hitmap) : res E (list triangle) :=
    match destructure sort_events sort_pts sort_lines sweep_cmp ctx stop hi_cmp clipbox mp with
    | Ok [] => Ok []
    | Ok segs => inside_triangles_for_segments segs hm
    | Err _ => Err extent_error
    | Panic => Panic
    end.

  (** makevalid.go 167-188: None is the nil pointer, Some None a pointer to a nil
      MultiPolygon (the walk was cancelled) *)
  Definition makevalid_polygon (clipbox : option extent) (mp : list (list (list pt))) : res E (option (option (list (list (list pt))))) :=
    match new_from_polygons sorted nums sort_hrings None mp with
    | Ok hm =>
        do ts <- inside_triangles_for_mp clipbox mp hm;
        match ts with
        | [] => Ok None
        | _ =>
            match multi_polygon ts walk false with
            | Ok (mp, _, _) => Ok (Some mp)
            | _ => Panic
            end
        end
    | _ => Panic
    end.

  (** What Makevalid returns as a geometry: what it was given, or what the Clipper
      made of it, or a pointer to a MultiPolygon, which may be nil *)
  Inductive made :=
  | Same (g : geom f64)
  | Clipped (g : option (geom f64))
  | Pointer (mp : option (option (list (list (list pt))))).

  (** makevalid.go 190-238; the flag is didClip *)
  Definition makevalid (clipper : option (geom f64 -> option extent -> res E (option (geom f64)))) (g : geom f64) (clipbox : option extent) : res E (made * bool) :=
    match g with
    | GLineString _ | GMultiLineString _ | GPoint _ | GMultiPoint _ =>
        match clipper with
        | Some clip => do gg <- clip g clipbox; Ok (Clipped gg, true)
        | None => Ok (Same g, false)
        end
    | GPolygon rs => do v <- makevalid_polygon clipbox [rs]; Ok (Pointer v, true)
    | GMultiPolygon mp => do v <- makevalid_polygon clipbox mp; Ok (Pointer v, true)
    | _ => Err unknown
    end.
End Make.
