(** * Model of planar/triangulate/delaunay/constrained.go

    Logging is left out.  The contexts are those of NewForPoints.  [None] is an error. *)
From Coq Require Import Bool List Arith ZArith.
From Verif Require Import Base_F64 Base_F64Arith Base_Res Base_Geom M_Cmp M_Walker M_Triangle M_Planar M_Quadedge M_Subdivision M_Pseudo M_Insert M_Constraint M_GeojsonAlias.
Import ListNotations.

(** The map seen has the keys of the slice pts: constrained.go 38-46, 54-61 *)
Definition add_unique (pts : list pt) (p : pt) : list pt := if existsb (go_eq p) pts then pts else pts ++ [p].
(** constrained.go 48-53 *)
Definition has_length (l : line) : bool := negb (cmp_float hi_cmp (f64_sqrt (length_squared l)) f64_zero).
(** constrained.go 34-64: the points and the constraints *)
Definition gc_points (points : list pt) (constraints : list line) : list pt :=
  fold_left (fun pts l => add_unique (add_unique pts (fst l)) (snd l)) (filter has_length constraints) (fold_left add_unique points []).

(** constrained.go 84-95: errors are logged *)
Fixpoint insert_logged (ypd : bool) (frame : pt * pt * pt) (m : mem pt) (vx : vindex) (cs : list line) : res unit (mem pt) :=
  match cs with
  | [] => Ok m
  | (p, q) :: cs =>
      do r <- insert_constraint ypd frame m vx p q ;
      insert_logged ypd frame (fst (fst r)) (snd (fst r)) cs
  end.
(** constrained.go 135-144: the first error ends it *)
Fixpoint insert_strict (ypd : bool) (frame : pt * pt * pt) (m : mem pt) (vx : vindex) (cs : list line) : res unit (option (mem pt)) :=
  match cs with
  | [] => Ok (Some m)
  | (p, q) :: cs =>
      do r <- insert_constraint ypd frame m vx p q ;
      match snd r with
      | None => insert_strict ypd frame (fst (fst r)) (snd (fst r)) cs
      | Some _ => Ok None
      end
  end.
(** constrained.go 68-112 and 129-146: the triangulation of points, the constraints if
    [enabled] (EnableConstraints), the triangles *)
Definition triangles_of (ypd enabled : bool) (cancelled : nat -> bool) (include_frame : bool) (pts : list pt)
  (insert : pt * pt * pt -> mem pt -> vindex -> res unit (option (mem pt))) : res unit (option (list (pt * pt * pt))) :=
  match pts with
  | [] => Ok (Some [])
  | _ =>
      do frame <- triangle_containing (map round_pt pts) ;
      do r <- snd (new_for_points ypd cancelled pts) ;
      match r with
      | None => Ok None
      | Some sd =>
          do m <- (if enabled then
                     do vx <- new_vertex_index go_eq round_pt (sd_mem sd) (Some (sd_start sd)) ;
                     insert frame (sd_mem sd) vx
                   else Ok (Some (sd_mem sd))) ;
          match m with
          | None => Ok None
          | Some m => do ts <- triangles (point_equal hi_cmp) go_eq m frame (Some (sd_start sd)) include_frame ; Ok (Some ts)
          end
      end
  end.
(** GeomConstrained.Triangles, constrained.go 33-112 *)
Definition gc_triangles (ypd enabled : bool) (cancelled : nat -> bool) (include_frame : bool) (points : list pt) (constraints : list line)
  : res unit (option (list (pt * pt * pt))) :=
  triangles_of ypd enabled cancelled include_frame (gc_points points constraints)
    (fun frame m vx => do m <- insert_logged ypd frame m vx (filter has_length constraints) ; Ok (Some m)).

(** ** Constrained.Triangles and the memory of its caller *)

(** append(s, x, y), within the capacity or on a new array *)
Definition append2 (m : memory) (h : header) (x y : pt) : memory * header :=
  if (h_len h + 2 <=? h_cap h)%nat then
    (set (h_arr h) (set (h_off h + h_len h + 1) y (set (h_off h + h_len h) x (array m (h_arr h)))) m,
     Hdr (h_arr h) (h_off h) (h_len h + 2) (h_cap h))
  else
    (m ++ [read m h ++ [x; y]], Hdr (length m) 0 (h_len h + 2) (h_len h + 2)).
(** constrained.go 121-124 *)
Fixpoint append_ends (m : memory) (h : header) (cs : list line) : memory * header :=
  match cs with
  | [] => (m, h)
  | (p, q) :: cs => let '(m, h) := append2 m h p q in append_ends m h cs
  end.
(** The assignments to the elements of a slice *)
Definition write (m : memory) (h : header) (l : list pt) : memory :=
  let a := array m (h_arr h) in
  set (h_arr h) (firstn (h_off h) a ++ l ++ skipn (h_off h + length l) a) m.
(** Constrained.Triangles, constrained.go 120-147: what is in memory afterwards, and the
    result.  [h] is the slice Points. *)
Definition c_triangles (ypd enabled : bool) (cancelled : nat -> bool) (include_frame : bool) (m : memory) (h : header) (constraints : list line)
  : memory * res unit (option (list (pt * pt * pt))) :=
  let '(m, h) := append_ends m h constraints in
  let pts := read m h in
  (match pts with [] => m | _ => write m h (fst (new_for_points ypd cancelled pts)) end,
   triangles_of ypd enabled cancelled include_frame pts
     (fun frame g vx => insert_strict ypd frame g vx constraints)).
