(** * Model of planar/intersect/segments.go and ring.go

    Not modelled: the logging. *)
From Coq Require Import ZArith Bool List.
From Verif Require Import Base_Res Base_F64 Base_F64Arith Base_Geom M_Geom M_Extent M_Cmp M_Intersect M_Planar M_Rtree.
Import ListNotations.

(** ** segments.go *)
(** segments.go 11: 0.00001 *)
Definition small_ep : f64 := 0x3ee4f8b588e368f1%Z.

(** segments.go 20-25 *)
Definition min_and_delta (c1 c2 : f64) : f64 * f64 :=
  if f64_gt c1 c2 then (c2, f64_add (f64_sub c1 c2) small_ep) else (c1, f64_add (f64_sub c2 c1) small_ep).

(** segments.go 27-36; an error of NewRect makes it panic *)
Definition rect_for_segment (seg : line) : res unit rect :=
  let (minx, deltax) := min_and_delta (fst (fst seg)) (fst (snd seg)) in
  let (miny, deltay) := min_and_delta (snd (fst seg)) (snd (snd seg)) in
  match new_rect [minx; miny] [deltax; deltay] with
  | None => Panic
  | Some r => Ok r
  end.

(** segments.go 13-18: segRect, an index and its rectangle *)
Definition seg_rect := (nat * rect)%type.

(** sort.Ints: of integers there is only one sorted slice *)
Fixpoint insert_int (x : nat) (l : list nat) : list nat :=
  match l with [] => [x] | y :: tl => if (x <=? y)%nat then x :: l else y :: insert_int x tl end.
Definition sort_ints (l : list nat) : list nat := fold_right insert_int [] l.

(** segments.go 38 *)
Definition segment_filter := list nat -> line -> nat -> bool * bool.

(** segments.go 57-64: refuse and abort *)
Fixpoint ask (fs : list segment_filter) (idxs : list nat) (seg : line) (i : nat) (abort : bool) : bool * bool :=
  match fs with
  | [] => (false, abort)
  | f :: tl =>
      let (refuse, abortf) := f idxs seg i in
      if refuse then (true, abort) else ask tl idxs seg i (abort || abortf)
  end.
(** segments.go 52-75: the loop and what follows *)
Fixpoint keep (fs : list segment_filter) (seg : line) (results : list seg_rect) (idxs : list nat) : list nat :=
  match results with
  | [] => sort_ints idxs
  | (i, _) :: tl =>
      let (refuse, abort) := ask fs idxs seg i false in
      let idxs := if refuse then idxs else idxs ++ [i] in
      if abort then idxs else keep fs seg tl idxs
  end.
(** segments.go 44-76; the index is nil or has a tree *)
Definition search_idxs (index : option (rtree seg_rect)) (seg : line) (fs : list segment_filter) : res unit (list nat) :=
  match index with
  | None => Ok []
  | Some t =>
      do r <- rect_for_segment seg;
      do results <- search_intersect t r [];
      Ok (keep fs seg results [])
  end.

(** segments.go 83-90 *)
Fixpoint seg_rects (i : nat) (segs : list line) : res unit (list seg_rect) :=
  match segs with
  | [] => Ok []
  | s :: tl => do r <- rect_for_segment s; do rs <- seg_rects (S i) tl; Ok ((i, r) :: rs)
  end.

Section Index.
  (** What NewTree computes in floating point, and its sort (M_Rtree.v): *)
  Variable sorted : nat -> list (entry seg_rect) -> list (entry seg_rect).
  Variable nums : list seg_rect -> nat * Z * Z * Z.   (* fuel, height, subtrees, slices *)

  (** segments.go 91-93: NewTree(1, 2, 5, ...) *)
  Definition build (objs : list seg_rect) : res unit (rtree seg_rect) :=
    let '(fuel, h, s, ns) := nums objs in new_tree snd 2 5 sorted 1 fuel h s ns objs.
  (** segments.go 78-94 *)
  Definition new_search (segs : list line) : res unit (option (rtree seg_rect)) :=
    if (length segs <=? 1)%nat then Ok None
    else do objs <- seg_rects 0 segs; do t <- build objs; Ok (Some t).

  (** ** ring.go *)
  (** ring.go 11-19 *)
  Record ring := Ring {
    r_segs : list line; r_index : option (rtree seg_rect); r_border : bool; r_cmp : compare; r_bbox : extent }.

  (** ring.go 30, 34-36: bbox is the zero Extent to begin with *)
  Definition ring_bbox (segs : list line) : extent :=
    fold_left (fun e l => add_point1 (add_point1 e (fst l)) (snd l)) segs (Ext f64_zero f64_zero f64_zero f64_zero).
  (** ring.go 70: staticIdxs has 16 elements *)
  Definition static_len : nat := 16.
  (** ring.go 21-39; the user may then set IncludeBorder, here [border] *)
  Definition new_ring (c : compare) (border : bool) (segs : list line) : res unit ring :=
    do index <- (if (static_len <? length segs)%nat then new_search segs else Ok None);
    Ok (Ring segs index border c (ring_bbox segs)).
  (** ring.go 41-61, NewRingFromPointers and NewRingFromPoints *)
  Fixpoint ring_segs (lp : pt) (pts : list pt) : list line :=
    match pts with [] => [] | p :: tl => (lp, p) :: ring_segs p tl end.
  Definition new_ring_from_points (c : compare) (border : bool) (pts : list pt) : res unit ring :=
    new_ring c border (match pts with [] => [] | p :: _ => ring_segs (last pts p) pts end).
End Index.

(** ring.go 63-68 *)
Definition ring_extent (r : option ring) : option extent := match r with None => None | Some r => Some (r_bbox r) end.

(** ring.go 101-141: what one segment does *)
Inductive verdict := Border | Skip | Count.
Definition look (c : compare) (l : line) (p : pt) (seg : line) : verdict :=
  if are_lines_colinear l seg then if line_contains_point seg p then Border else Skip
  else
    let (ipt, ok) := segment_intersect l seg in
    if negb ok then Skip
    else if point_equal c ipt p then Border
    else if point_equal c (fst seg) ipt then if f64_gt (snd (snd seg)) (snd p) then Skip else Count
    else if point_equal c (snd seg) ipt then if f64_gt (snd (fst seg)) (snd p) then Skip else Count
    else Count.

(** ring.go 100-147: the loop over the indices; an index out of range panics *)
Fixpoint ray (c : compare) (border : bool) (l : line) (p : pt) (segs : list line) (idxs : list nat) (count : nat) : res unit bool :=
  match idxs with
  | [] => Ok (Nat.odd count)
  | i :: tl =>
      match nth_error segs i with
      | None => Panic
      | Some seg =>
          match look c l p seg with
          | Border => Ok border
          | Skip => ray c border l p segs tl count
          | Count => ray c border l p segs tl (S count)
          end
      end
  end.

(** ring.go 72-148; staticIdxs[:n] panics for n over 16 *)
Definition ring_contains (r : option ring) (p : pt) : res unit bool :=
  match r with
  | None => Ok false
  | Some r =>
      if negb (contains_point (Some (r_bbox r)) p) then Ok false
      else
        let l := ((f64_sub (e0 (r_bbox r)) f64_one, snd p), p) in
        do results <- match r_index r with
                      | Some t => search_idxs (Some t) l []
                      | None => if (length (r_segs r) <=? static_len)%nat then Ok (seq 0 (length (r_segs r))) else Panic
                      end;
        ray (r_cmp r) (r_border r) l p (r_segs r) results 0
  end.
