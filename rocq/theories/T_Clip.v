(** * C47, C80: clipping to a box

    [clip_line], [clip_multiline], [clip_multipoint] and [clip_geometry] are the
    functions of planar/clip on float64 words; [clip_grid], [inside], [segments],
    [runs], [part_of], [apart] and [clipped] are in S_Clip.v.  The first argument
    of the functions is the comparator behind package cmp, the second the context
    (whether its n-th Err call returns an error), the third the number of Err
    calls so far.  [is_universe (Some b) = false] excludes the box with the four
    sides -MaxFloat64, MaxFloat64, which clips nothing (C47_geometry). *)
From Coq Require Import ZArith Bool List Reals.
From Flocq Require Import Core.Core.
From Verif Require Import Base_Res Base_F64 Base_F64Arith Base_Geom M_Geom M_Extent M_Cmp M_Intersect M_Clip
  S_Intersect S_Cmp S_Clip P_Intersect4 P_Cmp3 P_Clip3 P_Clip4 P_Clip5.
Import ListNotations.

(** ** C47 *)
(** Points: exactly those in the box, in order. *)
Theorem C47_points : forall ctx n b ps, is_universe (Some b) = false ->
  match clip_multipoint ctx n (Some b) ps with
  | (Ok out, _) => out = filter (inside b) ps
  | (Err Cancelled, n') => exists i, (n <= i < n')%nat /\ ctx i = true
  | _ => False
  end.
Proof. exact clip_points_exact. Qed.
Print Assumptions C47_points.

(** Lines, all words: the segments of the result are, in order, the parts of the
    segments of the line; a segment with both ends in the box is kept as it is. *)
Theorem C47_order : forall c ctx n b ls out n', is_universe (Some b) = false ->
  clip_line c ctx n (Some b) ls = (Ok out, n') ->
  exists parts, flat_map segments out = concat parts /\
    Forall2 (fun ln part => inside b (fst ln) = true -> inside b (snd ln) = true -> part = [ln]) (segments ls) parts.
Proof. exact clip_order. Qed.
Print Assumptions C47_order.

(** All words: the line is cut at its vertices outside the box, each run is
    clipped on its own and gives at most one piece. *)
Theorem C47_runs : forall c b, is_universe (Some b) = false -> forall ls out,
  fst (clip_line c never 0 (Some b) ls) = Ok out ->
  exists outs, out = concat outs /\
    Forall2 (fun run o => fst (clip_line c never 0 (Some b) run) = Ok o /\ (length o <= 1)%nat) (runs b ls) outs.
Proof. exact (fun c b Nu ls => clip_runs c b Nu (length ls) ls (le_n _)). Qed.
Print Assumptions C47_runs.

(** On a grid: each vertex of the result is in the box. *)
Theorem C47_inside : forall c ctx n b ls out n', is_universe (Some b) = false -> clip_grid b ls ->
  clip_line c ctx n (Some b) ls = (Ok out, n') ->
  forall piece p, In piece out -> In p piece -> inside b p = true.
Proof. exact clip_inside. Qed.
Print Assumptions C47_inside.

(** Each part is nothing or one segment, a part of the segment of the line in the
    same direction; a segment that enters the box is kept up to its last end. *)
Theorem C47_part : forall c ctx n b ls out n', positive c -> is_universe (Some b) = false -> clip_grid b ls ->
  clip_line c ctx n (Some b) ls = (Ok out, n') ->
  exists parts, flat_map segments out = concat parts /\
    Forall2 (fun ln part =>
      (part = [] \/ exists a d, part = [(a, d)] /\ part_of ln a d /\ inside b a = true /\ inside b d = true) /\
      (inside b (fst ln) = true -> inside b (snd ln) = true -> part = [ln]) /\
      (f64_lt (e0 b) (e2 b) = true -> f64_lt (e1 b) (e3 b) = true ->
       inside b (fst ln) = false -> inside b (snd ln) = true -> exists a, part = [(a, snd ln)]))
    (segments ls) parts.
Proof. exact clip_exact. Qed.
Print Assumptions C47_part.

(** If the segments do not pass through corners, each part is exactly the points
    of the segment that are in the box. *)
Theorem C47_exact : forall c ctx n b ls out n', positive c -> is_universe (Some b) = false -> clip_grid b ls ->
  f64_lt (e0 b) (e2 b) = true -> f64_lt (e1 b) (e3 b) = true ->
  (forall ln, In ln (segments ls) -> apart c b ln) ->
  clip_line c ctx n (Some b) ls = (Ok out, n') ->
  exists parts, flat_map segments out = concat parts /\ Forall2 (clipped c b) (segments ls) parts.
Proof. exact clip_apart. Qed.
Print Assumptions C47_exact.

(** No panic; a line of one vertex is an error; else only the context stops it,
    and a result does not depend on the context. *)
Theorem C47_total : forall c ctx n box ls,
  match clip_line c ctx n box ls with
  | (Ok _, _) => length ls <> 1%nat
  | (Err Cancelled, n') => exists i, (n <= i < n')%nat /\ ctx i = true
  | (Err InvalidLineString, _) => length ls = 1%nat
  | (Err Unsupported, _) | (Panic, _) => False
  end.
Proof. exact clip_total. Qed.
Print Assumptions C47_total.

Theorem C47_context : forall c ctx n box ls out n', clip_line c ctx n box ls = (Ok out, n') ->
  clip_line c never n box ls = (Ok out, n').
Proof. exact clip_ctx. Qed.
Print Assumptions C47_context.

(** Several lines: the pieces of each, in order. *)
Theorem C47_lines : forall c ctx n b mls out n', is_universe (Some b) = false ->
  clip_multiline c ctx n (Some b) mls = (Ok out, n') ->
  exists outs, out = concat outs /\ Forall2 (fun ls o => fst (clip_line c never 0 (Some b) ls) = Ok o) mls outs.
Proof. exact clip_multi. Qed.
Print Assumptions C47_lines.

(** Every geometry. *)
Theorem C47_geometry : forall c ctx box g,
  match clip_geometry c ctx box g with
  | Panic => False
  | Err Unsupported => is_universe box = false /\
      match g with Some (GPoint _) | Some (GMultiPoint _) | Some (GLineString _) | Some (GMultiLineString _) | None => False | Some _ => True end
  | Err InvalidLineString => exists ls, length ls = 1%nat /\
      (g = Some (GLineString ls) \/ exists mls, g = Some (GMultiLineString mls) /\ In ls mls)
  | Err Cancelled => exists i, ctx i = true
  | Ok r => is_universe box = true -> r = g
  end.
Proof. exact geometry_total. Qed.
Print Assumptions C47_geometry.

(** The universe keeps everything as it is. *)
Theorem C47_universe : forall c ctx n box, is_universe box = true ->
  (forall ps, clip_multipoint ctx n box ps = (Ok ps, n)) /\
  (forall mls, clip_multiline c ctx n box mls = (Ok mls, n)) /\
  (forall ls, (2 <= length ls)%nat -> clip_line c ctx n box ls = (Ok [ls], n)).
Proof. exact universe_keeps. Qed.
Print Assumptions C47_universe.

Theorem C47_point : forall c ctx b p, is_universe (Some b) = false ->
  clip_geometry c ctx (Some b) (Some (GPoint p)) = Ok (if inside b p then Some (GPoint p) else None).
Proof. exact point_kept. Qed.
Print Assumptions C47_point.

Example C47_nonvacuous :
  clip_grid ten walk /\ is_universe (Some ten) = false /\ positive default_compare /\
  (f64_lt (e0 ten) (e2 ten) = true /\ f64_lt (e1 ten) (e3 ten) = true /\
   forall ln, In ln (segments walk) -> apart default_compare ten ln) /\
  clip_line default_compare never 0 (Some ten) walk =
    (Ok [[zpt (5, 5)%Z; zpt (10, 5)%Z]; [(f64_ofZ 10, f64_div (f64_ofZ 15) (f64_ofZ 2)); zpt (0, 5)%Z]], 3%nat) /\
  runs ten walk = [map zpt [(5, 5); (15, 5)]%Z; map zpt [(15, 5); (12, 8)]%Z; map zpt [(12, 8); (-4, 4)]%Z].
Proof.
  exact (conj (proj1 walk_clipped) (conj (proj1 (proj2 walk_clipped)) (conj default_positive
    (conj walk_apart (proj2 (proj2 walk_clipped)))))).
Qed.

(** ** C80: nothing in the box is lost, and pieces are lines *)
(** A segment through two corners is dropped although its middle is in the box. *)
Theorem C80_corner_refuted : exists b ls,
  clip_grid b ls /\ is_universe (Some b) = false /\ f64_lt (e0 b) (e2 b) = true /\ f64_lt (e1 b) (e3 b) = true /\
  (forall ctx, (forall n, ctx n = false) -> clip_line default_compare ctx 0 (Some b) ls = (Ok [], 1%nat)) /\
  exists p, in_rect b p /\ Exists (fun ln => on_segment ln p) (segments ls).
Proof. exact corner_lost. Qed.
Print Assumptions C80_corner_refuted.

(** A line that leaves the box from a vertex on a side gives a piece of one point. *)
Theorem C80_single_refuted : exists b ls p,
  clip_grid b ls /\ is_universe (Some b) = false /\
  forall ctx, (forall n, ctx n = false) -> clip_line default_compare ctx 0 (Some b) ls = (Ok [[p]], 1%nat).
Proof. exact one_point. Qed.
Print Assumptions C80_single_refuted.
