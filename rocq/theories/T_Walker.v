(** * The walker of makevalid: cutting rings, PolygonForRing, RingForTriangle,
    MultiPolygon (C52, C109-C113)

    [ring_area], [rings_area] (twice the signed area over the reals), [no_repeat],
    [distinct], [good_ring], [small_int], [neighbours], [proper], [coherent],
    [linked], [component], [made_from], [kept_polygon] are in S_Walker.v. *)
From Coq Require Import ZArith Bool List Lia Permutation Reals.
From Verif Require Import Base_Res Base_F64 Base_F64Arith Base_Geom M_Geom M_Extent M_Cmp M_Planar M_Triangle M_Winding M_Walker
  S_Intersect S_Cmp S_Walker P_F64Flocq P_Intersect4 P_Clip5 P_Walker P_Walker5 P_Walker6 P_Walker7 P_Walker8 P_Walker9 P_Walker10.
Import ListNotations.
Local Open Scope nat_scope.

(** ** C52: cut and removeBridge *)

(** The part of a ring from [start] up to [stop], or around its end: the part is
    returned, and the ring keeps the rest in its order. *)
Theorem C52_cut : forall l1 m l2, m <> [] ->
  cut (l1 ++ m ++ l2) (length l1) (length l1 + length m) = Ok (m, l1 ++ l2) /\
  (l2 <> [] -> cut (l1 ++ m ++ l2) (length l1 + length m) (length l1) = Ok (l2 ++ l1, m)).
Proof. intros l1 m l2 Hm. exact (conj (cut_middle l1 m l2 Hm) (cut_around l1 m l2 Hm)). Qed.
Print Assumptions C52_cut.

(** It panics for indices outside the ring, and for no others; nothing is lost. *)
Theorem C52_total : forall rng s e,
  (cut rng s e = Panic <-> length rng <= s \/ length rng < e) /\
  (forall part rest, cut rng s e = Ok (part, rest) -> Permutation rng (part ++ rest)).
Proof. exact cut_total. Qed.
Print Assumptions C52_total.

(** Removing the paths walked forth and back keeps the area. *)
Theorem C52_bridges : forall rng, rng <> [] -> exists r, remove_bridge rng = Ok r /\
  (exists dr, Permutation rng (r ++ dr)) /\ (Forall finite_pt rng -> ring_area r = ring_area rng).
Proof. exact remove_bridge_spec. Qed.
Print Assumptions C52_bridges.

Example C52_nonvacuous :
  cut (map zpt [(0, 0); (1, 0); (2, 2); (0, 2)]%Z) 3 1 = Ok (map zpt [(0, 2); (0, 0)]%Z, map zpt [(1, 0); (2, 2)]%Z) /\
  remove_bridge (map zpt [(0, 0); (4, 0); (9, 9); (4, 0); (2, 4)]%Z) = Ok (map zpt [(0, 0); (4, 0); (2, 4)]%Z).
Proof. split; vm_compute; reflexivity. Qed.

(** ** C109: PolygonForRing *)

(** For rings without equal neighbours it ends, without a panic, for every
    context; what it returns are rings of at least three points, each with its
    leftmost vertex first, made of vertices of the ring and no more of them. *)
Theorem C109_total : forall ctx n rng, no_repeat go_eq rng ->
  exists out n', polygon_for_ring ctx n rng = Ok (out, n') /\
  match out with
  | None => True
  | Some rs => rs <> [] /\ Forall good_ring rs /\ exists dropped, Permutation rng (concat rs ++ dropped)
  end.
Proof. exact polygon_total. Qed.
Print Assumptions C109_total.

(** Where the comparators are exact, the rings together have the area of the
    ring; they are for integer coordinates up to 4096. *)
Theorem C109_area : forall ctx n rng rs n', no_repeat go_eq rng -> Forall small_int rng ->
  polygon_for_ring ctx n rng = Ok (Some rs, n') -> rings_area rs = ring_area rng.
Proof. exact polygon_area. Qed.
Print Assumptions C109_area.

(** A ring that visits no vertex twice comes back whole. *)
Theorem C109_simple : forall ctx n r, (forall n, ctx n = false) -> 3 <= length r -> distinct r ->
  exists k n', polygon_for_ring ctx n r = Ok (Some [rotated k r], n') /\ good_ring (rotated k r).
Proof. exact polygon_simple. Qed.
Print Assumptions C109_simple.

Example C109_nonvacuous :
  polygon_for_ring never 0 (map zpt [(0, 0); (5, 5); (9, 4); (9, 6); (5, 5); (0, 1)]%Z) =
    Ok (Some [map zpt [(0, 0); (5, 5); (0, 1)]%Z; map zpt [(5, 5); (9, 4); (9, 6)]%Z], 6) /\
  no_repeat go_eq (map zpt [(0, 0); (5, 5); (9, 4); (9, 6); (5, 5); (0, 1)]%Z) /\
  Forall small_int (map zpt [(0, 0); (5, 5); (9, 4); (9, 6); (5, 5); (0, 1)]%Z).
Proof. exact slivers_example. Qed.

(** ** C110: what goes wrong with rings *)

(** A ring that repeats its first vertex at the end makes it panic. *)
Theorem C110_closed_refuted : forall ctx n b r b', (forall n, ctx n = false) -> 1 <= length r ->
  distinct (b :: r) -> go_eq b b' = true -> point_equal hi_cmp b' b = true -> find_min_idx (b :: r ++ [b']) = 0 ->
  polygon_for_ring ctx n (b :: r ++ [b']) = Panic.
Proof. exact closed_panics. Qed.
Print Assumptions C110_closed_refuted.
Example C110_closed_nonvacuous :
  polygon_for_ring never 0 (map zpt [(0, 0); (4, 0); (4, 4); (0, 0)]%Z) = Panic.
Proof. vm_compute. reflexivity. Qed.

(** Everything is lost if the part before a repeated vertex is too small. *)
Theorem C110_lost_refuted : exists rng n', no_repeat go_eq rng /\ Forall small_int rng /\ ring_area rng <> 0%R /\
  polygon_for_ring never 0 rng = Ok (None, n').
Proof. exact polygon_lost. Qed.
Print Assumptions C110_lost_refuted.

(** A vertex can remain twice in a ring. *)
Theorem C110_repeated_refuted : exists rng r rs n', no_repeat go_eq rng /\ Forall small_int rng /\
  polygon_for_ring never 0 rng = Ok (Some (r :: rs), n') /\ ~ distinct r.
Proof. exact polygon_repeated. Qed.
Print Assumptions C110_repeated_refuted.

(** ** C111: RingForTriangle *)

(** From a triangle not seen before the walk always ends, without a panic and for
    every context: it marks the triangle and others not seen before, each once,
    and the ring has two vertices more than there are triangles, all of them
    theirs. *)
Theorem C111_total : forall ts ctx n idx t seen, nth_error ts idx = Some t -> ~ In idx seen ->
  exists rng vis n', ring_for_triangle ts ctx n idx seen = Ok (rng, vis ++ seen, n') /\ In idx vis /\ NoDup vis /\
    (forall j, In j vis -> ~ In j seen /\ j < length ts) /\ length rng = 2 + length vis /\
    (forall p, In p rng -> exists j t, In j vis /\ nth_error ts j = Some t /\ In p (vertices3 t)).
Proof. exact ring_total. Qed.
Print Assumptions C111_total.

(** No two neighbours of the ring are equal, if each triangle has three vertices. *)
Theorem C111_no_repeat : forall ts ctx n idx t seen, proper ts -> nth_error ts idx = Some t ->
  exists rng s n', ring_for_triangle ts ctx n idx seen = Ok (rng, s, n') /\ no_repeat go_eq rng.
Proof. intros ts ctx n idx t seen Pr. exact (ring_no_repeat ts ctx Pr n idx t seen). Qed.
Print Assumptions C111_no_repeat.

(** In a triangulation the ring has the area of the triangles visited, each is
    reached over common sides, and no neighbour of one is left out unless the
    context was cancelled. *)
Theorem C111_triangulation : forall ts ctx n idx t seen, coherent ts -> nth_error ts idx = Some t ->
  exists rng vis n', ring_for_triangle ts ctx n idx seen = Ok (rng, vis ++ seen, n') /\
    ring_area rng = triangles_area ts vis /\ (forall i, In i vis -> linked ts idx i) /\
    ((forall k, n <= k < n' -> ctx k = false) ->
     forall i j ti tj, In i vis -> nth_error ts i = Some ti -> nth_error ts j = Some tj -> neighbours ti tj -> In j (vis ++ seen)).
Proof. intros ts ctx n idx t seen Co. exact (ring_coherent ts ctx Co n idx t seen). Qed.
Print Assumptions C111_triangulation.

(** ** C112: MultiPolygon *)

(** It never panics, and invents no points. *)
Theorem C112_total : forall ts ctx ypd, proper ts ->
  exists out seen n, multi_polygon ts ctx ypd = Ok (out, seen, n) /\
    (forall mp, out = Some mp -> forall py r p, In py mp -> In r py -> In p r -> exists t, In t ts /\ In p (vertices3 t)).
Proof. intros ts ctx ypd. exact (multi_total ts ctx ypd). Qed.
Print Assumptions C112_total.

(** Every triangle is used exactly once, and there is a polygon, or none, for each
    component of the triangulation: the rectification (C32) of rings with the
    area of the component. *)
Theorem C112_components : forall ts ctx ypd, coherent ts -> (forall k, ctx k = false) ->
  exists groups seen n,
    multi_polygon ts ctx ypd =
      Ok (Some (flat_map (fun go => kept_polygon (match snd go with None => None | Some rs => fst (rectify_polygon ypd rs) end)) groups), seen, n) /\
    Permutation (concat (map fst groups)) (seq 0 (length ts)) /\
    (forall g o, In (g, o) groups -> component ts g /\ made_from ts g o).
Proof. exact multi_components. Qed.
Print Assumptions C112_components.

(** A square with a hole, in eight triangles. *)
Example C112_nonvacuous : coherent annulus /\ exists n,
  multi_polygon annulus never false =
    Ok (Some [[map zpt [(0, 6); (6, 6); (6, 0); (0, 0)]%Z; map zpt [(4, 2); (4, 4); (2, 4); (2, 2)]%Z]], [1; 2; 3; 4; 5; 6; 7; 0; 0], n).
Proof. exact annulus_ok. Qed.

(** ** C113: MultiPolygon and other triangles *)
(** A triangle given twice disappears, with everything joined to it. *)
Theorem C113_twice_refuted : exists t n seen, proper [t; t] /\ ring_area (vertices3 t) <> 0%R /\
  multi_polygon [t; t] never false = Ok (Some [], seen, n).
Proof. exact multi_twice. Qed.
Print Assumptions C113_twice_refuted.
(** A triangle with its first vertex again as its third makes it panic. *)
Theorem C113_panic_refuted : exists a b, rpt a <> rpt b /\ multi_polygon [(a, b, a)] never false = Panic.
Proof. exact multi_panics. Qed.
Print Assumptions C113_panic_refuted.
