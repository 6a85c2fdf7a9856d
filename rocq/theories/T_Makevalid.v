(** * planar/makevalid: cutting polygons into segments, keeping triangles (C55, C115-C117)

    [mp_edges], [small_mp], [meet_on_grid], [corners], [drawn], [rightward],
    [noded], [settled], [same_line], [clip_ok], [in_clip], [box_sides],
    [tells_apart], [centred], [centre_hit] and [sifted] are in S_Makevalid.v;
    [coherent], [component], [made_from] and [kept_polygon] in S_Walker.v; [sorts]
    in S_Sweep.v.  [cut_up] and [run] (P_Makevalid6.v) are Destructure and Makevalid
    with a sort routine, [isort]. *)
From Coq Require Import ZArith Bool List Permutation Reals.
From Verif Require Import Base_Res Base_F64 Base_F64Arith Base_Geom M_Geom M_Extent M_Cmp M_Sweep M_Triangle M_Rtree M_Winding M_Hitmap M_Walker M_Makevalid
  S_Geom S_Intersect S_RtreeEx S_Sweep P_F64Flocq P_Cmp3 P_Intersect4 P_Walker4 P_Makevalid2 P_Makevalid3 P_Makevalid4 P_Makevalid5 P_Makevalid6 S_Hitmap S_Walker S_Ring S_Makevalid.
Import ListNotations.
Local Open Scope nat_scope.

(** ** C55: Destructure *)

(** Without a clip box, or with one that contains the polygons: the segments go from
    left to right and cover the edges of the polygons exactly; where two of them which
    are not parallel meet, both end; and if no edge ends inside a parallel one alone,
    two segments have nothing in common but ends, or are the same. *)
Theorem C55_segments : forall sort_events sort_pts sort_lines, sorts sort_events -> sorts sort_pts -> sorts sort_lines ->
  forall c, tells_apart c -> forall E clipbox mp, small_mp mp -> meet_on_grid (mp_edges mp) ->
  match clipbox with
  | None => True
  | Some e => clip_ok e /\ some_point mp (fun _ => True) /\ every_point mp (fun p => in_clip e (rpt p))
  end ->
  exists out, destructure (E := E) sort_events sort_pts sort_lines default_compare (fun _ => None) (fun _ => false) c clipbox mp = Ok out /\
    (forall l, In l out -> small_pt (fst l) /\ small_pt (snd l) /\ rightward l) /\ noded out /\ (corners (mp_edges mp) -> settled out) /\
    (forall q, drawn out q <-> drawn (mp_edges mp) q).
Proof. intros se sp sl He Hp Hl c Tc E. exact (destructure_plain se sp sl He Hp Hl c Tc). Qed.
Print Assumptions C55_segments.

(** With a clip box that does not: the same, of the edges as far as they are in the
    box, and of the sides of the box. *)
Theorem C55_clipped : forall sort_events sort_pts sort_lines, sorts sort_events -> sorts sort_pts -> sorts sort_lines ->
  forall c, tells_apart c -> forall E e mp, small_mp mp -> clip_ok e -> meet_on_grid (box_sides e ++ mp_edges mp) ->
  ~ (some_point mp (fun _ => True) /\ every_point mp (fun p => in_clip e (rpt p))) ->
  exists out, destructure (E := E) sort_events sort_pts sort_lines default_compare (fun _ => None) (fun _ => false) c (Some e) mp = Ok out /\
    (forall l, In l out -> small_pt (fst l) /\ small_pt (snd l) /\ rightward l) /\ noded out /\
    (corners (box_sides e ++ mp_edges mp) -> settled out) /\
    (forall q, drawn out q <-> drawn (box_sides e) q \/ drawn (mp_edges mp) q /\ in_clip e q).
Proof. intros se sp sl He Hp Hl c Tc E. exact (destructure_clipped se sp sl He Hp Hl c Tc). Qed.
Print Assumptions C55_clipped.

(** unique: what is left of the slice of its caller.  It is as long as before, begins
    with different segments in ascending order, and has for each segment one with the
    same ends among these. *)
Theorem C55_unique : forall sort segs, sorts sort -> (forall x, In x segs -> small_pt (fst x) /\ small_pt (snd x)) ->
  exists u rest, unique sort segs = u ++ rest /\
    (forall i j x y, i < j -> nth_error u i = Some x -> nth_error u j = Some y -> line_before x y) /\
    length (unique sort segs) = length segs /\
    (forall x, In x (u ++ rest) -> In x segs) /\ (forall x, In x segs -> exists y, In y u /\ same_line x y).
Proof. intros sort segs. exact (unique_spec sort segs). Qed.
Print Assumptions C55_unique.

(** The comparator of makevalid, and that of cmp, tell such points apart. *)
Theorem C55_comparators : tells_apart hi_cmp /\ tells_apart default_compare.
Proof. exact (conj hi_apart default_apart). Qed.
Print Assumptions C55_comparators.

(** Two squares that overlap; and these clipped. *)
Example C55_nonvacuous : small_mp overlapping /\ meet_on_grid (mp_edges overlapping) /\ corners (mp_edges overlapping) /\
  cut_up None overlapping = Ok (map zline
    [((0, 0), (0, 4)); ((0, 0), (4, 0)); ((0, 4), (2, 4)); ((2, 2), (2, 4)); ((2, 2), (4, 2)); ((2, 4), (2, 6));
     ((2, 4), (4, 4)); ((2, 6), (6, 6)); ((4, 0), (4, 2)); ((4, 2), (4, 4)); ((4, 2), (6, 2)); ((6, 2), (6, 6))]%Z).
Proof. exact overlapping_ok. Qed.
Example C55_nonvacuous_clip : clip_ok clip15 /\ meet_on_grid (box_sides clip15 ++ mp_edges overlapping) /\ corners (box_sides clip15 ++ mp_edges overlapping) /\
  ~ every_point overlapping (fun p => in_clip clip15 (rpt p)) /\
  exists out, cut_up (Some clip15) overlapping = Ok out /\ length out = 16.
Proof. exact clip15_ok. Qed.

(** ** C115: every segment once *)

(** The end of the result repeats segments: here one that was there only once. *)
Theorem C115_twice_refuted : small_mp side_by_side /\ meet_on_grid (mp_edges side_by_side) /\ corners (mp_edges side_by_side) /\
  cut_up None side_by_side = Ok (map zline
    [((0, 0), (0, 4)); ((0, 0), (4, 0)); ((0, 4), (4, 4)); ((4, 0), (4, 4)); ((4, 0), (8, 0)); ((4, 4), (8, 4)); ((8, 0), (8, 4)); ((8, 0), (8, 4))]%Z).
Proof. exact twice. Qed.
Print Assumptions C115_twice_refuted.
(** A segment can run along others. *)
Theorem C115_along_refuted : small_mp leaning /\ meet_on_grid (mp_edges leaning) /\ exists out,
  cut_up None leaning = Ok out /\ In (zline ((2, 4), (6, 4))%Z) out /\ In (zline ((2, 4), (4, 4))%Z) out /\ ~ settled out.
Proof. exact leaning_ok. Qed.
Print Assumptions C115_along_refuted.

(** ** C116: Makevalid *)

(** For a multipolygon the triangles whose centre is in the polygons (C54) are kept,
    and there is a polygon, or none, for each component of these (C112). *)
Theorem C116_kept : forall E sort_events sort_pts sort_lines sorted nums sort_hrings,
  (forall i es, Permutation (sorted i es) es) -> numbers_ok nums -> sorts sort_hrings ->
  forall triangulate (extent_error unknown : E) clipper clipbox mp segs ts, small_mp mp ->
  destructure (E := E) sort_events sort_pts sort_lines default_compare (fun _ => None) (fun _ => false) hi_cmp clipbox mp = Ok segs -> segs <> [] ->
  triangulate segs = Ok ts -> Forall centred ts -> coherent ts ->
  exists kept, sifted (centre_hit mp) ts kept /\
    match kept with
    | [] => makevalid sort_events sort_pts sort_lines sorted nums sort_hrings default_compare triangulate (fun _ => None) (fun _ => false) (fun _ => None) (fun _ => false) extent_error unknown clipper (GMultiPolygon mp) clipbox = Ok (Pointer None, true)
    | _ => exists groups,
        makevalid sort_events sort_pts sort_lines sorted nums sort_hrings default_compare triangulate (fun _ => None) (fun _ => false) (fun _ => None) (fun _ => false) extent_error unknown clipper (GMultiPolygon mp) clipbox =
          Ok (Pointer (Some (Some (flat_map (fun go => kept_polygon (match snd go with None => None | Some rs => fst (rectify_polygon false rs) end)) groups))), true) /\
        Permutation (concat (map fst groups)) (seq 0 (length kept)) /\
        (forall g o, In (g, o) groups -> component kept g /\ made_from kept g o)
    end.
Proof. intros E se sp sl sorted nums sh Hp Hn Hr tr ee un. exact (makevalid_spec se sp sl sorted nums sh Hp Hn Hr tr ee un). Qed.
Print Assumptions C116_kept.

(** A polygon is treated as a multipolygon of one; points and lines come back as they
    are, or as the Clipper makes them, whatever the context. *)
Theorem C116_others : forall E sort_events sort_pts sort_lines sorted nums sort_hrings triangulate (extent_error unknown : E) ctx stop halt walk clipbox,
  let mv := makevalid sort_events sort_pts sort_lines sorted nums sort_hrings default_compare triangulate ctx stop halt walk extent_error unknown in
  (forall clipper rs, mv clipper (GPolygon rs) clipbox = mv clipper (GMultiPolygon [rs]) clipbox) /\
  (forall g, flat g -> mv None g clipbox = Ok (Same g, false) /\
     forall clip, mv (Some clip) g clipbox = match clip g clipbox with Ok o => Ok (Clipped o, true) | Err e => Err e | Panic => Panic end) /\
  (forall clipper g, (exists gs, g = GCollection gs) \/ g = GUnknown -> mv clipper g clipbox = Err unknown).
Proof.
  intros E se sp sl sorted nums sh tr ee un ctx stop halt walk clipbox mv.
  exact (conj (fun clipper rs => makevalid_single se sp sl sorted nums sh tr ee un ctx stop halt walk clipper clipbox rs)
        (conj (fun g => makevalid_flat se sp sl sorted nums sh tr ee un ctx stop halt walk clipbox g)
              (fun clipper g => makevalid_unknown se sp sl sorted nums sh tr ee un ctx stop halt walk clipper clipbox g))).
Qed.
Print Assumptions C116_others.

(** A square with a square hole. *)
Example C116_nonvacuous : small_mp frame /\ (exists segs, cut_up None frame = Ok segs /\ segs <> []) /\ Forall centred ten /\ coherent ten /\
  run live (fun _ => false) live (fun _ => false) tt tt (fun _ => Ok ten) None (GMultiPolygon frame) None =
    Ok (Pointer (Some (Some [[map zpt [(0, 18); (18, 18); (18, 0); (0, 0)]%Z; map zpt [(12, 6); (12, 12); (6, 12); (6, 6)]%Z]])), true).
Proof. exact frame_ok. Qed.

(** ** C117: Makevalid returns a geometry or an error *)

(** If the context is cancelled it returns no error and a nil pointer, *)
Theorem C117_cancelled_refuted : forall E (cause extent_error unknown : E) triangulate clipper,
  run (fun _ => Some cause) (fun _ => true) (fun _ => Some cause) (fun _ => true) extent_error unknown triangulate clipper (GMultiPolygon frame) None = Ok (Pointer None, true).
Proof. exact cancelled. Qed.
Print Assumptions C117_cancelled_refuted.
(** and also if nothing is left. *)
Theorem C117_nothing_refuted : forall E (extent_error unknown : E) triangulate clipper,
  run (fun _ => None) (fun _ => false) (fun _ => None) (fun _ => false) extent_error unknown triangulate clipper (GMultiPolygon []) None = Ok (Pointer None, true).
Proof. exact nothing. Qed.
Print Assumptions C117_nothing_refuted.
