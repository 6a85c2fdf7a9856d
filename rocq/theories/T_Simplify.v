(** * Theorems about simplification *)
From Coq Require Import ZArith Bool List.
From Verif Require Import Base_F64 Base_F64Arith Base_Geom Base_Res P_F64Flocq M_Geom M_Simplify S_Simplify P_Simplify P_SimplifyR.
Import ListNotations.

(** ** C33: Douglas-Peucker, for every distance function, tolerance and context *)

(** It always returns. *)
Theorem C33_terminates : forall dist tolerance c line,
  exists r e c', douglas_peucker dist tolerance c line = Ok (r, e, c').
Proof. exact dp_total. Qed.
Print Assumptions C33_terminates.

(** Without an error: a path over vertices of the line, first to last, that
    skips only vertices within the tolerance of the segment replacing them. *)
Theorem C33_keeps : forall dist tolerance c line r c',
  douglas_peucker dist tolerance c line = Ok (r, false, c') -> keeps dist tolerance line r.
Proof. exact dp_keeps. Qed.
Print Assumptions C33_keeps.

Theorem C33_kept_vertices : forall dist tolerance line r, keeps dist tolerance line r ->
  subsequence r line /\ (forall d, hd d r = hd d line /\ last r d = last line d) /\
  (length r <= length line)%nat.
Proof.
  exact (fun dist t l r K => conj (keeps_subsequence dist t l r K)
    (conj (fun d => keeps_first_last dist t l r d K) (keeps_length dist t l r K))).
Qed.
Print Assumptions C33_kept_vertices.

(** It is the Ramer-Douglas-Peucker split: at the first vertex farthest from the
    chord, while that is beyond the tolerance. *)
Theorem C33_farthest_first : forall dist tolerance c line r c',
  f64_le tolerance f64_zero = false ->
  douglas_peucker dist tolerance c line = Ok (r, false, c') -> rdp dist tolerance line r.
Proof. exact dp_rdp. Qed.
Print Assumptions C33_farthest_first.

Theorem C33_no_tolerance : forall dist tolerance c line,
  f64_le tolerance f64_zero = true -> douglas_peucker dist tolerance c line = Ok (line, false, c).
Proof. exact dp_off. Qed.
Print Assumptions C33_no_tolerance.

(** Errors come from the context only. *)
Theorem C33_no_error_without_cancel : forall dist tolerance line,
  exists r, douglas_peucker dist tolerance None line = Ok (r, false, None).
Proof. exact dp_uncancelled. Qed.
Print Assumptions C33_no_error_without_cancel.

Theorem C33_error_when_cancelled : forall dist tolerance c line r c',
  douglas_peucker dist tolerance c line = Ok (r, true, c') -> c' = Some O.
Proof. exact dp_error. Qed.
Print Assumptions C33_error_when_cancelled.

(** Finding: with the default distance a closed line collapses to its first
    vertex, whatever the tolerance: the distance to the empty chord is 0. *)
Theorem C33_closed_line_collapses : forall tolerance p mid,
  f64_wf (fst p) = true -> f64_wf (snd p) = true ->
  f64_finite (fst p) = true -> f64_finite (snd p) = true ->
  f64_le tolerance f64_zero = false -> mid <> [] ->
  douglas_peucker perpendicular_distance tolerance None (p :: mid ++ [p]) = Ok ([p; p], false, None).
Proof. exact closed_line_collapses. Qed.
Print Assumptions C33_closed_line_collapses.

(** (0,0) (1,0) (2,3) (3,0) (4,0) with tolerances 1/2 and 2 *)
Example C33_nonvacuous :
  let z := f64_ofZ in
  douglas_peucker perpendicular_distance (f64_div (z 1) (z 2)) None
    [(z 0, z 0); (z 1, z 0); (z 2, z 3); (z 3, z 0); (z 4, z 0)]%Z =
  Ok ([(z 0, z 0); (z 1, z 0); (z 2, z 3); (z 3, z 0); (z 4, z 0)]%Z, false, None) /\
  douglas_peucker perpendicular_distance (z 2) None
    [(z 0, z 0); (z 1, z 0); (z 2, z 3); (z 3, z 0); (z 4, z 0)]%Z =
  Ok ([(z 0, z 0); (z 2, z 3); (z 4, z 0)]%Z, false, None) /\
  (* cancelled at the first check *)
  douglas_peucker perpendicular_distance (z 2) (Some O)
    [(z 0, z 0); (z 1, z 0); (z 2, z 3); (z 3, z 0); (z 4, z 0)]%Z = Ok ([], true, Some O) /\
  f64_le (z 2) f64_zero = false.
Proof. cbv zeta. split; [vm_compute; reflexivity|]. split; [vm_compute; reflexivity|].
  split; vm_compute; reflexivity. Qed.

(** ** C34: planar.Simplify, for every simplifier *)

(** [R b l r]: what the simplifier may return for line [l] with closed flag [b]. *)
Theorem C34_structure : forall St (simp : St -> list pt -> bool -> St * option (list pt))
    (R : bool -> list pt -> list pt -> Prop),
  (forall s l b s' r, simp s l b = (s', Some r) -> R b l r) ->
  forall g s s' g', simplify simp s g = (s', Some g') ->
  same_structure (R false) (ring_result R) g g'.
Proof. exact (@simplify_structure). Qed.
Print Assumptions C34_structure.

(** A simplifier that never adds points makes Simplify never add points. *)
Theorem C34_no_added_points : forall lr rr : list pt -> list pt -> Prop,
  (forall l r, lr l r -> (length r <= length l)%nat) ->
  (forall l r, rr l r -> (length r <= length l)%nat) ->
  forall g g', same_structure lr rr g g' -> (points g' <= points g)%nat.
Proof. exact structure_points. Qed.
Print Assumptions C34_no_added_points.

(** With Douglas-Peucker. *)
Theorem C34_douglas_peucker : forall dist tolerance g,
  exists g', simplify (dp_simplifier dist tolerance) None g = (None, Some g') /\
  same_structure (keeps dist tolerance) (ring_result (fun _ => keeps dist tolerance)) g g' /\
  (points g' <= points g)%nat.
Proof. exact simplify_dp_full. Qed.
Print Assumptions C34_douglas_peucker.

(** Finding: polygons whose rings repeat their first vertex lose every ring. *)
Theorem C34_closed_rings_vanish : forall tolerance rings,
  f64_le tolerance f64_zero = false ->
  Forall (fun r => exists p mid, r = p :: mid ++ [p] /\ mid <> [] /\
    f64_wf (fst p) = true /\ f64_wf (snd p) = true /\
    f64_finite (fst p) = true /\ f64_finite (snd p) = true) rings ->
  simplify (dp_simplifier perpendicular_distance tolerance) None (GPolygon rings) =
  (None, Some (GPolygon (map (fun _ => []) rings))).
Proof. exact closed_rings_vanish. Qed.
Print Assumptions C34_closed_rings_vanish.

Example C34_nonvacuous :
  let z := f64_ofZ in
  simplify (dp_simplifier perpendicular_distance (z 2)) None
    (GCollection [GPoint (z 7, z 7);
       GLineString [(z 0, z 0); (z 1, z 0); (z 2, z 3); (z 3, z 0); (z 4, z 0)];
       GPolygon [[(z 0, z 0); (z 9, z 0); (z 9, z 9); (z 4, z 9); (z 0, z 9)];
                 [(z 1, z 1); (z 2, z 1); (z 2, z 2); (z 1, z 1)]]])%Z =
  (None, Some (GCollection [GPoint (z 7, z 7);
       GLineString [(z 0, z 0); (z 2, z 3); (z 4, z 0)];
       GPolygon [[(z 0, z 0); (z 9, z 0); (z 9, z 9); (z 0, z 9)]; []]])%Z).
Proof. vm_compute. reflexivity. Qed.
