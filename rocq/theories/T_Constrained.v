(** * Theorems: the constrained triangulation of points *)
From Coq Require Import Bool List Arith ZArith.
From Verif Require Import Base_F64 Base_Res Base_Geom P_F64Flocq M_Cmp M_Walker S_Winding M_Pseudo M_GeojsonAlias M_Constrained S_Constrained P_Constrained.
Import ListNotations.
Local Open Scope Z_scope.

(** A point which equals an earlier one does not change the result. *)
Theorem C154_repeat : forall ypd enabled cancelled include_frame l1 l2 cs p q, In q l1 -> go_eq q p = true ->
  gc_triangles ypd enabled cancelled include_frame (l1 ++ p :: l2) cs = gc_triangles ypd enabled cancelled include_frame (l1 ++ l2) cs.
Proof. exact repeat_ok. Qed.
Print Assumptions C154_repeat.
(** A constraint from a point to itself does not change the result. *)
Theorem C154_length : forall ypd enabled cancelled include_frame points c1 c2 p,
  f64_wf (fst p) = true -> f64_finite (fst p) = true -> f64_wf (snd p) = true -> f64_finite (snd p) = true ->
  gc_triangles ypd enabled cancelled include_frame points (c1 ++ (p, p) :: c2) = gc_triangles ypd enabled cancelled include_frame points (c1 ++ c2).
Proof. exact no_length_ok. Qed.
Print Assumptions C154_length.
(** What is triangulated are the points and the ends of the constraints with a length,
    each once. *)
Theorem C154_points : forall points cs, each_once (points ++ flat_map (fun l => [fst l; snd l]) (filter has_length cs)) (gc_points points cs).
Proof. exact gc_once. Qed.
Print Assumptions C154_points.

(** By default constraints are ignored: (0,0)-(20,0) is not a side of any triangle of the
    kite (0,0), (10,1), (20,0), (10,-1). *)
Theorem C155_constraint_refuted : exists ts, gc_triangles false false never false kite [diagonal] = Ok (Some ts) /\ ts <> []
  /\ forall t, In t ts -> ~ (corner (fst diagonal) t /\ corner (snd diagonal) t).
Proof. exact ignored. Qed.
Print Assumptions C155_constraint_refuted.
(** With EnableConstraints it is. *)
Example C155_enabled : exists ts t, gc_triangles false true never false kite [diagonal] = Ok (Some ts) /\ In t ts /\ corner (fst diagonal) t /\ corner (snd diagonal) t.
Proof. exact respected. Qed.

(** The three points are the beginning of an array of five.  The ends of the constraint
    are written over the other two, and the first point is rounded. *)
Theorem C156_memory_refuted : let m := [arr] in let points := Hdr 0 0 3 5 in let behind := Hdr 0 3 2 2 in
  let after := fst (c_triangles false false never false m points [diagonal]) in
  read m behind = [fpt (7, 7); fpt (8, 8)] /\ read after behind = [fst diagonal; snd diagonal]
  /\ hd_error (read m points) = Some (third, 0) /\ hd_error (read after points) <> Some (third, 0).
Proof. exact memory_changed. Qed.
Print Assumptions C156_memory_refuted.
(** With a constraint and without room for its ends behind the points, the arrays of the
    caller are not changed. *)
Theorem C156_memory_partial : forall ypd enabled cancelled include_frame m h c cs, (h_cap h < h_len h + 2)%nat ->
  firstn (length m) (fst (c_triangles ypd enabled cancelled include_frame m h (c :: cs))) = m.
Proof. exact memory_kept. Qed.
Print Assumptions C156_memory_partial.
