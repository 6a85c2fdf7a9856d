(** * Theorems about traversals (C23, C24, C25)

    [get_coordinates], [extract_lines], [ls_as_segments], [polygon_as_segments],
    [apply_to_points] and [clone] are the models in [M_Geom.v]; everything else
    in the statements is in [S_Geom.v]. *)
From Coq Require Import ZArith Bool List.
From Verif Require Import Base_Res Base_F64 Base_Geom M_Geom S_Geom P_Geom.
Import ListNotations.
Open Scope Z_scope.

Definition ex_square : list (point f64) :=
  [(f64_zero, f64_zero); (f64_two, f64_zero); (f64_two, f64_two); (f64_zero, f64_two)].
Definition ex_closed : list (point f64) :=
  [(f64_one, f64_one); (f64_two, f64_one); (f64_two, f64_two); (f64_one, f64_one)].
Definition ex_tree : geom f64 :=
  GCollection [GPolygon [ex_square; ex_closed]; GPoint (f64_nan, f64_one);
               GCollection [GMultiLineString [ex_square; []; [(f64_one, f64_two)]]]].

(** C23 *)
Theorem C23_get_coordinates : forall g,
  unknown_inside g = false -> get_coordinates g = (coords g, false).
Proof. exact get_coordinates_ok. Qed.
Print Assumptions C23_get_coordinates.

Theorem C23_get_coordinates_error_iff : forall g, snd (get_coordinates g) = unknown_inside g.
Proof. exact get_coordinates_err. Qed.
Print Assumptions C23_get_coordinates_error_iff.

Theorem C23_extract_lines : forall g,
  unknown_inside g = false ->
  exists ls, Forall2 path_lines (paths g) ls /\ extract_lines g = (concat ls, false).
Proof. exact extract_lines_spec. Qed.
Print Assumptions C23_extract_lines.

Theorem C23_extract_lines_error_iff : forall g, snd (extract_lines g) = unknown_inside g.
Proof. exact extract_lines_err. Qed.
Print Assumptions C23_extract_lines_error_iff.

Example C23_nonvacuous :
  unknown_inside ex_tree = false /\ length (coords ex_tree) = 14%nat /\
  length (fst (extract_lines ex_tree)) = 10%nat /\
  unknown_inside (GCollection [ex_tree; GCollection [GUnknown]]) = true.
Proof. repeat split; reflexivity. Qed.

(** C24: Clone.  Addresses below [a] are in use before the call. *)
Theorem C24_clone : forall (a : nat) (g : hgeom f64),
  match clone a g with
  | (_, Some g') =>
      val g' = val g /\ basic_kind (val g) = true /\ NoDup (addrs g') /\
      (forall n, In n (addrs g') -> (a <= n)%nat)
  | (_, None) => exists g0, g = HOther g0
  end.
Proof. exact clone_spec. Qed.
Print Assumptions C24_clone.
Example C24_clone_nonvacuous :
  let g := HMultiPolygon (Slice 0 [Slice 1 [Slice 2 ex_square; Slice 3 ex_closed]; Slice 4 []]) in
  match clone 5 g with
  | (a', Some g') => a' = 10%nat /\ addrs g = [0; 1; 2; 3; 4]%nat /\ addrs g' = [5; 6; 7; 8; 9]%nat
  | _ => False
  end.
Proof. repeat split; reflexivity. Qed.

(** C24: ApplyToPoints, for every function [f] and every state of it. *)
Theorem C24_apply_to_points : forall (C S : Type) (f : S -> list C -> S * option (list C)) s g,
  basic_kind g = true ->
  match apply_to_points f s g with
  | (s', Ok g') => run_f f s (coords g) s' (Some (coords g')) /\ same_shape g g'
  | (s', Err e) => e <> AE_unknown /\ run_f f s (coords g) s' None
  | (_, Panic) => False
  end.
Proof. exact @apply_spec. Qed.
Print Assumptions C24_apply_to_points.

Theorem C24_run_is_deterministic :
  forall (C S : Type) (f : S -> list C -> S * option (list C)) s l s1 r1 s2 r2,
  run_f f s l s1 r1 -> run_f f s l s2 r2 -> s1 = s2 /\ r1 = r2.
Proof. exact @run_f_det. Qed.
Print Assumptions C24_run_is_deterministic.

Theorem C24_apply_rejects_other_kinds :
  forall (C S : Type) (f : S -> list C -> S * option (list C)) s g,
  basic_kind g = false -> apply_to_points f s g = (s, Err AE_unknown).
Proof. exact @apply_other. Qed.
Print Assumptions C24_apply_rejects_other_kinds.

(** Swap x and y, count calls; fail on the third call. *)
Example C24_apply_nonvacuous :
  let f n c := (S n, Some (rev c ++ [7])) in
  let f3 n c := (S n, if (n <? 2)%nat then Some (rev c) else None) in
  let g := GPolygon [[(1, 2); (3, 4)]; []; [(5, 6)]] in
  apply_to_points f 0%nat g = (3%nat, Ok (GPolygon [[(2, 1); (4, 3)]; []; [(6, 5)]])) /\
  apply_to_points f3 0%nat g = (3%nat, Err AE_f).
Proof. split; reflexivity. Qed.

(** C25 *)
Theorem C25_linestring_as_segments : forall ls,
  match ls_as_segments ls with
  | None => length ls = 1%nat
  | Some segs => length ls <> 1%nat /\ segments_between ls segs
  end.
Proof. exact ls_segments_spec. Qed.
Print Assumptions C25_linestring_as_segments.

Theorem C25_multilinestring_as_segments : forall mls,
  match mls_as_segments mls with
  | None => exists l, In l mls /\ length l = 1%nat
  | Some segs => Forall2 (fun l s => length l <> 1%nat /\ segments_between l s) mls segs
  end.
Proof. exact mls_segments_spec. Qed.
Print Assumptions C25_multilinestring_as_segments.

Theorem C25_polygon_as_segments : forall p,
  Forall2 closed_chain (filter (fun r => 3 <=? length r)%nat p) (polygon_as_segments p).
Proof. exact polygon_segments_spec. Qed.
Print Assumptions C25_polygon_as_segments.

Theorem C25_multipolygon_as_segments : forall mp,
  Forall2 (fun p segs => Forall2 closed_chain (filter (fun r => 3 <=? length r)%nat p) segs)
    mp (mp_as_segments mp).
Proof. exact mp_segments_spec. Qed.
Print Assumptions C25_multipolygon_as_segments.

Example C25_nonvacuous :
  length (filter (fun r => 3 <=? length r)%nat [ex_square; [(f64_one, f64_one)]; ex_closed]) = 2%nat.
Proof. reflexivity. Qed.
