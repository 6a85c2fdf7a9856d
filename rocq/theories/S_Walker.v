(** * Specifications for planar/makevalid/walker *)
From Coq Require Import ZArith List Reals Permutation.
From Verif Require Import Base_F64 Base_Geom M_Geom M_Cmp M_Planar M_Triangle M_Walker P_F64Flocq P_F64Grid S_Intersect S_Cmp.
Import ListNotations.
Open Scope R_scope.

(** Twice the signed area of the closed ring through the points of a list, over
    the reals (counter-clockwise positive when y points up). *)
Definition crossR (p q : R * R) : R := fst p * snd q - fst q * snd p.
Fixpoint path_sumR (l : list (R * R)) : R :=
  match l with
  | p :: (q :: _) as tl => crossR p q + path_sumR tl
  | _ => 0
  end.
Definition areaR (r : list (R * R)) : R := match r with [] => 0 | p :: _ => path_sumR (r ++ [p]) end.

(** The area of a ring of float64 points, and of several rings together. *)
Definition ring_area (r : list pt) : R := areaR (map rpt r).
Definition rings_area (rs : list (list pt)) : R := fold_right (fun r s => ring_area r + s) 0 rs.

Definition finite_pt (p : pt) : Prop :=
  f64_wf (fst p) = true /\ f64_finite (fst p) = true /\ f64_wf (snd p) = true /\ f64_finite (snd p) = true.

(** On the points of [r] the comparator [c] tells points apart, and IsPointOnLine
    only holds of points on the line. *)
Definition exact_on (c : compare) (r : list pt) : Prop :=
  (forall p q, In p r -> In q r -> point_equal c p q = true -> rpt p = rpt q) /\
  (forall p a b, In p r -> In a r -> In b r -> is_point_on_line c p a b = true -> areaR [rpt a; rpt p; rpt b] = 0).

(** No two neighbours of the closed ring are equal. *)
Definition no_repeat (eq : pt -> pt -> bool) (r : list pt) : Prop :=
  forall l1 p q l2, r ++ firstn 1 r = l1 ++ p :: q :: l2 -> eq p q = false.

(** The directed sides of a triangle. *)
Definition sides3 (t : triangle) : list (pt * pt) := let '(a, b, c) := t in [(a, b); (b, c); (c, a)].

(** Integer coordinates between -4096 and 4096. *)
Definition small_int (p : pt) : Prop :=
  exists n m, repr 0 n (fst p) /\ repr 0 m (snd p) /\ (Z.abs n <= 4096)%Z /\ (Z.abs m <= 4096)%Z.

(** [(a, b)] and [(b, a)] are one side of [t], whatever the signs of zeros. *)
Definition has_side (t : triangle) (a b : pt) : Prop :=
  exists a' b', In (a', b') (sides3 t) /\ (rpt a = rpt a' /\ rpt b = rpt b' \/ rpt a = rpt b' /\ rpt b = rpt a').
(** Two triangles with a common side. *)
Definition neighbours (t u : triangle) : Prop := exists a b, In (a, b) (sides3 t) /\ has_side u a b.

(** Triangles with finite vertices, three different ones each, told apart by the
    comparator of ThirdPoint. *)
Definition proper (ts : list triangle) : Prop :=
  (forall t p, In t ts -> In p (vertices3 t) -> finite_pt p) /\
  (forall a b c, In (a, b, c) ts -> rpt a <> rpt b /\ rpt b <> rpt c /\ rpt c <> rpt a) /\
  (forall t u p q, In t ts -> In u ts -> In p (vertices3 t) -> In q (vertices3 u) -> point_equal nano_compare p q = true -> rpt p = rpt q).
(** And no two of them have a directed side in common: they are all turned the
    same way, and lie on different sides of a common side. *)
Definition coherent (ts : list triangle) : Prop :=
  proper ts /\
  (forall i j t u a b a' b', nth_error ts i = Some t -> nth_error ts j = Some u ->
     In (a, b) (sides3 t) -> In (a', b') (sides3 u) -> rpt a = rpt a' -> rpt b = rpt b' -> i = j).

(** The areas of the triangles with the given numbers together. *)
Definition triangles_area (ts : list triangle) (is : list nat) : R :=
  fold_right (fun i s => match nth_error ts i with Some t => ring_area (vertices3 t) + s | None => s end) 0 is.

(** From one triangle to the other over common sides. *)
Inductive linked (ts : list triangle) : nat -> nat -> Prop :=
| linked_refl i : linked ts i i
| linked_step i j k t u : linked ts i j -> nth_error ts j = Some t -> nth_error ts k = Some u -> neighbours t u -> linked ts i k.

(** The triangles one can reach from each other over common sides, all of them. *)
Definition component (ts : list triangle) (g : list nat) : Prop :=
  g <> [] /\ NoDup g /\ forall i j, In i g -> (In j g <-> linked ts i j).

(** What MultiPolygon keeps of the rings of a component: their rectification, and
    nothing if there are none left. *)
Definition kept_polygon (rectified : option (list (list pt))) : list (list (list pt)) :=
  match rectified with Some (r :: rs) => [r :: rs] | _ => [] end.

(** The first vertex is leftmost, and lowest among the leftmost ([before], for
    vertices without NaN). *)
Definition leftmost_first (s : list pt) : Prop := exists p tl, s = p :: tl /\ (Forall number s -> forall q, In q s -> ~ before q p).
Definition good_ring (s : list pt) : Prop := (3 <= length s)%nat /\ leftmost_first s.

(** All the vertices are different under Go's ==. *)
Definition distinct (r : list pt) : Prop :=
  forall i j p q, (i < j)%nat -> nth_error r i = Some p -> nth_error r j = Some q -> go_eq p q = false.

(** The rings a component of a triangulation becomes: none, or some, with the
    vertices of the component and, where nothing is rounded, its area. *)
Definition made_from (ts : list triangle) (g : list nat) (o : option (list (list pt))) : Prop :=
  match o with
  | None => True
  | Some rs => rs <> [] /\ Forall good_ring rs /\ (length (concat rs) <= 2 + length g)%nat /\
      (forall r p, In r rs -> In p r -> exists j t, In j g /\ nth_error ts j = Some t /\ In p (vertices3 t)) /\
      (coherent ts -> (forall j t p, In j g -> nth_error ts j = Some t -> In p (vertices3 t) -> small_int p) ->
       rings_area rs = triangles_area ts g)
  end.
