(** * Specification vocabulary for well-known text *)
From Coq Require Import ZArith Bool List String.
From Verif Require Import Base_F64 Base_Geom Base_Res M_Wkt M_Extent.
Import ListNotations.
Open Scope Z_scope.

Notation pt := (point f64).

(** ** The geometry a Go value stands for *)

Fixpoint geom_of (v : gval) : geom f64 :=
  match v with
  | VPoint p | VArr2 p | VPPoint (Some p) => GPoint p
  | VPPoint None => GPoint (f64_nan, f64_nan)
  | VMultiPoint ps | VSlice2 ps | VPoints ps | VPMultiPoint (Some ps) => GMultiPoint ps
  | VPMultiPoint None => GMultiPoint []
  | VLineString ps | VPLineString (Some ps) => GLineString ps
  | VPLineString None => GLineString []
  | VMultiLineString ls | VSlice3 ls | VPMultiLineString (Some ls) => GMultiLineString ls
  | VPMultiLineString None => GMultiLineString []
  | VPolygon rs | VPPolygon (Some rs) => GPolygon rs
  | VPPolygon None | VPExtent None => GPolygon []
  | VMultiPolygon pls | VPMultiPolygon (Some pls) => GMultiPolygon pls
  | VPMultiPolygon None => GMultiPolygon []
  | VCollection gs | VPCollection (Some gs) => GCollection (map geom_of gs)
  | VPCollection None => GCollection []
  | VLine a b | VArr22 a b => GLineString [a; b]
  | VLines ls => GMultiLineString (map (fun l => [fst l; snd l]) ls)
  | VTriangle a b c => GPolygon [[a; b; c]]
  | VTriangles ts => GMultiPolygon (map (fun '(a, b, c) => [[a; b; c]]) ts)
  | VExtent (Ext x1 y1 x2 y2) | VPExtent (Some (Ext x1 y1 x2 y2)) =>
      GPolygon [[(x1, y1); (x2, y1); (x2, y2); (x1, y2)]]
  | VOther => GUnknown
  end.

(** ** What survives the round trip *)

(** A pair with a NaN is no point (an empty point). *)
Definition real (p : pt) : bool := f64_eq (fst p) (fst p) && f64_eq (snd p) (snd p).
(** Equal coordinates (-0 is 0). *)
Definition same (p q : pt) : bool := f64_eq (fst p) (fst q) && f64_eq (snd p) (snd q).

(** A point equal to the one before it is dropped. *)
Fixpoint drop_after (p : pt) (ps : list pt) : list pt :=
  match ps with
  | [] => []
  | q :: ps' => if same p q then drop_after p ps' else q :: drop_after q ps'
  end.
Definition drop_repeats (ps : list pt) : list pt :=
  match ps with
  | [] => []
  | p :: ps' => p :: drop_after p ps'
  end.
(** The vertices of a line string. *)
Definition vertices_kept (ps : list pt) : list pt := drop_repeats (filter real ps).
(** The vertices of a ring, without a last one that repeats the first. *)
Definition ring_kept (ps : list pt) : list pt :=
  match vertices_kept ps with
  | [] => []
  | p :: k => if same p (List.last k p) then removelast (p :: k) else p :: k
  end.
Definition has_point (ps : list pt) : bool := existsb real ps.

(** Points, lines and rings as read back. *)
Fixpoint kept (g : geom f64) : geom f64 :=
  match g with
  | GLineString ps => GLineString (vertices_kept ps)
  | GMultiLineString ls => GMultiLineString (map vertices_kept ls)
  | GPolygon rs => GPolygon (map ring_kept (filter has_point rs))
  | GMultiPolygon pls => GMultiPolygon (map (fun rs => map ring_kept (filter has_point rs)) pls)
  | GCollection gs => GCollection (map kept gs)
  | _ => g
  end.

(** The text of the geometry can be read back: it has no empty part, lines have
    two vertices and rings three. *)
Definition good_polygon (rs : list (list pt)) : Prop :=
  filter has_point rs <> [] /\ Forall (fun r => (3 <= List.length (ring_kept r))%nat) (filter has_point rs).
Fixpoint readable (g : geom f64) : Prop :=
  match g with
  | GPoint p => real p = true
  | GMultiPoint ps => ps <> [] /\ Forall (fun p => real p = true) ps
  | GLineString ps => (2 <= List.length (vertices_kept ps))%nat
  | GMultiLineString ls => ls <> [] /\ Forall (fun ps => (2 <= List.length (vertices_kept ps))%nat) ls
  | GPolygon rs => good_polygon rs
  | GMultiPolygon pls => pls <> [] /\ Forall good_polygon pls
  | GCollection gs =>
      gs <> [] /\ (fix all (l : list (geom f64)) : Prop := match l with [] => True | x :: l' => readable x /\ all l' end) gs
  | GUnknown => False
  end.

(** Nothing the strict encoder refuses: no NaN in a line or ring, no empty
    ring. *)
Definition clean_points (ps : list pt) : bool := forallb real ps.
Definition clean_ring (ps : list pt) : bool := forallb real ps && has_point ps.
Fixpoint clean (g : geom f64) : bool :=
  match g with
  | GLineString ps => clean_points ps
  | GMultiLineString ls => forallb clean_points ls
  | GPolygon rs => forallb clean_ring rs
  | GMultiPolygon pls => forallb (forallb clean_ring) pls
  | GCollection gs => forallb clean gs
  | _ => true
  end.

(** No part of the geometry has a point. *)
Fixpoint nothing (g : geom f64) : bool :=
  match g with
  | GPoint p => negb (real p)
  | GMultiPoint ps | GLineString ps => negb (has_point ps)
  | GMultiLineString ls | GPolygon ls => negb (existsb has_point ls)
  | GMultiPolygon pls => negb (existsb (existsb has_point) pls)
  | GCollection gs => forallb nothing gs
  | GUnknown => false
  end.

(** ** Numbers *)

(** Printing and reading [w] gives [w'], in the characters of a number
    without '+'. *)
Definition number_byte (b : Z) : Prop := In b (str "0123456789-.eE").
Definition prints (fmt : f64 -> list Z) (parse : list Z -> option f64) (w w' : f64) : Prop :=
  fmt w <> [] /\ Forall number_byte (fmt w) /\ parse (fmt w) = Some w'.

(** Every coordinate of a point of [g] satisfies [P]. *)
Definition good_point (P : f64 -> Prop) (p : pt) : Prop := real p = true -> P (fst p) /\ P (snd p).
Fixpoint every (P : f64 -> Prop) (g : geom f64) : Prop :=
  match g with
  | GPoint p => good_point P p
  | GMultiPoint ps | GLineString ps => Forall (good_point P) ps
  | GMultiLineString ls | GPolygon ls => Forall (Forall (good_point P)) ls
  | GMultiPolygon pls => Forall (Forall (Forall (good_point P))) pls
  | GCollection gs =>
      (fix all (l : list (geom f64)) : Prop := match l with [] => True | x :: l' => every P x /\ all l' end) gs
  | GUnknown => True
  end.

Definition map_pt (f : f64 -> f64) (p : pt) : pt := (f (fst p), f (snd p)).
Fixpoint map_geom (f : f64 -> f64) (g : geom f64) : geom f64 :=
  match g with
  | GPoint p => GPoint (map_pt f p)
  | GMultiPoint ps => GMultiPoint (map (map_pt f) ps)
  | GLineString ps => GLineString (map (map_pt f) ps)
  | GMultiLineString ls => GMultiLineString (map (map (map_pt f)) ls)
  | GPolygon ls => GPolygon (map (map (map_pt f)) ls)
  | GMultiPolygon pls => GMultiPolygon (map (map (map (map_pt f))) pls)
  | GCollection gs => GCollection (map (map_geom f) gs)
  | GUnknown => GUnknown
  end.

(** What is assumed of the printer and the parser of numbers: each coordinate of
    [g] is a word whose text is read as [rt] of it, 0 and -0 as equal numbers, and "E"
    is no number. *)
Definition number_io (fmt : f64 -> list Z) (parse : list Z -> option f64) (rt : f64 -> f64) (g : geom f64) : Prop :=
  every (fun w => f64_wf w = true /\ f64_wf (rt w) = true /\ prints fmt parse w (rt w)) g /\
  (forall a b, f64_wf a = true -> f64_wf b = true -> f64_eq a b = true -> f64_eq (rt a) (rt b) = true) /\
  parse (str "E") = None.

(** Enough points in every part. *)
Fixpoint well_shaped (g : geom f64) : bool :=
  match g with
  | GPoint _ | GMultiPoint _ => true
  | GLineString ps => (2 <=? List.length ps)%nat
  | GMultiLineString ls => (1 <=? List.length ls)%nat && forallb (fun l => (2 <=? List.length l)%nat) ls
  | GPolygon rs => (1 <=? List.length rs)%nat && forallb (fun l => (3 <=? List.length l)%nat) rs
  | GMultiPolygon pls => (1 <=? List.length pls)%nat && forallb (forallb (fun l => (3 <=? List.length l)%nat)) pls
  | GCollection gs => (1 <=? List.length gs)%nat && forallb well_shaped gs
  | GUnknown => false
  end.

(** All the coordinates of a geometry. *)
Definition xys (ps : list pt) : list f64 := flat_map (fun p => [fst p; snd p]) ps.
Fixpoint coordinates (g : geom f64) : list f64 :=
  match g with
  | GPoint p => xys [p]
  | GMultiPoint ps | GLineString ps => xys ps
  | GMultiLineString ls | GPolygon ls => xys (List.concat ls)
  | GMultiPolygon pls => xys (List.concat (List.concat pls))
  | GCollection gs => flat_map coordinates gs
  | GUnknown => []
  end.
