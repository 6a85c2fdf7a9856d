(** * Specification of the constrained triangulation of points *)
From Coq Require Import Bool List.
From Verif Require Import Base_F64 Base_Geom M_Cmp M_Walker.
Import ListNotations.

(** The points of [l] are different for Go, each is in [given], and each point of
    [given] which equals itself is equal to one of them. *)
Definition each_once (given l : list pt) : Prop :=
  ForallOrdPairs (fun p q => go_eq p q = false) l /\ incl l given
  /\ forall p, In p given -> go_eq p p = true -> exists q, In q l /\ go_eq p q = true.
(** A corner of the triangle. *)
Definition corner (p : pt) (t : pt * pt * pt) : Prop := p = fst (fst t) \/ p = snd (fst t) \/ p = snd t.
