(** * What the R-tree theorems talk about *)
From Coq Require Import ZArith Bool List Permutation Sorted Reals.
From Verif Require Import Base_F64 Base_F64Arith Base_Res P_F64Flocq M_Rtree.
Import ListNotations.

(** Rectangles of dimension [d] without NaN. *)
Definition rect_ok (d : nat) (r : rect) : Prop :=
  length r = d /\ Forall (fun i => f64_isnan (fst i) = false /\ f64_isnan (snd i) = false) r.

(** [r] lies inside [R] (boundaries included). *)
Definition rect_in (r R : rect) : Prop :=
  Forall2 (fun i I => f64_le (fst I) (fst i) = true /\ f64_le (snd i) (snd I) = true) r R.

(** Overlap with positive extent in every dimension. *)
Definition overlap (r1 r2 : rect) : bool :=
  forallb (fun i => f64_lt (fst (fst i)) (snd (snd i)) && f64_lt (fst (snd i)) (snd (fst i))) (combine r1 r2).

Definition all {X} (P : X -> Prop) (l : list X) : Prop := fold_right (fun x acc => P x /\ acc) True l.

Section Spec.
  Context {A : Type} (bounds : A -> rect).

  (** The objects in the leaves, left to right. *)
  Fixpoint objs (n : node A) : list A :=
    match n with
    | Node _ _ es => flat_map (fun e => match snd e with inl c => objs c | inr a => [a] end) es
    end.

  (** Every entry's box contains the bounds of all objects below it. *)
  Fixpoint boxes_ok (n : node A) : Prop :=
    match n with
    | Node _ _ es =>
        all (fun e => match snd e with
                      | inl c => (forall a, In a (objs c) -> rect_in (bounds a) (fst e)) /\ boxes_ok c
                      | inr a => fst e = bounds a
                      end) es
    end.

  (** Leaves, and only leaves, are at level 1; every child is one level below. *)
  Fixpoint balanced (n : node A) : Prop :=
    match n with
    | Node leaf level es =>
        (1 <= level)%Z /\ leaf = (level =? 1)%Z /\
        all (fun e => match snd e with
                      | inl c => leaf = false /\ n_level c = (level - 1)%Z /\ balanced c
                      | inr a => leaf = true
                      end) es
    end.

  (** The number of entries of every node strictly below [n]. *)
  Fixpoint below (P : nat -> Prop) (n : node A) : Prop :=
    match n with
    | Node _ _ es =>
        all (fun e => match snd e with
                      | inl c => P (length (n_entries c)) /\ below P c
                      | inr a => True
                      end) es
    end.
End Spec.

(** Coordinates of absolute value at most 2^m. *)
Definition small_coord (m : Z) (c : f64) : Prop :=
  f64_wf c = true /\ f64_finite c = true /\ (Rabs (f64_R c) <= IZR (2 ^ m))%R.
Definition small_rect (d : nat) (m : Z) (r : rect) : Prop :=
  length r = d /\ Forall (fun i => small_coord m (fst i) /\ small_coord m (snd i)) r.

(** Boxes and points with finite coordinates; boxes with ordered sides. *)
Definition fin_rect (d : nat) (r : rect) : Prop :=
  length r = d /\
  Forall (fun i => f64_wf (fst i) = true /\ f64_finite (fst i) = true /\ f64_wf (snd i) = true /\ f64_finite (snd i) = true /\
                   f64_le (fst i) (snd i) = true) r.
Definition fin_point (p : list f64) : Prop := Forall (fun c => f64_wf c = true /\ f64_finite c = true) p.

(** ** Histories of calls *)
Section History.
  Context {A : Type} (bounds : A -> rect) (min max : nat) (cmp : A -> A -> bool).
  Inductive op := Ins (a : A) | Del (a : A).
  (** Insert and Delete called one after the other; the answers of Delete are
      collected. *)
  Fixpoint run (t : rtree A) (ops : list op) : res unit (rtree A * list bool) :=
    match ops with
    | [] => Ok (t, [])
    | Ins a :: tl => do t <- insert bounds min max t a; run t tl
    | Del a :: tl =>
        do (t, found) <- delete bounds min max cmp t a;
        do (t, answers) <- run t tl; Ok (t, found :: answers)
    end.
  (** What a list of objects would do. *)
  Fixpoint remove_one (a : A) (l : list A) : option (list A) :=
    match l with
    | [] => None
    | b :: tl => if cmp b a then Some tl else match remove_one a tl with None => None | Some tl => Some (b :: tl) end
    end.
  Fixpoint expected (l : list A) (ops : list op) : list A * list bool :=
    match ops with
    | [] => (l, [])
    | Ins a :: tl => expected (a :: l) tl
    | Del a :: tl =>
        match remove_one a l with
        | None => let '(l, answers) := expected l tl in (l, false :: answers)
        | Some l => let '(l, answers) := expected l tl in (l, true :: answers)
        end
    end.
  Definition op_obj (o : op) : A := match o with Ins a => a | Del a => a end.
End History.
Arguments op : clear implicits.
