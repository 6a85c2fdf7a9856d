(** * Model of cmp (comparison of floats and geometries)

    Floats are words.  Sorting (sort.Sort, sort.Float64s) is not modelled
    algorithm by algorithm: the sorting routines are arguments, and theorems
    assume of them only what they need.  Nil pointers to geometries
    (NilPoint, ...) are not modelled: every geometry is a value. *)
From Coq Require Import ZArith Bool List.
From Verif Require Import Base_F64 Base_F64Arith Base_Geom Base_Res Base_Bytes M_Geom M_Extent.
Import ListNotations.
Open Scope Z_scope.

Notation pt := (point f64).

(** compare.go 11-16 *)
Record compare := Cmp { tol : f64; bit_tol : Z }.

(** cmp.go 20-22 *)
Definition bit_tolerance_for (t : f64) : Z := i64 (u64 (f64_add f64_one t - f64_one)).
(** compare.go 20-25 *)
Definition new_compare (t : f64) : compare := Cmp t (bit_tolerance_for t).

(** compare.go 39-60; the int64 subtraction and negation wrap. *)
Definition cmp_float (c : compare) (f1 f2 : f64) : bool :=
  if f64_isinf f1 || f64_isinf f2 then
    Bool.eqb (f64_isninf f1) (f64_isninf f2) && Bool.eqb (f64_ispinf f1) (f64_ispinf f2)
  else if f64_eq f1 f64_zero || f64_eq f2 f64_zero then
    f64_lt (f64_abs (f64_sub f2 f1)) (tol c)
  else
    let i1 := i64 f1 in
    let i2 := i64 f2 in
    let d := i64 (i2 - i1) in
    if d <? 0 then i64 (- bit_tol c) <? d else d <? bit_tol c.

(** The element-by-element loops. *)
Definition all2 {A} (f : A -> A -> bool) (l1 l2 : list A) : bool :=
  forallb (fun p => f (fst p) (snd p)) (combine l1 l2).

(** compare.go 85-88 *)
Definition cmp_extent (c : compare) (a b : extent) : bool :=
  cmp_float c (e0 a) (e0 b) && cmp_float c (e1 a) (e1 b) && cmp_float c (e2 a) (e2 b) && cmp_float c (e3 a) (e3 b).
(** compare.go 91-93 through bbox.go 121-123, defined on nil extents *)
Definition ext_values (e : option extent) : extent := Ext (minX e) (minY e) (maxX e) (maxY e).
Definition geom_extent (c : compare) (a b : option extent) : bool := cmp_extent c (ext_values a) (ext_values b).

(** compare.go 96-98, 101-103 *)
Definition point_equal (c : compare) (p q : pt) : bool :=
  cmp_float c (fst p) (fst q) && cmp_float c (snd p) (snd q).

(** helper.go 24-29, XYLessPoint; also compare.go 106-111, PointLess *)
Definition xy_less (p q : pt) : bool :=
  if f64_ne (fst p) (fst q) then f64_lt (fst p) (fst q) else f64_lt (snd p) (snd q).

(** helper.go 33-44: [i] is the index of the head of [rest], [min] the index
    and [minpt] the value found so far. *)
Fixpoint find_min_from (i min : nat) (minpt : pt) (rest : list pt) : nat :=
  match rest with
  | [] => min
  | p :: tl =>
      if xy_less p minpt then find_min_from (S i) i p tl
      else find_min_from (S i) min minpt tl
  end.
Definition find_min_idx (ln : list pt) : nat :=
  match ln with
  | [] => 0
  | p :: tl => find_min_from 1 0 p tl
  end.

(** Go's copy(dst, src): the new contents of dst. *)
Definition copy {A} (dst src : list A) : list A :=
  firstn (length dst) src ++ skipn (length src) dst.
(** tmp[n:] = copy(tmp[n:], src) *)
Definition copy_at {A} (n : nat) (dst src : list A) : list A :=
  firstn n dst ++ copy (skipn n dst) src.

(** helper.go 47-55; [ln[idx:]] panics outside 0..len. *)
Definition rotate_to_idx (idx : Z) (ln : list pt) : res unit (list pt) :=
  match ln with
  | [] => Ok []
  | _ =>
      if (idx <? 0) || (Z.of_nat (length ln) <? idx) then Panic
      else
        let src := skipn (Z.to_nat idx) ln in
        let tmp := repeat (f64_zero, f64_zero) (length ln) in
        let tmp := copy tmp src in
        let tmp := copy_at (length src) tmp ln in
        Ok (copy ln tmp)
  end.
(** helper.go 59-62 *)
Definition rotate_leftmost (ln : list pt) : res unit (list pt) :=
  rotate_to_idx (Z.of_nat (find_min_idx ln)) ln.

(** The sorting routines used by the package. *)
Record sorters := Sorters {
  sort_floats : list f64 -> list f64;                  (* sort.Float64s *)
  sort_points : list pt -> list pt;                    (* sort.Sort(ByXY) *)
  sort_rings : list (list pt) -> list (list pt);       (* sort.Sort(bySubRingSizeXY) *)
  sort_polys : list (list (list pt)) -> list (list (list pt)) (* sort.Sort(byPolygonMainSizeXY) *)
}.

Section Equality.
  Variable S : sorters.
  Variable dflt : compare.       (* DefaultCompare(), used by PolygonEqual for extents *)
  Variable c : compare.

  (** compare.go 63-82 *)
  Definition float_slice (a b : list f64) : bool :=
    if negb (length a =? length b)%nat then false
    else if (length a =? 0)%nat then true
    else all2 (cmp_float c) (sort_floats S a) (sort_floats S b).

  (** compare.go 114-132 *)
  Definition multipoint_equal (a b : list pt) : bool :=
    if negb (length a =? length b)%nat then false
    else all2 (point_equal c) (sort_points S a) (sort_points S b).

  (** compare.go 136-152; rotate_leftmost never panics here (proved). *)
  Definition linestring_equal (a b : list pt) : bool :=
    if negb (length a =? length b)%nat then false
    else match rotate_leftmost a, rotate_leftmost b with
         | Ok a', Ok b' => all2 (point_equal c) a' b'
         | _, _ => false
         end.

  (** compare.go 155-169 *)
  Definition multiline_equal (a b : list (list pt)) : bool :=
    if negb (length a =? length b)%nat then false
    else forallb (fun x => existsb (fun y => linestring_equal x y) b) a.

  (** compare.go 172-198.  Result, and the rings of both arguments afterwards:
      they are sorted in place. *)
  Definition polygon_equal (a b : list (list pt)) : bool * (list (list pt) * list (list pt)) :=
    if negb (length a =? length b)%nat then (false, (a, b))
    else if negb (geom_extent dflt (new_extent (concat a)) (new_extent (concat b))) then (false, (a, b))
    else
      let a' := sort_rings S a in
      let b' := sort_rings S b in
      (all2 linestring_equal a' b', (a', b')).

  (** compare.go 258-275, the comparison. *)
  Definition multipolygon_equal (a b : list (list (list pt))) : bool :=
    if negb (length a =? length b)%nat then false
    else all2 (fun x y => fst (polygon_equal x y)) (sort_polys S a) (sort_polys S b).

  (** compare.go 298-330 with the wrappers 201-254 and 279-294. *)
  Fixpoint geometry_equal (g h : geom f64) {struct g} : bool :=
    match g, h with
    | GPoint p, GPoint q => point_equal c p q
    | GMultiPoint p, GMultiPoint q => multipoint_equal p q
    | GLineString p, GLineString q => linestring_equal p q
    | GMultiLineString p, GMultiLineString q => multiline_equal p q
    | GPolygon p, GPolygon q => fst (polygon_equal p q)
    | GMultiPolygon p, GMultiPolygon q => multipolygon_equal p q
    | GCollection gs, GCollection hs =>
        (length gs =? length hs)%nat &&
        (fix go (l m : list (geom f64)) : bool :=
           match l, m with
           | x :: l, y :: m => geometry_equal x y && go l m
           | _, _ => true
           end) gs hs
    | _, _ => false
    end.
End Equality.

(** bySubRingSizeXY.Less, by_xy.go 25-39; [xy[i][mi]] panics for two empty
    rings of index > 0, here it is false. *)
Definition sub_ring_less (xy : list (list pt)) (i j : nat) : bool :=
  if (i =? 0)%nat then true
  else if (j =? 0)%nat then false
  else
    let a := nth i xy [] in
    let b := nth j xy [] in
    if negb (length a =? length b)%nat then (length a <? length b)%nat
    else match nth_error a (find_min_idx a), nth_error b (find_min_idx b) with
         | Some p, Some q => xy_less p q
         | _, _ => false
         end.

(** Go library, package sort, insertionSort: what sort.Sort does on at most six
    elements in every version of the library.  [j] runs down from [i] while the
    element is less than the one before it. *)
Fixpoint upd {A} (l : list A) (i : nat) (v : A) : list A :=
  match l, i with
  | [], _ => []
  | _ :: tl, O => v :: tl
  | x :: tl, S j => x :: upd tl j v
  end.
Definition swap {A} (l : list A) (i j : nat) : list A :=
  match nth_error l i, nth_error l j with
  | Some a, Some b => upd (upd l i b) j a
  | _, _ => l
  end.
Fixpoint sift_down {A} (less : list A -> nat -> nat -> bool) (j : nat) (l : list A) : list A :=
  match j with
  | O => l
  | S j' => if less l j j' then sift_down less j' (swap l j j') else l
  end.
Definition insertion_sort {A} (less : list A -> nat -> nat -> bool) (l : list A) : list A :=
  fold_left (fun l i => sift_down less i l) (seq 1 (length l - 1)) l.

(** byPolygonMainSizeXY.Less, by_xy.go 46-58; the panic on two empty main rings
    is false here. *)
Definition main_ring_less (xy : list (list (list pt))) (i j : nat) : bool :=
  match nth i xy [], nth j xy [] with
  | [], _ => true
  | _, [] => false
  | a :: _, b :: _ =>
      if negb (length a =? length b)%nat then (length a <? length b)%nat
      else match nth_error a (find_min_idx a), nth_error b (find_min_idx b) with
           | Some p, Some q => xy_less p q
           | _, _ => false
           end
  end.

(** The default comparator, default_compare.go 16-31: an atomic cell.  SetDefault
    is a load followed by a store; goroutine [i] calls SetDefault (news i) once.
    A step is one atomic operation of one goroutine. *)
Section Default.
  Context {V : Type} (news : nat -> V).
  Inductive caller := Calling | Loaded (old : V) | Returned (old : V).
  Record world := World { cell : V; callers : nat -> caller }.
  Definition set_caller (w : nat -> caller) (i : nat) (s : caller) : nat -> caller :=
    fun j => if (j =? i)%nat then s else w j.
  Definition default_step (w : world) (i : nat) : world :=
    match callers w i with
    | Calling => World (cell w) (set_caller (callers w) i (Loaded (cell w)))
    | Loaded old => World (news i) (set_caller (callers w) i (Returned old))
    | Returned _ => w
    end.
  Definition default_start (v : V) : world := World v (fun _ => Calling).
  (** A schedule: which goroutine moves next. *)
  Definition default_run (w : world) (schedule : list nat) : world := fold_left default_step schedule w.
End Default.
