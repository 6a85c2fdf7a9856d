(** * Model of triangle.go and circle.go

    Floats are words.  Logging is not modelled, and the debug flag is off.
    A loop without a bound runs on fuel; running out is [None]. *)
From Coq Require Import ZArith Bool List.
From Verif Require Import Base_Res Base_F64 Base_F64Arith Base_Geom M_Geom M_Extent M_Cmp.
Import ListNotations.
Open Scope Z_scope.

Definition triangle : Type := (pt * pt * pt)%type.
Definition vertices3 (t : triangle) : list pt := let '(a, b, c) := t in [a; b; c].

(** triangle.go 8, and circle.go 96: the comparator of circle.go 95-116 is
    the one of cmp/compare.go 39-60 with another tolerance *)
Definition nano : f64 := 0x3E112E0BE826D695.
Definition nano_compare : compare := Cmp nano 4503600.

(** triangle.go 34-38 *)
Definition center (t : triangle) : pt :=
  let '(a, b, c) := t in
  (f64_div (f64_add (f64_add (fst a) (fst b)) (fst c)) f64_three,
   f64_div (f64_add (f64_add (snd a) (snd b)) (snd c)) f64_three).

(** triangle.go 46-57 *)
Definition third_point (t : triangle) (p1 p2 : pt) : pt :=
  let '(t0, t1, t2) := t in
  let eq := point_equal nano_compare in
  if (eq t0 p1 && eq t1 p2) || (eq t1 p1 && eq t0 p2) then t2
  else if (eq t0 p1 && eq t2 p2) || (eq t2 p1 && eq t0 p2) then t1
  else t0.

(** triangle.go 60-70: indexing out of range is a panic *)
Definition triangle_from_polygon (py : list (list pt)) : res unit triangle :=
  match py with
  | (a :: b :: c :: _) :: _ => Ok (a, b, c)
  | _ => Panic
  end.

(** triangle.go 74-77 *)
Definition tri_area (t : triangle) : f64 :=
  let '(a, b, c) := t in
  f64_sub (f64_mul (f64_sub (fst b) (fst a)) (f64_sub (snd c) (snd a)))
          (f64_mul (f64_sub (snd b) (snd a)) (f64_sub (fst c) (fst a))).

(** triangle.go 101-123: None is the nil extent *)
Definition triangle_for_extent (ext : option extent) (buff : f64) : res unit triangle :=
  match ext with
  | None => Err tt
  | Some e =>
      let xlen := f64_sub (e2 e) (e0 e) in
      let ylen := f64_sub (e3 e) (e1 e) in
      let x2len := f64_div xlen f64_two in
      let nx := f64_sub (f64_sub (e0 e) (f64_mul x2len buff)) buff in
      let cx := f64_add (e0 e) x2len in
      let xx := f64_add (f64_add (e2 e) (f64_mul x2len buff)) buff in
      let ny := f64_sub (f64_sub (e1 e) (f64_mul ylen buff)) buff in
      let xy := f64_add (f64_add (e3 e) (f64_mul (f64_mul f64_two ylen) buff)) buff in
      Ok ((nx, ny), (cx, xy), (xx, ny))
  end.

(** triangle.go 81-99, NewTriangleContaining and NewTriangleContainingPoints *)
Definition buff : f64 := 0x4024000000000000.
Definition triangle_containing (pts : list pt) : res unit triangle :=
  match triangle_for_extent (new_extent pts) buff with
  | Ok t => Ok t
  | Err _ => Panic
  | Panic => Panic
  end.

(** circle.go 12-15 *)
Record circle := Circle { c_center : pt; c_radius : f64 }.

(** circle.go 40-83: the centre, for float64 and for the reals of the theorem
    that it is the centre: [T] are the numbers, [isz] is the comparison with 0.
    (xA+xB)/2 is a division and (xA+xB)*0.5 a product; a*b*c is (a*b)*c.
    Floating-point operations are not fused. *)
Section Centre.
  Variable T : Type.
  Variables add sub mul div : T -> T -> T.
  Variable isz : T -> bool.
  Variables two mone half : T.
  Definition centre_of (a b c : T * T) : T * T :=
    let '(xA, yA) := a in let '(xB, yB) := b in let '(xC, yC) := c in
    let xDA := sub xB xA in let xDB := sub xC xB in
    let yDA := sub yB yA in let yDB := sub yC yB in
    let mABx := div (add xA xB) two in let mABy := div (add yA yB) two in
    let mBCx := div (add xB xC) two in let mBCy := div (add yB yC) two in
    if isz yDA && isz xDB then (mABx, mBCy)
    else if isz yDA && negb (isz xDB) then
      let slopeB := div yDB xDB in
      (mABx, add mBCy (div (sub mBCx mABx) slopeB))
    else if isz yDB && isz xDA then (mBCx, mABy)
    else if isz yDB && negb (isz xDA) then
      let slopeA := div yDA xDA in
      (mBCx, add mABy (div (sub mABx mBCx) slopeA))
    else if isz xDA then
      let slopeB := div yDB xDB in
      (add (mul slopeB (sub mBCy mBCy)) mBCx, mBCy)
    else if isz xDB then
      let slopeA := div yDA xDA in
      (add (mul slopeA (sub mABy mBCy)) mABx, mBCy)
    else
      let slopeA := div yDA xDA in
      let slopeB := div yDB xDB in
      let x := div (sub (add (mul (mul slopeA slopeB) (sub yA yC)) (mul slopeB (add xA xB)))
                        (mul slopeA (add xB xC)))
                   (mul two (sub slopeB slopeA)) in
      let y := add (mul (div mone slopeA) (sub x (mul (add xA xB) half))) (mul (add yA yB) half) in
      (x, y).

  (** circle.go 27-30 *)
  Variable eq : T -> T -> bool.
  Definition colinear_of (a b c : T * T) : bool :=
    eq (mul (sub (snd b) (snd a)) (sub (fst c) (fst b))) (mul (sub (snd c) (snd b)) (sub (fst b) (fst a))).

  (** circle.go 32-38: the loop which rotates the points *)
  Fixpoint rotate_points (fuel : nat) (a b c : T * T) : option ((T * T) * (T * T) * (T * T)) :=
    if isz (sub (fst b) (fst a)) || isz (sub (fst c) (fst b)) then
      match fuel with
      | O => None
      | S n => rotate_points n b c a
      end
    else Some (a, b, c).
End Centre.

Definition half : f64 := 0x3FE0000000000000.
Definition f64_is0 (w : f64) : bool := f64_eq w f64_zero.
Definition circumcentre : pt -> pt -> pt -> pt :=
  centre_of f64 f64_add f64_sub f64_mul f64_div f64_is0 f64_two f64_mone half.
(** circle.go 18-21, and the same test in 27-30 *)
Definition is_colinear : pt -> pt -> pt -> bool := colinear_of f64 f64_sub f64_mul f64_eq.
Definition rotate_f64 : nat -> pt -> pt -> pt -> option (pt * pt * pt) := rotate_points f64 f64_sub f64_is0.

(** circle.go 86-87, and 122-123 *)
Definition point_dist (p q : pt) : f64 :=
  let v1 := f64_sub (fst p) (fst q) in
  let v2 := f64_sub (snd p) (snd q) in
  f64_sqrt (f64_add (f64_mul v1 v1) (f64_mul v2 v2)).

(** circle.go 25-93, CircleFromPoints: [Err] are colinear points, None the loop
    of 35-38 still running after [fuel] rounds *)
Definition circle_from_points (fuel : nat) (a b c : pt) : option (res unit circle) :=
  if is_colinear a b c then Some (Err tt)
  else match rotate_f64 fuel a b c with
       | None => None
       | Some (a, b, c) =>
           let o := circumcentre a b c in
           Some (Ok (Circle o (point_dist o a)))
       end.

(** circle.go 119-126 *)
Definition circle_contains (c : circle) (p : pt) : bool :=
  let d := point_dist (c_center c) p in
  cmp_float nano_compare (c_radius c) d || f64_gt (c_radius c) d.

(** circle.go 128-140, AsPoints: [pos k i] is the point at the angle
    2*Pi*(i/k), an argument because sine and cosine are not modelled *)
Section Points.
  Variable pos : nat -> nat -> pt.
  Definition points_count (k : nat) : nat := if (k <? 3)%nat then 30%nat else k.
  Definition as_points (k : nat) : list pt :=
    map (pos (points_count k)) (seq 0 (points_count k)).

  (** circle.go 142-149 *)
  Definition as_linestring (k : nat) : list pt := map (fun p => p) (as_points k).

  (** circle.go 153-165: the index before 0 is int(k)-1, with the k of the
      caller; an index out of range is a panic *)
  Fixpoint segments_from (k : nat) (pts : list pt) (i : nat) (rest : list pt) : res unit (list line) :=
    match rest with
    | [] => Ok []
    | p :: tl =>
        let j := if (i =? 0)%nat then Z.of_nat k - 1 else Z.of_nat i - 1 in
        if j <? 0 then Panic
        else match nth_error pts (Z.to_nat j) with
             | None => Panic
             | Some q => do l <- segments_from k pts (S i) tl; Ok ((q, p) :: l)
             end
    end.
  Definition as_segments (k : nat) : res unit (list line) :=
    let pts := as_points k in segments_from k pts 0 pts.
End Points.
