(** * Model of planar/simplify (Douglas-Peucker), planar/simplify.go and
    planar.PerpendicularDistance

    Slices are lists.  The result slice [ret] is only appended to and cut, and
    never shares memory with the input, so its value is all that matters.  The
    depth parameter and the debug output are left out. *)
From Coq Require Import ZArith Bool List.
From Verif Require Import Base_F64 Base_F64Arith Base_Geom Base_Res M_Geom.
Import ListNotations.

Notation pt := (point f64).

(** planar/planar.go 19-32 *)
Definition perpendicular_distance (l : line) (p : pt) : f64 :=
  let dx := f64_sub (fst (snd l)) (fst (fst l)) in
  let dy := f64_sub (snd (snd l)) (snd (fst l)) in
  let dx2 := f64_mul dx dx in
  let dy2 := f64_mul dy dy in
  let num := f64_abs (f64_sub (f64_add (f64_sub (f64_mul dy (fst p)) (f64_mul dx (snd p)))
                                       (f64_mul (fst (snd l)) (snd (fst l))))
                              (f64_mul (snd (snd l)) (fst (fst l)))) in
  let denom := f64_sqrt (f64_add dy2 dx2) in
  if f64_eq denom f64_zero then f64_zero else f64_div num denom.

(** A context: how many more times ctx.Err() returns nil ([None]: forever).  A
    cancelled context stays cancelled. *)
Definition ctx := option nat.
Definition poll (c : ctx) : bool * ctx :=
  match c with
  | None => (false, None)
  | Some O => (true, Some O)
  | Some (S n) => (false, Some n)
  end.

Section DP.
  Variable dist : line -> pt -> f64.
  Variable tolerance : f64.

  (** douglaspeucker.go 66-75: the farthest interior vertex; [i] is the index of
      the head of [rest]. *)
  Fixpoint farthest (l : line) (i : nat) (dmax : f64) (idx : nat) (rest : list pt) : f64 * nat :=
    match rest with
    | [] => (dmax, idx)
    | p :: tl =>
        let d := dist l p in
        if f64_gt d dmax then farthest l (S i) d i tl else farthest l (S i) dmax idx tl
    end.

  (** douglaspeucker.go 31-117.  Result: slice, error reported, context.  The
      fuel bounds the recursion; running out of it is [Err] (proved not to
      happen). *)
  Fixpoint dp (fuel : nat) (c : ctx) (ls ret : list pt) : res unit (list pt * bool * ctx) :=
    match fuel with
    | O => Err tt
    | S n =>
        if f64_le tolerance f64_zero || (length ls <=? 2)%nat then Ok (ret ++ ls, false, c)
        else
          match ls with
          | [] => Panic
          | first :: tl =>
              let lst := last tl first in
              let l := (first, lst) in
              let '(dmax, idx) := farthest l 1 f64_zero 0 (removelast tl) in
              if f64_gt dmax tolerance then
                if (length ls <=? 3)%nat then Ok (ret ++ ls, false, c)
                else
                  let '(e, c) := poll c in
                  if e then Ok ([], true, c)
                  else
                    do (ret, _, c) <- dp n c (firstn (idx + 1) ls) ret;
                    let '(e, c) := poll c in
                    if e then Ok ([], true, c)
                    else
                      match ret with
                      | [] => Panic
                      | _ =>
                          do (ret, _, c) <- dp n c (skipn idx ls) (removelast ret);
                          let '(e, c) := poll c in
                          Ok (ret, e, c)
                      end
              else Ok (ret ++ [first; lst], false, c)
          end
    end.

  (** douglaspeucker.go 19-22 *)
  Definition douglas_peucker (c : ctx) (ls : list pt) : res unit (list pt * bool * ctx) :=
    dp (length ls + 1) c ls [].
End DP.

(** ** planar/simplify.go

    A simplifier is any function with its own state (context included): from a
    line and the closed flag to a line, or an error. *)
Section Simplify.
  Context {St : Type}.
  Variable simp : St -> list pt -> bool -> St * option (list pt).

  (** simplify.go 9-22 *)
  Fixpoint simplify_rings (s : St) (rs : list (list pt)) (closed : bool) : St * option (list (list pt)) :=
    match rs with
    | [] => (s, Some [])
    | r :: tl =>
        match simp s r closed with
        | (s, None) => (s, None)
        | (s, Some ls) =>
            let r' := if (2 <? length ls)%nat || negb closed then ls else [] in
            match simplify_rings s tl closed with
            | (s, None) => (s, None)
            | (s, Some rs') => (s, Some (r' :: rs'))
            end
        end
    end.

  Fixpoint simplify_polygons (s : St) (ps : list (list (list pt))) : St * option (list (list (list pt))) :=
    match ps with
    | [] => (s, Some [])
    | p :: tl =>
        match simplify_rings s p true with
        | (s, None) => (s, None)
        | (s, Some p') =>
            match simplify_polygons s tl with
            | (s, None) => (s, None)
            | (s, Some ps') => (s, Some (p' :: ps'))
            end
        end
    end.

  (** simplify.go 26-88, with a simplifier that is not nil.  [None] is an error. *)
  Fixpoint simplify (s : St) (g : geom f64) {struct g} : St * option (geom f64) :=
    match g with
    | GCollection gs =>
        let '(s, r) :=
          (fix go (s : St) (l : list (geom f64)) : St * option (list (geom f64)) :=
             match l with
             | [] => (s, Some [])
             | x :: tl =>
                 match simplify s x with
                 | (s, None) => (s, None)
                 | (s, Some x') =>
                     match go s tl with
                     | (s, None) => (s, None)
                     | (s, Some tl') => (s, Some (x' :: tl'))
                     end
                 end
             end) s gs in
        (s, option_map GCollection r)
    | GMultiPolygon ps => let '(s, r) := simplify_polygons s ps in (s, option_map GMultiPolygon r)
    | GPolygon rs => let '(s, r) := simplify_rings s rs true in (s, option_map GPolygon r)
    | GMultiLineString ls => let '(s, r) := simplify_rings s ls false in (s, option_map GMultiLineString r)
    | GLineString l => let '(s, r) := simp s l false in (s, option_map GLineString r)
    | GPoint _ | GMultiPoint _ | GUnknown => (s, Some g)
    end.
End Simplify.

(** The Douglas-Peucker simplifier as such a function; a panic is kept out by
    C33_never_panics. *)
Definition dp_simplifier (dist : line -> pt -> f64) (tolerance : f64) (c : ctx) (l : list pt) (closed : bool)
  : ctx * option (list pt) :=
  match douglas_peucker dist tolerance c l with
  | Ok (r, false, c') => (c', Some r)
  | Ok (_, true, c') => (c', None)
  | _ => (c, None)
  end.
