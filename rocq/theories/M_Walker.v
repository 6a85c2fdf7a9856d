(** * Model of planar/makevalid/walker (cut.go, walker.go)

    Floats are words.  Slices are lists: [cut] works in place on the ring of its
    caller, so it returns the sliver and the ring afterwards; slivers are copies,
    and nothing else of the argument is read after a change.  Maps are lists of
    pairs searched with Go's ==.  The context is a function of the number of Err
    calls made so far.  Loops without a bound run on fuel, running out is [Err tt]
    (it never happens: theorems).  Logging is not modelled, and the debug flag is
    off; nil Walkers are not modelled, and the edge map is the one New builds. *)
From Coq Require Import ZArith Bool List.
From Verif Require Import Base_Res Base_F64 Base_F64Arith Base_Geom M_Geom M_Extent M_Cmp M_Planar M_Triangle M_Winding.
Import ListNotations.
Open Scope nat_scope.

(** cmp/default_compare.go 10, 13; walker/cmp.go 7 *)
Definition hi_cmp : compare := new_compare nano.

(** == on [2]float64 and on [2][2]float64 *)
Definition go_eq (p q : pt) : bool := f64_eq (fst p) (fst q) && f64_eq (snd p) (snd q).
Definition edge_eq (a b : pt * pt) : bool := go_eq (fst a) (fst b) && go_eq (snd a) (snd b).

(** ** cut.go *)

(** cut.go 9-17: the loop of removeBridge; [k] bounds the number of rounds. *)
Fixpoint bridge_loop (k : nat) (rng : list pt) (li i : nat) (nrng : list pt) (add_lst : bool) : res unit (list pt * bool) :=
  if (i + 1 <? length rng) then
    match k with
    | O => Err tt
    | S k =>
        match nth_error rng li, nth_error rng (i + 1), nth_error rng i with
        | Some l, Some nx, Some p =>
            if go_eq l nx then bridge_loop k rng (i + 1) (i + 2) nrng (negb (i + 2 =? length rng))
            else bridge_loop k rng i (i + 1) (nrng ++ [p]) add_lst
        | _, _, _ => Panic
        end
    end
  else Ok (nrng, add_lst).
(** cut.go 6-22 *)
Definition remove_bridge (rng : list pt) : res unit (list pt) :=
  do (nrng, add_lst) <- bridge_loop (length rng) rng (length rng - 1) 0 [] true;
  if add_lst then
    match rng with
    | [] => Panic (* rng[-1] *)
    | p :: _ => Ok (nrng ++ [last rng p])
    end
  else Ok nrng.

(** cut.go 23-56; the start and end are never negative at the calls. *)
Definition cut (rng : list pt) (s e : nat) : res unit (list pt * list pt) :=
  if (length rng <=? s) || (length rng <? e) then Panic
  else if e <? s then Ok (skipn s rng ++ firstn e rng, firstn (s - e) (skipn e rng))
  else if e =? s then
    match nth_error rng e with
    | Some p => Ok ([p], firstn e rng ++ skipn (e + 1) rng)
    | None => Panic
    end
  else Ok (firstn (e - s) (skipn s rng), firstn s rng ++ skipn e rng).

(** ** walker.go: from a ring to a polygon *)

(** map[[2]float64]int *)
Definition pt_map := list (pt * nat).
Fixpoint lookup (m : pt_map) (p : pt) : option nat :=
  match m with
  | [] => None
  | (q, j) :: tl => if go_eq q p then Some j else lookup tl p
  end.
Definition delete (m : pt_map) (p : pt) : pt_map := filter (fun e => negb (go_eq (fst e) p)) m.

(** walker.go 226-237 *)
Definition p_idx (n i : nat) : nat := if i =? 0 then n - 1 else i - 1.
Definition n_idx (n i : nat) : nat := if i =? n - 1 then 0 else i + 1.

(** What the loop does next: [return nil], or leave the loop with the ring and
    the slivers. *)
Inductive walked := WNil | WRing (rng : list pt) (slivers : list (list pt)).

Section PolygonForRing.
  Variable ctx : nat -> bool.

  (** walker.go 255-342, from index [i] on. *)
  Fixpoint bubbles (k n : nat) (rng : list pt) (i : nat) (m : pt_map) (plyg : list (list pt)) : res unit (walked * nat) :=
    match nth_error rng i with
    | None => Ok (WRing rng plyg, n)
    | Some p =>
        match k with
        | O => Err tt
        | S k =>
            if ctx n then Ok (WNil, S n)
            else
              let n := S n in
              match lookup m p with
              | None => bubbles k n rng (i + 1) ((p, i) :: m) plyg
              | Some idx =>
                  let pidx := p_idx (length rng) idx in
                  let nidx := n_idx (length rng) i in
                  let m := fold_left delete (firstn (i + 1 - idx) (skipn idx rng)) m in
                  match nth_error rng pidx, nth_error rng nidx with
                  | Some a, Some c =>
                      if negb (nidx =? pidx) && point_equal hi_cmp a c then
                        let m := delete m a in
                        do (sliver, rng) <- cut rng pidx nidx;
                        if (length sliver <? 2) then Panic (* sliver[2:] *)
                        else
                          let sliver := skipn 2 sliver in
                          do plyg <- (if 3 <=? length sliver then do s <- rotate_leftmost sliver; Ok (plyg ++ [s]) else Ok plyg);
                          bubbles k n rng (idx - 1 + 1) m plyg
                      else
                        let remove_b := is_point_on_line hi_cmp p a c in
                        do (sliver, rng) <- cut rng idx i;
                        do sliver <- remove_bridge sliver;
                        do plyg <- (if 3 <=? length sliver then do s <- rotate_leftmost sliver; Ok (plyg ++ [s]) else Ok plyg);
                        if remove_b then
                          do (_, rng) <- cut rng idx (idx + 1);
                          if idx =? 0 then Ok (WRing rng plyg, n)
                          else bubbles k n rng (idx - 1 + 1) m plyg
                        else bubbles k n rng (idx + 1) m plyg
                  | _, _ => Panic
                  end
              end
        end
    end.

  (** walker.go 213-357; nil is None.  The second result is the number of Err
      calls. *)
  Definition polygon_for_ring (n : nat) (rng : list pt) : res unit (option (list (list pt)) * nat) :=
    if (length rng <=? 2) then Ok (None, n)
    else
      do rng <- rotate_leftmost rng;
      do (w, n) <- bubbles ((length rng + 1) * (length rng + 1)) n rng 0 [] [];
      match w with
      | WNil => Ok (None, n)
      | WRing rng plyg =>
          if (length rng <=? 2) then Ok (None, n)
          else do r <- rotate_leftmost rng; Ok (Some (r :: plyg), n)
      end.
End PolygonForRing.

(** ** walker.go: from triangles to rings *)

(** walker.go 16-21; cmp.PointLess is XYLessPoint *)
Definition sorted_edge (p q : pt) : pt * pt := if xy_less p q then (p, q) else (q, p).
(** walker.go 37-43 *)
Definition sorted_edges (t : triangle) : list (pt * pt) :=
  let '(a, b, c) := t in [sorted_edge a b; sorted_edge a c; sorted_edge b c].

(** map[[2][2]float64][]int; walker.go 23-35 *)
Definition edge_map := list ((pt * pt) * list nat).
Fixpoint edge_add (m : edge_map) (e : pt * pt) (i : nat) : edge_map :=
  match m with
  | [] => [(e, [i])]
  | (e', l) :: tl => if edge_eq e' e then (e', l ++ [i]) :: tl else (e', l) :: edge_add tl e i
  end.
Fixpoint edge_get (m : edge_map) (e : pt * pt) : list nat :=
  match m with
  | [] => []
  | (e', l) :: tl => if edge_eq e' e then l else edge_get tl e
  end.
Fixpoint edges_from (i : nat) (ts : list triangle) (m : edge_map) : edge_map :=
  match ts with
  | [] => m
  | t :: tl => edges_from (S i) tl (fold_left (fun m e => edge_add m e i) (sorted_edges t) m)
  end.
Definition edge_map_from_triangles (ts : list triangle) : edge_map := edges_from 0 ts [].

(** map[int]bool *)
Definition seen_in (seen : list nat) (i : nat) : bool := existsb (Nat.eqb i) seen.

(** walker.go 202-210 *)
Definition index_for_edge (m : edge_map) (p q : pt) (dflt : nat) (seen : list nat) : option nat :=
  find (fun i => negb (seen_in seen i || (i =? dflt))) (edge_get m (sorted_edge p q)).

(** The index of the first element equal to [c]. *)
Fixpoint index_of (c : nat) (l : list nat) : option nat :=
  match l with
  | [] => None
  | x :: tl => if x =? c then Some 0 else option_map S (index_of c tl)
  end.

Section Walk.
  Variable ts : list triangle.
  Variable ctx : nat -> bool.
  Let m := edge_map_from_triangles ts.

  (** walker.go 139-198.  Results: the ring, the seen triangles, the number of
      Err calls. *)
  Fixpoint ring_loop (k n idx : nat) (rng : list pt) (head : nat) (cidxs : list nat) (seen : list nat)
      : res unit (list pt * list nat * nat) :=
    if ctx n then Ok (rng, seen, S n)
    else
      let n := S n in
      if (length rng <=? head) || (length cidxs =? 0) then Ok (rng, seen, n)
      else
        match k with
        | O => Err tt
        | S k =>
            match rng, cidxs with
            | p :: _, c :: _ =>
                let q := last rng p in
                match index_for_edge m p q (last cidxs c) seen with
                | None => ring_loop k n idx (q :: removelast rng) (head + 1) (removelast cidxs) seen
                | Some cidx =>
                    if cidx =? idx then Ok (rng, seen, n)
                    else
                      match index_of cidx cidxs with
                      | Some i =>
                          let tlen := length rng - (i + 1) in
                          let tpts := skipn (i + 1) rng in
                          let rng := copy_at tlen rng (firstn (i + 1) rng) in
                          let rng := copy rng tpts in
                          ring_loop k n idx rng (head + tlen) (firstn (i + 1) cidxs) seen
                      | None =>
                          match nth_error ts cidx with
                          | None => Panic
                          | Some t =>
                              ring_loop k n idx (rng ++ [third_point t p q]) head (removelast cidxs ++ [cidx; cidx]) (cidx :: seen)
                          end
                      end
                end
            | _, _ => Panic
            end
        end.

  (** walker.go 117-200 *)
  Definition ring_for_triangle (n idx : nat) (seen : list nat) : res unit (list pt * list nat * nat) :=
    match nth_error ts idx with
    | None => Panic
    | Some t => ring_loop (2 * length ts + 3) n idx (vertices3 t) 0 [idx; idx; idx] (idx :: seen)
    end.

  (** walker.go 108-112.  [ypd] is the orientation of the y axis (Order.YPositiveDown). *)
  Definition polygon_for_triangle (ypd : bool) (n idx : nat) (seen : list nat) : res unit (option (list (list pt)) * list nat * nat) :=
    do (rs, n) <- ring_for_triangle n idx seen;
    let (rng, seen) := (rs : list pt * list nat) in
    do (py, n) <- polygon_for_ring ctx n rng;
    Ok (match py with None => None | Some rs => fst (rectify_polygon ypd rs) end, seen, n).

  (** walker.go 77-105; a nil or empty polygon is not appended, and cancellation
      returns nil. *)
  Fixpoint multi_loop (ypd : bool) (n i : nat) (rest : list triangle) (seen : list nat) (mplyg : list (list (list pt)))
      : res unit (option (list (list (list pt))) * list nat * nat) :=
    match rest with
    | [] => Ok (Some mplyg, seen, n)
    | _ :: tl =>
        if ctx n then Ok (None, seen, S n)
        else
          let n := S n in
          if seen_in seen i then multi_loop ypd n (S i) tl seen mplyg
          else
            do (rs, n) <- polygon_for_triangle ypd n i (i :: seen);
            let (py, seen) := (rs : option (list (list pt)) * list nat) in
            multi_loop ypd n (S i) tl seen (match py with Some (r :: rs) => mplyg ++ [r :: rs] | _ => mplyg end)
    end.
  Definition multi_polygon (ypd : bool) : res unit (option (list (list (list pt))) * list nat * nat) :=
    multi_loop ypd 0 0 ts [] [].
End Walk.
