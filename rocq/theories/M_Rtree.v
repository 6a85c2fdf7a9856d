(** * Model of internal/rtreego

    Pointers between nodes and their parents form a tree without sharing, so
    updating in place is rebuilding the path from the root; the parent pointers
    are this path.  [A] is the type of the stored Spatial values and [bounds]
    their Bounds method (a function of the value).  All rectangles and points
    have the same dimension: with different ones the code panics (DimError),
    which is not modelled. *)
From Coq Require Import ZArith Bool List.
From Verif Require Import Base_F64 Base_F64Arith Base_Res.
Import ListNotations.

(** geom.go 126-128: Rect, one pair (p[i], q[i]) for each dimension. *)
Definition rect := list (f64 * f64).

(** geom.go 165-181, NewRect, for a point and lengths of the same dimension *)
Fixpoint new_rect (p lengths : list f64) : option rect :=
  match p, lengths with
  | x :: p, l :: lengths =>
      if f64_le l f64_zero then None
      else match new_rect p lengths with
           | None => None
           | Some r => Some ((x, f64_add x l) :: r)
           end
  | [], [] => Some []
  | _, _ => None
  end.

(** geom.go 184-191 *)
Definition size (r : rect) : f64 :=
  fold_left (fun s ab => f64_mul s (f64_sub (snd ab) (fst ab))) r f64_one.

(** geom.go 230-247 *)
Definition contains_rect (r r2 : rect) : bool :=
  forallb (fun i => negb (f64_gt (fst (fst i)) (fst (snd i)) || f64_gt (snd (snd i)) (snd (fst i)))) (combine r r2).

(** geom.go 251-297 *)
Fixpoint intersect (r1 r2 : rect) : option rect :=
  match r1, r2 with
  | (a1, b1) :: r1, (a2, b2) :: r2 =>
      if f64_le b2 a1 || f64_le b1 a2 then None
      else match intersect r1 r2 with
           | None => None
           | Some r => Some ((f64_maxf a1 a2, f64_min b1 b2) :: r)
           end
  | _, _ => Some []
  end.

(** geom.go 311-332 *)
Definition bounding_box (r1 r2 : rect) : rect :=
  map (fun i => (if f64_le (fst (fst i)) (fst (snd i)) then fst (fst i) else fst (snd i),
                 if f64_le (snd (fst i)) (snd (snd i)) then snd (snd i) else snd (fst i))) (combine r1 r2).

(** geom.go 335-345; rects[0] of none panics *)
Definition bounding_box_n (rs : list rect) : res unit rect :=
  match rs with
  | [] => Panic
  | r :: tl => Ok (fold_left bounding_box tl r)
  end.

Section Rtree.
  Context {A : Type} (bounds : A -> rect).

  (** rtree.go 208-213 and 220-224; an entry has a child or an object. *)
  Inductive node := Node (leaf : bool) (level : Z) (entries : list (rect * (node + A))).
  Local Notation entry := (rect * (node + A))%type.

  Definition n_leaf (n : node) : bool := match n with Node b _ _ => b end.
  Definition n_level (n : node) : Z := match n with Node _ l _ => l end.
  Definition n_entries (n : node) : list entry := match n with Node _ _ es => es end.

  (** rtree.go 347-354 *)
  Definition compute_bb (es : list entry) : res unit rect := bounding_box_n (map fst es).

  (** ** Insertion *)

  (** rtree.go 289-301, the loop of chooseNode: [chosen] is the index and box of
      the entry chosen so far.  chosen.bb.size() panics when there is none. *)
  Fixpoint choose (e : rect) (i : nat) (diff : f64) (chosen : option (nat * rect)) (rs : list rect)
    : res unit (option (nat * rect)) :=
    match rs with
    | [] => Ok chosen
    | r :: tl =>
        let d := f64_sub (size (bounding_box r e)) (size r) in
        if f64_lt d diff then choose e (S i) d (Some (i, r)) tl
        else if f64_eq d diff then
          match chosen with
          | None => Panic
          | Some (_, c) =>
              if f64_lt (size r) (size c) then choose e (S i) d (Some (i, r)) tl
              else choose e (S i) diff chosen tl
          end
        else choose e (S i) diff chosen tl
    end.
  (** The recursive call on the child of an empty entry panics. *)
  Definition choose_index (rs : list rect) (e : rect) : res unit nat :=
    do c <- choose e 0 f64_max None rs;
    match c with
    | None => Panic
    | Some (i, _) => Ok i
    end.

  (** rtree.go 463-476; [acc]: left, right, maxWastedSpace *)
  Fixpoint seeds_row (r1 : rect) (i j : nat) (rs : list rect) (acc : nat * nat * f64) : nat * nat * f64 :=
    match rs with
    | [] => acc
    | r2 :: tl =>
        let d := f64_sub (f64_sub (size (bounding_box r1 r2)) (size r1)) (size r2) in
        seeds_row r1 i (S j) tl (if f64_gt d (snd acc) then (i, j, d) else acc)
    end.
  Fixpoint seeds (i : nat) (rs : list rect) (acc : nat * nat * f64) : nat * nat * f64 :=
    match rs with
    | [] => acc
    | r1 :: tl => seeds (S i) tl (seeds_row r1 i (S i) tl acc)
    end.
  Definition pick_seeds (rs : list rect) : nat * nat := fst (seeds 0 rs (0%nat, 1%nat, f64_mone)).

  (** rtree.go 479-493 *)
  Fixpoint pick_next_from (lbb rbb : rect) (i next : nat) (maxd : f64) (rs : list rect) : nat :=
    match rs with
    | [] => next
    | r :: tl =>
        let d1 := f64_sub (size (bounding_box lbb r)) (size lbb) in
        let d2 := f64_sub (size (bounding_box rbb r)) (size rbb) in
        let d := f64_abs (f64_sub d1 d2) in
        if f64_gt d maxd then pick_next_from lbb rbb (S i) i d tl
        else pick_next_from lbb rbb (S i) next maxd tl
    end.
  Definition pick_next (lbb rbb : rect) (rs : list rect) : nat := pick_next_from lbb rbb 0 0 f64_mone rs.

  (** rtree.go 428-460: true for the left group *)
  Definition to_left (lbb rbb : rect) (nl nr : nat) (r : rect) : bool :=
    let ld := f64_sub (size (bounding_box lbb r)) (size lbb) in
    let rd := f64_sub (size (bounding_box rbb r)) (size rbb) in
    let diff := f64_sub ld rd in
    if f64_lt diff f64_zero then true
    else if f64_gt diff f64_zero then false
    else
      let diff := f64_sub (size lbb) (size rbb) in
      if f64_lt diff f64_zero then true
      else if f64_gt diff f64_zero then false
      else (nl <=? nr)%nat.

  (** rtree.go 386-399.  The fuel is the number of remaining entries. *)
  Fixpoint distribute (min : nat) (fuel : nat) (remaining left right : list entry)
    : res unit (list entry * list entry) :=
    match remaining with
    | [] => Ok (left, right)
    | _ =>
        match fuel with
        | O => Err tt
        | S fuel =>
            do lbb <- compute_bb left;
            do rbb <- compute_bb right;
            let next := pick_next lbb rbb (map fst remaining) in
            match nth_error remaining next with
            | None => Panic
            | Some e =>
                let remaining' := firstn next remaining ++ skipn (next + 1) remaining in
                if (length remaining + length left <=? min)%nat then distribute min fuel remaining' (left ++ [e]) right
                else if (length remaining + length right <=? min)%nat then distribute min fuel remaining' left (right ++ [e])
                else if to_left lbb rbb (length left) (length right) (fst e) then
                  distribute min fuel remaining' (left ++ [e]) right
                else distribute min fuel remaining' left (right ++ [e])
            end
        end
    end.

  (** rtree.go 358-402, on the entries of the node *)
  Definition split (min : nat) (es : list entry) : res unit (list entry * list entry) :=
    let '(l, r) := pick_seeds (map fst es) in
    match nth_error es l, nth_error es r with
    | Some ls, Some rs =>
        let remaining := firstn l es ++ firstn (r - (l + 1)) (skipn (l + 1) es) ++ skipn (r + 1) es in
        distribute min (length remaining) remaining [ls] [rs]
    | _, _ => Panic
    end.

  Variables (min max : nat).

  (** rtree.go 262-264 and 326-328: a node with its new entries, split if it
      overflows *)
  Definition overflow (leaf : bool) (level : Z) (es : list entry) : res unit (node * option node) :=
    if (max <? length es)%nat then
      do (l, r) <- split min es;
      Ok (Node leaf level l, Some (Node leaf level r))
    else Ok (Node leaf level es, None).

  (** rtree.go 252-264, 284-302 and 305-332 (insert, chooseNode, adjustTree):
      down to the node at [lvl], and back up.  The entry of the child is resized,
      and the node split off the child added. *)
  Fixpoint insert_at (e : entry) (lvl : Z) (n : node) {struct n} : res unit (node * option node) :=
    match n with
    | Node leaf level es =>
        if leaf || (level =? lvl)%Z then overflow leaf level (es ++ [e])
        else
          do i <- choose_index (map fst es) (fst e);
          (fix go (i : nat) (before rest : list entry) {struct rest} : res unit (node * option node) :=
             match rest with
             | [] => Panic
             | (bb, s) :: tl =>
                 match i with
                 | S i => go i (before ++ [(bb, s)]) tl
                 | O =>
                     match s with
                     | inr _ => Panic
                     | inl c =>
                         do (c, spl) <- insert_at e lvl c;
                         do bb <- compute_bb (n_entries c);
                         match spl with
                         | None => Ok (Node leaf level (before ++ (bb, inl c) :: tl), None)
                         | Some c2 =>
                             do bb2 <- compute_bb (n_entries c2);
                             overflow leaf level ((before ++ (bb, inl c) :: tl) ++ [(bb2, inl c2)])
                         end
                     end
                 end
             end) i [] es
    end.

  (** rtree.go 24-31 *)
  Record rtree := Rtree { root : node; t_size : Z; height : Z }.

  (** rtree.go 265-280 *)
  Definition insert_entry (t : rtree) (e : entry) (lvl : Z) : res unit rtree :=
    do (r, spl) <- insert_at e lvl (root t);
    match spl with
    | None => Ok (Rtree r (t_size t) (height t))
    | Some r2 =>
        let h := (height t + 1)%Z in
        do bb <- compute_bb (n_entries r);
        do bb2 <- compute_bb (n_entries r2);
        Ok (Rtree (Node false h [(bb, inl r); (bb2, inl r2)]) (t_size t) h)
    end.

  (** rtree.go 245-249 *)
  Definition insert (t : rtree) (a : A) : res unit rtree :=
    do t <- insert_entry t (bounds a, inr a) 1;
    Ok (Rtree (root t) (t_size t + 1) (height t)).
  Fixpoint inserts (t : rtree) (l : list A) : res unit rtree :=
    match l with
    | [] => Ok t
    | a :: tl => do t <- insert t a; inserts t tl
    end.
  (** rtree.go 37-47 *)
  Definition empty_tree : rtree := Rtree (Node true 1 []) 0 1.

  (** ** Bulk loading

      The sort used is an argument ([sorted d l]: the entries [l] sorted by
      dimension [d]), and so are the numbers computed in floating point. *)
  Variable sorted : nat -> list entry -> list entry.
  Variable dim : nat.

  (** rtree.go 93-100: the partitions.  [objs[(n-1)*k:]] panics with no objects,
      and [k = 0] divides by zero. *)
  Fixpoint parts_from (fuel k : nat) (l : list entry) : list (list entry) :=
    match fuel with
    | O => []
    | S f => if (length l <=? k)%nat then [l] else firstn k l :: parts_from f k (skipn k l)
    end.
  Definition partitions (k : nat) (l : list entry) : res unit (list (list entry)) :=
    if (k =? 0)%nat || (length l =? 0)%nat then Panic else Ok (parts_from (length l) k l).

  (** The closures given to walkPartitions, run on each part in order; a Go
      [int] index becomes the position. *)
  Fixpoint mapm {X Y} (f : X -> res unit Y) (l : list X) : res unit (list Y) :=
    match l with
    | [] => Ok []
    | x :: tl => do y <- f x; do ys <- mapm f tl; Ok (y :: ys)
    end.

  Definition child_entry (c : node) : res unit entry :=
    do bb <- compute_bb (n_entries c); Ok (bb, inl c).

  (** rtree.go 149-205; [top] is tree.height.  (top - level + 1) % dim is a
      non-negative number below dim when level <= top+1.  Running out of fuel is
      [Err]. *)
  Fixpoint omt (fuel : nat) (top level nslices : Z) (objs : list entry) (m : nat) : res unit node :=
    match fuel with
    | O => Err tt
    | S fuel =>
        if (length objs <=? m)%nat then
          if (1 <? level)%Z then
            do child <- omt fuel top (level - 1) nslices objs m;
            do e <- child_entry child;
            Ok (Node false level [e])
          else Ok (Node true level objs)
        else if (m =? 0)%nat then Panic
        else
          let k := ((length objs + m - 1) / m)%nat in
          let vert_size := if (1 <? nslices)%Z then (Z.to_nat nslices * k)%nat else length objs in
          do verts <- partitions vert_size objs;
          do ess <- mapm (fun vert =>
                    let vert := sorted (Z.to_nat ((top - level + 1) mod Z.of_nat dim)) vert in
                    do ps <- partitions k vert;
                    mapm (fun part => do c <- omt fuel top (level - 1) 1 part max; child_entry c) ps) verts;
          Ok (Node false level (concat ess))
    end.

  (** rtree.go 108-145.  [h], [s] and [nslices] are the results of the float
      computations (Eq1, Eq3). *)
  Definition bulk_load (fuel : nat) (h s nslices : Z) (objs : list A) : res unit rtree :=
    let entries := sorted 0 (map (fun a => (bounds a, inr a)) objs) in
    do r <- omt fuel h h nslices entries (Z.to_nat s);
    Ok (Rtree r (Z.of_nat (length objs)) h).

  (** rtree.go 36-58 *)
  Definition new_tree (fuel : nat) (h s nslices : Z) (objs : list A) : res unit rtree :=
    if (length objs <=? max)%nat then inserts empty_tree objs
    else bulk_load fuel h s nslices objs.

  (** ** Searching *)

  (** filter.go 7 and 13-21; a filter is a function of the results so far. *)
  Definition filter_fn := list A -> A -> bool * bool.
  Fixpoint apply_filters (results : list A) (a : A) (fs : list filter_fn) : bool * bool :=
    match fs with
    | [] => (false, false)
    | f :: tl =>
        let '(refuse, abort) := f results a in
        if refuse || abort then (refuse, abort) else apply_filters results a tl
    end.
  (** filter.go 24-32 *)
  Definition limit_filter (limit : Z) : filter_fn :=
    fun results _ => if (limit <=? Z.of_nat (length results))%Z then (true, true) else (false, false).

  (** rtree.go 624-645.  e.child of an entry with an object panics; e.obj of an
      entry with a child is nil, which is not modelled (leaves hold objects). *)
  Fixpoint search (bb : rect) (fs : list filter_fn) (results : list A) (n : node) : res unit (list A) :=
    match n with
    | Node leaf _ es =>
        (fix go (results : list A) (es : list entry) : res unit (list A) :=
           match es with
           | [] => Ok results
           | (r, s) :: tl =>
               match intersect r bb with
               | None => go results tl
               | Some _ =>
                   if negb leaf then
                     match s with
                     | inl c => do results <- search bb fs results c; go results tl
                     | inr _ => Panic
                     end
                   else
                     match s with
                     | inl _ => Panic
                     | inr a =>
                         let '(refuse, abort) := apply_filters results a fs in
                         let results := if refuse then results else results ++ [a] in
                         if abort then Ok results else go results tl
                     end
               end
           end) results es
    end.
  (** rtree.go 605-607, 615-622 *)
  Definition search_intersect (t : rtree) (bb : rect) (fs : list filter_fn) : res unit (list A) :=
    search bb fs [] (root t).
  Definition search_intersect_with_limit (t : rtree) (k : Z) (bb : rect) : res unit (list A) :=
    if (k <? 0)%Z then search_intersect t bb [] else search_intersect t bb [limit_filter k].

  (** ** Deletion *)

  Variable cmp : A -> A -> bool.

  Definition holds (obj : A) (n : node) : bool :=
    existsb (fun e => match snd e with inr a => cmp a obj | inl _ => false end) (n_entries n).

  (** The index of the last match, rtree.go 517-522. *)
  Fixpoint last_match (obj : A) (i : nat) (found : option nat) (es : list entry) : option nat :=
    match es with
    | [] => found
    | (_, s) :: tl =>
        last_match obj (S i) (match s with inr a => if cmp a obj then Some i else found | inl _ => found end) tl
    end.

  (** rtree.go 542-562 and 517-529 and 565-591: find the leaf, remove the entry,
      and condense on the way up.  The result: whether the leaf was found, the
      new node, and the nodes detached below it, lowest first.  findLeaf returns
      a root that is a leaf without looking into it, a leaf below only if it
      holds the object; then the entry removed is the last match. *)
  Fixpoint delete_at (obj : A) (n : node) {struct n} : res unit (option (node * list node)) :=
    match n with
    | Node leaf level es =>
        if leaf then
          match last_match obj 0 None es with
          | None => Ok None
          | Some i => Ok (Some (Node leaf level (firstn i es ++ skipn (i + 1) es), []))
          end
        else
          (fix go (before rest : list entry) {struct rest} : res unit (option (node * list node)) :=
             match rest with
             | [] => Ok None
             | (bb, s) :: tl =>
                 if contains_rect bb (bounds obj) then
                   match s with
                   | inr _ => Panic
                   | inl c =>
                       do found <- delete_at obj c;
                       match found with
                       | None => go (before ++ [(bb, s)]) tl
                       | Some (c, gone) =>
                           if (length (n_entries c) <? min)%nat then
                             let gone := if (0 <? length (n_entries c))%nat then gone ++ [c] else gone in
                             Ok (Some (Node leaf level (before ++ tl), gone))
                           else
                             do bb <- compute_bb (n_entries c);
                             Ok (Some (Node leaf level (before ++ (bb, inl c) :: tl), gone))
                       end
                   end
                 else go (before ++ [(bb, s)]) tl
             end) [] es
    end.

  (** rtree.go 593-597 *)
  Fixpoint reinsert (t : rtree) (gone : list node) : res unit rtree :=
    match gone with
    | [] => Ok t
    | n :: tl =>
        do bb <- compute_bb (n_entries n);
        do t <- insert_entry t (bb, inl n) (n_level n + 1);
        reinsert t tl
    end.

  (** rtree.go 511-539 *)
  Definition delete (t : rtree) (obj : A) : res unit (rtree * bool) :=
    do found <- delete_at obj (root t);
    match found with
    | None => Ok (t, false)
    | Some (r, gone) =>
        do t <- reinsert (Rtree r (t_size t) (height t)) gone;
        let r := match root t with
                 | Node false _ [(_, inl c)] => c
                 | r => r
                 end in
        Ok (Rtree r (t_size t - 1) (n_level r), true)
    end.

  (** ** Nearest neighbours *)

  (** geom.go 51-68 *)
  Definition min_dist (p : list f64) (r : rect) : f64 :=
    fold_left (fun sum i =>
      let '(pi, (a, b)) := i in
      if f64_lt pi a then let d := f64_sub pi a in f64_add sum (f64_mul d d)
      else if f64_gt pi b then let d := f64_sub pi b in f64_add sum (f64_mul d d)
      else f64_add sum f64_zero) (combine p r) f64_zero.

  (** geom.go 76-122 *)
  Definition mid (i : f64 * f64) : f64 := f64_div (f64_add (fst i) (snd i)) f64_two.
  Definition r_m (pk : f64) (i : f64 * f64) : f64 := if f64_le pk (mid i) then fst i else snd i.
  Definition r_M (pk : f64) (i : f64 * f64) : f64 := if f64_ge pk (mid i) then fst i else snd i.
  Definition min_max_dist (p : list f64) (r : rect) : f64 :=
    let s := fold_left (fun s i => let d := f64_sub (fst i) (r_M (fst i) (snd i)) in f64_add s (f64_mul d d))
               (combine p r) f64_zero in
    fold_left (fun min i =>
      let d1 := f64_sub (fst i) (r_M (fst i) (snd i)) in
      let d2 := f64_sub (fst i) (r_m (fst i) (snd i)) in
      let d := f64_add (f64_sub s (f64_mul d1 d1)) (f64_mul d2 d2) in
      if f64_lt d min then d else min) (combine p r) f64_max.

  (** rtree.go 666-699: entries with their distances, sorted by
      [sort_dists]. *)
  Variable sort_dists : list (entry * f64) -> list (entry * f64).
  Definition sort_entries (p : list f64) (es : list entry) : list (entry * f64) :=
    sort_dists (map (fun e => (e, min_dist p (fst e))) es).

  (** rtree.go 701-717 *)
  Definition prune_entries (p : list f64) (l : list (entry * f64)) : list (entry * f64) :=
    let m := fold_left (fun m e => let d := min_max_dist p (fst (fst e)) in if f64_lt d m then d else m) l f64_max in
    filter (fun e => f64_le (snd e) m) l.

  (** rtree.go 719-727 *)
  Fixpoint prune_min_dist (d : f64) (l : list (entry * f64)) : list (entry * f64) :=
    match l with
    | [] => []
    | e :: tl => if f64_gt (snd e) d then [] else e :: prune_min_dist d tl
    end.

  (** rtree.go 729-751, by fuel (the height of the tree) because the order of
      the recursive calls is computed. *)
  Fixpoint nearest (fuel : nat) (p : list f64) (n : node) (d : f64) (best : option A) : res unit (option A * f64) :=
    match fuel with
    | O => Err tt
    | S fuel =>
        match n with
        | Node leaf _ es =>
            if leaf then
              Ok (fold_left (fun acc e =>
                    let dist := f64_sqrt (min_dist p (fst e)) in
                    if f64_lt dist (snd acc) then (match snd e with inr a => Some a | inl _ => None end, dist) else acc)
                  es (best, d))
            else
              (fix go (l : list (entry * f64)) (best : option A) (d : f64) : res unit (option A * f64) :=
                 match l with
                 | [] => Ok (best, d)
                 | ((_, inr _), _) :: _ => Panic
                 | ((_, inl c), _) :: tl =>
                     do (sub, dist) <- nearest fuel p c d best;
                     if f64_lt dist d then go tl sub dist else go tl best d
                 end) (prune_entries p (sort_entries p es)) best d
        end
    end.
  Definition nearest_neighbor (fuel : nat) (t : rtree) (p : list f64) : res unit (option A) :=
    do (a, _) <- nearest fuel p (root t) f64_max None; Ok a.

  (** rtree.go 770-800 without filters.  [acc]: the results with their
      distances.  The binary search followed by the loop over equal distances
      stops at the first greater distance (dists is sorted, no NaN). *)
  Fixpoint insert_sorted (d : f64) (a : A) (acc : list (A * f64)) : list (A * f64) :=
    match acc with
    | [] => [(a, d)]
    | x :: tl => if f64_ge d (snd x) then x :: insert_sorted d a tl else (a, d) :: acc
    end.
  Definition insert_nearest (k : nat) (acc : list (A * f64)) (d : f64) (a : A) : list (A * f64) :=
    firstn k (insert_sorted d a acc).

  (** rtree.go 802-826.  The preallocated buffers are disjoint at each level. *)
  Fixpoint nearests (fuel k : nat) (p : list f64) (n : node) (acc : list (A * f64)) : res unit (list (A * f64)) :=
    match fuel with
    | O => Err tt
    | S fuel =>
        match n with
        | Node leaf _ es =>
            if leaf then
              (fix go (es : list entry) (acc : list (A * f64)) : res unit (list (A * f64)) :=
                 match es with
                 | [] => Ok acc
                 | (_, inl _) :: _ => Panic
                 | (r, inr a) :: tl => go tl (insert_nearest k acc (min_dist p r) a)
                 end) es acc
            else
              let branches := sort_entries p es in
              do branches <-
                (if (k <=? length acc)%nat then
                   match rev acc with
                   | [] => Panic
                   | (_, d) :: _ => Ok (prune_min_dist d branches)
                   end
                 else Ok branches);
              (fix go (l : list (entry * f64)) (acc : list (A * f64)) : res unit (list (A * f64)) :=
                 match l with
                 | [] => Ok acc
                 | ((_, inr _), _) :: _ => Panic
                 | ((_, inl c), _) :: tl => do acc <- nearests fuel k p c acc; go tl acc
                 end) branches acc
        end
    end.
  (** rtree.go 754-767 *)
  Definition nearest_neighbors (fuel k : nat) (t : rtree) (p : list f64) : res unit (list A) :=
    do r <- nearests fuel k p (root t) []; Ok (map fst r).
End Rtree.
Arguments node : clear implicits.
Notation entry A := (rect * (node A + A))%type.
Arguments rtree : clear implicits.
Arguments filter_fn : clear implicits.
