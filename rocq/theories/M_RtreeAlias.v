(** * Model of internal/rtreego: insertion into a bulk loaded tree, with the
    storage of the leaves

    omt (rtree.go 165-169) makes every leaf a slice of the one array of entries
    allocated by bulkLoad (113-119).  Their capacity reaches to the end of the
    array (walkPartitions slices with two indices, 97 and 99), so append
    (rtree.go 254) writes into the array. *)
From Coq Require Import ZArith Bool List.
From Verif Require Import Base_F64 Base_F64Arith Base_Res M_Rtree.
Import ListNotations.

Section Alias.
  Context {A : Type} (bounds : A -> rect).

  (** The entries of a leaf: its own array, or part of the shared one. *)
  Inductive slice := Own (es : list (rect * A)) | Shared (off len : nat).
  Inductive anode := ALeaf (level : Z) (s : slice) | AInner (level : Z) (es : list (rect * anode)).

  Definition read (arr : list (rect * A)) (s : slice) : list (rect * A) :=
    match s with
    | Own es => es
    | Shared off len => firstn len (skipn off arr)
    end.

  (** append(leaf.entries, e), rtree.go 254; a grown slice is a copy *)
  Definition append (arr : list (rect * A)) (s : slice) (e : rect * A) : list (rect * A) * slice :=
    match s with
    | Own es => (arr, Own (es ++ [e]))
    | Shared off len =>
        if (off + len <? length arr)%nat then
          (firstn (off + len) arr ++ e :: skipn (off + len + 1) arr, Shared off (len + 1))
        else (arr, Own (read arr s ++ [e]))
    end.

  (** The tree seen by a reader. *)
  Fixpoint view (arr : list (rect * A)) (n : anode) : node A :=
    match n with
    | ALeaf level s => Node true level (map (fun e => (fst e, inr (snd e))) (read arr s))
    | AInner level es => Node false level (map (fun e => (fst e, inl (view arr (snd e)))) es)
    end.

  Variables (min max : nat).

  (** rtree.go 358-402 on entries with content [X] (split never looks into
      them).  The new groups have their own arrays; the array of the node is
      reused for the remaining entries, which changes nothing that is read again. *)
  Definition split_pairs {X} (es : list (rect * X)) : res unit (list (rect * X) * list (rect * X)) :=
    let back (l : list (entry X)) := flat_map (fun e => match snd e with inr x => [(fst e, x)] | inl _ => [] end) l in
    do (l, r) <- split min (map (fun e => (fst e, inr (snd e))) es);
    Ok (back l, back r).

  Definition a_box (arr : list (rect * A)) (n : anode) : res unit rect :=
    match n with
    | ALeaf _ s => bounding_box_n (map fst (read arr s))
    | AInner _ es => bounding_box_n (map fst es)
    end.

  Definition a_overflow (level : Z) (es : list (rect * anode)) : res unit (anode * option anode) :=
    if (max <? length es)%nat then
      do (l, r) <- split_pairs es; Ok (AInner level l, Some (AInner level r))
    else Ok (AInner level es, None).

  (** rtree.go 252-332, insertion at level 1 *)
  Fixpoint a_insert_at (arr : list (rect * A)) (e : rect * A) (n : anode) {struct n}
    : res unit (list (rect * A) * anode * option anode) :=
    match n with
    | ALeaf level s =>
        let '(arr, s) := append arr s e in
        if (max <? length (read arr s))%nat then
          do (l, r) <- split_pairs (read arr s); Ok (arr, ALeaf level (Own l), Some (ALeaf level (Own r)))
        else Ok (arr, ALeaf level s, None)
    | AInner level es =>
        do i <- choose_index (map fst es) (fst e);
        (fix go (i : nat) (before rest : list (rect * anode)) {struct rest} : res unit (list (rect * A) * anode * option anode) :=
           match rest with
           | [] => Panic
           | (bb, c) :: tl =>
               match i with
               | S i => go i (before ++ [(bb, c)]) tl
               | O =>
                   do (r, spl) <- a_insert_at arr e c;
                   let '(arr, c) := r in
                   do bb <- a_box arr c;
                   match spl with
                   | None => Ok (arr, AInner level (before ++ (bb, c) :: tl), None)
                   | Some c2 =>
                       do bb2 <- a_box arr c2;
                       do (n, spl) <- a_overflow level ((before ++ (bb, c) :: tl) ++ [(bb2, c2)]);
                       Ok (arr, n, spl)
                   end
               end
           end) i [] es
    end.

  (** A tree: the array, the root, the size and the height. *)
  Record atree := Atree { a_arr : list (rect * A); a_root : anode; a_size : Z; a_height : Z }.
  Definition a_insert (t : atree) (a : A) : res unit atree :=
    do (r, spl) <- a_insert_at (a_arr t) (bounds a, a) (a_root t);
    let '(arr, r) := r in
    match spl with
    | None => Ok (Atree arr r (a_size t + 1) (a_height t))
    | Some r2 =>
        let h := (a_height t + 1)%Z in
        do bb <- a_box arr r;
        do bb2 <- a_box arr r2;
        Ok (Atree arr (AInner h [(bb, r); (bb2, r2)]) (a_size t + 1) h)
    end.

  (** The storage of a bulk loaded tree: the array holds the entries of the
      leaves in order (the sorts of omt are in place), leaf after leaf. *)
  Fixpoint share (off : nat) (n : node A) : nat * anode :=
    match n with
    | Node leaf level es =>
        if leaf then (off + length es, ALeaf level (Shared off (length es)))%nat
        else
          let '(off, es) :=
            fold_left (fun acc e =>
              match snd e with
              | inl c => let '(off, c) := share (fst acc) c in (off, snd acc ++ [(fst e, c)])
              | inr _ => acc
              end) es (off, []) in
          (off, AInner level es)
    end.
  Fixpoint leaf_entries (n : node A) : list (rect * A) :=
    match n with
    | Node _ _ es => flat_map (fun e => match snd e with inl c => leaf_entries c | inr a => [(fst e, a)] end) es
    end.
  Definition stored (t : rtree A) : atree :=
    Atree (leaf_entries (root t)) (snd (share 0 (root t))) (t_size t) (height t).
End Alias.
Arguments slice : clear implicits.
Arguments anode : clear implicits.
Arguments atree : clear implicits.
