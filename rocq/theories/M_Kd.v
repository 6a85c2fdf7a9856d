(** * Model of planar/index/kdtree

    A *KdNode is a tree (nil is [KNil]); the pointers set by Insert form a tree
    without sharing, so updating in place is rebuilding the path.  [A] is the
    type of the stored geom.Pointer values and [xy] their XY method. *)
From Coq Require Import ZArith Bool List.
From Verif Require Import Base_F64 Base_F64Arith Base_Geom Base_Res M_Extent M_Heap.
Import ListNotations.

Section Kd.
  Context {A : Type} (xy : A -> point f64).

  (** kdnode.go 15-21 *)
  Inductive kd :=
  | KNil
  | KNode (item : A) (box : extent) (left right : kd).

  (** kdnode.go 24-31, NewKdNode.  NewExtent of one point is that point. *)
  Definition new_node (p : A) : kd :=
    match new_extent [xy p] with
    | Some e => KNode p e KNil KNil
    | None => KNil (* unreachable *)
    end.

  (** p.XY()[d]; [d] is true for index 1 *)
  Definition coord (d : bool) (p : A) : f64 := if d then snd (xy p) else fst (xy p).

  (** kdtree.go 33-77, Insert, from the node reached at dimension [d].  Result:
      the tree, the point of the returned node, and whether the error
      ErrDuplicateNode is returned. *)
  Fixpoint insert_at (d : bool) (p : A) (t : kd) : kd * (A * bool) :=
    match t with
    | KNil => (new_node p, (p, false))
    | KNode q b l r =>
        let b := add_point1 b (xy p) in
        if f64_eq (fst (xy p)) (fst (xy q)) && f64_eq (snd (xy p)) (snd (xy q)) then
          (KNode q b l r, (q, true))
        else if f64_lt (coord d p) (coord d q) then
          let (l, res) := insert_at (negb d) p l in (KNode q b l r, res)
        else
          let (r, res) := insert_at (negb d) p r in (KNode q b l r, res)
    end.
  Definition insert (t : kd) (p : A) : kd * (A * bool) := insert_at false p t.

  (** A history of inserts into an empty tree. *)
  Definition inserts (l : list A) : kd := fold_left (fun t p => fst (insert t p)) l KNil.

  Definition is_nil (t : kd) : bool := match t with KNil => true | _ => false end.

  (** ** nearest_neighbor_iterator.go *)

  (** 15-18 and 32 *)
  Definition entry := (kd * f64)%type.
  Definition entry_less (a b : entry) : bool := f64_lt (snd a) (snd b).

  Variable df : point f64 -> extent -> f64.
  Variable p : point f64.

  (** 99-106: nodeHeap, bboxHeap (currentIt is the result of [next]) *)
  Record iter := It { node_heap : list entry; bbox_heap : list entry }.

  (** 174-186 *)
  Definition push_node (it : iter) (n : kd) : iter :=
    match n with
    | KNil => it
    | KNode q b _ _ =>
        let bh := hpush entry_less (bbox_heap it) (n, df p b) in
        let d := match new_extent [xy q] with Some e => df p e | None => f64_zero end in
        It (hpush entry_less (node_heap it) (n, d)) bh
    end.

  (** 137-146 *)
  Definition new_iterator (t : kd) : iter := push_node (It [] []) t.

  (** 153-171, Next.  [Ok (it, None)]: returns false.  Every turn of the loop
      that does not return replaces a node by its children; running out of
      fuel is [Err] (proved not to happen).  [Panic]: Pop of an empty heap or
      Left of a nil node. *)
  Fixpoint next (fuel : nat) (it : iter) : res unit (iter * option entry) :=
    match fuel with
    | O => Err tt
    | S f =>
        let nh := node_heap it in
        let bh := bbox_heap it in
        if (length nh =? 0)%nat && (length bh =? 0)%nat then Ok (it, None)
        else
          if (0 <? length nh)%nat &&
             ((0 <? length bh)%nat &&
              match nh, bh with a :: _, b :: _ => f64_le (snd a) (snd b) | _, _ => false end
              || (length bh =? 0)%nat)
          then match hpop entry_less nh with
               | Some (e, nh) => Ok (It nh bh, Some e)
               | None => Panic
               end
          else match hpop entry_less bh with
               | Some ((KNode _ _ l r, _), bh) =>
                   next f (push_node (push_node (It nh bh) l) r)
               | _ => Panic
               end
    end.

  Fixpoint size (t : kd) : nat :=
    match t with KNil => 0 | KNode _ _ l r => S (size l + size r) end.
  Definition sizes (h : list entry) : nat := fold_right (fun e n => (size (fst e) + n)%nat) O h.
  Definition next_fuel (it : iter) : nat := S (sizes (bbox_heap it)).

  (** 189-191, Value after a successful Next *)
  Definition value (e : entry) : option (A * f64) :=
    match fst e with KNil => None | KNode q _ _ _ => Some (q, snd e) end.

  (** Calling Next [n] times: the values seen, and whether Next returned false
      on the way. *)
  Fixpoint iterate (n : nat) (it : iter) : res unit (list (A * f64) * bool * iter) :=
    match n with
    | O => Ok ([], false, it)
    | S n =>
        do (it, r) <- next (next_fuel it) it;
        match r with
        | None => Ok ([], true, it)
        | Some e =>
            match value e with
            | None => Panic
            | Some v => do (vs, b, it) <- iterate n it; Ok (v :: vs, b, it)
            end
        end
    end.
End Kd.
Arguments kd : clear implicits.
Arguments entry : clear implicits.
Arguments iter : clear implicits.

(** nearest_neighbor_iterator.go 58-62 *)
Definition distance (c1 c2 : point f64) : f64 :=
  let v1 := f64_sub (fst c2) (fst c1) in
  let v2 := f64_sub (snd c2) (snd c1) in
  f64_sqrt (f64_add (f64_mul v1 v1) (f64_mul v2 v2)).

(** nearest_neighbor_iterator.go 64-97 *)
Definition euclidean_distance (p : point f64) (e : extent) : f64 :=
  if contains_point (Some e) p then f64_zero
  else
    let x := fst p in
    let y := snd p in
    if f64_lt x (e0 e) then
      if f64_lt y (e1 e) then distance p (e0 e, e1 e)
      else if f64_gt y (e3 e) then distance p (e0 e, e3 e)
      else f64_sub (e0 e) x
    else if f64_gt x (e2 e) then
      if f64_lt y (e1 e) then distance p (e2 e, e1 e)
      else if f64_gt y (e3 e) then distance p (e2 e, e3 e)
      else f64_sub x (e2 e)
    else if f64_lt y (e1 e) then f64_sub (e1 e) y
    else f64_sub y (e3 e).
