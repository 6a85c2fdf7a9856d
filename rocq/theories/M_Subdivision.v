(** * Model of planar/triangulate/delaunay/subdivision/subdivision.go: walking over
    the graph and the index of vertices

    The memory, the edges and the points are those of M_Quadedge.  Callbacks are
    functions of their arguments; a callback which changes the graph is not
    modelled.  The debugging output is left out. *)
From Coq Require Import Bool List Arith.
From Verif Require Import Base_Res M_Quadedge.
Import ListNotations.

(** What the callback of WalkAllEdges returns: nil, ErrCancelled or another error. *)
Inductive outcome (E : Type) := Continue | Cancelled | Fail (err : E).
Arguments Continue {E}. Arguments Cancelled {E}. Arguments Fail {E} err.

Section Walk.
  Context {P : Type}.

  (** The loop of WalkAllEdges, subdivision.go 624-650: the edges [fn] is called
      with and the error which is returned.  The top of the stack (stack.go 6-22) is
      the head of [stack]; [visited] is the map.  [None] when [fuel] is used up. *)
  Fixpoint walk_loop {E} (fuel : nat) (m : mem P) (fn : edge -> outcome E) (visited stack : list edge)
    : option (list edge * option E) :=
    match fuel with
    | O => None
    | S fuel =>
        match stack with
        | [] => Some ([], None)
        | e :: stack =>
            if existsb (edge_eqb e) visited then walk_loop fuel m fn visited stack
            else match fn e with
                 | Cancelled => Some ([e], None)
                 | Fail err => Some ([e], Some err)
                 | Continue =>
                     match walk_loop fuel m fn (sym e :: e :: visited) (onext m (sym e) :: onext m e :: stack) with
                     | Some (calls, err) => Some (e :: calls, err)
                     | None => None
                     end
                 end
        end
    end.
  (** WalkAllEdges, subdivision.go 620-651 and 459-465; [None] is the nil edge (and
      the nil Subdivision). *)
  Definition walk_all_edges {E} (m : mem P) (fn : edge -> outcome E) (se : option edge)
    : option (list edge * option E) :=
    match se with
    | None => Some ([], None)
    | Some se => walk_loop (4 * count m + 3) m fn [] [se]
    end.

  (** ** VertexIndex

      A map is a list of keys and values with the keys distinct for [same], the ==
      of geom.Point; [round] is roundGeomPoint. *)
  Section Index.
    Variable same : P -> P -> bool.
    Variable round : P -> P.
    Definition index := list (P * edge).

    Fixpoint lookup (vx : index) (p : P) : option edge :=
      match vx with
      | [] => None
      | (q, e) :: vx => if same p q then Some e else lookup vx p
      end.
    Definition put_new (vx : index) (p : P) (e : edge) : index :=
      match lookup vx p with Some _ => vx | None => (p, e) :: vx end.
    Definition drop (vx : index) (p : P) : index := filter (fun '(q, _) => negb (same p q)) vx.

    (** Add, subdivision.go 563-575 *)
    Definition vx_add (m : mem P) (vx : index) (e : edge) : res unit index :=
      match orig m e, dest m e with
      | Some o, Some d => Ok (put_new (put_new vx (round o) e) (round d) (sym e))
      | _, _ => Panic
      end.
    (** Get, subdivision.go 578-582 *)
    Definition vx_get (vx : index) (p : P) : option edge := lookup vx (round p).
    (** Remove, subdivision.go 585-611.  [ve] is one of e, e.Sym(), e.Rot() and
        e.Rot().Sym() *)
    Definition vx_remove1 (m : mem P) (e : edge) (vx : index) (p : P) : index :=
      let v := round p in
      match lookup vx v with
      | None => vx
      | Some ve =>
          if existsb (edge_eqb ve) [e; sym e; rot e; sym (rot e)] then
            let vx := drop vx v in
            if edge_eqb ve (onext m ve) then vx else (v, onext m ve) :: vx
          else vx
      end.
    Definition vx_remove (m : mem P) (vx : index) (e : edge) : res unit index :=
      match orig m e, dest m e with
      | Some o, Some d => Ok (vx_remove1 m e (vx_remove1 m e vx o) d)
      | _, _ => Panic
      end.
    (** NewVertexIndex, subdivision.go 553-560, and VertexIndex, 548-550 *)
    Fixpoint add_all (m : mem P) (vx : index) (es : list edge) : res unit index :=
      match es with
      | [] => Ok vx
      | e :: es => do vx <- vx_add m vx e ; add_all m vx es
      end.
    Definition new_vertex_index (m : mem P) (se : option edge) : res unit index :=
      match walk_all_edges m (fun _ => @Continue unit) se with
      | Some (calls, _) => add_all m [] calls
      | None => Err tt
      end.
  End Index.

  (** ** Frames and triangles *)
  Section Triangles.
    (** [eq] is cmp.GeomPointEqual, [same] the == of the keys of a map. *)
    Variable eq same : P -> P -> bool.

    Definition frame_pt (frame : P * P * P) (p : P) : bool :=
      let '(a, b, c) := frame in eq p a || eq p b || eq p c.
    (** IsFrameEdge, subdivision.go 654-664, for one edge *)
    Definition is_frame_edge (m : mem P) (frame : P * P * P) (e : edge) : res unit bool :=
      match orig m e, dest m e with
      | Some o, Some d => Ok (frame_pt frame o || frame_pt frame d)
      | _, _ => Panic
      end.
    (** IsHardFrameEdge, subdivision.go 667-672 *)
    Definition is_hard_frame_edge (m : mem P) (frame : P * P * P) (e : edge) : res unit bool :=
      match orig m e, dest m e with
      | Some o, Some d => Ok (frame_pt frame o && frame_pt frame d)
      | _, _ => Panic
      end.
    (** IsFramePoint, subdivision.go 675-684 *)
    Definition is_frame_point (frame : P * P * P) (pts : list P) : bool := existsb (frame_pt frame) pts.

    Notation tri := (P * P * P)%type.
    (** The inner loop of WalkAllTriangles, subdivision.go 735-759, around the
        vertex [p]: the new stack, the triangles [fn] is called with, and whether it
        returned false.  [seen] holds seenVertices. *)
    Fixpoint tri_ring (fuel : nat) (m : mem P) (fn : tri -> bool) (seen : list P) (p : P) (first w n : edge) (stack : list edge)
      : res unit (list edge * list tri * bool) :=
      match fuel with
      | O => Err tt
      | S fuel =>
          match dest m n, dest m w with
          | Some z, Some y =>
              do step <-
                if existsb (same z) seen || existsb (same y) seen then Ok (stack, [], false)
                else do found <- find_onext_dest eq m z (sym w) ;
                     match found with
                     | None => Ok (sym w :: stack, [], false)
                     | Some _ => Ok (sym w :: stack, [(p, y, z)], negb (fn (p, y, z)))
                     end ;
              let '(stack, calls, stop) := step in
              if stop then Ok (stack, calls, true)
              else if edge_eqb n first then Ok (stack, calls, false)
              else do rest <- tri_ring fuel m fn seen p first n (onext m n) stack ;
                   let '(stack, calls', stop) := rest in Ok (stack, calls ++ calls', stop)
          | _, _ => Panic
          end
      end.
    (** The outer loop, subdivision.go 712-761: the triangles [fn] is called with. *)
    Fixpoint tri_loop (fuel : nat) (m : mem P) (fn : tri -> bool) (seen : list P) (stack : list edge) : res unit (list tri) :=
      match fuel with
      | O => Err tt
      | S fuel =>
          match stack with
          | [] => Ok []
          | first :: stack =>
              match orig m first with
              | None => Panic
              | Some p =>
                  if existsb (same p) seen then tri_loop fuel m fn seen stack
                  else if edge_eqb first (onext m first) then tri_loop fuel m fn (p :: seen) stack
                  else do ring <- tri_ring (4 * count m + 1) m fn (p :: seen) p first first (onext m first) stack ;
                       let '(stack, calls, stop) := ring in
                       if stop then Ok calls
                       else do rest <- tri_loop fuel m fn (p :: seen) stack ; Ok (calls ++ rest)
              end
          end
      end.
    (** WalkAllTriangles, subdivision.go 686-762 *)
    Definition walk_all_triangles (m : mem P) (fn : tri -> bool) (se : option edge) : res unit (list tri) :=
      match se with
      | None => Ok []
      | Some se => tri_loop (4 * count m * (4 * count m + 2) + 3) m fn [] [se]
      end.
    (** Triangles, subdivision.go 468-484, of a Subdivision which is not nil *)
    Definition triangles (m : mem P) (frame : P * P * P) (se : option edge) (include_frame : bool) : res unit (list tri) :=
      do calls <- walk_all_triangles m (fun _ => true) se ;
      Ok (filter (fun '(a, b, c) => negb (is_frame_point frame [a; b; c] && negb include_frame)) calls).
  End Triangles.
End Walk.
