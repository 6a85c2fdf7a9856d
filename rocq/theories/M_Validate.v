(** * Model of quadedge.Validate *)
From Coq Require Import Bool List Arith ZArith.
From Verif Require Import Base_F64 Base_Res Base_Geom M_Cmp M_Walker M_Winding M_Geom M_Pseudo M_Sweep M_Quadedge M_ResolveEdge M_Face.
Import ListNotations.
Local Open Scope Z_scope.

(** edge.go 270-286: whether [err] is not empty, [points] and the two counts.  The
    texts of the errors are left out. *)
Record seen := { s_bad : bool; s_points : list (point f64); s_ccw : Z; s_cw : Z }.
Definition start : seen := {| s_bad := false; s_points := []; s_ccw := 0; s_cw := 0 |}.
Definition failed (s : seen) : seen := {| s_bad := true; s_points := s_points s; s_ccw := s_ccw s; s_cw := s_cw s |}.

Section Validate.
  Variable sort : (event -> event -> bool) -> list event -> list event.   (* sort.Sort with this Less *)
  Variable ypd : bool.                                                    (* order.YPositiveDown *)
  Variable m : mem (point f64).

  (** didSee, edge.go 271-278 *)
  Definition did_see (p : point f64) (points : list (point f64)) : bool := existsb (point_equal hi_cmp p) points.
  (** 1 for counter-clockwise, -1 for clockwise: the switches of edge.go 331-336 and
      339-344. *)
  Definition turn (o p q : point f64) : Z :=
    let w := orientation ypd [o; p; q] in if cw w then -1 else if ccw w then 1 else 0.
  (** The callback of edge.go 288-347; the boolean is what it returns.  Dereferencing a
      nil destination of the next or previous edge panics. *)
  Definition visit (o : point f64) (s : seen) (ee : edge) : res unit (seen * bool) :=
    match dest m ee, orig m ee with
    | None, _ | _, None => Ok (failed s, false)
    | Some d, Some o' =>
        if did_see d (s_points s) then Ok (failed s, false)
        else
          do nd <- deref (dest m (onext m ee)) ;
          do pd <- deref (dest m (oprev m ee)) ;
          Ok ({| s_bad := s_bad s || negb (point_equal hi_cmp o' o);
                 s_points := s_points s ++ [d];
                 s_ccw := s_ccw s + turn o d nd;
                 s_cw := s_cw s - turn o d pd |}, true)
    end.
  (** The calls of the callback, one after the other until it returns false. *)
  Fixpoint visit_all (o : point f64) (s : seen) (es : list edge) : res unit seen :=
    match es with
    | [] => Ok s
    | ee :: es => do r <- visit o s ee ; if snd r then visit_all o (fst r) es else Ok (fst r)
    end.
  (** The callback of edge.go 375-391 *)
  Definition crossing (segs : list line) (cs : list call) (c : call) : answer unit :=
    let '(src, dst, p) := c in
    let s1 := nth src segs (p, p) in
    let s2 := nth dst segs (p, p) in
    if (point_equal hi_cmp p (fst s1) || point_equal hi_cmp p (snd s1)) || (point_equal hi_cmp p (fst s2) || point_equal hi_cmp p (snd s2)) then Continue
    else Fail tt.
  (** edge.go 354-393 after the walk: nil is [true].  Line 320 appends [e], not [ee], so
      that [segs] is the line of [e] as many times as there are points. *)
  Definition decide (l : line) (s : seen) : res unit bool :=
    if (length (s_points s) <=? 2)%nat then Ok true
    else
      let segs := repeat l (length (s_points s)) in
      match snd (find_intersects hi_cmp segs true (crossing segs) (fun _ => None) (new_event_queue sort segs)) with
      | Ok _ => Ok ((0 <? s_cw s) && (0 <? s_ccw s))
      | Err _ => Ok false
      | Panic => Panic
      end.
  (** edge.go 244-261 *)
  Definition good_rot (e : edge) : bool :=
    let el := rot e in let ed := rot el in let er := rot ed in
    edge_eqb (sym ed) e && edge_eqb ed (sym e) && edge_eqb er (sym el) && edge_eqb e (invrot el).
  (** Validate, edge.go 236-399: [Ok true] for nil.  [Err] if the walk has no end. *)
  Definition validate (e : edge) : res unit bool :=
    if negb (good_rot e) then Ok false
    else match orig m e with
    | None => Ok false
    | Some o =>
        match walk_all_onext m (fun _ => true) e with
        | None => Err tt
        | Some es =>
            do s <- visit_all o start es ;
            if s_bad s then Ok false
            else do d <- deref (dest m e) ; decide (o, d) s
        end
    end.
End Validate.
