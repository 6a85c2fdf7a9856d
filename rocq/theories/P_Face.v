(** * Proofs about the methods of subdivision.Triangle *)
From Coq Require Import Bool List Arith ZArith Lia.
From Verif Require Import Base_F64 Base_Res Base_Geom M_Cmp M_Quadedge S_Quadedge P_Quadedge P_Quadedge2 P_Quadedge3 P_Quadedge4 S_Subdivision P_Subdivision P_Insert S_Winding S_ResolveEdge M_Constraint S_Classify P_Classify M_Face S_Face.
Import ListNotations.
Local Open Scope nat_scope.

Section Faces.
  Context {P : Type}.
  Implicit Types m : mem P.
  Lemma rnext_sym m e : wf m -> exists_in m e -> rnext m e = sym (lnext m (sym e)).
  Proof.
    intros W E. unfold rnext, lnext, onext. rewrite inv_sym by apply E. rewrite sym_rot; [reflexivity|]. apply (wf_ex m W), ex_rot, E.
  Qed.
  (** The sides of the right face, from [e]. *)
  Record sides m (e x y : edge) (a b c : P) : Prop := Sides {
    s_face : around_face m [sym e; x; y];
    s_e : primal m e; s_x : primal m x; s_y : primal m y;
    s_re : rnext m e = sym x; s_rx : rnext m (sym x) = sym y; s_ry : rnext m (sym y) = e;
    s_oe : orig m e = Some b; s_de : dest m e = Some a;
    s_ox : orig m (sym x) = Some c; s_dx : dest m (sym x) = Some b;
    s_oy : orig m (sym y) = Some a; s_dy : dest m (sym y) = Some c;
    s_ne : onext m (sym e) = sym y; s_nx : onext m x = e; s_ny : onext m y = sym x }.
  Lemma sides_of m e a b c : history m -> same_points m -> primal m e -> right_face m e a b c -> exists x y, sides m e x y a b c.
  Proof.
    intros H U Pe (x & y & F & De & Oe & Oy). pose proof (history_wf m H) as W. exists x, y. pose proof F as [N C]. cbn [chain] in C.
    destruct C as (Le & Lx & Ly & _). assert (Ps : primal m (sym e)) by (apply primal_sym, Pe).
    assert (Px : primal m x) by (rewrite <- Le; apply primal_lnext; assumption). assert (Py : primal m y) by (rewrite <- Lx; apply primal_lnext; assumption).
    assert (Ee := proj1 Pe). assert (Es := proj1 Ps). assert (Ex := proj1 Px). assert (Ey := proj1 Py).
    pose proof (onext_of_lnext m _ _ W Es Le) as Nx. rewrite sym_sym in Nx by apply Ee. pose proof (onext_of_lnext m _ _ W Ex Lx) as Ny.
    pose proof (onext_of_lnext m _ _ W Ey Ly) as Ne.
    assert (Dx : sym (sym x) = x) by (apply sym_sym, Ex). assert (Dy : sym (sym y) = y) by (apply sym_sym, Ey).
    constructor; try assumption.
    - rewrite (rnext_sym m e W Ee), Le. reflexivity.
    - rewrite (rnext_sym m _ W (ex_sym m x Ex)), Dx, Lx. reflexivity.
    - rewrite (rnext_sym m _ W (ex_sym m y Ey)), Dy, Ly. apply sym_sym, Ee.
    - rewrite <- Ny, (U y Py). exact Oy.
    - unfold dest. rewrite Dx, <- (U x Px), Nx. exact Oe.
    - rewrite <- Ne, (U _ Ps). exact De.
    - unfold dest. rewrite Dy. exact Oy.
  Qed.

  Lemma as_geom_ok m e a b c : history m -> same_points m -> primal m e -> right_face m e a b c -> as_geom m e = Ok (b, c, a).
  Proof.
    intros H U Pe F. destruct (sides_of m e a b c H U Pe F) as (x & y & S). destruct S.
    unfold as_geom. rewrite s_oe0, s_re0, s_rx0, s_ox0, s_oy0. reflexivity.
  Qed.

  (** The sides as a list: edge, origin, destination. *)
  Definition listed m (e x y : edge) (a b c : P) : list (edge * P * P) := [(e, b, a); (sym x, c, b); (sym y, a, c)].
  Lemma inner_ok (eq : P -> P -> bool) m ae f x y a b c p q : sides m f x y a b c -> orig m ae = Some p -> dest m ae = Some q ->
    shared_inner eq 3 m ae f = Ok (existsb (fun t => eq p (snd t) && eq (snd (fst t)) q) (listed m f x y a b c),
      if eq p a && eq b q then f else if eq p b && eq c q then sym x else if eq p c && eq a q then sym y else f).
  Proof.
    intros S O D. destruct S. cbn [shared_inner existsb listed fst snd]. rewrite O, D. cbn [deref bind].
    rewrite s_de0, s_oe0. cbn [deref bind]. destruct (eq p a) eqn:E1; cbn [bind andb orb].
    - destruct (eq b q) eqn:E2; cbn [bind andb orb]; [reflexivity|].
      rewrite s_re0, s_dx0, s_ox0. cbn [deref bind]. destruct (eq p b) eqn:E3; cbn [bind andb orb].
      + destruct (eq c q); cbn [bind andb orb]; [reflexivity|]. rewrite s_rx0, s_dy0, s_oy0. cbn [deref bind]. destruct (eq p c); cbn [bind andb orb]; [destruct (eq a q); [reflexivity|]|]; rewrite s_ry0; reflexivity.
      + rewrite s_rx0, s_dy0, s_oy0. cbn [deref bind]. destruct (eq p c); cbn [bind andb orb]; [destruct (eq a q); [reflexivity|]|]; rewrite s_ry0; reflexivity.
    - rewrite s_re0, s_dx0, s_ox0. cbn [deref bind]. destruct (eq p b) eqn:E3; cbn [bind andb orb].
      + destruct (eq c q); cbn [bind andb orb]; [reflexivity|]. rewrite s_rx0, s_dy0, s_oy0. cbn [deref bind]. destruct (eq p c); cbn [bind andb orb]; [destruct (eq a q); [reflexivity|]|]; rewrite s_ry0; reflexivity.
      + rewrite s_rx0, s_dy0, s_oy0. cbn [deref bind]. destruct (eq p c); cbn [bind andb orb]; [destruct (eq a q); [reflexivity|]|]; rewrite s_ry0; reflexivity.
  Qed.
  Lemma inner_cut (eq : P -> P -> bool) m ae f x y a b c p q : sides m f x y a b c -> orig m ae = Some p -> dest m ae = Some q ->
    exists f', shared_inner eq 3 m ae f = Ok (existsb (fun t => eq p (snd t) && eq (snd (fst t)) q) (listed m f x y a b c), f')
    /\ (existsb (fun t => eq p (snd t) && eq (snd (fst t)) q) (listed m f x y a b c) = false -> f' = f).
  Proof.
    intros S O D. eexists. split; [apply (inner_ok eq m ae f x y a b c p q S O D)|]. cbn [existsb listed fst snd].
    destruct (eq p a && eq b q), (eq p b && eq c q), (eq p c && eq a q); cbn; intros Q; try discriminate Q; reflexivity.
  Qed.
  Lemma outer_ok (eq : P -> P -> bool) m e x y a b c f x' y' a' b' c' : sides m e x y a b c -> sides m f x' y' a' b' c' ->
    shared_edge eq m e f = Ok (option_map (fun s => fst (fst s))
      (find (fun s => existsb (fun t => eq (snd (fst s)) (snd t) && eq (snd (fst t)) (snd s)) (listed m f x' y' a' b' c')) (listed m e x y a b c))).
  Proof.
    intros S S'. pose proof S as S0. destruct S0. unfold shared_edge. cbn [shared_outer listed find fst snd]. fold (listed m f x' y' a' b' c').
    set (hit := fun p q => existsb (fun t => eq p (snd t) && eq (snd (fst t)) q) (listed m f x' y' a' b' c')).
    change (existsb (fun t => eq b (snd t) && eq (snd (fst t)) a) (listed m f x' y' a' b' c')) with (hit b a).
    change (existsb (fun t => eq c (snd t) && eq (snd (fst t)) b) (listed m f x' y' a' b' c')) with (hit c b).
    change (existsb (fun t => eq a (snd t) && eq (snd (fst t)) c) (listed m f x' y' a' b' c')) with (hit a c).
    destruct (inner_cut eq m e f x' y' a' b' c' b a S' s_oe0 s_de0) as (f1 & E1 & G1).
    destruct (inner_cut eq m (sym x) f x' y' a' b' c' c b S' s_ox0 s_dx0) as (f2 & E2 & G2).
    destruct (inner_cut eq m (sym y) f x' y' a' b' c' a c S' s_oy0 s_dy0) as (f3 & E3 & G3).
    fold (hit b a) in E1, G1. fold (hit c b) in E2, G2. fold (hit a c) in E3, G3. clearbody hit.
    rewrite E1. cbn [bind fst snd]. destruct (hit b a); [reflexivity|]. rewrite (G1 eq_refl), s_re0, E2. cbn [bind fst snd].
    destruct (hit c b); [reflexivity|]. rewrite (G2 eq_refl), s_rx0, E3. cbn [bind fst snd]. destruct (hit a c); reflexivity.
  Qed.
  Lemma listed_right m e x y a b c s : sides m e x y a b c -> In s (listed m e x y a b c) ->
    same_right m e (fst (fst s)) /\ orig m (fst (fst s)) = Some (snd (fst s)) /\ dest m (fst (fst s)) = Some (snd s) /\ In (snd (fst s)) [a; b; c] /\ In (snd s) [a; b; c].
  Proof.
    intros S I. destruct S. assert (Dx : sym (sym x) = x) by (apply sym_sym, s_x0). assert (Dy : sym (sym y) = y) by (apply sym_sym, s_y0).
    destruct I as [<-|[<-|[<-|[]]]]; cbn [fst snd].
    - split; [exists [sym e; x; y]; split; [exact s_face0|]; cbn; auto 8|]. split; [assumption|]. split; [assumption|]. cbn; split; auto.
    - split; [exists [sym e; x; y]; rewrite Dx; split; [exact s_face0|]; cbn; auto 8|]. split; [assumption|]. split; [assumption|]. cbn; split; auto.
    - split; [exists [sym e; x; y]; rewrite Dy; split; [exact s_face0|]; cbn; auto 8|]. split; [assumption|]. split; [assumption|]. cbn; split; auto.
  Qed.
  Lemma right_listed m e x y a b c z : history m -> sides m e x y a b c -> exists_in m z -> same_right m e z -> exists s, In s (listed m e x y a b c) /\ fst (fst s) = z.
  Proof.
    intros H S Z (l & R & A & B). destruct S.
    assert (I : In (sym z) [sym e; x; y]) by (apply (cycle_meet (lnext m) [sym e; x; y] l (sym e) s_face0 R); [left; reflexivity|exact A|exact B]).
    assert (D : sym (sym z) = z) by (apply sym_sym, Z). destruct I as [I|[I|[I|[]]]].
    - exists (e, b, a). split; [left; reflexivity|]. cbn. rewrite <- D, <- I. symmetry. apply sym_sym, s_e0.
    - exists (sym x, c, b). split; [right; left; reflexivity|]. cbn. rewrite <- D, I. reflexivity.
    - exists (sym y, a, c). split; [right; right; left; reflexivity|]. cbn. rewrite <- D, I. reflexivity.
  Qed.
  (** The edges of the right faces of [e] and [f] which join the same corners in
      opposite directions. *)
  Lemma shared_ok (eq : P -> P -> bool) m e a b c f a' b' c' : history m -> same_points m -> primal m e -> primal m f -> right_face m e a b c -> right_face m f a' b' c' ->
    (forall p, In p [a'; b'; c'] -> tells eq [a; b; c] p) ->
    exists r, shared_edge eq m e f = Ok r
    /\ match r with
       | Some x => same_right m e x /\ exists y, same_right m f y /\ orig m x = dest m y /\ dest m x = orig m y
       | None => forall x y, exists_in m x -> exists_in m y -> same_right m e x -> same_right m f y -> ~ (orig m x = dest m y /\ dest m x = orig m y)
       end.
  Proof.
    intros H U Pe Pf Fe Ff T. destruct (sides_of m e a b c H U Pe Fe) as (x & y & S). destruct (sides_of m f a' b' c' H U Pf Ff) as (x' & y' & S').
    rewrite (outer_ok eq m e x y a b c f x' y' a' b' c' S S'). eexists. split; [reflexivity|].
    destruct (find _ _) as [s|] eqn:Q; cbn [option_map].
    - apply find_some in Q. destruct Q as [I Q]. apply existsb_exists in Q. destruct Q as (t & J & Q). apply andb_true_iff in Q. destruct Q as [Q1 Q2].
      destruct (listed_right m e x y a b c s S I) as (R & O & D & Io & Id). destruct (listed_right m f x' y' a' b' c' t S' J) as (R' & O' & D' & Io' & Id').
      split; [exact R|]. exists (fst (fst t)). split; [exact R'|]. rewrite O, D, O', D'.
      apply (T _ Id' _ Io) in Q1. apply (T _ Io' _ Id) in Q2. rewrite Q1, Q2. auto.
    - intros z z' Z Z' R R' [A B]. destruct (right_listed m e x y a b c z H S Z R) as (s & I & <-). destruct (right_listed m f x' y' a' b' c' z' H S' Z' R') as (t & J & <-).
      destruct (listed_right m e x y a b c s S I) as (_ & O & D & Io & Id). destruct (listed_right m f x' y' a' b' c' t S' J) as (_ & O' & D' & Io' & Id').
      rewrite O, D' in A. rewrite D, O' in B. injection A as A. injection B as B. pose proof (find_none _ _ Q s I) as N. cbv beta in N.
      assert (X : existsb (fun t => eq (snd (fst s)) (snd t) && eq (snd (fst t)) (snd s)) (listed m f x' y' a' b' c') = true); [|congruence].
      apply existsb_exists. exists t. split; [exact J|]. apply andb_true_iff. split; [apply (T _ Id' _ Io), A|apply (T _ Io' _ Id), B].
  Qed.
  (** The vertex is one of the first triangle. *)
  Lemma vertex_own (eq : P -> P -> bool) m e a b c f a' b' c' : history m -> same_points m -> primal m e -> primal m f -> right_face m e a b c -> right_face m f a' b' c' ->
    exists v, opposite_vertex eq m e f = Ok v /\ forall p, v = Some p -> In p [a; b; c].
  Proof.
    intros H U Pe Pf Fe Ff. destruct (sides_of m e a b c H U Pe Fe) as (x & y & S). destruct (sides_of m f a' b' c' H U Pf Ff) as (x' & y' & S').
    unfold opposite_vertex. rewrite (outer_ok eq m e x y a b c f x' y' a' b' c' S S'). cbn [bind]. eexists. split; [reflexivity|].
    destruct (find _ _) as [s|] eqn:Q; cbn [option_map]; [|intros p X; discriminate X]. apply find_some in Q. destruct Q as [I _]. destruct S.
    assert (Dx : sym (sym x) = x) by (apply sym_sym, s_x0). assert (Dy : sym (sym y) = y) by (apply sym_sym, s_y0).
    destruct I as [<-|[<-|[<-|[]]]]; cbn [fst snd]; intros p.
    - rewrite s_ne0, s_dy0. intros X. injection X as <-. cbn. auto.
    - rewrite Dx, s_nx0, s_de0. intros X. injection X as <-. cbn. auto.
    - rewrite Dy, s_ny0, s_dx0. intros X. injection X as <-. cbn. auto.
  Qed.
  Lemma opposite_ok (eq : P -> P -> bool) m e a b c p : history m -> same_points m -> primal m e -> right_face m e a b c -> a <> b -> b <> c -> a <> c -> tells eq [a; b; c] p ->
    exists r, opposite_triangle eq m e p = Ok r
    /\ match r with
       | Some o => In p [a; b; c] /\ same_right m e (sym o) /\ orig m o <> Some p /\ dest m o <> Some p
       | None => ~ In p [a; b; c]
       end.
  Proof.
    intros H U Pe F Nab Nbc Nac T. destruct (sides_of m e a b c H U Pe F) as (x & y & S). destruct S. unfold opposite_triangle.
    assert (C : exists n, 4 * count m + 1 = S (S (S n))) by (destruct Pe as [[L _] _]; exists (4 * count m - 2); lia).
    destruct C as [n ->]. cbn [opposite_loop]. rewrite s_oe0. cbn [deref bind].
    pose proof (T a (or_introl eq_refl)) as [Ta _]. pose proof (T b (or_intror (or_introl eq_refl))) as [Tb _]. pose proof (T c (or_intror (or_intror (or_introl eq_refl)))) as [Tc _].
    assert (Dx : sym (sym x) = x) by (apply sym_sym, s_x0). assert (Dy : sym (sym y) = y) by (apply sym_sym, s_y0). assert (De : sym (sym e) = e) by (apply sym_sym, Pe).
    assert (Ne : sym x <> e).
    { intros Q. pose proof s_face0 as [N _]. inversion N as [|? ? N1 _]. apply N1. left. rewrite <- Q. rewrite Dx. reflexivity. }
    assert (Nf : sym y <> e).
    { intros Q. pose proof s_face0 as [N _]. inversion N as [|? ? N1 _]. apply N1. right. left. rewrite <- Q. rewrite Dy. reflexivity. }
    assert (Som : forall u v : P, u <> v -> Some u <> Some v) by (intros u v Huv Q; injection Q as Q; contradiction).
    destruct (eq b p) eqn:Eb.
    - cbn [bind]. eexists. split; [reflexivity|]. assert (Pb : b = p) by (apply Tb; reflexivity). subst p. rewrite s_re0, s_rx0, Dy.
      split; [cbn; auto|]. split; [exists [sym e; x; y]; rewrite Dy; split; [exact s_face0|]; cbn; auto 8|]. split.
      + change (orig m y) with (vertex m y). unfold dest, orig in s_dy0. rewrite Dy in s_dy0. rewrite s_dy0. apply Som. auto.
      + change (dest m y) with (orig m (sym y)). rewrite s_oy0. apply Som. auto.
    - rewrite s_re0. destruct (edge_eqb (sym x) e) eqn:Q; [apply eqb_spec in Q; contradiction|]. clear Q. rewrite s_ox0. cbn [deref bind].
      destruct (eq c p) eqn:Ec.
      + cbn [bind]. eexists. split; [reflexivity|]. assert (Pc : c = p) by (apply Tc; reflexivity). subst p. rewrite s_rx0, s_ry0.
        split; [cbn; auto|]. split; [exists [sym e; x; y]; rewrite De; split; [exact s_face0|]; cbn; auto 8|]. split.
        * change (orig m (sym e)) with (dest m e). rewrite s_de0. apply Som. auto.
        * unfold dest. rewrite De, s_oe0. apply Som. auto.
      + rewrite s_rx0. destruct (edge_eqb (sym y) e) eqn:Q; [apply eqb_spec in Q; contradiction|]. clear Q. rewrite s_oy0. cbn [deref bind].
        destruct (eq a p) eqn:Ea.
        * cbn [bind]. eexists. split; [reflexivity|]. assert (Pa : a = p) by (apply Ta; reflexivity). subst p. rewrite s_ry0, s_re0, Dx.
          split; [cbn; auto|]. split; [exists [sym e; x; y]; rewrite Dx; split; [exact s_face0|]; cbn; auto 8|]. split.
          -- unfold dest in s_dx0. rewrite Dx in s_dx0. rewrite s_dx0. apply Som. auto.
          -- change (dest m x) with (orig m (sym x)). rewrite s_ox0. apply Som. auto.
        * rewrite s_ry0. replace (edge_eqb e e) with true by (symmetry; apply eqb_spec; reflexivity). cbn [bind]. eexists. split; [reflexivity|].
          intros [X|[X|[X|[]]]]; [apply Ta in X|apply Tb in X|apply Tc in X]; discriminate X.
  Qed.
End Faces.

(** ** IntersectsPoint *)
Local Open Scope Z_scope.
Lemma on_line dx dy xx xy ux uy : let K := dy * ux - dx * uy in let c := ux * xy - uy * xx in let t := dx * xx + dy * xy in let dd := dx * dx + dy * dy in
  0 < K -> dx * xy - dy * xx = 0 -> 0 < dd /\ dd * c = t * K /\ dd * (xx * xx + xy * xy) = t * t.
Proof.
  intros K c t dd HK C. assert (0 < dd).
  { unfold dd. assert (dx <> 0 \/ dy <> 0) by (unfold K in HK; nia). nia. }
  split; [assumption|]. unfold dd, c, t, K. split.
  - assert (E : (dx * dx + dy * dy) * (ux * xy - uy * xx) - (dx * xx + dy * xy) * (dy * ux - dx * uy) = (dx * ux + dy * uy) * (dx * xy - dy * xx)) by ring. rewrite C in E. lia.
  - assert (E : (dx * dx + dy * dy) * (xx * xx + xy * xy) - (dx * xx + dy * xy) * (dx * xx + dy * xy) = (dx * xy - dy * xx) * (dx * xy - dy * xx)) by ring. rewrite C in E. lia.
Qed.
Lemma signs dd c t k : 0 < dd -> 0 < k -> dd * c = t * k -> (t < 0 -> c < 0) /\ (dd < t -> k < c) /\ (0 <= t -> 0 <= c) /\ (t <= dd -> c <= k).
Proof. intros A B E. repeat split; intros X; nia. Qed.
Lemma squares dd x t : 0 < dd -> dd * x = t * t -> 0 <= t -> (dd < x -> dd < t) /\ (x < dd -> t < dd).
Proof. intros A E B. split; intros X; nia. Qed.
(** The edge from [o] to [q] with the triangle [q], [o], [k] on its right. *)
Lemma one_edge p o q k t : counter_clockwise q o k -> lies p o q t ->
  match t with
  | ORIGIN | DESTINATION | BETWEEN => in_triangle q o k p
  | LEFT | BEHIND | BEYOND => ~ in_triangle q o k p
  | RIGHT => 0 <= cross (vec false q o) (vec false q p)
  end.
Proof.
  destruct p as [px py], o as [ox oy], q as [qx qy], k as [kx ky]. unfold counter_clockwise, in_triangle, lies, vec, cross, dot. cbn [fst snd]. intros K L.
  pose proof (on_line (qx - ox) (qy - oy) (px - ox) (py - oy) (kx - ox) (ky - oy)) as G. cbv zeta in G.
  assert (K' : 0 < (qy - oy) * (kx - ox) - (qx - ox) * (ky - oy)) by lia. specialize (G K').
  set (k1 := (qy - oy) * (kx - ox) - (qx - ox) * (ky - oy)) in *.
  assert (C3 : (qx - kx) * (py - ky) - (px - kx) * (qy - ky) = (qx - ox) * (py - oy) - (qy - oy) * (px - ox) + k1 - ((kx - ox) * (py - oy) - (ky - oy) * (px - ox))) by (unfold k1; ring).
  assert (C1 : (ox - qx) * (py - qy) - (px - qx) * (oy - qy) = - ((qx - ox) * (py - oy) - (qy - oy) * (px - ox))) by ring.
  rewrite C1, C3. replace ((kx - ox) * (py - oy) - (px - ox) * (ky - oy)) with ((kx - ox) * (py - oy) - (ky - oy) * (px - ox)) by ring.
  revert G L. clear C1 C3 K. set (cr := (kx - ox) * (py - oy) - (ky - oy) * (px - ox)).
  set (dd := (qx - ox) * (qx - ox) + (qy - oy) * (qy - oy)). set (tt := (qx - ox) * (px - ox) + (qy - oy) * (py - oy)). set (x2 := (px - ox) * (px - ox) + (py - oy) * (py - oy)).
  replace ((qx - ox) * (py - oy) - (px - ox) * (qy - oy)) with ((qx - ox) * (py - oy) - (qy - oy) * (px - ox)) by ring.
  set (cd := (qx - ox) * (py - oy) - (qy - oy) * (px - ox)).
  destruct t.
  - intros _ L [A _]. lia.
  - lia.
  - clearbody cr dd tt x2 cd k1. intros G (C & D & E) (_ & _ & A). destruct (G C) as (D1 & D2 & D3). destruct (signs _ _ _ _ D1 K' D2) as (_ & S1 & _).
    destruct (squares _ _ _ D1 D3 D) as [Q _]. specialize (S1 (Q E)). lia.
  - clearbody cr dd tt x2 cd k1. intros G [C D] (_ & A & _). destruct (G C) as (D1 & D2 & D3). destruct (signs _ _ _ _ D1 K' D2) as (S1 & _). specialize (S1 D). lia.
  - clearbody cr dd tt x2 cd k1. intros G (C & D & E). destruct (G C) as (D1 & D2 & D3). destruct (signs _ _ _ _ D1 K' D2) as (_ & _ & S1 & S2).
    destruct (squares _ _ _ D1 D3 ltac:(lia)) as [_ Q]. specialize (Q E). specialize (S1 ltac:(lia)). specialize (S2 ltac:(lia)). lia.
  - intros _ L. injection L as -> ->. unfold cd, cr. replace (oy - oy) with 0 by ring. replace (ox - ox) with 0 by ring. lia.
  - intros _ [L _]. injection L as -> ->. unfold cd, cr, k1 in *. lia.
Qed.
Lemma turn_triangle a b c p : in_triangle a b c p <-> in_triangle b c a p.
Proof. unfold in_triangle. tauto. Qed.
Lemma turn_ccw a b c : counter_clockwise a b c -> counter_clockwise b c a.
Proof. unfold counter_clockwise, cross, vec. cbn [fst snd]. lia. Qed.
Lemma intersects_ok m e a b c p : history m -> same_points m -> primal m e -> right_face m e (fpt a) (fpt b) (fpt c) -> moderate a -> moderate b -> moderate c -> moderate p -> counter_clockwise a b c ->
  exists r, intersects_point m (Some e) (fpt p) = Ok r /\ (r = true <-> in_triangle a b c p).
Proof.
  intros H U Pe F Ma Mb Mc Mp W. destruct (sides_of m e _ _ _ H U Pe F) as (x & y & S). destruct S. unfold intersects_point. cbn [intersects_loop].
  pose proof (turn_ccw _ _ _ W) as W2. pose proof (turn_ccw _ _ _ W2) as W3.
  pose proof (one_edge p b a c _ W (proj1 (classify_lies p b a Mp Mb Ma _) eq_refl)) as G1.
  pose proof (one_edge p c b a _ W2 (proj1 (classify_lies p c b Mp Mc Mb _) eq_refl)) as G2.
  pose proof (one_edge p a c b _ W3 (proj1 (classify_lies p a c Mp Ma Mc _) eq_refl)) as G3.
  pose proof (turn_triangle a b c p) as T1. pose proof (turn_triangle b c a p) as T2.
  rewrite s_oe0, s_de0. cbn [deref bind].
  destruct (classify (fpt p) (fpt b) (fpt a)); try (eexists; split; [reflexivity|]; split; [intros Q; (discriminate Q || tauto)|intros I; (reflexivity || (exfalso; tauto))]).
  rewrite s_re0, s_ox0, s_dx0. cbn [deref bind].
  destruct (classify (fpt p) (fpt c) (fpt b)); try (eexists; split; [reflexivity|]; split; [intros Q; (discriminate Q || tauto)|intros I; (reflexivity || (exfalso; tauto))]).
  rewrite s_rx0, s_oy0, s_dy0. cbn [deref bind].
  destruct (classify (fpt p) (fpt a) (fpt c)); try (eexists; split; [reflexivity|]; split; [intros Q; (discriminate Q || tauto)|intros I; (reflexivity || (exfalso; tauto))]).
  eexists. split; [reflexivity|]. split; [intros _|reflexivity]. unfold in_triangle. auto.
Qed.
