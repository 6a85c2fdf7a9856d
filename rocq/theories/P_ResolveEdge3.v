(** * Proofs about resolving an edge: the walk around the vertex *)
From Coq Require Import Bool List Arith ZArith Lia Reals.
From Flocq Require Import Core.Core.
From Verif Require Import Base_F64 Base_F64Arith Base_Res Base_Geom P_F64Flocq P_F64Grid M_Planar M_Cmp M_Walker M_Winding M_Quadedge M_ResolveEdge
  S_Winding S_Quadedge S_ResolveEdge S_MvtPrepare P_MvtPrepare3 P_Winding P_Quadedge P_Quadedge2 P_Quadedge3 P_Quadedge5 P_ResolveEdge P_ResolveEdge2.
Import ListNotations.
Open Scope Z_scope.

(** On the ray of one of the two edges. *)
Lemma ray_a ypd a d b c : nz a -> nz b -> same_dir d a ->
  table ypd (Z.sgn (cross a b)) (Z.sgn (cross d a)) (Z.sgn (cross d b)) c = (if cross a b =? 0 then if c then ErrA else ErrB else ErrA).
Proof.
  intros A B S. assert (D : Z.sgn (cross d b) = Z.sgn (cross a b)).
  { destruct (same_dir_sym d a S) as [S1 S2]. pose proof (sgn_cross b a d A S1) as Q. rewrite (cross_anti d b), (cross_anti a b). lia. }
  rewrite D. destruct S as [S _]. rewrite S.
  destruct (signs_cases (cross a b)) as [[E L]|[[E L]|[E L]]]; rewrite E; (destruct (Z.eqb_spec (cross a b) 0) as [Q|Q]; try lia); destruct ypd, c; reflexivity.
Qed.
Lemma ray_b ypd a d b c : nz a -> nz b -> same_dir d b ->
  table ypd (Z.sgn (cross a b)) (Z.sgn (cross d a)) (Z.sgn (cross d b)) c = (if cross a b =? 0 then if c then ErrA else ErrB else ErrB).
Proof.
  intros A B S. assert (D : Z.sgn (cross d a) = - Z.sgn (cross a b)).
  { destruct (same_dir_sym d b S) as [S1 S2]. pose proof (sgn_cross a b d B S1) as Q. rewrite (cross_anti d a). lia. }
  rewrite D. destruct S as [S _]. rewrite S.
  destruct (signs_cases (cross a b)) as [[E L]|[[E L]|[E L]]]; rewrite E; (destruct (Z.eqb_spec (cross a b) 0) as [Q|Q]; try lia); destruct ypd, c; reflexivity.
Qed.

Lemma fpt_same p q : moderate p -> moderate q -> fpt p = fpt q -> p = q.
Proof.
  intros P Q E. pose proof (same_int p q P Q) as H. rewrite E in H. rewrite (same_int q q Q Q) in H. unfold same_zpt in H. rewrite !Z.eqb_refl in H.
  symmetry in H. apply andb_prop in H. destruct H as [H1 H2]. apply Z.eqb_eq in H1, H2. destruct p, q; cbn in *; congruence.
Qed.

(** The bounding box of a line. *)
Lemma le_int n m : Z.abs n <= 2 ^ 20 -> Z.abs m <= 2 ^ 20 -> f64_le (f64_ofZ n) (f64_ofZ m) = (n <=? m).
Proof.
  intros N M. destruct (repr_ofZ n) as (W1 & F1 & V1); [unfold two53; lia|]. destruct (repr_ofZ m) as (W2 & F2 & V2); [unfold two53; lia|].
  apply eq_true_iff_eq. rewrite (le_R _ _ W1 W2 F1 F2), V1, V2, Z.leb_le. change (bpow radix2 0) with 1%R. rewrite !Rmult_1_r. split; [apply le_IZR|apply IZR_le].
Qed.
Lemma gt_int n m : Z.abs n <= 2 ^ 20 -> Z.abs m <= 2 ^ 20 -> f64_gt (f64_ofZ n) (f64_ofZ m) = (m <? n).
Proof.
  intros N M. destruct (repr_ofZ n) as (W1 & F1 & V1); [unfold two53; lia|]. destruct (repr_ofZ m) as (W2 & F2 & V2); [unfold two53; lia|].
  unfold f64_gt. apply eq_true_iff_eq. rewrite (lt_R _ _ W2 W1 F2 F1), V1, V2, Z.ltb_lt. change (bpow radix2 0) with 1%R. rewrite !Rmult_1_r. split; [apply lt_IZR|apply IZR_lt].
Qed.
Definition in_box (o p x : Z * Z) : Prop :=
  Z.min (fst o) (fst p) <= fst x <= Z.max (fst o) (fst p) /\ Z.min (snd o) (snd p) <= snd x <= Z.max (snd o) (snd p).
Lemma box_int o p x : moderate o -> moderate p -> moderate x -> (line_contains_point (fpt o, fpt p) (fpt x) = true <-> in_box o p x).
Proof.
  intros [O1 O2] [P1 P2] [X1 X2]. unfold line_contains_point, fpt. cbn [fst snd]. rewrite !gt_int by assumption. unfold in_box.
  destruct (Z.ltb_spec (fst p) (fst o)), (Z.ltb_spec (snd p) (snd o)); rewrite !andb_true_iff, !le_int, !Z.leb_le by assumption; lia.
Qed.

(** The first edge which stops the walk. *)
Fixpoint first_hit (st : edge -> option edge * option r_err) (l : list edge) : option edge * option r_err :=
  match l with
  | [] => (None, None)
  | e :: l => match st e with (None, None) => first_hit st l | r => r end
  end.
Lemma walk_hit ypd m o x st first : forall l fuel seen e, NoDup (map fst (e :: l)) -> (forall q, In q (map fst (e :: l)) -> In q seen -> False) ->
  chain (onext m) first (e :: l) -> In (fst first) (seen ++ map fst (e :: l)) -> (length (e :: l) < fuel)%nat ->
  (forall y, In y (e :: l) -> resolve_step ypd m o x y = Ok (st y)) ->
  resolve_walk fuel ypd m o x seen e = Ok (first_hit st (e :: l)).
Proof.
  induction l as [|e' l IH]; intros fuel seen e N D C X F S; (destruct fuel as [|fuel]; [cbn in F; lia|]); cbn [resolve_walk];
  (destruct (existsb (Nat.eqb (fst e)) seen) eqn:Q;
   [exfalso; apply existsb_exists in Q; destruct Q as (q & Q1 & Q2); apply Nat.eqb_eq in Q2; subst q; apply (D (fst e)); [left; reflexivity|exact Q1]|]);
  rewrite (S e (or_introl eq_refl)); cbn [bind first_hit]; (destruct (st e) as [[y|] [er|]]; try reflexivity); destruct C as [C C']; rewrite C.
  - destruct fuel as [|fuel]; [cbn in F; lia|]. cbn [resolve_walk].
    assert (existsb (Nat.eqb (fst first)) (fst e :: seen) = true) as ->; [|reflexivity].
    apply existsb_exists. exists (fst first). split; [|apply Nat.eqb_refl]. rewrite in_app_iff in X. cbn [map In] in *. tauto.
  - apply IH.
    + inversion N; assumption.
    + intros q Hq [<-|Hs]; [inversion N; subst; contradiction|]. apply (D q); [right; exact Hq|exact Hs].
    + exact C'.
    + rewrite in_app_iff in *. cbn [map In] in *. tauto.
    + cbn [length] in *. lia.
    + intros y Y. apply S. right. exact Y.
Qed.

Section Star.
  Context (ypd : bool) (m : mem (point f64)) (ring : list edge) (o : Z * Z) (at_ : edge -> Z * Z) (x : Z * Z).
  Hypothesis H : history m.
  Hypothesis St : star ypd m ring o at_.
  Hypothesis X : moderate x.
  Hypothesis XO : x <> o.

  Lemma ring_onext e : In e ring -> In (onext m e) ring.
  Proof. intros E. apply (cycle_in (onext m)); [apply St|exact E]. Qed.
  Lemma ring_quads : NoDup (map fst ring).
  Proof.
    pose proof (history_wf m H) as W. destruct St as (C & O & P & _).
    assert (NoDup ring) by (apply (cycle_nodup (onext m)), C).
    assert (K : forall e f, In e ring -> In f ring -> fst e = fst f -> e = f).
    { intros e f E F Q. destruct (P e E) as (Ee & Oe & De & Me & Ne). destruct (P f F) as (Ef & Of & Df & Mf & Nf).
      destruct (cycle_members (onext m) m ring e (step_onext m W) Ee C E f F) as [_ K].
      destruct (same_quad e f (proj2 Ee) (proj2 Ef)) as [->|Q']; [unfold same_kind in *; congruence|exact Q|reflexivity|].
      exfalso. subst f. unfold dest in De. apply Ne. symmetry. apply (fpt_same o (at_ e) O Me). rewrite Of in De. revert De. generalize (fpt o) (fpt (at_ e)). clear. intros p q Q. congruence. }
    clear - H0 K. induction ring as [|e l IH]; [constructor|]. inversion H0; subst. cbn [map]. constructor.
    - intros I. apply in_map_iff in I. destruct I as (f & Q & F). apply H2. rewrite (K e f); [exact F|left; reflexivity|right; exact F|congruence].
    - apply IH; [assumption|]. intros e' f E F. apply K; right; assumption.
  Qed.

  Definition v (e : edge) : Z * Z := vec ypd o (at_ e).
  Definition d : Z * Z := vec ypd o x.
  Definition act (e : edge) : action :=
    table ypd (Z.sgn (cross (v e) (v (onext m e)))) (Z.sgn (cross d (v e))) (Z.sgn (cross d (v (onext m e))))
      (line_contains_point (fpt o, fpt (at_ e)) (fpt x)).
  Definition st (e : edge) : option edge * option r_err :=
    match act e with
    | Next | Nothing => (None, None)
    | TakeA => (Some e, None)
    | ErrA => (Some e, Some EColinear)
    | ErrB => (Some (onext m e), Some EColinear)
    | ErrEdge => (Some e, Some ECoincident)
    end.
  Lemma step_st e : In e ring -> resolve_step ypd m (fpt o) (fpt x) e = Ok (st e).
  Proof.
    intros E. pose proof (ring_onext e E) as E'. destruct St as (C & O & P & _). destruct (P e E) as (_ & Oe & De & Me & _). destruct (P _ E') as (_ & Of & Df & Mf & _).
    unfold resolve_step. rewrite De, Df. cbv zeta. rewrite !cross_exact by assumption. rewrite Oe. unfold st, act, table, v, d. destruct ypd; reflexivity.
  Qed.
  Lemma resolve_hit e l : ring = e :: l -> resolve_edge ypd m e (fpt x) = Ok (first_hit st (e :: l)).
  Proof.
    intros R. pose proof ring_quads as N. pose proof step_st as S. pose proof (history_wf m H) as W. destruct St as (C & O & P & _). rewrite R in *.
    destruct (P e (or_introl eq_refl)) as (_ & Oe & _). unfold resolve_edge. rewrite Oe, (same_int o x) by assumption.
    assert (same_zpt o x = false) as ->.
    { apply not_true_iff_false. intros Q. apply andb_prop in Q. destruct Q as [Q1 Q2]. apply Z.eqb_eq in Q1, Q2. apply XO. destruct o, x; cbn in *; congruence. }
    apply (walk_hit ypd m (fpt o) (fpt x) st e).
    - exact N.
    - intros q _ [].
    - apply C.
    - left. reflexivity.
    - apply Nat.lt_succ_r, (quads_bound m); [exact N|]. intros y Y. apply (P y Y).
    - exact S.
  Qed.
  Lemma v_nz e : In e ring -> nz (v e).
  Proof. intros E. destruct St as (_ & _ & P & _). apply vec_nz, (P e E). Qed.
  Lemma d_nz : nz d. Proof. apply vec_nz, XO. Qed.
End Star.
