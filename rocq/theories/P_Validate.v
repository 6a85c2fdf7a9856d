(** * Proofs about quadedge.Validate *)
From Coq Require Import Bool List Arith ZArith Lia Permutation.
From Verif Require Import Base_F64 Base_Res Base_Geom M_Cmp M_Walker M_Winding M_Geom M_Pseudo M_Sweep S_Sweep P_Sweep P_Sweep2 P_Sweep3 S_Winding P_Winding2 M_Quadedge S_Quadedge P_Quadedge P_QuadedgeTop M_ResolveEdge S_ResolveEdge P_ResolveEdge5 M_Face S_Face P_Face2 M_Validate S_Validate.
Import ListNotations.
Local Open Scope Z_scope.

(** ** The sweep finds nothing in copies of one segment *)
Lemma scan_copies {E} c l n (fn : list call -> call -> answer E) i keys : share_end c l l = true -> (forall k, In k keys -> (k < n)%nat) -> forall calls,
  scan c (repeat l n) true fn i l keys calls = (calls, None).
Proof.
  intros S. induction keys as [|k keys IH]; intros K calls; [reflexivity|]. cbn [scan].
  rewrite (nth_error_repeat l (K k (or_introl eq_refl))), S. cbn [andb]. apply IH. intros k' I. apply K. right. exact I.
Qed.
Lemma sweep_copies {E} c l n (fn : list call -> call -> answer E) : share_end c l l = true -> forall evs, (forall e, In e evs -> (ev_edge e < n)%nat) ->
  forall k keys calls, (forall x, In x keys -> (x < n)%nat) -> sweep c (repeat l n) true fn (fun _ => None) k evs keys calls = (calls, Ok tt).
Proof.
  intros S. induction evs as [|e evs IH]; intros V k keys calls K; [reflexivity|]. cbn [sweep].
  assert (V1 := V e (or_introl eq_refl)). assert (V2 : forall e, In e evs -> (ev_edge e < n)%nat) by (intros x I; apply V; right; exact I).
  destruct (ev_type e).
  - apply IH; [exact V2|]. intros x I. apply add_key_in in I. destruct I as [->|I]; [exact V1|apply K, I].
  - rewrite (nth_error_repeat l V1). rewrite scan_copies; [|exact S|].
    + apply IH; [exact V2|]. intros x I. apply delete_key_in in I. apply K, I.
    + intros x I. apply delete_key_in in I. apply K, I.
Qed.
Lemma decide_eq sort l s : sorts sort -> share_end hi_cmp l l = true ->
  decide sort l s = Ok ((length (s_points s) <=? 2)%nat || (0 <? s_cw s) && (0 <? s_ccw s)).
Proof.
  intros Hs S. unfold decide. destruct (length (s_points s) <=? 2)%nat; [reflexivity|]. cbn [orb]. unfold find_intersects.
  rewrite sweep_copies; [reflexivity|exact S| |intros x []].
  intros e I. rewrite <- (repeat_length l (length (s_points s))). apply (queue_edges sort Hs _ e I).
Qed.
Lemma point_refl z : moderate z -> point_equal hi_cmp (fpt z) (fpt z) = true.
Proof. intros M. destruct (tells_int [z] z (Forall_cons _ M (Forall_nil _)) M (fpt z) (or_introl eq_refl)) as [T _]. apply T. reflexivity. Qed.
Lemma share_int o d : moderate o -> share_end hi_cmp (fpt o, d) (fpt o, d) = true.
Proof. intros M. unfold share_end. cbn [fst snd]. rewrite (point_refl o M). reflexivity. Qed.
Lemma good_rots e : (snd e < 4)%nat -> good_rot e = true.
Proof.
  intros L. unfold good_rot. rewrite (rot_rot e L), (rot_sym e L), (sym_rot e L), (sym_sym e L), (inv_rot e L), !eqb_refl. reflexivity.
Qed.

(** ** Nil means well-formed *)
Lemma visit_next ypd m o s x s' : visit ypd m o s x = Ok (s', true) -> s_bad s' = false ->
  s_bad s = false /\ exists d o', dest m x = Some d /\ orig m x = Some o' /\ did_see d (s_points s) = false /\ point_equal hi_cmp o' o = true /\ s_points s' = s_points s ++ [d].
Proof.
  unfold visit. destruct (dest m x) as [d|]; [|discriminate]. destruct (orig m x) as [o'|]; [|discriminate]. destruct (did_see d (s_points s)) eqn:D; [discriminate|].
  destruct (dest m (onext m x)) as [nd|]; [|discriminate]. destruct (dest m (oprev m x)) as [pd|]; [|discriminate]. cbn [deref bind].
  intros Q B. injection Q as <-. cbn [s_bad] in B. apply orb_false_iff in B. destruct B as [B1 B2]. split; [exact B1|]. exists d, o'. apply negb_false_iff in B2.
  repeat (split; [first [reflexivity|assumption]|]). reflexivity.
Qed.
Lemma visit_stop ypd m o s x s' : visit ypd m o s x = Ok (s', false) -> s_bad s' = true.
Proof.
  unfold visit. destruct (dest m x) as [d|]; [|intros Q; injection Q as <-; reflexivity]. destruct (orig m x) as [o'|]; [|intros Q; injection Q as <-; reflexivity].
  destruct (did_see d (s_points s)); [intros Q; injection Q as <-; reflexivity|].
  destruct (dest m (onext m x)) as [nd|]; [|discriminate]. destruct (dest m (oprev m x)) as [pd|]; [|discriminate]. discriminate.
Qed.
Lemma ordpairs_snoc {A} (R : A -> A -> Prop) l x : ForallOrdPairs R l -> Forall (fun y => R y x) l -> ForallOrdPairs R (l ++ [x]).
Proof.
  intros O. induction O as [|a l Ha O IH]; intros F; cbn [app]; [constructor; constructor|]. inversion F; subst. constructor; [|apply IH; assumption].
  apply Forall_app. split; [exact Ha|constructor; [assumption|constructor]].
Qed.
Lemma visits_sound ypd m o es : forall s s', visit_all ypd m o s es = Ok s' -> s_bad s' = false -> ForallOrdPairs (fun p q => point_equal hi_cmp q p = false) (s_points s) ->
  s_bad s = false /\ ForallOrdPairs (fun p q => point_equal hi_cmp q p = false) (s_points s')
  /\ (exists ds, s_points s' = s_points s ++ ds /\ map (dest m) es = map Some ds)
  /\ forall x, In x es -> exists o', orig m x = Some o' /\ point_equal hi_cmp o' o = true.
Proof.
  induction es as [|x es IH]; intros s s' Q B O.
  - cbn in Q. injection Q as <-. split; [exact B|]. split; [exact O|]. split; [exists []; rewrite app_nil_r; split; reflexivity|intros x []].
  - cbn [visit_all] in Q. destruct (visit ypd m o s x) as [[s1 k]| |] eqn:V; cbn [bind fst snd] in Q; try discriminate Q. destruct k.
    + assert (B1 : s_bad s1 = false).
      { destruct (s_bad s1) eqn:B1; [|reflexivity]. exfalso. clear - Q B B1. revert s1 Q B1. induction es as [|y es IH]; intros s1 Q B1; cbn [visit_all] in Q.
        - injection Q as ->. rewrite B1 in B. discriminate B.
        - destruct (visit ypd m o s1 y) as [[s2 k]| |] eqn:V; cbn [bind fst snd] in Q; try discriminate Q. destruct k.
          + apply (IH s2 Q). destruct (s_bad s2) eqn:B2; [reflexivity|]. apply (visit_next _ _ _ _ _ _ V) in B2. destruct B2 as [B2 _]. rewrite B1 in B2. discriminate B2.
          + injection Q as ->. apply visit_stop in V. rewrite V in B. discriminate B. }
      destruct (visit_next _ _ _ _ _ _ V B1) as (B0 & d & o' & D & Oo & S & E & P).
      assert (O1 : ForallOrdPairs (fun p q => point_equal hi_cmp q p = false) (s_points s1)).
      { rewrite P. apply ordpairs_snoc; [exact O|]. apply Forall_forall. intros y I. unfold did_see in S. destruct (point_equal hi_cmp d y) eqn:Y; [|reflexivity].
        assert (existsb (point_equal hi_cmp d) (s_points s) = true) by (apply existsb_exists; exists y; split; assumption). rewrite S in H. discriminate H. }
      destruct (IH s1 s' Q B O1) as (_ & O2 & (ds & P2 & M2) & L). split; [exact B0|]. split; [exact O2|]. split.
      * exists (d :: ds). rewrite P2, P, <- app_assoc. split; [reflexivity|]. cbn [map]. rewrite D, M2. reflexivity.
      * intros y [<-|I]; [exists o'; split; assumption|apply L, I].
    + injection Q as ->. apply visit_stop in V. rewrite V in B. discriminate B.
Qed.
Lemma up_to_all l : up_to (fun _ => true) l = l.
Proof. induction l as [|x l IH]; cbn; [reflexivity|]. rewrite IH. reflexivity. Qed.
Lemma validate_sound sort ypd m e l : history m -> exists_in m e -> around_origin m (e :: l) -> NoDup (map fst (e :: l)) ->
  validate sort ypd m e = Ok true -> well_formed m e (e :: l).
Proof.
  intros H E C N Q. unfold validate in Q. destruct (negb (good_rot e)); [discriminate|]. destruct (orig m e) as [o|] eqn:Oe; [|discriminate].
  destruct (walks m (fun _ => true) e l H E C N) as [W _]. rewrite W, up_to_all in Q.
  destruct (visit_all ypd m o start (e :: l)) as [s| |] eqn:V; cbn [bind] in Q; try discriminate Q.
  destruct (s_bad s) eqn:B; [discriminate|]. destruct (visits_sound _ _ _ _ _ _ V B (FOP_nil _)) as (_ & O & (ds & P & M) & L).
  exists o, ds. split; [exact Oe|]. split; [exact M|]. split; [exact L|]. cbn [start s_points app] in P. rewrite <- P. exact O.
Qed.

(** ** A vertex in order is accepted *)
Lemma turn_int ypd o p q : moderate o -> moderate p -> moderate q -> turn ypd (fpt o) (fpt p) (fpt q) = Z.sgn (cross (vec ypd o p) (vec ypd o q)).
Proof.
  intros O P X. unfold turn. change [fpt o; fpt p; fpt q] with (map fpt [o; p; q]). rewrite orientation_int.
  - assert (A : (if ypd then -1 else 1) * Z.sgn (area2 [o; p; q]) = Z.sgn (cross (vec ypd o p) (vec ypd o q))).
    { replace (area2 [o; p; q]) with (cross (vec false o p) (vec false o q)) by (unfold area2; cbn [app path_sum]; unfold cross, vec; cbn [fst snd]; ring).
      destruct ypd; [|apply Z.mul_1_l]. replace (cross (vec true o p) (vec true o q)) with (- cross (vec false o p) (vec false o q)) by (unfold cross, vec; cbn [fst snd]; ring).
      rewrite Z.sgn_opp. ring. }
    rewrite A. generalize (cross (vec ypd o p) (vec ypd o q)). intros z. unfold cw, ccw, wClockwise, wCounterClockwise. destruct z; reflexivity.
  - destruct O, P, X. intros z [<-|[<-|[<-|[]]]]; lia.
  - exists (2 ^ 21). destruct O, P, X. split; [|cbn [length]; lia]. intros u w [<-|[<-|[<-|[]]]] [<-|[<-|[<-|[]]]]; lia.
Qed.
Definition total (g : edge -> Z) (l : list edge) : Z := fold_right Z.add 0 (map g l).
Lemma total_all g l : (forall x, In x l -> g x = 1) -> total g l = Z.of_nat (length l).
Proof.
  induction l as [|a l IH]; intros G; [reflexivity|]. change (total g (a :: l)) with (g a + total g l). rewrite (G a (or_introl eq_refl)), IH by (intros x I; apply G; right; exact I).
  cbn [length]. lia.
Qed.
Lemma total_bound g x0 l : NoDup l -> (forall x, In x l -> -1 <= g x) -> (forall x, In x l -> x <> x0 -> g x = 1) -> Z.of_nat (length l) - 2 <= total g l.
Proof.
  intros N. induction N as [|a l Na N IH]; intros L G; [cbn; lia|]. change (total g (a :: l)) with (g a + total g l). cbn [length].
  assert (L1 := L a (or_introl eq_refl)). destruct (edge_dec a x0) as [->|D].
  - rewrite (total_all g l); [lia|]. intros x I. apply G; [right; exact I|]. intros ->. exact (Na I).
  - rewrite (G a (or_introl eq_refl) D). assert (Z.of_nat (length l) - 2 <= total g l) by (apply IH; intros x I; [apply L|apply G]; right; exact I). lia.
Qed.
Section Accept.
  Variables (ypd : bool) (m : mem (point f64)) (ring : list edge) (o : Z * Z) (at_ : edge -> Z * Z).
  Hypothesis O : moderate o.
  Hypothesis Pts : forall x, In x ring -> orig m x = Some (fpt o) /\ dest m x = Some (fpt (at_ x)) /\ moderate (at_ x).
  Hypothesis Inj : forall x y, In x ring -> In y ring -> at_ x = at_ y -> x = y.
  Hypothesis Next : forall x, In x ring -> In (onext m x) ring /\ In (oprev m x) ring.
  Definition g1 (x : edge) : Z := Z.sgn (cross (vec ypd o (at_ x)) (vec ypd o (at_ (onext m x)))).
  Definition g2 (x : edge) : Z := Z.sgn (cross (vec ypd o (at_ (oprev m x))) (vec ypd o (at_ x))).
  Lemma visits_ok es : forall s, NoDup es -> incl es ring -> (forall p x, In p (s_points s) -> In x es -> exists y, In y ring /\ p = fpt (at_ y) /\ y <> x) -> s_bad s = false ->
    exists s', visit_all ypd m (fpt o) s es = Ok s' /\ s_bad s' = false /\ length (s_points s') = (length (s_points s) + length es)%nat
    /\ s_ccw s' = s_ccw s + total g1 es /\ s_cw s' = s_cw s + total g2 es.
  Proof.
    induction es as [|x es IH]; intros s N I P B.
    - exists s. cbn [visit_all length total map fold_right]. repeat split; [exact B|lia|cbn; lia|cbn; lia].
    - assert (Rx := I x (or_introl eq_refl)). destruct (Pts x Rx) as (P1 & P2 & P3). destruct (Next x Rx) as [Rn Rp].
      destruct (Pts _ Rn) as (_ & N2 & N3). destruct (Pts _ Rp) as (_ & M2 & M3).
      assert (S : did_see (fpt (at_ x)) (s_points s) = false).
      { unfold did_see. destruct (existsb _ _) eqn:X; [|reflexivity]. apply existsb_exists in X. destruct X as (p & Ip & X). destruct (P p x Ip (or_introl eq_refl)) as (y & Ry & -> & D).
        exfalso. apply D. destruct (Pts y Ry) as (_ & _ & Y3). apply Inj; [exact Ry|exact Rx|].
        assert (T : S_MvtPrepare.same_zpt (at_ x) (at_ y) = true).
        { rewrite <- (P_MvtPrepare3.same_int (at_ x) (at_ y)); [exact X|destruct P3; split; lia|destruct Y3; split; lia]. }
        unfold S_MvtPrepare.same_zpt in T. apply andb_true_iff in T. rewrite !Z.eqb_eq in T. destruct T, (at_ x), (at_ y). cbn in *. subst. reflexivity. }
      inversion N as [|? ? Nx N']; subst.
      set (s1 := {| s_bad := false; s_points := s_points s ++ [fpt (at_ x)]; s_ccw := s_ccw s + g1 x; s_cw := s_cw s + g2 x |}).
      assert (V : visit ypd m (fpt o) s x = Ok (s1, true)).
      { unfold visit. rewrite P1, P2, S, N2, M2. cbn [deref bind]. rewrite (point_refl o O), B, !turn_int by assumption. unfold s1, g1, g2.
        replace (s_cw s - Z.sgn (cross (vec ypd o (at_ x)) (vec ypd o (at_ (oprev m x))))) with (s_cw s + Z.sgn (cross (vec ypd o (at_ (oprev m x))) (vec ypd o (at_ x)))); [reflexivity|].
        replace (cross (vec ypd o (at_ (oprev m x))) (vec ypd o (at_ x))) with (- cross (vec ypd o (at_ x)) (vec ypd o (at_ (oprev m x)))) by (unfold cross; ring). rewrite Z.sgn_opp. ring. }
      destruct (IH s1) as (s' & Q & B' & L & C1 & C2); [exact N'|intros y J; apply I; right; exact J| |reflexivity|].
      + intros p y J K. cbn [s1 s_points] in J. apply in_app_iff in J. destruct J as [J|[<-|[]]]; [apply P; [exact J|right; exact K]|]. exists x. split; [exact Rx|]. split; [reflexivity|]. intros ->. exact (Nx K).
      + exists s'. cbn [visit_all]. rewrite V. cbn [bind fst snd]. split; [exact Q|]. split; [exact B'|]. cbn [s1 s_points s_ccw s_cw] in L, C1, C2. rewrite app_length in L. cbn [length] in L |- *.
        change (total g1 (x :: es)) with (g1 x + total g1 es). change (total g2 (x :: es)) with (g2 x + total g2 es). split; [lia|]. split; lia.
  Qed.
End Accept.
