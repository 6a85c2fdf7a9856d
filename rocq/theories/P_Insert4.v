(** * Proofs about InsertSite: Delete and Swap within a mesh *)
From Coq Require Import Bool List Arith Lia.
From Verif Require Import Base_Res M_Quadedge S_Quadedge P_Quadedge P_Quadedge2 P_Quadedge3 P_Quadedge4 P_QuadedgeTop M_Subdivision S_Subdivision
  P_Subdivision P_Subdivision2 P_Subdivision3 P_Subdivision5 P_Insert P_Insert2 P_Insert3.
Import ListNotations.

Section Sides.
  Context {P : Type}.
  Variables (m : mem P) (D : edge -> Prop) (e : edge).
  Hypothesis M : mesh m D.
  Hypothesis De : D e.
  Hypothesis T1 : tri3 m e.
  Hypothesis T2 : tri3 m (sym e).
  Let H : history m := me_hist m D M.
  Let W : wf m := history_wf m H.
  Let u := lnext m e.
  Let w := lnext m u.
  Let y := lnext m (sym e).
  Let z := lnext m y.
  Let Ds : D (sym e) := me_sym m D M e De.
  Let Du : D u := me_lnext m D M e De.
  Let Dw : D w := me_lnext m D M u Du.
  Let Dy : D y := me_lnext m D M _ Ds.
  Let Dz : D z := me_lnext m D M y Dy.
  Let Lw : lnext m w = e. Proof. exact T1. Qed.
  Let Lz : lnext m z = sym e. Proof. exact T2. Qed.
  Let Ss : sym (sym e) = e. Proof. apply (me_ss m D M), De. Qed.

  (** The two triangles have no edge in common. *)
  Lemma sides_apart : apart [e; u; w] [sym e; y; z].
  Proof.
    pose proof (tri_face m D e M De T1) as F1. pose proof (tri_face m D (sym e) M Ds T2) as F2. fold u w in F1. fold y z in F2.
    assert (NI : ~ In (sym e) [e; u; w]).
    { intros [Q|[Q|[Q|[]]]].
      - exact (sym_neq e (eq_sym Q)).
      - apply (me_loop m D M w Dw). unfold w. rewrite (me_face m D M u Du). fold w.
        rewrite <- (me_face m D M w Dw), Lw. unfold dest. rewrite Q, Ss. reflexivity.
      - apply (me_loop m D M u Du). unfold u at 1. rewrite (me_face m D M e De), <- (me_face m D M u Du). fold w.
        rewrite Q. reflexivity. }
    intros x X1 X2. apply NI. apply (cycle_meet (lnext m) [e; u; w] [sym e; y; z] x F1 F2 X1 X2). left; reflexivity.
  Qed.
  Lemma sides_nodup : NoDup [e; u; w; sym e; y; z].
  Proof.
    change [e; u; w; sym e; y; z] with ([e; u; w] ++ [sym e; y; z]).
    apply nodup_app; [apply (tri_face m D e M De T1)|apply (tri_face m D (sym e) M Ds T2)|exact sides_apart].
  Qed.
  Lemma side_neq i j : i <? 6 = true -> j <? 6 = true -> i <> j -> nth i [e; u; w; sym e; y; z] e <> nth j [e; u; w; sym e; y; z] e.
  Proof. intros I J N Q. apply N. apply (proj1 (NoDup_nth _ e) sides_nodup); [apply Nat.ltb_lt, I|apply Nat.ltb_lt, J|exact Q]. Qed.
  Ltac side i j := exact (side_neq i j eq_refl eq_refl ltac:(discriminate)).
  Let n_eu : e <> u. Proof. side 0 1. Qed.
  Let n_ew : e <> w. Proof. side 0 2. Qed.
  Let n_es : e <> sym e. Proof. side 0 3. Qed.
  Let n_ey : e <> y. Proof. side 0 4. Qed.
  Let n_ez : e <> z. Proof. side 0 5. Qed.
  Let n_uw : u <> w. Proof. side 1 2. Qed.
  Let n_us : u <> sym e. Proof. side 1 3. Qed.
  Let n_uy : u <> y. Proof. side 1 4. Qed.
  Let n_uz : u <> z. Proof. side 1 5. Qed.
  Let n_ws : w <> sym e. Proof. side 2 3. Qed.
  Let n_wy : w <> y. Proof. side 2 4. Qed.
  Let n_wz : w <> z. Proof. side 2 5. Qed.
  Let n_sy : sym e <> y. Proof. side 3 4. Qed.
  Let n_sz : sym e <> z. Proof. side 3 5. Qed.
  Let n_yz : y <> z. Proof. side 4 5. Qed.

  Let Ex a (Da : D a) : exists_in m a := me_ex m D M a Da.
  Lemma sym_not a : D a -> a <> e -> a <> sym e -> sym a <> e /\ sym a <> sym e.
  Proof.
    intros Da N1 N2. split; intros Q.
    - apply N2. rewrite <- (me_ss m D M a Da), Q. reflexivity.
    - apply N1. rewrite <- (me_ss m D M a Da), Q. exact Ss.
  Qed.
  Lemma inj_lnext a b : D a -> D b -> lnext m a = lnext m b -> a = b.
  Proof. intros Da Db. apply lnext_inj; auto. Qed.

  Section Delete.
    Let m' := delete m e.
    Let D' (a : edge) : Prop := D a /\ a <> e /\ a <> sym e.
    Lemma delete_lnext : lnext m' w = y /\ lnext m' z = u /\ forall a, D a -> a <> e -> a <> sym e -> a <> w -> a <> z -> lnext m' a = lnext m a.
    Proof.
      assert (Oe : oprev m e = y) by (apply oprev_lnext, Ex, De).
      set (m1 := splice m e (oprev m e)).
      assert (K : forall a b, D a -> D b -> same_kind a b) by (intros a b Da Db; apply (primal_kind m); apply (me_prim m D M); assumption).
      assert (W1 : wf m1) by (unfold m1; rewrite Oe; apply splice_wf; [exact W|apply Ex, De|apply Ex, Dy|apply K; assumption]).
      assert (L1 : forall a b, D a -> lnext m a = b -> lnext m1 a = if edge_eqb b e then y else if edge_eqb b y then e else b).
      { intros a b Da Q. unfold m1. rewrite Oe. apply (splice_ln m e y a W); auto. }
      assert (Ex1 : forall a, D a -> exists_in m1 a) by (intros a Da; apply splice_ex, Ex, Da).
      assert (L1e : lnext m1 e = u) by (rewrite (L1 e u De eq_refl), eqb_neq, eqb_neq by (assumption || (apply not_eq_sym; assumption)); reflexivity).
      assert (Os : oprev m1 (sym e) = u).
      { rewrite oprev_lnext by apply Ex1, Ds. rewrite Ss. exact L1e. }
      assert (L2 : forall a b, D a -> lnext m1 a = b -> lnext m' a = if edge_eqb b (sym e) then u else if edge_eqb b u then sym e else b).
      { intros a b Da Q. unfold m', delete. fold m1. rewrite Os. apply (splice_ln m1 (sym e) u a W1); auto. }
      split; [|split].
      - rewrite (L2 w y Dw).
        + rewrite eqb_neq by (apply not_eq_sym; assumption). rewrite eqb_neq by (apply not_eq_sym; assumption). reflexivity.
        + rewrite (L1 w e Dw Lw), eqb_refl. reflexivity.
      - rewrite (L2 z (sym e) Dz); [rewrite eqb_refl; reflexivity|].
        rewrite (L1 z (sym e) Dz Lz), eqb_neq, eqb_neq by (assumption || (apply not_eq_sym; assumption)). reflexivity.
      - intros a Da N1 N2 N3 N4.
        assert (Q1 : lnext m a <> e) by (intros Q; apply N3, inj_lnext; try assumption; congruence).
        assert (Q2 : lnext m a <> y) by (intros Q; apply N2, inj_lnext; try assumption).
        assert (Q3 : lnext m a <> sym e) by (intros Q; apply N4, inj_lnext; try assumption; congruence).
        assert (Q4 : lnext m a <> u) by (intros Q; apply N1, inj_lnext; try assumption).
        rewrite (L2 a (lnext m a) Da); [rewrite !eqb_neq by assumption; reflexivity|].
        rewrite (L1 a _ Da eq_refl), !eqb_neq by assumption. reflexivity.
    Qed.
    Lemma delete_mesh : mesh m' D' /\ count m' = count m /\ (forall a, orig m' a = orig m a).
    Proof.
      destruct delete_lnext as (A1 & A2 & A3).
      assert (H' : history m') by (apply h_delete; [exact H|apply Ex, De]). pose proof (history_wf m' H') as W'.
      assert (Cm : count m' = count m) by reflexivity.
      assert (Ex' : forall a, D a -> exists_in m' a) by (intros a Da; destruct (Ex a Da); split; [rewrite Cm|]; assumption).
      assert (Pr' : forall a, D a -> primal m' a) by (intros a Da; split; [apply Ex', Da|apply (me_prim m D M), Da]).
      assert (O : forall a, orig m' a = orig m a) by reflexivity.
      assert (Du' : D' u) by (repeat split; [exact Du|apply not_eq_sym; assumption|assumption]).
      assert (Dy' : D' y) by (repeat split; [exact Dy|apply not_eq_sym; assumption|apply not_eq_sym; assumption]).
      assert (Dz' : D' z) by (repeat split; [exact Dz|apply not_eq_sym; assumption|apply not_eq_sym; assumption]).
      set (f := fun a => if edge_eqb a e then y else if edge_eqb a (sym e) then u else a).
      assert (fe : f e = y) by (unfold f; rewrite eqb_refl; reflexivity).
      assert (fs : f (sym e) = u) by (unfold f; rewrite eqb_neq by (apply not_eq_sym; assumption); rewrite eqb_refl; reflexivity).
      assert (fo : forall a, a <> e -> a <> sym e -> f a = a) by (intros a N1 N2; unfold f; rewrite !eqb_neq by assumption; reflexivity).
      assert (Oy : onext m' y = sym w) by (apply onext_of_lnext; [exact W'|apply Ex', Dw|exact A1]).
      assert (Ou : onext m' u = sym z) by (apply onext_of_lnext; [exact W'|apply Ex', Dz|exact A2]).
      assert (Nx : forall a, D a -> same_origin m' a (onext m' a)) by (intros a Da; apply origin_next; [exact H'|apply Ex', Da]).
      assert (Rf : forall a, D a -> same_origin m' a a) by (intros a Da; apply origin_refl; [exact H'|apply Ex', Da]).
      assert (St : forall t, D t -> same_origin m' (f t) (f (onext m t))).
      { intros t Dt. pose proof (me_lprev m D M t Dt) as Dl. pose proof (onext_lprev m t W (Ex t Dt)) as Ht.
        pose proof (lnext_lprev m t W (Ex t Dt)) as Lt.
        destruct (edge_dec t e) as [-> | N1].
        { assert (Q : lprev m e = w) by (apply lprev_of; [exact W|apply Ex, Dw|exact Lw]). rewrite Ht, Q, fe.
          destruct (sym_not w Dw (not_eq_sym n_ew) n_ws) as [q1 q2]. rewrite fo by assumption. rewrite <- Oy. apply Nx, Dy. }
        destruct (edge_dec t (sym e)) as [-> | N2].
        { assert (Q : lprev m (sym e) = z) by (apply lprev_of; [exact W|apply Ex, Dz|exact Lz]). rewrite Ht, Q, fs.
          destruct (sym_not z Dz (not_eq_sym n_ez) (not_eq_sym n_sz)) as [q1 q2]. rewrite fo by assumption. rewrite <- Ou. apply Nx, Du. }
        rewrite (fo t N1 N2).
        destruct (edge_dec t y) as [-> | N3].
        { assert (Q : lprev m y = sym e) by (apply lprev_of; [exact W|apply Ex, Ds|reflexivity]). rewrite Ht, Q, Ss, fe. apply Rf, Dy. }
        destruct (edge_dec t u) as [-> | N4].
        { assert (Q : lprev m u = e) by (apply lprev_of; [exact W|apply Ex, De|reflexivity]). rewrite Ht, Q, fs. apply Rf, Du. }
        assert (l1 : lprev m t <> e) by (intros Q; apply N4; rewrite <- Lt, Q; reflexivity).
        assert (l2 : lprev m t <> sym e) by (intros Q; apply N3; rewrite <- Lt, Q; reflexivity).
        destruct (sym_not _ Dl l1 l2) as [q1 q2]. rewrite Ht, fo by assumption.
        replace (sym (lprev m t)) with (onext m' t); [apply Nx, Dt|]. apply onext_of_lnext; [exact W'|apply Ex', Dl|].
        rewrite A3; [exact Lt|exact Dl|exact l1|exact l2| |].
        - intros Q. apply N1. rewrite <- Lt, Q. exact Lw.
        - intros Q. apply N2. rewrite <- Lt, Q. exact Lz. }
      split; [constructor|split; [exact Cm|exact O]].
      - exact H'.
      - intros a [Da _]. apply Pr', Da.
      - intros a (Da & N1 & N2). split; [apply (me_sym m D M), Da|]. apply sym_not; assumption.
      - intros a (Da & N1 & N2). destruct (edge_dec a w) as [-> | N3]; [rewrite A1; exact Dy'|].
        destruct (edge_dec a z) as [-> | N4]; [rewrite A2; exact Du'|].
        rewrite A3 by assumption. split; [apply (me_lnext m D M), Da|].
        split; intros Q; [apply N3|apply N4]; (apply inj_lnext; [exact Da|assumption|congruence]).
      - intros a [Da _]. apply (me_lab m D M), Da.
      - intros a (Da & N1 & N2). rewrite O. change (dest m' a) with (dest m a). destruct (edge_dec a w) as [-> | N3].
        { rewrite A1. unfold y. rewrite (me_face m D M _ Ds). unfold dest at 1. rewrite Ss. rewrite <- (me_face m D M w Dw), Lw. reflexivity. }
        destruct (edge_dec a z) as [-> | N4].
        { rewrite A2. unfold u. rewrite (me_face m D M _ De), <- (me_face m D M z Dz), Lz. reflexivity. }
        rewrite A3 by assumption. apply (me_face m D M), Da.
      - intros a [Da _]. apply (me_loop m D M), Da.
      - intros a b (Da & N1 & N2) (Db & N3 & N4) Q.
        pose proof (origin_map m D M m' f St a b Da (me_same m D M a b Da Db Q)) as G. rewrite !fo in G by assumption. exact G.
      - intros a b (Da & N1 & N2) (Db & N3 & N4).
        assert (G : connected m' (f a) (f b)); [|rewrite !fo in G by assumption; exact G].
        assert (Cf : forall t, D t -> D (f t)).
        { intros t Dt. unfold f. destruct (edge_eqb t e); [exact Dy|]. destruct (edge_eqb t (sym e)); [exact Du|exact Dt]. }
        assert (Cyu : connected m' y u).
        { eapply c_trans; [apply (connected_lnext m' y H'), Ex', Dy|]. rewrite A3 by (exact Dy || (apply not_eq_sym; assumption) || assumption). fold z.
          rewrite <- A2. apply connected_lnext; [exact H'|apply Ex', Dz]. }
        apply (connected_map m D M m' f); try assumption.
        + intros t Dt. apply origin_connected; [exact H'|apply Pr', Cf, Dt|apply St, Dt].
        + intros t Dt. destruct (edge_dec t e) as [-> | M1]; [rewrite fe, fs; exact Cyu|].
          destruct (edge_dec t (sym e)) as [-> | M2]; [rewrite Ss, fe, fs; apply c_back, Cyu|].
          destruct (sym_not t Dt M1 M2). rewrite !fo by assumption. apply c_sym, Ex', Dt.
    Qed.
  End Delete.

  Section Swap.
    Hypothesis T : forall a, D a -> tri3 m a.
    Hypothesis Lo : dest m y <> dest m u.
    Let m' := swap m e.
    Lemma swap_lnext : lnext m' e = w /\ lnext m' w = y /\ lnext m' y = e /\ lnext m' (sym e) = z /\ lnext m' z = u /\ lnext m' u = sym e
      /\ (forall a, D a -> ~ In a [e; u; w; sym e; y; z] -> lnext m' a = lnext m a)
      /\ orig m' e = dest m y /\ dest m' e = dest m u /\ (forall a, a <> e -> a <> sym e -> orig m' a = orig m a).
    Proof.
      pose proof (tri_face m D e M De T1) as F1. pose proof (tri_face m D (sym e) M Ds T2) as F2.
      destruct (swap_effect m e u w y z H (Ex e De) F1 F2 sides_apart) as ([_ (Q1 & Q2 & Q3 & _)] & [_ (Q4 & Q5 & Q6 & _)] & Fo & O1 & O2 & O3).
      repeat (split; [assumption|]). split; [|auto].
      intros a Da N. pose proof (tri_face m D a M Da (T a Da)) as Fa.
      assert (Ap : apart [a; lnext m a; lnext m (lnext m a)] [e; u; w; sym e; y; z]).
      { intros x X1 X2. apply N. change (In a ([e; u; w] ++ [sym e; y; z])). apply in_or_app.
        change (In x ([e; u; w] ++ [sym e; y; z])) in X2. apply in_app_or in X2. destruct X2 as [J|J].
        - left. apply (cycle_meet (lnext m) _ _ x F1 Fa J X1); left; reflexivity.
        - right. apply (cycle_meet (lnext m) _ _ x F2 Fa J X1); left; reflexivity. }
      assert (K : same_kind a e) by (apply (primal_kind m); apply (me_prim m D M); assumption).
      destruct (Fo _ a Fa (or_introl eq_refl) (Ex a Da) K Ap) as [_ (G & _)]. exact G.
    Qed.
    Lemma swap_mesh : mesh m' D /\ (forall a, D a -> tri3 m' a) /\ count m' = count m.
    Proof.
      destruct swap_lnext as (A1 & A2 & A3 & A4 & A5 & A6 & A7 & O1 & O2 & O3).
      assert (H' : history m') by (apply h_swap; [exact H|apply Ex, De]). pose proof (history_wf m' H') as W'.
      assert (Cm : count m' = count m) by reflexivity.
      assert (Ex' : forall a, D a -> exists_in m' a) by (intros a Da; destruct (Ex a Da); split; [rewrite Cm|]; assumption).
      assert (Pr' : forall a, D a -> primal m' a) by (intros a Da; split; [apply Ex', Da|apply (me_prim m D M), Da]).
      assert (Cases : forall a, In a [e; u; w; sym e; y; z] \/ ~ In a [e; u; w; sym e; y; z]) by (intros a; destruct (in_dec edge_dec a [e; u; w; sym e; y; z]); auto).
      assert (Out : forall a, D a -> ~ In a [e; u; w; sym e; y; z] -> ~ In (lnext m a) [e; u; w; sym e; y; z]).
      { intros a Da N I. apply N. cbn [In] in *. destruct I as [I|[I|[I|[I|[I|[I|[]]]]]]].
        - right; right; left. apply inj_lnext; try assumption. congruence.
        - left. apply inj_lnext; assumption.
        - right; left. apply inj_lnext; assumption.
        - right; right; right; right; right; left. apply inj_lnext; try assumption. congruence.
        - right; right; right; left. apply inj_lnext; assumption.
        - right; right; right; right; left. apply inj_lnext; assumption. }
      assert (Ln : forall a, D a -> D (lnext m' a)).
      { intros a Da. destruct (Cases a) as [[<-|[<-|[<-|[<-|[<-|[<-|[]]]]]]]|N]; [rewrite A1|rewrite A6|rewrite A2|rewrite A4|rewrite A3|rewrite A5|rewrite A7 by assumption; apply (me_lnext m D M)]; assumption. }
      assert (Tr : forall a, D a -> tri3 m' a).
      { intros a Da. unfold tri3. destruct (Cases a) as [[<-|[<-|[<-|[<-|[<-|[<-|[]]]]]]]|N]; try (rewrite ?A1, ?A2, ?A3, ?A4, ?A5, ?A6, ?A1, ?A2, ?A3, ?A4, ?A5, ?A6, ?A1, ?A2, ?A3, ?A4, ?A5, ?A6; reflexivity).
        pose proof (Out a Da N) as N'. pose proof (me_lnext m D M a Da) as Da'. pose proof (Out _ Da' N') as N''. pose proof (me_lnext m D M _ Da') as Da''.
        rewrite (A7 a Da N), (A7 _ Da' N'), (A7 _ Da'' N''). apply T, Da. }
      assert (dO : forall a, D a -> a <> e -> a <> sym e -> dest m' a = dest m a).
      { intros a Da N1 N2. destruct (sym_not a Da N1 N2). apply O3; assumption. }
      set (f := fun a => if edge_eqb a e then sym w else if edge_eqb a (sym e) then sym z else a).
      assert (fe : f e = sym w) by (unfold f; rewrite eqb_refl; reflexivity).
      assert (fs : f (sym e) = sym z) by (unfold f; rewrite eqb_neq by (apply not_eq_sym; assumption); rewrite eqb_refl; reflexivity).
      assert (fo : forall a, a <> e -> a <> sym e -> f a = a) by (intros a N1 N2; unfold f; rewrite !eqb_neq by assumption; reflexivity).
      assert (On : forall a b, D a -> lnext m' a = b -> onext m' b = sym a) by (intros a b Da; apply onext_of_lnext; [exact W'|apply Ex', Da]).
      pose proof (On _ _ De A1) as Ow. pose proof (On _ _ Dw A2) as Oy. pose proof (On _ _ Dy A3) as Oe.
      pose proof (On _ _ Ds A4) as Oz. pose proof (On _ _ Dz A5) as Ou. pose proof (On _ _ Du A6) as Os. rewrite Ss in Oz.
      assert (Nx : forall a, D a -> same_origin m' a (onext m' a)) by (intros a Da; apply origin_next; [exact H'|apply Ex', Da]).
      assert (Rf : forall a, D a -> same_origin m' a a) by (intros a Da; apply origin_refl; [exact H'|apply Ex', Da]).
      destruct (sym_not w Dw (not_eq_sym n_ew) n_ws) as [w1 w2]. destruct (sym_not z Dz (not_eq_sym n_ez) (not_eq_sym n_sz)) as [z1 z2].
      destruct (sym_not u Du (not_eq_sym n_eu) n_us) as [u1 u2]. destruct (sym_not y Dy (not_eq_sym n_ey) (not_eq_sym n_sy)) as [y1 y2].
      assert (Lp : forall a b, D a -> lnext m a = b -> onext m b = sym a) by (intros a b Da; apply onext_of_lnext; [exact W|apply Ex, Da]).
      assert (St : forall t, D t -> same_origin m' (f t) (f (onext m t))).
      { intros t Dt. destruct (Cases t) as [[<-|[<-|[<-|[<-|[<-|[<-|[]]]]]]]|N].
        - rewrite (Lp w e Dw Lw), fe, fo by assumption. apply Rf, (me_sym m D M), Dw.
        - rewrite (Lp e u De eq_refl), fs, fo by (assumption || (apply not_eq_sym; assumption)). rewrite <- Ou. apply Nx, Du.
        - rewrite (Lp u w Du eq_refl), !fo by (assumption || (apply not_eq_sym; assumption)).
          eapply origin_trans; [apply Nx, Dw|]. rewrite Ow, <- Os. apply Nx, Ds.
        - rewrite (Lp z _ Dz Lz), fs, fo by assumption. apply Rf, (me_sym m D M), Dz.
        - rewrite (Lp (sym e) y Ds eq_refl), Ss, fe, fo by (assumption || (apply not_eq_sym; assumption)). rewrite <- Oy. apply Nx, Dy.
        - rewrite (Lp y z Dy eq_refl), !fo by (assumption || (apply not_eq_sym; assumption)).
          eapply origin_trans; [apply Nx, Dz|]. rewrite Oz, <- Oe. apply Nx, De.
        - pose proof (me_lprev m D M t Dt) as Dl. pose proof (lnext_lprev m t W (Ex t Dt)) as Lt.
          assert (Nl : ~ In (lprev m t) [e; u; w; sym e; y; z]).
          { intros I. apply N. cbn [In] in *. destruct I as [I|[I|[I|[I|[I|[I|[]]]]]]]; rewrite <- Lt, <- I.
            - right; left. reflexivity.
            - right; right; left. reflexivity.
            - left. symmetry. exact Lw.
            - do 4 right; left. reflexivity.
            - do 5 right; left. reflexivity.
            - do 3 right; left. symmetry. exact Lz. }
          assert (l1 : lprev m t <> e) by (intros Q; apply Nl; left; auto).
          assert (l2 : lprev m t <> sym e) by (intros Q; apply Nl; do 3 right; left; auto).
          destruct (sym_not _ Dl l1 l2) as [q1 q2].
          rewrite (onext_lprev m t W (Ex t Dt)), !fo; try assumption; [|intros Q; apply N; left; auto|intros Q; apply N; do 3 right; left; auto].
          rewrite <- (On (lprev m t) t Dl); [apply Nx, Dt|]. rewrite A7 by assumption. exact Lt. }
      assert (Rep : forall a, D a -> exists b, D b /\ b <> e /\ b <> sym e /\ same_origin m' a b /\ orig m' a = orig m b).
      { intros a Da. destruct (edge_dec a e) as [-> | N1].
        { exists z. repeat (split; [assumption || (apply not_eq_sym; assumption)|]). split; [apply origin_comm; rewrite <- Oz; apply Nx, Dz|].
          rewrite O1. symmetry. apply (me_face m D M), Dy. }
        destruct (edge_dec a (sym e)) as [-> | N2].
        { exists w. repeat (split; [assumption || (apply not_eq_sym; assumption)|]). split; [apply origin_comm; rewrite <- Ow; apply Nx, Dw|].
          change (orig m' (sym e)) with (dest m' e). rewrite O2. symmetry. apply (me_face m D M), Du. }
        exists a. repeat (split; [assumption|]). split; [apply Rf, Da|apply O3; assumption]. }
      split; [constructor|split; [exact Tr|exact Cm]].
      - exact H'.
      - exact Pr'.
      - apply (me_sym m D M).
      - exact Ln.
      - intros a Da. destruct (Rep a Da) as (b & Db & _ & _ & _ & ->). apply (me_lab m D M), Db.
      - intros a Da. destruct (Cases a) as [[<-|[<-|[<-|[<-|[<-|[<-|[]]]]]]]|N].
        + rewrite A1, O2, O3 by (assumption || (apply not_eq_sym; assumption)). apply (me_face m D M), Du.
        + rewrite A6. change (orig m' (sym e)) with (dest m' e). rewrite O2, dO by (assumption || (apply not_eq_sym; assumption)). reflexivity.
        + rewrite A2, dO, O3 by (assumption || (apply not_eq_sym; assumption)). rewrite <- (me_face m D M w Dw), Lw. unfold y. rewrite (me_face m D M _ Ds). unfold dest. rewrite Ss. reflexivity.
        + rewrite A4. unfold dest. rewrite Ss, O1, O3 by (assumption || (apply not_eq_sym; assumption)). apply (me_face m D M), Dy.
        + rewrite A3, O1, dO by (assumption || (apply not_eq_sym; assumption)). reflexivity.
        + rewrite A5, O3, dO by (assumption || (apply not_eq_sym; assumption)). rewrite <- (me_face m D M z Dz), Lz. apply (me_face m D M), De.
        + pose proof (Out a Da N) as N'. rewrite A7 by assumption.
          rewrite O3, dO; try assumption; [apply (me_face m D M), Da|intros Q; apply N; left; auto|intros Q; apply N; do 3 right; left; auto|intros Q; apply N'; left; auto|intros Q; apply N'; do 3 right; left; auto].
      - intros a Da. destruct (edge_dec a e) as [-> | N1]; [rewrite O1, O2; exact Lo|].
        destruct (edge_dec a (sym e)) as [-> | N2].
        { unfold dest. rewrite Ss, O1. change (orig m' (sym e)) with (dest m' e). rewrite O2. intros Q. apply Lo. symmetry. exact Q. }
        rewrite O3, dO by assumption. apply (me_loop m D M), Da.
      - intros a b Da Db Q. destruct (Rep a Da) as (a' & Da' & N1 & N2 & S1 & Q1). destruct (Rep b Db) as (b' & Db' & N3 & N4 & S2 & Q2).
        eapply origin_trans; [exact S1|]. eapply origin_trans; [|apply origin_comm, S2].
        assert (Q' : orig m a' = orig m b') by congruence.
        pose proof (origin_map m D M m' f St a' b' Da' (me_same m D M a' b' Da' Db' Q')) as G. rewrite !fo in G by assumption. exact G.
      - assert (G : forall a b, D a -> D b -> connected m' (f a) (f b)).
        { assert (Cf : forall t, D t -> D (f t)).
          { intros t Dt. unfold f. destruct (edge_eqb t e); [apply (me_sym m D M), Dw|]. destruct (edge_eqb t (sym e)); [apply (me_sym m D M), Dz|exact Dt]. }
          apply (connected_map m D M m' f).
          - intros t Dt. apply origin_connected; [exact H'|apply Pr', Cf, Dt|apply St, Dt].
          - assert (Cl : forall a b, D a -> lnext m' a = b -> connected m' a b) by (intros a b Da <-; apply connected_lnext; [exact H'|apply Ex', Da]).
            assert (Cs : forall a, D a -> connected m' a (sym a)) by (intros a Da; apply c_sym, Ex', Da).
            assert (Cwz : connected m' (sym w) (sym z)).
            { eapply c_trans; [apply c_back, Cs, Dw|]. eapply c_trans; [|apply Cs, Dz].
              eapply c_trans; [apply c_back, (Cl e w De A1)|]. eapply c_trans; [apply Cs, De|]. apply (Cl _ _ Ds A4). }
            intros t Dt. destruct (edge_dec t e) as [-> | M1]; [rewrite fe, fs; exact Cwz|].
            destruct (edge_dec t (sym e)) as [-> | M2]; [rewrite Ss, fe, fs; apply c_back, Cwz|].
            destruct (sym_not t Dt M1 M2). rewrite !fo by assumption. apply Cs, Dt. }
        assert (Cn : forall a b, D a -> D b -> same_origin m' a b -> connected m' a b) by (intros a b Da Db S; apply origin_connected; [exact H'|apply Pr', Da|exact S]).
        intros a b Da Db. destruct (Rep a Da) as (a' & Da' & N1 & N2 & S1 & _). destruct (Rep b Db) as (b' & Db' & N3 & N4 & S2 & _).
        eapply c_trans; [apply Cn; [exact Da|exact Da'|exact S1]|]. eapply c_trans; [|apply c_back, Cn; [exact Db|exact Db'|exact S2]].
        pose proof (G a' b' Da' Db') as Q. rewrite !fo in Q by assumption. exact Q.
    Qed.
  End Swap.
End Sides.
