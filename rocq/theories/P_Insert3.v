(** * Proofs about InsertSite: Connect within a mesh *)
From Coq Require Import Bool List Arith Lia.
From Verif Require Import Base_Res M_Quadedge S_Quadedge P_Quadedge P_Quadedge2 P_Quadedge3 P_Quadedge4 P_QuadedgeTop M_Subdivision S_Subdivision
  P_Subdivision P_Subdivision2 P_Subdivision3 P_Subdivision5 P_Insert P_Insert2.
Import ListNotations.

Section Connect.
  Context {P : Type}.
  Implicit Types m : mem P.

  Lemma onext_lprev m y : wf m -> exists_in m y -> onext m y = sym (lprev m y).
  Proof. intros W Y. unfold lprev. rewrite sym_sym; [reflexivity|apply (step_onext m W y Y)]. Qed.

  Lemma connect_mesh resolve m D a s b d m' n : mesh m D -> D a -> D s -> dest m a = Some d -> resolve m b d = Some s ->
    connect resolve m a b = Ok (m', n) -> lnext m a <> s -> orig m s <> dest m a ->
    n = (count m, 0) /\ mesh m' (fun x => D x \/ x = n \/ x = sym n) /\ count m' = S (count m)
    /\ (forall x, D x -> orig m' x = orig m x) /\ orig m' n = dest m a /\ dest m' n = orig m s
    /\ lnext m' a = n /\ lnext m' n = s /\ lnext m' (lprev m s) = sym n /\ lnext m' (sym n) = lnext m a
    /\ (forall x, D x -> x <> a -> x <> lprev m s -> lnext m' x = lnext m x)
    /\ (forall L, around_origin m (s :: L) -> around_origin m' (s :: sym n :: L)).
  Proof.
    intros M Da Ds Dd R C Nh No. pose proof (me_hist m D M) as H. pose proof (history_wf m H) as W.
    pose proof (me_prim m D M a Da) as Pa. pose proof (me_prim m D M s Ds) as Ps.
    assert (K : same_kind a s) by (apply (primal_kind m); assumption).
    destruct (connect_effect resolve m a b m' n s d H (proj1 Pa) (proj2 Pa) Dd R (proj1 Ps) K C) as (H' & O1 & O2 & L1 & L2 & _ & _ & Ri & O3).
    destruct (connect_facts resolve m a b m' n s d W (proj1 Pa) (proj2 Pa) Dd R (proj1 Ps) K C)
      as (m1 & W1 & C1 & _ & Ln & Mm & En & Kn & Eh & Kh & Hh & W2 & W').
    destruct (connect_inv resolve m a b m' n s d Dd R C) as (En' & _).
    rewrite Hh in *. set (h := lnext m a) in *. set (b0 := lprev m s).
    pose proof (me_lnext m D M a Da) as Dh. fold h in Dh. pose proof (me_lprev m D M s Ds) as Db0. fold b0 in Db0.
    assert (Cm : count m' = S (count m)) by (rewrite Mm; exact C1).
    assert (Pn : primal m1 n) by (split; [exact En|unfold same_kind in Kn; rewrite Kn; apply Pa]).
    assert (Up : forall x, D x -> primal m1 x) by (intros x Dx; destruct (me_prim m D M x Dx) as [[A B] Kx]; split; [split; [rewrite C1; lia|exact B]|exact Kx]).
    assert (Nn : forall x, D x -> x <> n /\ x <> sym n).
    { intros x Dx. pose proof (fresh_not m D x M Dx) as F. split; intros ->; apply F; rewrite En'; reflexivity. }
    assert (Ls : lnext m b0 = s) by (apply lnext_lprev; [exact W|apply Ps]).
    assert (Nab : a <> b0) by (intros Q; apply Nh; unfold h; rewrite Q; exact Ls).
    assert (Hs : h <> s) by exact Nh.
    set (m2 := splice m1 n h) in *.
    assert (X2 : forall x, primal m1 x -> primal m2 x) by (intros x [A B]; split; [apply splice_ex, A|exact B]).
    assert (X' : forall x, primal m1 x -> primal m' x) by (intros x [A B]; split; [rewrite Mm; apply splice_ex, splice_ex, A|exact B]).
    assert (LN : forall x y, primal m1 x -> lnext m1 x = y ->
      lnext m2 x = (if edge_eqb y n then h else if edge_eqb y h then n else y)).
    { intros x y Px Y. apply (splice_ln m1 n h x W1); [apply Pn|exact Eh|exact Kh|apply Px|apply (primal_kind m1); assumption|exact Y]. }
    assert (Pss : primal m2 s) by (apply X2, Up, Ds). assert (Psn : primal m2 (sym n)) by (apply X2, primal_sym, Pn).
    assert (LN' : forall x y, primal m1 x -> lnext m2 x = y ->
      lnext m' x = (if edge_eqb y (sym n) then s else if edge_eqb y s then sym n else y)).
    { intros x y Px Y. rewrite Mm. apply (splice_ln m2 (sym n) s x W2); [apply Psn|apply Pss|apply (primal_kind m2); assumption|apply X2, Px|apply (primal_kind m2); [apply X2, Px|exact Psn]|exact Y]. }
    destruct (new_edge m) as (_ & _ & _ & _ & _ & [_ (Ln1 & Ln2 & _)]). rewrite <- En' in Ln1, Ln2.
    assert (A2 : lnext m' (sym n) = h).
    { rewrite (LN' (sym n) h (primal_sym _ _ Pn)).
      - rewrite eqb_neq by apply (Nn h Dh). rewrite eqb_neq by exact Hs. reflexivity.
      - rewrite (LN (sym n) n (primal_sym _ _ Pn)) by (rewrite Ln; exact Ln2). rewrite eqb_refl. reflexivity. }
    assert (Lold : forall x, D x -> lnext m1 x = lnext m x) by (intros x Dx; rewrite Ln; apply (new_ln m x), (me_ex m D M x Dx)).
    assert (A3 : lnext m' b0 = sym n).
    { rewrite (LN' b0 s (Up _ Db0)).
      - rewrite eqb_neq by apply (Nn s Ds). rewrite eqb_refl. reflexivity.
      - rewrite (LN b0 s (Up _ Db0)) by (rewrite Lold by exact Db0; exact Ls).
        rewrite eqb_neq by apply (Nn s Ds). rewrite eqb_neq by (intros Q; apply Hs; symmetry; exact Q). reflexivity. }
    assert (A4 : forall x, D x -> x <> a -> x <> b0 -> lnext m' x = lnext m x).
    { intros x Dx N1 N2. pose proof (me_lnext m D M x Dx) as Dy. set (y := lnext m x) in *.
      assert (yh : y <> h) by (intros Q; apply N1; apply (lnext_inj m x a W (me_ex m D M x Dx) (proj1 Pa)); exact Q).
      assert (ys : y <> s) by (intros Q; apply N2; apply (lnext_inj m x b0 W (me_ex m D M x Dx) (me_ex m D M b0 Db0)); rewrite Ls; exact Q).
      rewrite (LN' x y (Up _ Dx)).
      - rewrite eqb_neq by apply (Nn y Dy). rewrite eqb_neq by exact ys. reflexivity.
      - rewrite (LN x y (Up _ Dx) (Lold x Dx)). rewrite eqb_neq by apply (Nn y Dy). rewrite eqb_neq by exact yh. reflexivity. }
    assert (O1' : forall x, D x -> orig m' x = orig m x) by (intros x Dx; apply O3, (me_ex m D M x Dx)).
    assert (Oh : onext m' h = n).
    { rewrite (onext_of_lnext m' (sym n) h W' (proj1 (X' _ (primal_sym _ _ Pn))) A2). apply sym_sym, Pn. }
    assert (On : onext m' n = sym a) by (apply onext_of_lnext; [exact W'|apply X', Up, Da|exact L1]).
    assert (Os : onext m' s = sym n) by (apply onext_of_lnext; [exact W'|apply X', Pn|exact L2]).
    assert (Osn : onext m' (sym n) = sym b0) by (apply onext_of_lnext; [exact W'|apply X', Up, Db0|exact A3]).
    assert (Nx : forall x, primal m1 x -> same_origin m' x (onext m' x)) by (intros x Px; apply origin_next; [exact H'|apply X', Px]).
    split; [exact En'|]. split; [|split; [exact Cm|]; split; [exact O1'|]; split; [exact O1|]; split; [exact O2|]; repeat (split; [assumption|])].
    - apply (extend m m' D n M H').
      + apply X', Pn.
      + intros x Dx. apply X', Up, Dx.
      + intros x [Dx|[-> | ->]]; [|rewrite L2; auto|rewrite A2; auto].
        destruct (edge_dec x a) as [-> | N1]; [rewrite L1; auto|]. destruct (edge_dec x b0) as [-> | N2]; [rewrite A3; auto|].
        rewrite A4 by assumption. left. apply (me_lnext m D M), Dx.
      + exact O1'.
      + rewrite O1, O2. split; [apply (me_lab m D M (sym a)), (me_sym m D M), Da|apply (me_lab m D M s Ds)].
      + intros x [Dx|[-> | ->]].
        * assert (Dx' : dest m' x = dest m x) by (apply O1', (me_sym m D M), Dx). rewrite Dx'.
          destruct (edge_dec x a) as [-> | N1]; [rewrite L1; exact O1|]. destruct (edge_dec x b0) as [-> | N2].
          -- rewrite A3. change (orig m' (sym n)) with (dest m' n). rewrite O2, <- (me_face m D M b0 Db0), Ls. reflexivity.
          -- rewrite A4 by assumption. rewrite O1' by apply (me_lnext m D M), Dx. apply (me_face m D M), Dx.
        * rewrite L2, O2. apply O1', Ds.
        * rewrite A2. unfold dest. rewrite (sym_sym n) by apply Pn. rewrite O1, O1' by exact Dh. apply (me_face m D M), Da.
      + rewrite O1, O2. intros Q. apply No. symmetry. exact Q.
      + intros y Dy. pose proof (me_lprev m D M y Dy) as Dy'. pose proof (onext_lprev m y W (me_ex m D M y Dy)) as Hy.
        pose proof (lnext_lprev m y W (me_ex m D M y Dy)) as Ly.
        destruct (edge_dec y h) as [-> | N1].
        { assert (Q : lprev m h = a) by (apply lprev_lnext; [exact W|apply Pa]). rewrite Hy, Q, <- On.
          eapply origin_trans; [apply (Nx h (Up h Dh))|]. rewrite Oh. apply Nx, Pn. }
        destruct (edge_dec y s) as [-> | N2].
        { rewrite Hy. fold b0. rewrite <- Osn. eapply origin_trans; [apply (Nx s (Up s Ds))|]. rewrite Os. apply Nx, primal_sym, Pn. }
        replace (onext m y) with (onext m' y); [apply Nx, Up, Dy|]. rewrite Hy.
        apply onext_of_lnext; [exact W'|apply X', Up, Dy'|]. rewrite A4; [exact Ly|exact Dy'| |].
        * intros Q. apply N1. rewrite <- Ly, Q. reflexivity.
        * intros Q. apply N2. rewrite <- Ly, Q. exact Ls.
      + exists h. split; [exact Dh|]. split; [|rewrite O1; symmetry; apply (me_face m D M), Da].
        apply origin_comm. rewrite <- Oh. apply Nx, Up, Dh.
      + left. exists s. split; [exact Ds|]. split; [|exact O2]. apply origin_comm. rewrite <- Os. apply Nx, Up, Ds.
    - intros L RL. destruct (on_ring m h W (me_ex m D M h Dh)) as (L0 & R0).
      apply (Ri L0 L R0 RL). intros x X1 X3.
      destruct (me_ring m D M _ h R0 (or_introl eq_refl) Dh x X1) as [_ Q1].
      destruct (me_ring m D M _ s RL (or_introl eq_refl) Ds x X3) as [_ Q3].
      apply No. rewrite <- Q3, Q1. apply (me_face m D M), Da.
  Qed.
End Connect.
