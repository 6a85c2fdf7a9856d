(** * Proofs about InsertSite: triangulations as meshes, adding an edge *)
From Coq Require Import Bool List Arith Lia.
From Verif Require Import Base_Res M_Quadedge S_Quadedge P_Quadedge P_Quadedge2 P_Quadedge3 P_Quadedge4 P_QuadedgeTop M_Subdivision S_Subdivision
  P_Subdivision P_Subdivision2 P_Subdivision3 P_Subdivision5 P_Insert.
Import ListNotations.

Section Adding.
  Context {P : Type}.
  Implicit Types m : mem P.

  Lemma mesh_of m se : history m -> primal m se -> labelled m se -> loop_free m se -> all_triangles m se ->
    mesh m (connected m se) /\ forall a, connected m se a -> tri3 m a.
  Proof.
    intros H S L F T. pose proof (history_wf m H) as W.
    assert (Pr : forall a, connected m se a -> primal m a) by (intros a; apply conn_primal; assumption).
    assert (Ln : forall a, connected m se a -> connected m se (lnext m a)).
    { intros a C. eapply c_trans; [exact C|]. apply connected_lnext; [exact H|apply Pr, C]. }
    assert (Sy : forall a, connected m se a -> connected m se (sym a)).
    { intros a C. eapply c_trans; [exact C|]. apply c_sym, (Pr a C). }
    split; [constructor; auto|].
    - intros a C. apply (L a C).
    - intros a C. apply (proj2 (L _ (Ln a C)) (sym a) (Sy a C)).
      rewrite <- (onext_of_lnext m a _ W (proj1 (Pr a C)) eq_refl). apply origin_next; [exact H|]. apply Pr, Ln, C.
    - intros a C Q. apply (F a C). apply (proj2 (L a C) (sym a) (Sy a C)), Q.
    - intros a b Ca Cb Q. apply (proj2 (L a Ca) b Cb), Q.
    - intros a b Ca Cb. eapply c_trans; [apply c_back, Ca|exact Cb].
    - intros a C. destruct (T a C) as (b & c & [_ (Q1 & Q2 & Q3 & _)]). unfold tri3. rewrite Q1, Q2. exact Q3.
  Qed.
  Lemma tri_face m D a : mesh m D -> D a -> tri3 m a -> around_face m [a; lnext m a; lnext m (lnext m a)].
  Proof.
    intros M Da T. pose proof (me_lnext m D M a Da) as Db. pose proof (me_lnext m D M _ Db) as Dc.
    assert (NE : forall x, D x -> lnext m x <> x).
    { intros x Dx Q. apply (me_loop m D M x Dx). rewrite <- (me_face m D M x Dx), Q. reflexivity. }
    split; [|repeat split; exact T].
    constructor; [intros [Q|[Q|[]]]|constructor; [intros [Q|[]]|constructor; [intros []|constructor]]].
    - apply (NE a Da), Q.
    - apply (NE _ Dc). rewrite T, Q. reflexivity.
    - apply (NE _ Db), Q.
  Qed.
  Lemma of_mesh m D se : mesh m D -> D se -> (forall a, D a -> tri3 m a) ->
    primal m se /\ labelled m se /\ loop_free m se /\ all_triangles m se.
  Proof.
    intros M Ds T. pose proof (fun b => proj1 (me_all m D M se b Ds)) as A.
    assert (SO : forall a b, D a -> same_origin m a b -> orig m a = orig m b).
    { intros a b Da (l & R & I & J). symmetry. apply (me_ring m D M l a R I Da b J). }
    split; [apply (me_prim m D M), Ds|]. split; [|split].
    - intros a C. apply A in C. split; [apply (me_lab m D M), C|]. intros b Cb. apply A in Cb.
      split; [apply (me_same m D M); assumption|apply SO, C].
    - intros a C. apply A in C. intros Q. apply (me_loop m D M a C). apply SO; assumption.
    - intros a C. apply A in C. exists (lnext m a), (lnext m (lnext m a)). apply (tri_face m D a M C), T, C.
  Qed.

  Section Extend.
    Variables (m m' : mem P) (D : edge -> Prop) (n : edge).
    Let D' (a : edge) : Prop := D a \/ a = n \/ a = sym n.
    Hypothesis M : mesh m D.
    Hypothesis H' : history m'.
    Hypothesis Pn : primal m' n.
    Hypothesis Pold : forall a, D a -> primal m' a.
    Hypothesis Ln : forall a, D' a -> D' (lnext m' a).
    Hypothesis Old : forall a, D a -> orig m' a = orig m a.
    Hypothesis Lab : orig m' n <> None /\ dest m' n <> None.
    Hypothesis Fa : forall a, D' a -> orig m' (lnext m' a) = dest m' a.
    Hypothesis Lo : orig m' n <> dest m' n.
    Hypothesis St : forall y, D y -> same_origin m' y (onext m y).
    Hypothesis At : exists a, D a /\ same_origin m' n a /\ orig m' n = orig m a.
    Hypothesis To : (exists a, D a /\ same_origin m' (sym n) a /\ dest m' n = orig m a) \/ (forall a, D a -> dest m' n <> orig m a).
    Lemma extend : mesh m' D'.
    Proof.
      pose proof (history_wf m (me_hist m D M)) as W. pose proof (history_wf m' H') as W'.
      assert (Sn : sym (sym n) = n) by (apply sym_sym, Pn).
      assert (Dm : forall a, D a -> dest m' a = dest m a) by (intros a Da; apply Old, (me_sym m D M), Da).
      assert (Keep : forall a b, D a -> D b -> orig m a = orig m b -> same_origin m' a b).
      { intros a b Da Db Q. apply (origin_map m D M m' (fun e => e) St a b Da). apply (me_same m D M); assumption. }
      assert (Sy : forall a, D' a -> D' (sym a)).
      { intros a [Da|[-> | ->]]; [left; apply (me_sym m D M), Da|right; right; reflexivity|right; left; exact Sn]. }
      assert (Nold : forall b, D b -> orig m' n = orig m b -> same_origin m' n b).
      { intros b Db Q. destruct At as (a & Da & S & O). eapply origin_trans; [exact S|]. apply Keep; [exact Da|exact Db|congruence]. }
      assert (Sold : forall b, D b -> dest m' n = orig m b -> same_origin m' (sym n) b).
      { intros b Db Q. destruct To as [(a & Da & S & O)|N]; [|contradiction (N b Db Q)].
        eapply origin_trans; [exact S|]. apply Keep; [exact Da|exact Db|congruence]. }
      constructor.
      - exact H'.
      - intros a [Da|[-> | ->]]; [apply Pold, Da|exact Pn|apply primal_sym, Pn].
      - exact Sy.
      - exact Ln.
      - intros a [Da|[-> | ->]]; [rewrite Old by exact Da; apply (me_lab m D M), Da|apply Lab|apply Lab].
      - exact Fa.
      - intros a [Da|[-> | ->]].
        + rewrite Old, Dm by exact Da. apply (me_loop m D M), Da.
        + exact Lo.
        + unfold dest. rewrite Sn. intros Q. apply Lo. symmetry. exact Q.
      - intros a b [Da|[-> | ->]] [Db|[-> | ->]] Q.
        + rewrite !Old in Q by assumption. apply Keep; assumption.
        + rewrite Old in Q by assumption. apply origin_comm, Nold; [exact Da|symmetry; exact Q].
        + rewrite Old in Q by assumption. apply origin_comm, Sold; [exact Da|symmetry; exact Q].
        + rewrite (Old b) in Q by assumption. apply Nold; assumption.
        + apply origin_refl; [exact H'|apply Pn].
        + contradiction (Lo Q).
        + rewrite (Old b) in Q by assumption. apply Sold; assumption.
        + contradiction (Lo (eq_sym Q)).
        + apply origin_refl; [exact H'|apply primal_sym, Pn].
      - assert (CO : forall a b, D a -> D b -> connected m' a b).
        { apply (connected_map m D M m' (fun e => e)).
          - intros y Dy. apply origin_connected; [exact H'|apply Pold, Dy|apply St, Dy].
          - intros y Dy. apply c_sym, (Pold y Dy). }
        destruct At as (a0 & Da0 & S0 & _).
        assert (C0 : forall a, D' a -> connected m' a0 a).
        { assert (Cn : connected m' a0 n) by (apply origin_connected; [exact H'|apply Pold, Da0|apply origin_comm, S0]).
          intros a [Da|[-> | ->]]; [apply CO; assumption|exact Cn|]. eapply c_trans; [exact Cn|]. apply c_sym, Pn. }
        intros a b Ha Hb. eapply c_trans; [apply c_back, C0, Ha|apply C0, Hb].
    Qed.
  End Extend.

  (** A new edge from the origin of [e] to [x], into the left face of [e]. *)
  Lemma fresh_not m D a : mesh m D -> D a -> fst a <> count m.
  Proof. intros M Da. pose proof (proj1 (me_ex m D M a Da)). lia. Qed.
  Lemma new_orig m a : fst a <> count m -> orig (fst (new m)) a = orig m a.
  Proof. intros N. unfold orig. cbn [new fst vertex set_next]. destruct (Nat.eqb_spec (fst a) (count m)); [contradiction|reflexivity]. Qed.

  Definition spike m (e : edge) (x : P) : mem P := splice (end_points (fst (new m)) (count m, 0) (orig m e) (Some x)) (count m, 0) e.
  Lemma spike_effect m D e x : mesh m D -> D e -> (forall a, D a -> orig m a <> Some x) ->
    let m' := spike m e x in let n := (count m, 0) in
    mesh m' (fun a => D a \/ a = n \/ a = sym n)
    /\ count m' = S (count m)
    /\ (forall a, D a -> orig m' a = orig m a) /\ orig m' n = orig m e /\ dest m' n = Some x
    /\ lnext m' n = sym n /\ lnext m' (sym n) = e /\ lnext m' (lprev m e) = n
    /\ (forall a, D a -> a <> lprev m e -> lnext m' a = lnext m a)
    /\ around_origin m' [sym n].
  Proof.
    intros M De Nx m' n. pose proof (me_hist m D M) as H. pose proof (history_wf m H) as W.
    set (m1 := end_points (fst (new m)) n (orig m e) (Some x)).
    assert (H1 : history m1) by (apply h_points; [apply h_new, H|split; [rewrite new_count|]; cbn; lia]).
    pose proof (history_wf m1 H1) as W1.
    assert (C1 : count m1 = S (count m)) by reflexivity.
    assert (Pn : primal m1 n) by (split; [split; [rewrite C1|]; cbn; lia|reflexivity]).
    assert (Up : forall a, D a -> primal m1 a) by (intros a Da; destruct (me_prim m D M a Da) as [[A B] K]; split; [split; [rewrite C1; lia|exact B]|exact K]).
    assert (H' : history m') by (apply h_splice; [exact H1|apply Pn|apply Up, De|apply (primal_kind m1); [exact Pn|apply Up, De]]).
    pose proof (history_wf m' H') as W'.
    assert (Nn : forall a, D a -> a <> n /\ a <> sym n).
    { intros a Da. pose proof (fresh_not m D a M Da) as F. split; intros ->; apply F; reflexivity. }
    assert (Ex' : forall a, primal m1 a -> primal m' a) by (intros a [A K]; split; [apply splice_ex, A|exact K]).
    destruct (new_edge m) as (_ & _ & _ & Rn & Rs & [_ (Ln1 & Ln2 & _)]).
    assert (LN : forall a y, primal m1 a -> lnext m1 a = y -> lnext m' a = if edge_eqb y n then e else if edge_eqb y e then n else y).
    { intros a y Pa Y. apply (splice_ln m1 n e a W1); [apply Pn|apply Up, De|apply (primal_kind m1); [exact Pn|apply Up, De]|apply Pa|apply (primal_kind m1); assumption|exact Y]. }
    assert (Lold : forall a, D a -> lnext m1 a = lnext m a) by (intros a Da; apply (new_ln m a), (me_ex m D M a Da)).
    assert (A1 : lnext m' n = sym n).
    { rewrite (LN n (sym n) Pn Ln1). rewrite eqb_neq by apply sym_neq. rewrite eqb_neq by (intros Q; symmetry in Q; exact (proj2 (Nn e De) Q)). reflexivity. }
    assert (A2 : lnext m' (sym n) = e) by (rewrite (LN (sym n) n (primal_sym _ _ Pn) Ln2), eqb_refl; reflexivity).
    pose proof (me_lprev m D M e De) as Dl.
    assert (A3 : lnext m' (lprev m e) = n).
    { rewrite (LN _ e (Up _ Dl)); [rewrite eqb_neq by apply (Nn e De); rewrite eqb_refl; reflexivity|].
      rewrite Lold by exact Dl. apply lnext_lprev; [exact W|apply (me_ex m D M), De]. }
    assert (A4 : forall a, D a -> a <> lprev m e -> lnext m' a = lnext m a).
    { intros a Da Na. rewrite (LN a _ (Up a Da) (Lold a Da)).
      rewrite eqb_neq by apply (Nn _ (me_lnext m D M a Da)). rewrite eqb_neq; [reflexivity|].
      intros Q. apply Na. rewrite <- Q. symmetry. apply lprev_lnext; [exact W|apply (me_ex m D M), Da]. }
    assert (O1 : forall a, D a -> orig m' a = orig m a).
    { intros a Da. change (orig m' a) with (upd (upd (vertex (fst (new m))) n (orig m e)) (sym n) (Some x) a).
      rewrite !upd_other by apply (Nn a Da). apply (new_orig m a (fresh_not m D a M Da)). }
    assert (O2 : orig m' n = orig m e).
    { change (orig m' n) with (upd (upd (vertex (fst (new m))) n (orig m e)) (sym n) (Some x) n).
      rewrite upd_other by (intros Q; symmetry in Q; exact (sym_neq _ Q)). apply upd_same. }
    assert (O3 : dest m' n = Some x).
    { change (dest m' n) with (upd (upd (vertex (fst (new m))) n (orig m e)) (sym n) (Some x) (sym n)). apply upd_same. }
    assert (Oe : onext m' e = n).
    { rewrite (onext_of_lnext m' (sym n) e W' (primal_ex _ _ (Ex' _ (primal_sym _ _ Pn))) A2). reflexivity. }
    split; [|split; [reflexivity|]; repeat (split; [assumption|])].
    - apply (extend m m' D n M H'); auto.
      + intros a [Da|[-> | ->]].
        * destruct (edge_dec a (lprev m e)) as [-> | N]; [rewrite A3; auto|rewrite A4 by assumption; left; apply (me_lnext m D M), Da].
        * rewrite A1; auto.
        * rewrite A2; auto.
      + rewrite O2, O3. split; [apply (me_lab m D M), De|discriminate].
      + intros a [Da|[-> | ->]].
        * assert (Da' : dest m' a = dest m a) by (apply O1, (me_sym m D M), Da).
          destruct (edge_dec a (lprev m e)) as [-> | N].
          -- rewrite A3, O2, Da', <- (me_face m D M _ Dl), lnext_lprev; [reflexivity|exact W|apply (me_ex m D M), De].
          -- rewrite A4, Da', O1 by (assumption || apply (me_lnext m D M), Da). apply (me_face m D M), Da.
        * rewrite A1. reflexivity.
        * rewrite A2. unfold dest. rewrite (sym_sym n) by apply Pn. rewrite O2. apply O1, De.
      + rewrite O2, O3. apply Nx, De.
      + intros y Dy. pose proof (me_lprev m D M y Dy) as Dy'.
        assert (Hy : onext m y = sym (lprev m y)) by (unfold lprev; rewrite sym_sym; [reflexivity|apply (step_onext m W y (me_ex m D M y Dy))]).
        destruct (edge_dec y e) as [-> | N].
        * eapply origin_trans; [apply origin_next; [exact H'|apply Ex', Up, De]|]. rewrite Oe.
          replace (onext m e) with (onext m' n); [apply origin_next; [exact H'|apply Ex', Pn]|].
          rewrite Hy. apply onext_of_lnext; [exact W'|apply Ex', Up, Dl|exact A3].
        * replace (onext m y) with (onext m' y); [apply origin_next; [exact H'|apply Ex', Up, Dy]|].
          rewrite Hy. apply onext_of_lnext; [exact W'|apply Ex', Up, Dy'|].
          rewrite A4; [apply lnext_lprev; [exact W|apply (me_ex m D M), Dy]|exact Dy'|].
          intros Q. apply N. rewrite <- (lnext_lprev m y W (me_ex m D M y Dy)), Q. apply lnext_lprev; [exact W|apply (me_ex m D M), De].
      + exists e. split; [exact De|]. split; [|exact O2]. apply origin_comm. pose proof (origin_next m' e H' (primal_ex _ _ (Ex' _ (Up e De)))) as Q. rewrite Oe in Q. exact Q.
      + right. intros a Da. rewrite O3. intros Q. apply (Nx a Da). symmetry. exact Q.
    - split; [repeat constructor; intros []|]. split; [|exact I].
      rewrite (onext_of_lnext m' n _ W' (primal_ex _ _ (Ex' _ Pn)) A1). reflexivity.
  Qed.
End Adding.
