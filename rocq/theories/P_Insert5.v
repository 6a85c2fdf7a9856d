(** * Proofs about InsertSite: the loop over the suspect edges *)
From Coq Require Import Bool List Arith Lia.
From Verif Require Import Base_F64 Base_Res Base_Geom M_Cmp M_Quadedge S_Quadedge P_Quadedge P_Quadedge2 P_Quadedge3 P_Quadedge4 P_QuadedgeTop M_Subdivision S_Subdivision
  P_Subdivision P_Subdivision2 P_Subdivision3 P_Subdivision5 M_Insert P_Insert P_Insert2 P_Insert3 P_Insert4.
Import ListNotations.

Lemma cycle_insert_head f f' g n L : cycle f (g :: L) -> ~ In n (g :: L) -> f' g = n -> f' n = f g ->
  (forall t, In t (g :: L) -> t <> g -> f' t = f t) -> cycle f' (g :: n :: L).
Proof.
  intros [ND Ch] N Q1 Q2 O. inversion ND as [|g0 L0 NG NL]; subst g0 L0. split.
  - constructor; [intros [Q|Q]; [apply N; left; auto|contradiction]|]. constructor; [intros Q; apply N; right; exact Q|exact NL].
  - destruct Ch as [C1 C2]. split; [exact Q1|]. split; [rewrite Q2; exact C1|].
    apply (chain_ext f); [|exact C2]. intros t T. symmetry. apply O; [right; exact T|]. intros ->. contradiction.
Qed.
Lemma cycle_insert f f' A g n B : cycle f (A ++ g :: B) -> ~ In n (A ++ g :: B) -> f' g = n -> f' n = f g ->
  (forall t, In t (A ++ g :: B) -> t <> g -> f' t = f t) -> cycle f' (A ++ g :: n :: B).
Proof.
  intros C N Q1 Q2 O. pose proof (cycle_rotate f A (g :: B) C) as C'. cbn [app] in C'.
  assert (I : forall t, In t (g :: B ++ A) <-> In t (A ++ g :: B)) by (intros t; cbn [In]; rewrite !in_app_iff; cbn [In]; tauto).
  pose proof (cycle_insert_head f f' g n (B ++ A) C') as G.
  apply (cycle_rotate f' (g :: n :: B) A). cbn [app]. apply G; [rewrite I; exact N|exact Q1|exact Q2|].
  intros t T. apply O, I, T.
Qed.

(** A ring has at most as many edges as there are quad-edges. *)
Lemma ring_bound {P} (m : mem P) D l a : mesh m D -> around_origin m l -> In a l -> D a -> length l <= count m.
Proof.
  intros M R A Da. pose proof (me_ring m D M l a R A Da) as Ri.
  assert (ND : NoDup (map fst l)).
  { pose proof (cycle_nodup _ _ R) as N. clear R A. induction N as [|b l Nb N IH]; [constructor|]. cbn [map]. constructor.
    - intros I. apply in_map_iff in I. destruct I as (c & Q & C).
      destruct (Ri b (or_introl eq_refl)) as [Db Ob]. destruct (Ri c (or_intror C)) as [Dc Oc].
      destruct (same_quad b c) as [-> | ->]; [apply (me_ex m D M b Db)|apply (me_ex m D M c Dc)|apply (primal_kind m); apply (me_prim m D M); assumption|auto| |].
      + contradiction.
      + apply (me_loop m D M b Db). unfold dest. congruence.
    - apply IH. intros x X. apply Ri. right. exact X. }
  rewrite <- (map_length fst l), <- (seq_length (count m) 0). apply (NoDup_incl_length ND).
  intros q Q. apply in_map_iff in Q. destruct Q as (b & <- & B). apply in_seq. destruct (Ri b B) as [Db _].
  pose proof (proj1 (me_ex m D M b Db)). lia.
Qed.

Section Loop.
  Variable D : edge -> Prop.
  Variable G : pt -> Prop.
  Variable test : mem pt -> edge -> res unit bool.
  Variable x : pt.
  Variable first : edge.
  Definition labels (m : mem pt) : Prop := forall a, D a -> exists p, orig m a = Some p /\ G p.
  Hypothesis Ht : forall m e, mesh m D -> labels m -> D e ->
    test m e <> Err tt /\ (test m e = Ok true -> dest m (lnext m (sym e)) <> dest m (lnext m e)).

  (** [e] is opposite to [x] in its triangle; the edges from [x] to the origins of
      the edges which are still to be looked at are [A]. *)
  Record facing (m : mem pt) (A B : list edge) (e : edge) : Prop := {
    fa_mesh : mesh m D;
    fa_tri a : D a -> tri3 m a;
    fa_lab : labels m;
    fa_first : D first;
    fa_e : D e;
    fa_ring : around_origin m (A ++ lnext m (lnext m e) :: B);
    fa_head : hd e (A ++ [lnext m (lnext m e)]) = sym first;
    fa_x : orig m (lnext m (lnext m e)) = Some x }.

  Lemma facing_swap m A B e : facing m A B e -> test m e = Ok true ->
    facing (swap m e) (A ++ [lnext m (lnext m e)]) B (oprev (swap m e) e)
    /\ count (swap m e) = count m
    /\ forall p, (exists a, D a /\ orig (swap m e) a = Some p) <-> (exists a, D a /\ orig m a = Some p).
  Proof.
    intros [M T L Df De R Hd Ox] Te. destruct (Ht m e M L De) as [_ Lo]. specialize (Lo Te).
    pose proof (me_sym m D M e De) as Ds. pose proof (me_lnext m D M e De) as Du. pose proof (me_lnext m D M _ Du) as Dw.
    pose proof (me_lnext m D M _ Ds) as Dy. pose proof (me_lnext m D M _ Dy) as Dz.
    destruct (swap_mesh m D e M De (T e De) (T _ Ds) T Lo) as (M' & T' & Cm).
    destruct (swap_lnext m D e M De (T e De) (T _ Ds) T) as (A1 & A2 & A3 & A4 & A5 & A6 & A7 & O1 & O2 & O3).
    pose proof (side_neq m D e M De (T e De) (T _ Ds)) as SN.
    set (u := lnext m e) in *. set (w := lnext m u) in *. set (y := lnext m (sym e)) in *. set (z := lnext m y) in *.
    assert (Ss : sym (sym e) = e) by apply (me_ss m D M e De).
    assert (Lw : lnext m w = e) by apply (T e De). assert (Lz : lnext m z = sym e) by apply (T _ Ds).
    pose proof (history_wf m (me_hist m D M)) as W. pose proof (history_wf _ (me_hist _ D M')) as W'.
    assert (Ex' : forall a, D a -> exists_in (swap m e) a) by (intros a Da; apply (me_ex _ D M' a Da)).
    assert (Oz : oprev (swap m e) e = z) by (rewrite oprev_lnext by apply Ex', De; exact A4).
    (* the labels *)
    assert (Xu : dest m u = Some x) by (rewrite <- (me_face m D M u Du); exact Ox).
    assert (Xe : orig m e <> Some x) by (rewrite <- Ox, <- Lw, (me_face m D M w Dw); apply not_eq_sym, (me_loop m D M w Dw)).
    assert (Xs : dest m e <> Some x) by (rewrite <- Xu; rewrite <- (me_face m D M e De); apply (me_loop m D M u Du)).
    assert (Xy : orig m y <> Some x) by (unfold y; rewrite (me_face m D M _ Ds); unfold dest; rewrite Ss; exact Xe).
    assert (Xz : orig m z <> Some x) by (unfold z; rewrite (me_face m D M _ Dy), <- Xu; exact Lo).
    assert (Xuo : orig m u <> Some x) by (unfold u; rewrite (me_face m D M _ De); exact Xs).
    assert (In6 : forall t, In t [e; u; w; sym e; y; z] -> orig m t = Some x -> t = w).
    { intros t [<-|[<-|[<-|[<-|[<-|[<-|[]]]]]]] Q; try contradiction; reflexivity. }
    assert (Rm : forall t, In t (A ++ w :: B) -> D t /\ orig m t = Some x).
    { intros t It. rewrite <- Ox. apply (me_ring m D M _ w R); [apply in_or_app; right; left; reflexivity|exact Dw|exact It]. }
    split; [|split; [exact Cm|]].
    - constructor; try assumption.
      + intros a Da. destruct (edge_dec a e) as [-> | N1].
        { rewrite O1, <- (me_face m D M y Dy). apply L, Dz. }
        destruct (edge_dec a (sym e)) as [-> | N2].
        { change (orig (swap m e) (sym e)) with (dest (swap m e) e). rewrite O2, <- (me_face m D M u Du). apply L, Dw. }
        rewrite O3 by assumption. apply L, Da.
      + rewrite Oz. exact Dz.
      + rewrite Oz, A5, A6. rewrite <- app_assoc. cbn [app].
        apply (cycle_insert (onext m)); [exact R| | | |].
        * intros I. destruct (Rm _ I) as [_ Q]. contradiction (Xs Q).
        * apply onext_of_lnext; [exact W'|apply Ex', De|exact A1].
        * rewrite (onext_of_lnext _ u (sym e) W' (Ex' u Du) A6). symmetry. apply onext_of_lnext; [exact W|apply (me_ex m D M u Du)|reflexivity].
        * intros t It Nt. destruct (Rm t It) as [Dt Ot].
          pose proof (me_lprev m D M t Dt) as Dl. pose proof (lnext_lprev m t W (me_ex m D M t Dt)) as Lt.
          rewrite (onext_lprev m t W (me_ex m D M t Dt)). apply onext_of_lnext; [exact W'|apply Ex', Dl|].
          rewrite A7; [exact Lt|exact Dl|]. intros I. apply Nt. apply In6; [|exact Ot]. rewrite <- Lt.
          cbn [In] in I. destruct I as [<-|[<-|[<-|[<-|[<-|[<-|[]]]]]]].
          -- right; left; reflexivity.
          -- right; right; left; reflexivity.
          -- left. symmetry. exact Lw.
          -- do 4 right; left; reflexivity.
          -- do 5 right; left; reflexivity.
          -- do 3 right; left. symmetry. exact Lz.
      + rewrite <- app_assoc. cbn [app]. destruct A; exact Hd.
      + rewrite Oz, A5, A6. change (orig (swap m e) (sym e)) with (dest (swap m e) e). rewrite O2. exact Xu.
    - intros p. split; intros (a & Da & Oa).
      + destruct (edge_dec a e) as [-> | N1]; [exists z; split; [exact Dz|]; rewrite <- Oa, O1; apply (me_face m D M), Dy|].
        destruct (edge_dec a (sym e)) as [-> | N2].
        { exists w. split; [exact Dw|]. rewrite <- Oa. change (orig (swap m e) (sym e)) with (dest (swap m e) e). rewrite O2. apply (me_face m D M), Du. }
        exists a. split; [exact Da|]. rewrite <- Oa. symmetry. apply O3; assumption.
      + destruct (edge_dec a e) as [-> | N1].
        { exists y. split; [exact Dy|]. rewrite O3; [|apply (SN 4 0); (reflexivity || discriminate)|apply (SN 4 3); (reflexivity || discriminate)].
          unfold y. rewrite (me_face m D M _ Ds). unfold dest. rewrite Ss. exact Oa. }
        destruct (edge_dec a (sym e)) as [-> | N2].
        { exists u. split; [exact Du|]. rewrite O3; [|apply (SN 1 0); (reflexivity || discriminate)|apply (SN 1 3); (reflexivity || discriminate)].
          unfold u. rewrite (me_face m D M _ De). exact Oa. }
        exists a. split; [exact Da|]. rewrite O3 by assumption. exact Oa.
  Qed.

  Lemma facing_next m A B e : facing m A B e -> onext m e <> first -> 
    exists A', A = A' ++ [lnext m (lnext m (lprev m (onext m e)))] /\ facing m A' (lnext m (lnext m e) :: B) (lprev m (onext m e)).
  Proof.
    intros [M T L Df De R Hd Ox] Nf. pose proof (history_wf m (me_hist m D M)) as W.
    pose proof (me_lnext m D M e De) as Du. pose proof (me_lnext m D M _ Du) as Dw. set (w := lnext m (lnext m e)) in *.
    assert (Lw : lnext m w = e) by apply (T e De).
    assert (Oe : onext m e = sym w) by (apply onext_of_lnext; [exact W|apply (me_ex m D M w Dw)|exact Lw]).
    destruct A as [|g' A _] using rev_ind.
    { exfalso. apply Nf. cbn in Hd. rewrite Oe, Hd. apply (me_ss m D M), Df. }
    exists A.
    pose proof (me_sym m D M w Dw) as Dsw. rewrite Oe.
    pose proof (me_lprev m D M _ Dsw) as De'. set (e' := lprev m (sym w)) in *.
    assert (L1 : lnext m e' = sym w) by (apply lnext_lprev; [exact W|apply (me_ex m D M _ Dsw)]).
    assert (Ig : In g' ((A ++ [g']) ++ w :: B)) by (apply in_or_app; left; apply in_or_app; right; left; reflexivity).
    destruct (me_ring m D M _ w R ltac:(apply in_or_app; right; left; reflexivity) Dw g' Ig) as [Dg Og].
    assert (Og' : onext m g' = w).
    { pose proof (cycle_rotate (onext m) A (g' :: w :: B)) as C'. rewrite <- app_assoc in R. specialize (C' R). destruct C' as [_ (C1 & _)]. exact C1. }
    assert (L2 : lnext m (sym w) = g').
    { rewrite <- (oprev_lnext m w (me_ex m D M w Dw)), <- Og'. apply oprev_onext; [exact W|apply (me_ex m D M g' Dg)]. }
    split; [rewrite L1, L2; reflexivity|].
    constructor; try assumption.
    - rewrite L1, L2. rewrite <- app_assoc in R. exact R.
    - rewrite L1, L2. rewrite <- app_assoc in Hd. cbn [app] in Hd. destruct A; exact Hd.
    - rewrite L1, L2, Og. exact Ox.
  Qed.

  Lemma swap_loop_ok fuel : forall m A B e, facing m A B e -> 2 * (count m - length (A ++ lnext m (lnext m e) :: B)) + length A < fuel ->
    swap_loop fuel test m first e <> Err tt
    /\ forall m', swap_loop fuel test m first e = Ok m' ->
      mesh m' D /\ (forall a, D a -> tri3 m' a) /\ labels m' /\ count m' = count m
      /\ forall p, (exists a, D a /\ orig m' a = Some p) <-> (exists a, D a /\ orig m a = Some p).
  Proof.
    induction fuel as [|fuel IH]; intros m A B e F Lt; [lia|]. cbn [swap_loop].
    destruct (Ht m e (fa_mesh m A B e F) (fa_lab m A B e F) (fa_e m A B e F)) as [NE _].
    destruct (test m e) as [[|]|[]|] eqn:Te; cbn [bind].
    - destruct (facing_swap m A B e F Te) as (F' & Cm & V).
      pose proof (ring_bound _ D _ _ (fa_mesh _ _ _ _ F') (fa_ring _ _ _ _ F') ltac:(apply in_or_app; right; left; reflexivity)
        (me_lnext _ D (fa_mesh _ _ _ _ F') _ (me_lnext _ D (fa_mesh _ _ _ _ F') _ (fa_e _ _ _ _ F')))) as Bd.
      destruct (IH _ _ _ _ F') as [I1 I2].
      { rewrite !app_length in *. cbn [length] in *. rewrite Cm in *. lia. }
      split; [exact I1|]. intros m' Q. destruct (I2 m' Q) as (Q1 & Q2 & Q3 & Q4 & Q5). repeat (split; [assumption || congruence|]).
      intros p. rewrite Q5. apply V.
    - destruct (edge_eqb (onext m e) first) eqn:Q.
      + split; [discriminate|]. intros m' [= <-]. destruct F. repeat (split; [assumption || reflexivity|]). reflexivity.
      + assert (Nf : onext m e <> first) by (intros Q'; rewrite Q', eqb_refl in Q; discriminate).
        destruct (facing_next m A B e F Nf) as (A' & QA & F'). apply (IH m A' _ _ F').
        rewrite QA in Lt. rewrite !app_length in *. cbn [length] in *. lia.
    - contradiction.
    - split; [discriminate|]. intros m' Q. discriminate.
  Qed.
End Loop.
