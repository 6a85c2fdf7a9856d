(** * Proofs about InsertSite: the loop which connects the new point to the corners *)
From Coq Require Import Bool List Arith ZArith Lia.
From Verif Require Import Base_F64 Base_Res Base_Geom M_Cmp M_Quadedge S_Quadedge P_Quadedge P_Quadedge2 P_Quadedge3 P_Quadedge4 P_QuadedgeTop M_Subdivision S_Subdivision
  P_Subdivision P_Subdivision2 P_Subdivision3 P_Subdivision5 S_Winding M_ResolveEdge S_ResolveEdge P_ResolveEdge P_ResolveEdge2 P_ResolveEdge3 P_ResolveEdge5
  M_Insert P_Insert P_Insert2 P_Insert3 P_Insert4 P_Insert5.
Import ListNotations.

Lemma cycle_3 {P} (m : mem P) a b c : cycle (lnext m) [a; b; c] -> tri3 m a /\ tri3 m b /\ tri3 m c.
Proof. intros [_ (A & B & C & _)]. unfold tri3. rewrite A, B, C, A, B. auto. Qed.

Section Star.
  Variable ypd : bool.
  Variable x : Z * Z.
  Hypothesis Mx : moderate x.
  Let dir (p : Z * Z) := vec ypd x p.

  (** The corners [ds] are met one after the other turning from [v] on, before
      [v0] comes again. *)
  Fixpoint turns (v v0 : Z * Z) (seen ds : list (Z * Z)) : Prop :=
    match ds with
    | [] => True
    | d :: ds => between (dir v) (dir d) (dir v0) /\ moderate d /\ d <> x /\ (forall s, In s seen -> ~ same_dir (dir s) (dir d))
        /\ turns d v0 (d :: seen) ds
    end.
  Lemma turns_seen v0 ds : forall v' seen seen', (forall s, In s seen' -> In s seen) -> turns v' v0 seen ds -> turns v' v0 seen' ds.
  Proof.
    induction ds as [|d ds IH]; intros v' s s' I; [exact (fun H => H)|]. intros (A & B & C & E & F). repeat (split; [assumption|]).
    split; [intros t T; apply E, I, T|]. apply (IH d (d :: s)); [|exact F]. intros t [<-|T]; [left; reflexivity|right; apply I, T].
  Qed.

  Record polygon (m : mem pt) (D : edge -> Prop) (E : list edge) (f first s : edge) (L : list edge) (at_ : edge -> Z * Z) (ds : list (Z * Z)) : Prop := {
    po_mesh : mesh m D;
    po_D a : In a (E ++ [f; first; s]) -> D a;
    po_face : cycle (lnext m) (E ++ [f; first; s]);
    po_tri a : D a -> ~ In a (E ++ [f; first; s]) -> tri3 m a;
    po_ends : Forall2 (fun a d => dest m a = Some (fpt d)) E ds;
    po_ring : around_origin m (s :: L);
    po_head : hd s L = sym first;
    po_orig : orig m s = Some (fpt x);
    po_at g : In g (s :: L) -> dest m g = Some (fpt (at_ g)) /\ moderate (at_ g) /\ at_ g <> x;
    po_apart g h : In g (s :: L) -> In h (s :: L) -> same_dir (dir (at_ g)) (dir (at_ h)) -> g = h;
    po_turn : turns (at_ s) (at_ (hd s L)) (map at_ (s :: L)) ds }.

  (** The result of the loop. *)
  Record filled (m : mem pt) (D : edge -> Prop) (f first : edge) (m' : mem pt) (D' : edge -> Prop) : Prop := {
    fi_mesh : mesh m' D';
    fi_tri a : D' a -> tri3 m' a;
    fi_sub a : D a -> D' a;
    fi_old a : D a -> orig m' a = orig m a;
    fi_lab p : (exists a, D' a /\ orig m' a = Some p) <-> (exists a, D a /\ orig m a = Some p);
    fi_f : D' f;
    fi_first : D' first;
    fi_lnext : lnext m' f = first;
    fi_ring : exists s L, lnext m' first = s /\ around_origin m' (s :: L) /\ orig m' s = Some (fpt x) /\ hd s L = sym first }.

  Lemma star_step m D a E f first s L at_ d ds : polygon m D (a :: E) f first s L at_ (d :: ds) ->
    exists m' n D' at', connect_at ypd m a s = Ok (m', n) /\ count m' = S (count m)
    /\ polygon m' D' E f first (sym n) (L ++ [s]) at' ds
    /\ sym (sym n) = n /\ oprev m' n = hd f E
    /\ (forall b, D b -> D' b) /\ (forall b, D b -> orig m' b = orig m b)
    /\ (forall p, (exists b, D' b /\ orig m' b = Some p) <-> (exists b, D b /\ orig m b = Some p)).
  Proof.
    intros [M Dp F Tr En R Hd Os At Ap Tu]. inversion En as [|a0 d0 E0 ds0 Da En']; subst a0 d0 E0 ds0. cbn [turns] in Tu.
    destruct Tu as (Bt & Md & Nd & Off & Tu). pose proof (history_wf m (me_hist m D M)) as W.
    assert (Xa : D a) by (apply Dp; left; reflexivity). assert (Xs : D s) by (apply Dp; apply in_or_app; right; do 2 right; left; reflexivity).
    assert (Xf : D first) by (apply Dp; apply in_or_app; right; right; left; reflexivity).
    assert (Ring : forall g, In g (s :: L) -> D g /\ orig m g = Some (fpt x)).
    { intros g G. rewrite <- Os. apply (me_ring m D M _ s R); [left; reflexivity|exact Xs|exact G]. }
    assert (St : star ypd m (s :: L) x at_).
    { split; [exact R|]. split; [exact Mx|]. split; [|exact Ap]. intros g G. destruct (Ring g G) as [Dg Og]. destruct (At g G) as (A1 & A2 & A3).
      split; [apply (me_ex m D M g Dg)|]. auto. }
    assert (On : onext m s = hd s L) by (destruct R as [_ (Q & _)]; rewrite Q; destruct L; reflexivity).
    assert (Sec : in_sector ypd m x at_ d s) by (unfold in_sector; rewrite On; exact Bt).
    destruct (resolve_sector ypd m s L x at_ d (me_hist m D M) St Md Nd) as (r & err & Q & _ & Re).
    { intros g G. apply Off, in_map, G. }
    assert (Er : r = Some s).
    { destruct r as [g|]; [|exfalso; exact (Re s (or_introl eq_refl) Sec)]. destruct Re as (l1 & l2 & Q1 & _ & Q2).
      destruct l1 as [|h l1]; [injection Q1 as <- _; reflexivity|]. injection Q1 as <- _. exfalso. exact (Q2 s (or_introl eq_refl) Sec). }
    subst r. assert (Ro : resolve_of ypd m s (fpt d) = Some s) by (unfold resolve_of; rewrite Q; reflexivity).
    destruct (connect (resolve_of ypd) m a s) as [[m' n]|er|] eqn:C; [|unfold connect in C; rewrite Da in C; destruct (new m); discriminate C..].
    assert (Fc : lnext m a = hd f E /\ chain (lnext m) a (E ++ [f; first; s])).
    { destruct F as [_ (F1 & F2)]. split; [rewrite F1; destruct E; reflexivity|exact F2]. }
    destruct Fc as [La Fc].
    assert (ND : NoDup (a :: E ++ [f; first; s])) by apply F. 
    assert (NDr : NoDup (E ++ [f; first; s])) by (inversion ND; assumption).
    assert (Na : ~ In a (E ++ [f; first; s])) by (inversion ND; assumption).
    assert (Nf : ~ In f [first; s] /\ first <> s /\ forall e, In e E -> e <> first /\ e <> s /\ e <> f).
    { clear - NDr. induction E as [|e E IH]; cbn [app] in NDr; inversion NDr as [|? ? N1 N2]; subst.
      - split; [exact N1|]. split; [inversion N2 as [|? ? N3 N4]; subst; intros ->; apply N3; left; reflexivity|]. intros e [].
      - destruct (IH N2) as (I1 & I2 & I3). split; [exact I1|]. split; [exact I2|]. intros e' [<-|I]; [|apply I3, I].
        repeat split; intros ->; apply N1; apply in_or_app; right; cbn; auto. }
    destruct Nf as (Nf & Nfs & NE).
    assert (Ls : lnext m s = a /\ lnext m first = s /\ lnext m f = first).
    { clear - Fc. induction E as [|e E IH]; [destruct Fc as (A & B & C & _); auto|]. apply IH. cbn [app chain] in Fc. apply Fc. }
    destruct Ls as (Ls & Lfs & Lf).
    assert (Ps : lprev m s = first) by (apply lprev_of; [exact W|apply (me_ex m D M), Xf|exact Lfs]).
    destruct (connect_mesh (resolve_of ypd) m D a s s (fpt d) m' n M Xa Xs Da Ro C) as (En0 & M' & Cm & Oo & O1 & O2 & L1 & L2 & L3 & L4 & L5 & Rn).
    { rewrite La. destruct E as [|e E]; cbn [hd]; [intros ->; apply Nf; right; left; reflexivity|apply (NE e (or_introl eq_refl))]. }
    { rewrite Os, Da. intros [= Q1 Q2]. apply Nd. symmetry. apply fpt_same; [exact Mx|exact Md|]. unfold fpt. congruence. }
    rewrite Ps in *.
    set (D' := fun b => D b \/ b = n \/ b = sym n) in *.
    assert (Sn : sym (sym n) = n) by (rewrite En0; reflexivity).
    assert (Xn : D' n) by (right; left; reflexivity). assert (Xsn : D' (sym n)) by (right; right; reflexivity).
    assert (Fresh : forall b, D b -> b <> n /\ b <> sym n).
    { intros b Db. pose proof (fresh_not m D b M Db) as Fr. split; intros ->; apply Fr; rewrite En0; reflexivity. }
    assert (Xhd : D (lnext m a)) by apply (me_lnext m D M), Xa.
    assert (DE : forall b, In b (E ++ [f; first; s]) -> D b) by (intros b I; apply Dp; right; exact I).
    assert (Old : forall b, In b (E ++ [f]) -> lnext m' b = lnext m b).
    { intros b I. apply L5.
      - apply DE. apply in_app_or in I. apply in_or_app. destruct I as [I|[<-|[]]]; [left; exact I|right; left; reflexivity].
      - intros ->. apply Na. apply in_app_or in I. apply in_or_app. destruct I as [I|[<-|[]]]; [left; exact I|right; left; reflexivity].
      - intros ->. apply in_app_or in I. destruct I as [I|[<-|[]]]; [exact (proj1 (NE _ I) eq_refl)|apply Nf; left; reflexivity]. }
    exists m', n, D', (fun g => if edge_eqb g (sym n) then d else at_ g).
    split. { unfold connect_at. rewrite Da, Q. cbn [bind]. exact C. }
    split; [exact Cm|].
    assert (Ats : forall g, In g (s :: L) -> edge_eqb g (sym n) = false) by (intros g G; apply eqb_neq, Fresh, Ring, G).
    assert (Hdr : In (hd s L) (s :: L)) by (destruct L; [left; reflexivity|right; left; reflexivity]).
    assert (Hdl : hd (sym n) (L ++ [s]) = hd s L) by (destruct L; reflexivity).
    assert (Inr : forall g, In g (sym n :: L ++ [s]) -> g = sym n \/ In g (s :: L)).
    { intros g [<-|I]; [left; reflexivity|right]. apply in_app_or in I. destruct I as [I|[<-|[]]]; [right; exact I|left; reflexivity]. }
    split.
    { constructor.
      - exact M'.
      - intros b I. replace (E ++ [f; first; sym n]) with ((E ++ [f; first]) ++ [sym n]) in I by (rewrite <- app_assoc; reflexivity).
        apply in_app_or in I. destruct I as [I|[<-|[]]]; [|exact Xsn]. left. apply DE. apply in_app_or in I. apply in_or_app.
        destruct I as [I|[<-|[<-|[]]]]; [left; exact I|right; left; reflexivity|right; right; left; reflexivity].
      - assert (N' : NoDup (E ++ [f; first; sym n])).
        { replace (E ++ [f; first; sym n]) with ((E ++ [f; first]) ++ [sym n]) by (rewrite <- app_assoc; reflexivity).
          replace (E ++ [f; first; s]) with ((E ++ [f; first]) ++ [s]) in NDr by (rewrite <- app_assoc; reflexivity).
          apply nodup_app; [apply NoDup_remove_1 in NDr; rewrite app_nil_r in NDr; exact NDr|constructor; [intros []|constructor]|].
          intros b I [<-|[]]. apply (Fresh (sym n)); [|reflexivity]. apply DE.
          replace (E ++ [f; first; s]) with ((E ++ [f; first]) ++ [s]) by (rewrite <- app_assoc; reflexivity). apply in_or_app. left. exact I. }
        assert (Ch : chain (lnext m') (hd f E) (E ++ [f; first; sym n])).
        { apply chain_app. split.
          - assert (Ce : chain (lnext m) f E) by (apply chain_app in Fc; apply Fc).
            apply (chain_ext (lnext m)); [|exact Ce]. intros b I. symmetry. apply Old. apply in_or_app. left. exact I.
          - cbn [chain]. split; [rewrite Old; [exact Lf|apply in_or_app; right; left; reflexivity]|]. split; [exact L3|]. split; [rewrite L4; exact La|exact I]. }
        unfold cycle. destruct E as [|e E]; cbn [app hd] in *; split; assumption.
      - intros b [Db|[-> | ->]] N.
        + destruct (edge_dec b a) as [-> | Nba].
          { unfold tri3. rewrite L1, L2. rewrite L5; [exact Ls|exact Xs| |apply not_eq_sym, Nfs]. intros ->. apply Na. apply in_or_app. right. do 2 right. left. reflexivity. }
          destruct (edge_dec b s) as [-> | Nbs].
          { unfold tri3. rewrite (L5 s Xs); [|intros ->; apply Na; apply in_or_app; right; do 2 right; left; reflexivity|apply not_eq_sym, Nfs]. rewrite Ls, L1, L2. reflexivity. }
          assert (Nb : ~ In b ((a :: E) ++ [f; first; s])).
          { intros [I|I]; [congruence|]. apply N. apply in_app_or in I. apply in_or_app. destruct I as [I|[<-|[<-|[<-|[]]]]]; [left; exact I|right; left; reflexivity|right; right; left; reflexivity|congruence]. }
          assert (Out : forall c, D c -> ~ In c ((a :: E) ++ [f; first; s]) -> lnext m' c = lnext m c).
          { intros c Dc Nc. apply L5; [exact Dc|intros ->; apply Nc; left; reflexivity|intros ->; apply Nc; right; apply in_or_app; right; right; left; reflexivity]. }
          pose proof (Tr b Db Nb) as T3. pose proof (tri_face m D b M Db T3) as Fb.
          assert (Nb3 : forall c, In c [b; lnext m b; lnext m (lnext m b)] -> ~ In c ((a :: E) ++ [f; first; s])).
          { intros c Ic I. apply Nb. apply (cycle_meet (lnext m) _ _ c F Fb I Ic). left; reflexivity. }
          unfold tri3. rewrite (Out b Db Nb). pose proof (me_lnext m D M b Db) as Db1. pose proof (me_lnext m D M _ Db1) as Db2.
          rewrite (Out _ Db1) by (apply Nb3; right; left; reflexivity). rewrite (Out _ Db2) by (apply Nb3; right; right; left; reflexivity). exact T3.
        + unfold tri3. rewrite L2. rewrite (L5 s Xs); [rewrite Ls; exact L1| |apply not_eq_sym, Nfs]. intros ->. apply Na. apply in_or_app. right. do 2 right. left. reflexivity.
        + exfalso. apply N. apply in_or_app. right. do 2 right. left. reflexivity.
      - assert (Ho : forall b, In b E -> dest m' b = dest m b) by (intros b I; apply Oo, (me_sym m D M), DE; apply in_or_app; left; exact I).
        clear - En' Ho. induction En' as [|b c E ds Hb _ IH]; constructor; [rewrite Ho by (left; reflexivity); exact Hb|]. apply IH. intros b' I. apply Ho. right. exact I.
      - pose proof (Rn L R) as R'. apply (cycle_rotate (onext m') [s] (sym n :: L)). exact R'.
      - rewrite Hdl. exact Hd.
      - change (orig m' (sym n)) with (dest m' n). rewrite O2. exact Os.
      - intros g G. destruct (Inr g G) as [-> | I].
        + rewrite eqb_refl. unfold dest. rewrite Sn, O1. split; [exact Da|]. auto.
        + rewrite (Ats g I). destruct (At g I) as (A1 & A2 & A3). split; [|auto]. unfold dest. rewrite Oo; [exact A1|]. apply (me_sym m D M), Ring, I.
      - intros g h G H Sd. destruct (Inr g G) as [-> | Ig], (Inr h H) as [-> | Ih]; [reflexivity| | |].
        + rewrite eqb_refl, (Ats h Ih) in Sd. exfalso. apply (Off (at_ h)); [apply in_map, Ih|apply same_dir_sym, Sd].
        + rewrite eqb_refl, (Ats g Ig) in Sd. exfalso. apply (Off (at_ g)); [apply in_map, Ig|exact Sd].
        + rewrite (Ats g Ig), (Ats h Ih) in Sd. exact (Ap g h Ig Ih Sd).
      - rewrite Hdl, eqb_refl, (Ats _ Hdr). apply (turns_seen (at_ (hd s L)) ds d (d :: map at_ (s :: L))); [|exact Tu].
        intros t T. apply in_map_iff in T. destruct T as (g & <- & G). destruct (Inr g G) as [-> | I].
        + rewrite eqb_refl. left. reflexivity.
        + rewrite (Ats g I). right. apply in_map, I. }
    split; [exact Sn|]. split.
    { rewrite oprev_lnext by apply (me_ex m' D' M' n Xn). rewrite L4. exact La. }
    split; [intros b Db; left; exact Db|]. split; [exact Oo|].
    intros p. split; intros (b & Db & Ob).
    - destruct Db as [Db|[-> | ->]].
      + exists b. split; [exact Db|]. rewrite <- Ob. symmetry. apply Oo, Db.
      + exists (lnext m a). split; [exact Xhd|]. rewrite (me_face m D M a Xa), <- O1. exact Ob.
      + exists s. split; [exact Xs|]. rewrite <- O2. exact Ob.
    - exists b. split; [left; exact Db|]. rewrite Oo by exact Db. exact Ob.
  Qed.

  Lemma star_ok fuel : forall m D E f first s L at_ ds base, polygon m D E f first s L at_ ds -> sym base = s -> (length ds <= fuel)%nat ->
    exists m' D', star_loop fuel ypd m first base (hd f E) = Ok (m', f) /\ filled m D f first m' D' /\ count m' = (length ds + count m)%nat.
  Proof.
    induction fuel as [|fuel IH]; intros m D E f first s L at_ ds base Po Sb Len.
    - destruct ds; [|cbn in Len; lia]. pose proof (po_ends _ _ _ _ _ _ _ _ _ Po) as En. inversion En; subst E. cbn [hd].
      exists m, D. cbn [star_loop]. destruct Po as [M Dp F Tr _ R Hd Os _ _ _]. cbn [app] in *. pose proof F as [_ (F1 & F2 & F3 & _)].
      rewrite F1, eqb_refl. split; [reflexivity|]. split; [|reflexivity].
      destruct (cycle_3 m f first s F) as (T1 & T2 & T3). constructor; auto; try reflexivity.
      + intros a Da. destruct (in_dec edge_dec a [f; first; s]) as [[<-|[<-|[<-|[]]]]|N]; auto.
      + apply Dp. left; reflexivity.
      + apply Dp. right; left; reflexivity.
      + exists s, L. auto.
    - destruct ds as [|d ds].
      + pose proof (po_ends _ _ _ _ _ _ _ _ _ Po) as En. inversion En; subst E. cbn [hd].
        exists m, D. cbn [star_loop]. destruct Po as [M Dp F Tr _ R Hd Os _ _ _]. cbn [app] in *. pose proof F as [_ (F1 & F2 & F3 & _)].
        rewrite F1, eqb_refl. split; [reflexivity|]. split; [|reflexivity].
        destruct (cycle_3 m f first s F) as (T1 & T2 & T3). constructor; auto; try reflexivity.
        * intros a Da. destruct (in_dec edge_dec a [f; first; s]) as [[<-|[<-|[<-|[]]]]|N]; auto.
        * apply Dp. left; reflexivity.
        * apply Dp. right; left; reflexivity.
        * exists s, L. auto.
      + pose proof (po_ends _ _ _ _ _ _ _ _ _ Po) as En. inversion En as [|a d0 E0 ds0 Da En']; subst d0 ds0 E. cbn [hd].
        destruct (star_step m D a E0 f first s L at_ d ds Po) as (m1 & n & D1 & at1 & C & Cm & Po1 & Sn & On & Sub & Oo & Lab).
        destruct (IH m1 D1 E0 f first (sym n) (L ++ [s]) at1 ds n Po1 eq_refl ltac:(cbn in Len; lia)) as (m' & D' & Q & Fi & Cn).
        exists m', D'. split; [|split].
        * cbn [star_loop]. rewrite eqb_neq.
          2:{ pose proof (po_face _ _ _ _ _ _ _ _ _ Po) as [Nd (F1 & _)]. cbn [app] in F1. rewrite F1. inversion Nd as [|? ? _ Nd']; subst.
              destruct E0 as [|e E0]; cbn [app] in *; inversion Nd' as [|? ? Ni _]; subst; intros Q'; apply Ni; rewrite Q'; [left; reflexivity|apply in_or_app; right; right; left; reflexivity]. }
          rewrite Sb, C. cbn [bind]. rewrite On. exact Q.
        * destruct Fi as [G1 G2 G3 G4 G5 G6 G7 G8 G9]. constructor; auto.
          -- intros b Db. rewrite G4 by apply Sub, Db. apply Oo, Db.
          -- intros p. rewrite G5. apply Lab.
        * cbn [length]. lia.
  Qed.
End Star.
