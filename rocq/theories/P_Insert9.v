(** * Proofs about InsertSite: locate and the whole *)
From Coq Require Import Bool List Arith ZArith Lia.
From Verif Require Import Base_F64 Base_F64Arith Base_Res Base_Geom M_Cmp M_Walker M_Winding M_Quadedge S_Quadedge P_MvtPrepare3 P_Quadedge P_Quadedge2 P_Quadedge3 P_Quadedge4 P_QuadedgeTop M_Subdivision S_Subdivision
  P_Subdivision P_Subdivision2 P_Subdivision3 P_Subdivision5 S_Winding S_MvtPrepare M_ResolveEdge S_ResolveEdge P_ResolveEdge P_ResolveEdge2 P_ResolveEdge3 P_ResolveEdge5
  M_Insert S_Insert P_Insert P_Insert2 P_Insert3 P_Insert4 P_Insert5 P_Insert6 P_Insert7 P_Insert8.
Import ListNotations.
Local Open Scope nat_scope.

(** ** ResolveEdge stays on the ring *)
Definition unseen (seen : list nat) (q : nat) : bool := negb (existsb (Nat.eqb q) seen).
Lemma walk_any ypd m o x ring : (forall e, In e ring -> In (onext m e) ring /\ dest m e <> None) ->
  forall fuel seen e, In e ring -> length (filter (unseen seen) (map fst ring)) < fuel ->
  exists r err, resolve_walk fuel ypd m o x seen e = Ok (r, err) /\ forall f, r = Some f -> In f ring.
Proof.
  intros R. induction fuel as [|fuel IH]; intros seen e E Len; [lia|]. cbn [resolve_walk].
  destruct (existsb (Nat.eqb (fst e)) seen) eqn:Se; [exists None, None; split; [reflexivity|discriminate]|].
  destruct (R e E) as [On De]. destruct (R _ On) as [_ Dn].
  assert (St : exists r, resolve_step ypd m o x e = Ok r /\ forall f, fst r = Some f -> f = e \/ f = onext m e).
  { unfold resolve_step. destruct (dest m e); [|contradiction]. destruct (dest m (onext m e)); [|contradiction].
    eexists. split; [reflexivity|]. cbv zeta. match goal with |- context [match ?t with _ => _ end] => destruct t end; cbn [fst]; intros f [= <-]; auto. }
  destruct St as ((r & err) & Q & Fr). rewrite Q. cbn [bind fst] in *.
  assert (Go : exists r err, resolve_walk fuel ypd m o x (fst e :: seen) (onext m e) = Ok (r, err) /\ forall f, r = Some f -> In f ring).
  { apply IH; [exact On|]. assert (Hle : forall l, (length (filter (unseen (fst e :: seen)) l) <= length (filter (unseen seen) l))
      /\ (In (fst e) l -> length (filter (unseen (fst e :: seen)) l) < length (filter (unseen seen) l))).
    { clear IH Len. induction l as [|q l [I1 I2]]; [split; [apply le_n|intros []]|]. cbn [filter].
      assert (U : unseen (fst e :: seen) q = negb (q =? fst e) && unseen seen q) by (unfold unseen; cbn [existsb]; apply negb_orb).
      rewrite U. destruct (Nat.eqb_spec q (fst e)) as [-> | N].
      - replace (unseen seen (fst e)) with true by (unfold unseen; rewrite Se; reflexivity). cbn [negb andb length]. split; [lia|intros _; lia].
      - cbn [negb andb]. destruct (unseen seen q); cbn [length]; (split; [lia|]); (intros [Q'|I]; [congruence|]); specialize (I2 I); lia. }
    pose proof (proj2 (Hle (map fst ring)) (in_map fst ring e E)). lia. }
  destruct r as [f|]; [|destruct err as [er|]; [|exact Go]].
  - exists (Some f), err. split; [reflexivity|]. intros g [= <-]. destruct (Fr f eq_refl) as [-> | ->]; assumption.
  - exists None, (Some er). split; [reflexivity|discriminate].
Qed.

Section Mesh.
  Variables (m : mem pt) (D : edge -> Prop).
  Hypothesis M : mesh m D.
  Let W : wf m := history_wf m (me_hist m D M).

  Lemma dprev_lnext e : D e -> dprev m e = sym (lnext m e).
  Proof.
    intros De. unfold dprev, lnext. destruct (me_ex m D M e De) as [E1 E2].
    assert (E : exists_in m (onext m (invrot e))) by (apply (wf_ex m W), ex_inv; split; assumption).
    destruct (onext m (invrot e)) as [q k]. destruct E as [_ K]. cbn [snd] in K. do 4 (destruct k as [|k]; [reflexivity|]). lia.
  Qed.

  Lemma resolve_any ypd e x : D e -> exists r err, resolve_edge ypd m e x = Ok (r, err) /\ forall f, r = Some f -> D f.
  Proof.
    intros De. unfold resolve_edge. destruct (orig m e) as [o|] eqn:Oe; [|exfalso; exact (me_lab m D M e De Oe)].
    destruct (point_equal hi_cmp o x); [exists None, (Some EInvalidEnd); split; [reflexivity|discriminate]|].
    destruct (origin_refl m (me_hist m D M) e (me_ex m D M e De)) as (l & R & I & _).
    assert (Rm : forall f, In f l -> D f) by (intros f F; apply (me_ring m D M l e R I De f F)).
    destruct (walk_any ypd m o x l) with (fuel := S (count m)) (seen := @nil nat) (e := e) as (r & err & Q & Fr).
    - intros f F. split; [apply (cycle_in (onext m)); assumption|]. apply (me_lab m D M), (me_sym m D M), Rm, F.
    - exact I.
    - pose proof (ring_bound m D l e M R I De) as B. 
      assert (Fl : forall l' : list nat, length (filter (unseen []) l') <= length l').
      { induction l' as [|q l' IH]; [apply le_n|]. cbn [filter]. destruct (unseen [] q); cbn [length]; lia. }
      specialize (Fl (map fst l)). rewrite map_length in Fl. lia.
    - exists r, err. split; [exact Q|]. intros f Qf. apply Rm, Fr, Qf.
  Qed.

  (** What testEdge has found out about the edge which locate returns. *)
  Definition found ypd (x : pt) (e : edge) : Prop :=
    (pt_is x (orig m e) = true \/ pt_is x (dest m e) = true)
    \/ right_of ypd m x e = false /\ right_of ypd m x (onext m e) = true /\ right_of ypd m x (dprev m e) = true.
  Lemma test_found ypd x e : D e -> D (fst (test_edge ypd m x e)) /\ (snd (test_edge ypd m x e) = true -> found ypd x (fst (test_edge ypd m x e))).
  Proof.
    intros De. unfold test_edge, found. destruct (pt_is x (orig m e) || pt_is x (dest m e)) eqn:Q.
    { split; [exact De|]. intros _. left. apply orb_true_iff, Q. }
    destruct (right_of ypd m x e) eqn:R1; cbn [fst snd]; [split; [apply (me_sym m D M), De|discriminate]|].
    destruct (right_of ypd m x (onext m e)) eqn:R2; cbn [negb fst snd]; [|split; [apply (me_onext m D M), De|discriminate]].
    destruct (right_of ypd m x (dprev m e)) eqn:R3; cbn [negb fst snd].
    - split; [exact De|]. intros _. right. auto.
    - split; [rewrite dprev_lnext by exact De; apply (me_sym m D M), (me_lnext m D M), De|discriminate].
  Qed.
  Lemma locate_found ypd x se : forall n e f, D e -> locate_loop n ypd m x se e = Some f -> D f /\ found ypd x f.
  Proof.
    induction n as [|n IH]; intros e f De; cbn [locate_loop]; destruct (test_found ypd x e De) as [T1 T2]; destruct (test_edge ypd m x e) as [g [|]]; cbn [fst snd] in *.
    - intros [= <-]. auto.
    - discriminate.
    - intros [= <-]. auto.
    - destruct (edge_eqb g se); [discriminate|]. apply IH, T1.
  Qed.
  Lemma locate_ok ypd x se n : D se -> exists r, locate ypd m se x n = Ok r /\ forall f, r = Some f -> D f /\ found ypd x f.
  Proof.
    intros Ds. unfold locate. destruct (resolve_any ypd se x Ds) as (r & err & -> & Fr). cbn [bind fst]. eexists. split; [reflexivity|].
    intros f. destruct r as [g|]; [|discriminate]. apply locate_found, Fr. reflexivity.
  Qed.
End Mesh.

Lemma pt_is_int x p : moderate x -> good p -> pt_is (fpt x) (Some p) = true -> p = fpt x.
Proof.
  intros Mx (z & Mz & ->) Q. cbn [pt_is] in Q. rewrite (same_int x z Mx Mz) in Q. unfold same_zpt in Q. apply andb_true_iff in Q.
  destruct x, z. cbn [fst snd] in Q. destruct Q as [Q1 Q2]. apply Z.eqb_eq in Q1, Q2. subst. reflexivity.
Qed.

(** What is left when [e] is gone. *)
Definition same_start (m : mem pt) (x : pt) (se : edge) (D' : edge -> Prop) : Prop :=
  D' se \/ exists a, (a = se \/ a = sym se) /\ on_edge m x a = true.

Section Insert.
  Variables (ypd : bool) (x : Z * Z) (m : mem pt) (D : edge -> Prop).
  Hypothesis Mx : moderate x.
  Hypothesis M : mesh m D.
  Hypothesis T : forall a, D a -> tri3 m a.
  Hypothesis L : labels D good m.
  Hypothesis Nx : forall a, D a -> orig m a <> Some (fpt x).
  Let W : wf m := history_wf m (me_hist m D M).

  Lemma not_pt a : D a -> pt_is (fpt x) (orig m a) || pt_is (fpt x) (dest m a) = false.
  Proof.
    assert (K : forall b, D b -> pt_is (fpt x) (orig m b) = false).
    { intros b Db. destruct (pt_is (fpt x) (orig m b)) eqn:Q; [|reflexivity]. exfalso. destruct (L b Db) as (p & Op & Gp). rewrite Op in Q.
      apply (Nx b Db). rewrite Op. f_equal. apply pt_is_int; assumption. }
    intros Da. rewrite (K a Da). exact (K (sym a) (me_sym m D M a Da)).
  Qed.

  Definition inserted (m' : mem pt) (D' : edge -> Prop) : Prop :=
    mesh m' D' /\ (forall a, D' a -> tri3 m' a) /\ D' (count m, 0)
    /\ forall p, (exists a, D' a /\ orig m' a = Some p) <-> (exists a, D a /\ orig m a = Some p) \/ p = fpt x.

  Lemma in_triangle e : D e -> found m ypd (fpt x) e ->
    insert_at ypd m e (fpt x) <> Err tt /\ forall m', insert_at ypd m e (fpt x) = Ok m' -> exists D', inserted m' D' /\ forall a, D a -> D' a.
  Proof.
    intros De [Fd|(R1 & R2 & R3)].
    { pose proof (not_pt e De) as N. apply orb_false_iff in N. destruct Fd, N; congruence. }
    pose proof (me_lnext m D M e De) as Du. pose proof (me_lnext m D M _ Du) as Dw. set (u := lnext m e) in *. set (w := lnext m u) in *.
    assert (Lw : lnext m w = e) by apply (T e De).
    destruct (L e De) as (p & Op & (zp & Mp & ->)). destruct (L u Du) as (q & Oq & (zq & Mq & ->)). destruct (L w Dw) as (r & Or & (zr & Mr & ->)).
    assert (Dq : dest m e = Some (fpt zq)) by (rewrite <- (me_face m D M e De); exact Oq).
    assert (Dr : dest m u = Some (fpt zr)) by (rewrite <- (me_face m D M u Du); exact Or).
    assert (Dp : dest m w = Some (fpt zp)) by (rewrite <- (me_face m D M w Dw), Lw; exact Op).
    assert (Np : zp <> x) by (intros ->; exact (Nx e De Op)). assert (Nq : zq <> x) by (intros ->; exact (Nx u Du Oq)).
    assert (Ow : onext m e = sym w) by (apply onext_of_lnext; [exact W|apply (me_ex m D M w Dw)|exact Lw]).
    assert (C1 : (0 <= cross (vec ypd x zp) (vec ypd x zq))%Z).
    { rewrite cross_cyc. apply Z.nlt_ge. intros C. apply (right_exact ypd m e zp zq x Mp Mq Mx Op Dq) in C. congruence. }
    assert (C2 : (0 < cross (vec ypd x zq) (vec ypd x zr))%Z).
    { rewrite (dprev_lnext m D M e De) in R3. fold u in R3. apply (right_exact ypd m (sym u) zr zq x Mr Mq Mx Dr) in R3.
      - rewrite <- cross_cyc in R3. rewrite cross_anti. lia.
      - unfold dest. rewrite (me_ss m D M u Du). exact Oq. }
    assert (C3 : (0 < cross (vec ypd x zr) (vec ypd x zp))%Z).
    { rewrite Ow in R2. apply (right_exact ypd m (sym w) zp zr x Mp Mr Mx Dp) in R2.
      - rewrite <- cross_cyc in R2. rewrite cross_anti. lia.
      - unfold dest. rewrite (me_ss m D M w Dw). exact Or. }
    pose proof (tri_face m D e M De (T e De)) as F. fold u w in F.
    destruct (insert_at_ok ypd x m D e [u] w zp [zq; zr] Mx M L Nx F De) as [I1 I2].
    - intros a Da _. apply T, Da.
    - constructor; [exact Dq|constructor; [exact Dr|constructor]].
    - exact Op.
    - exact Mp.
    - exact Np.
    - apply triangle_turns; assumption.
    - cbn. lia.
    - split; [exact I1|]. intros m' Q. destruct (I2 m' Q) as (D' & J1 & J2 & _ & J4 & J5 & J6). exists D'. split; [|exact J4]. exact (conj J1 (conj J2 (conj J5 J6))).
  Qed.

  Lemma on_side e : D e -> around ypd m x e ->
    insert_at ypd (delete m e) (oprev m e) (fpt x) <> Err tt
    /\ forall m', insert_at ypd (delete m e) (oprev m e) (fpt x) = Ok m' ->
      exists D', inserted m' D' /\ forall a, D a -> a <> e -> a <> sym e -> D' a.
  Proof.
    intros De (p & q & r & s & (Op & Oq & Or) & (_ & _ & Os) & Mp & Mq & Mr & Ms & C1 & C2 & C3 & C4).
    pose proof (me_sym m D M e De) as Ds. pose proof (me_lnext m D M e De) as Du. pose proof (me_lnext m D M _ Du) as Dw.
    pose proof (me_lnext m D M _ Ds) as Dy. pose proof (me_lnext m D M _ Dy) as Dz.
    destruct (delete_lnext m D e M De (T e De) (T _ Ds)) as (A1 & A2 & A3).
    destruct (delete_mesh m D e M De (T e De) (T _ Ds)) as (M' & Cm & Oo).
    pose proof (side_neq m D e M De (T e De) (T _ Ds)) as SN. pose proof (sides_nodup m D e M De (T e De) (T _ Ds)) as ND.
    set (u := lnext m e) in *. set (w := lnext m u) in *. set (y := lnext m (sym e)) in *. set (z := lnext m y) in *.
    assert (Lw : lnext m w = e) by apply (T e De). assert (Lz : lnext m z = sym e) by apply (T _ Ds).
    assert (Ss : sym (sym e) = e) by apply (me_ss m D M e De).
    assert (Oe : oprev m e = y) by apply oprev_lnext, (me_ex m D M e De).
    assert (Pw : lprev m e = w) by (apply lprev_of; [exact W|apply (me_ex m D M w Dw)|exact Lw]). rewrite Pw in Or.
    assert (Pz : lprev m (sym e) = z) by (apply lprev_of; [exact W|apply (me_ex m D M z Dz)|exact Lz]). rewrite Pz in Os.
    assert (Oy : orig m y = Some (fpt p)) by (unfold y; rewrite (me_face m D M _ Ds); unfold dest; rewrite Ss; exact Op).
    assert (Ou : orig m u = Some (fpt q)) by (unfold u; rewrite (me_face m D M _ De); exact Oq).
    assert (E1 : dest m y = Some (fpt s)) by (rewrite <- (me_face m D M y Dy); exact Os).
    assert (E2 : dest m z = Some (fpt q)) by (rewrite <- (me_face m D M z Dz), Lz; exact Oq).
    assert (E3 : dest m u = Some (fpt r)) by (rewrite <- (me_face m D M u Du); exact Or).
    rewrite Oe. set (m1 := delete m e) in *. set (D1 := fun a => D a /\ a <> e /\ a <> sym e) in *.
    assert (Six : forall i, i <? 6 = true -> i <> 0 -> i <> 3 -> nth i [e; u; w; sym e; y; z] e <> e /\ nth i [e; u; w; sym e; y; z] e <> sym e).
    { intros i I N0 N3. split; [apply (SN i 0)|apply (SN i 3)]; auto. }
    assert (Ly : lnext m1 y = z) by (apply A3; [exact Dy|apply (SN 4 0)|apply (SN 4 3)|apply (SN 4 2)|apply (SN 4 5)]; (reflexivity || discriminate)).
    assert (Lu : lnext m1 u = w) by (apply A3; [exact Du|apply (SN 1 0)|apply (SN 1 3)|apply (SN 1 2)|apply (SN 1 5)]; (reflexivity || discriminate)).
    assert (F : cycle (lnext m1) (y :: [z; u] ++ [w])).
    { split; [|cbn [chain app]; auto]. cbn [app].
      pose proof (SN 4 5 eq_refl eq_refl ltac:(discriminate)). pose proof (SN 4 1 eq_refl eq_refl ltac:(discriminate)).
      pose proof (SN 4 2 eq_refl eq_refl ltac:(discriminate)). pose proof (SN 5 1 eq_refl eq_refl ltac:(discriminate)).
      pose proof (SN 5 2 eq_refl eq_refl ltac:(discriminate)). pose proof (SN 1 2 eq_refl eq_refl ltac:(discriminate)). cbn [nth] in *.
      repeat constructor; cbn [In]; intuition congruence. }
    destruct (insert_at_ok ypd x m1 D1 y [z; u] w p [s; q; r] Mx M') as [I1 I2].
    - intros a [Da _]. rewrite Oo. apply L, Da.
    - intros a [Da _]. rewrite Oo. apply Nx, Da.
    - exact F.
    - split; [exact Dy|]. split; [apply (SN 4 0)|apply (SN 4 3)]; (reflexivity || discriminate).
    - intros a (Da & Ne & Nse) N. pose proof (tri_face m D a M Da (T a Da)) as Fa.
      pose proof (tri_face m D e M De (T e De)) as Fe. pose proof (tri_face m D _ M Ds (T _ Ds)) as Fs. fold u w in Fe. fold y z in Fs.
      assert (Na1 : ~ In a [e; u; w]) by (intros [Q|[Q|[Q|[]]]]; [congruence|apply N; cbn [app In]; auto..]).
      assert (Na2 : ~ In a [sym e; y; z]) by (intros [Q|[Q|[Q|[]]]]; [congruence|apply N; cbn [app In]; auto..]).
      assert (Out : forall c, In c [a; lnext m a; lnext m (lnext m a)] -> D c -> lnext m1 c = lnext m c).
      { intros c Ic Dc. assert (X1 : ~ In c [e; u; w]) by (intros J; apply Na1; apply (cycle_meet (lnext m) _ _ c Fe Fa J Ic); left; reflexivity).
        assert (X2 : ~ In c [sym e; y; z]) by (intros J; apply Na2; apply (cycle_meet (lnext m) _ _ c Fs Fa J Ic); left; reflexivity).
        apply A3; [exact Dc|intros ->; apply X1; cbn; auto|intros ->; apply X2; cbn; auto|intros ->; apply X1; cbn; auto|intros ->; apply X2; cbn; auto]. }
      pose proof (me_lnext m D M a Da) as Da1. pose proof (me_lnext m D M _ Da1) as Da2. unfold tri3.
      rewrite (Out a), (Out (lnext m a)), (Out (lnext m (lnext m a))); [apply (T a Da)|cbn; auto|auto..|cbn; auto|auto|cbn; auto|auto].
    - constructor; [exact E1|constructor; [exact E2|constructor; [exact E3|constructor]]].
    - rewrite Oo. exact Oy.
    - exact Mp.
    - intros ->. exact (Nx e De Op).
    - apply quad_turns; assumption.
    - cbn. lia.
    - split; [exact I1|]. intros m' Q. destruct (I2 m' Q) as (D' & J1 & J2 & _ & J4 & J5 & J6). exists D'. split; [|intros a Da N1 N2; apply J4; split; auto].
      split; [exact J1|]. split; [exact J2|]. split; [rewrite <- Cm; exact J5|]. intros t. rewrite J6.
      assert (V : (exists a, D1 a /\ orig m1 a = Some t) <-> (exists a, D a /\ orig m a = Some t)).
      { split.
        - intros (a & [Da _] & Oa). exists a. split; [exact Da|]. rewrite <- Oo. exact Oa.
        - intros (a & Da & Oa). destruct (edge_dec a e) as [-> | N1].
          { exists y. split; [split; [exact Dy|split; [apply (SN 4 0)|apply (SN 4 3)]; (reflexivity || discriminate)]|]. rewrite Oo. congruence. }
          destruct (edge_dec a (sym e)) as [-> | N2].
          { exists u. split; [split; [exact Du|split; [apply (SN 1 0)|apply (SN 1 3)]; (reflexivity || discriminate)]|]. rewrite Oo. change (orig m (sym e)) with (dest m e) in Oa. congruence. }
          exists a. split; [split; auto|]. rewrite Oo. exact Oa. }
      rewrite V. reflexivity.
  Qed.
End Insert.

Theorem insert_correct ypd m se n x : triangulation m se -> integral m se -> moderate x -> ~ vertex_of m se (fpt x) ->
  (forall a, connected m se a -> on_edge m (fpt x) a = true -> around ypd m x a) ->
  match insert_site ypd (Subd m se n) (fpt x) with
  | Ok (sd, false) => sd_mem sd = m /\ sd_start sd = se
  | Ok (sd, true) => sd_start sd = se /\ exists b, triangulation (sd_mem sd) b
      /\ (forall p, vertex_of (sd_mem sd) b p <-> vertex_of m se p \/ p = fpt x)
      /\ (connected (sd_mem sd) b se \/ exists a, (a = se \/ a = sym se) /\ on_edge m (fpt x) a = true)
  | Err _ => False
  | Panic => True
  end.
Proof.
  intros (H & Sp & Lb & Lf & At) Ig Mx Nv Ar. destruct (mesh_of m se H Sp Lb Lf At) as [M T]. set (D := connected m se) in *.
  assert (L : labels D good m).
  { intros a Da. destruct (orig m a) as [p|] eqn:Q; [|exfalso; exact (me_lab m D M a Da Q)]. exists p. split; [reflexivity|]. apply Ig. exists a. auto. }
  assert (Nx : forall a, D a -> orig m a <> Some (fpt x)) by (intros a Da Q; apply Nv; exists a; auto).
  assert (Ds : D se) by apply c_refl. pose proof (history_wf m H) as W.
  assert (Fin : forall m' D' k, inserted x m D m' D' -> same_start m (fpt x) se D' ->
    match (Ok (Subd m' se k, true) : res unit (subdivision * bool)) with
    | Ok (sd, false) => sd_mem sd = m /\ sd_start sd = se
    | Ok (sd, true) => sd_start sd = se /\ exists b, triangulation (sd_mem sd) b
      /\ (forall p, vertex_of (sd_mem sd) b p <-> vertex_of m se p \/ p = fpt x)
      /\ (connected (sd_mem sd) b se \/ exists a, (a = se \/ a = sym se) /\ on_edge m (fpt x) a = true)
    | Err _ => False | Panic => True end).
  { intros m' D' k (M' & T' & Dn & V) St. split; [reflexivity|]. cbn [sd_mem]. exists (count m, 0).
    destruct (of_mesh m' D' (count m, 0) M' Dn T') as (A & B & C & E). split; [split; [apply (me_hist m' D' M')|auto]|].
    pose proof (fun b => me_all m' D' M' (count m, 0) b Dn) as All. split.
    - intros p. unfold vertex_of. fold D. rewrite <- V. split; intros (a & Ca & Oa); exists a; (split; [apply All, Ca|exact Oa]).
    - destruct St as [St|St]; [left; apply All, St|right; exact St]. }
  unfold insert_site. cbn [sd_mem sd_start sd_count].
  destruct (locate_ok m D M ypd (fpt x) se (2 * S n) Ds) as (r & -> & Fr). cbn [bind]. destruct r as [e|]; [|split; reflexivity].
  destruct (Fr e eq_refl) as [De Fd]. rewrite (not_pt x m D Mx M L Nx e De).
  destruct (on_edge m (fpt x) e) eqn:On.
  - pose proof (me_lnext m D M _ (me_sym m D M e De)) as Dy. rewrite <- (oprev_lnext m e (me_ex m D M e De)) in Dy.
    cbv zeta. rewrite (not_pt x m D Mx M L Nx _ Dy). rewrite (onext_oprev m e W (me_ex m D M e De)).
    destruct (on_side ypd x m D Mx M T L Nx e De (Ar e De On)) as [I1 I2].
    destruct (insert_at ypd (delete m e) (oprev m e) (fpt x)) as [m'|[]|]; cbn [bind]; [|contradiction|exact I].
    destruct (I2 m' eq_refl) as (D' & In & Sub). apply (Fin m' D'); [exact In|].
    destruct (edge_dec se e) as [-> | N1]; [right; exists e; auto|]. destruct (edge_dec se (sym e)) as [-> | N2].
    + right. exists e. split; [right; symmetry; apply (me_ss m D M e De)|exact On].
    + left. apply Sub; auto.
  - destruct (in_triangle ypd x m D Mx M T L Nx e De Fd) as [I1 I2].
    destruct (insert_at ypd m e (fpt x)) as [m'|[]|]; cbn [bind]; [|contradiction|exact I].
    destruct (I2 m' eq_refl) as (D' & In & Sub). apply (Fin m' D'); [exact In|]. left. apply Sub, Ds.
Qed.
