(** * Proofs about New and examples for InsertSite *)
From Coq Require Import Bool List Arith ZArith Lia.
From Verif Require Import Base_F64 Base_F64Arith Base_Res Base_Geom M_Cmp M_Walker M_Winding M_Triangle M_Quadedge S_Quadedge P_MvtPrepare3 P_Quadedge P_Quadedge2 P_Quadedge3 P_Quadedge4 P_QuadedgeTop M_Subdivision S_Subdivision
  P_Subdivision P_Subdivision2 P_Subdivision3 P_Subdivision5 S_Winding S_MvtPrepare M_ResolveEdge S_ResolveEdge P_ResolveEdge P_ResolveEdge2 P_ResolveEdge3 P_ResolveEdge5
  M_Insert S_Insert S_InsertRun P_Insert P_Insert2 P_Insert3 P_Insert4 P_Insert5 P_Insert6 P_Insert7 P_Insert8 P_Insert9.
Import ListNotations.
Local Open Scope nat_scope.

Definition six : list edge := [(0, 0); (1, 0); (2, 0); (0, 2); (2, 2); (1, 2)].

Section New.
  Variables a b c : pt.
  Hypothesis Nab : a <> b.
  Hypothesis Nbc : b <> c.
  Hypothesis Nac : a <> c.
  Let m := new_triangle a b c.

  Lemma new_history : history m.
  Proof.
    unfold m, new_triangle. repeat first [apply h_splice | apply h_points | apply h_new | apply h_empty]; try (split; cbn; lia); try reflexivity.
  Qed.
  Lemma new_mesh : mesh m (fun e => In e six).
  Proof.
    pose proof new_history as H. pose proof (history_wf m H) as W.
    assert (Ea : forall e, In e six -> exists_in m e) by (intros e E; repeat destruct E as [<-|E]; try destruct E; split; cbn; lia).
    assert (Co : forall e, In e six -> connected m (0, 0) e).
    { assert (C2 : connected m (0, 0) (2, 2)) by (change (2, 2) with (onext m (0, 0)); apply c_onext, Ea; left; reflexivity).
      assert (C20 : connected m (0, 0) (2, 0)) by (eapply c_trans; [exact C2|]; change (2, 0) with (sym (2, 2)); apply c_sym, Ea; cbn; auto 8).
      assert (C02 : connected m (0, 0) (0, 2)) by (change (0, 2) with (sym (0, 0)); apply c_sym, Ea; cbn; auto 8).
      assert (C10 : connected m (0, 0) (1, 0)) by (eapply c_trans; [exact C02|]; change (1, 0) with (onext m (0, 2)); apply c_onext, Ea; cbn; auto 8).
      assert (C12 : connected m (0, 0) (1, 2)) by (eapply c_trans; [exact C10|]; change (1, 2) with (sym (1, 0)); apply c_sym, Ea; cbn; auto 8).
      intros e E. repeat destruct E as [<-|E]; try destruct E; try assumption. apply c_refl. }
    constructor.
    - exact H.
    - intros e E. split; [apply Ea, E|]. repeat destruct E as [<-|E]; try destruct E; reflexivity.
    - intros e E. repeat destruct E as [<-|E]; try destruct E; cbn; auto 8.
    - intros e E. repeat destruct E as [<-|E]; try destruct E; vm_compute; auto 8.
    - intros e E. repeat destruct E as [<-|E]; try destruct E; discriminate.
    - intros e E. repeat destruct E as [<-|E]; try destruct E; reflexivity.
    - intros e E. repeat destruct E as [<-|E]; try destruct E; intros [= Q]; congruence.
    - assert (R1 : around_origin m [(0, 0); (2, 2)]) by (split; [repeat constructor; cbn; intuition congruence|repeat split]).
      assert (R2 : around_origin m [(1, 0); (0, 2)]) by (split; [repeat constructor; cbn; intuition congruence|repeat split]).
      assert (R3 : around_origin m [(2, 0); (1, 2)]) by (split; [repeat constructor; cbn; intuition congruence|repeat split]).
      intros e f E F Q. 
      assert (G : forall g, In g six -> (orig m g = Some a /\ In g [(0, 0); (2, 2)]) \/ (orig m g = Some b /\ In g [(1, 0); (0, 2)]) \/ (orig m g = Some c /\ In g [(2, 0); (1, 2)])).
      { intros g I. repeat destruct I as [<-|I]; try destruct I; cbn [In]; [left|right; left|right; right|right; left|left|right; right]; (split; [reflexivity|auto]). }
      destruct (G e E) as [[Oe Ie]|[[Oe Ie]|[Oe Ie]]], (G f F) as [[Of If]|[[Of If]|[Of If]]]; try (exfalso; congruence);
        solve [eexists; split; [exact R1|split; assumption] | eexists; split; [exact R2|split; assumption] | eexists; split; [exact R3|split; assumption]].
    - intros e f E F. eapply c_trans; [apply c_back, Co, E|apply Co, F].
  Qed.
  Lemma new_tri e : In e six -> tri3 m e.
  Proof. intros E. repeat destruct E as [<-|E]; try destruct E; vm_compute; reflexivity. Qed.
  Lemma new_triangulation se : In se six -> triangulation m se /\ forall p, vertex_of m se p <-> p = a \/ p = b \/ p = c.
  Proof.
    intros S. destruct (of_mesh m _ se new_mesh S new_tri) as (A & B & C & E). split; [split; [exact new_history|auto]|].
    pose proof (fun x => me_all m _ new_mesh se x S) as All. intros p. split.
    - intros (x & Cx & Ox). apply All in Cx. repeat destruct Cx as [<-|Cx]; try destruct Cx; injection Ox as <-; auto.
    - intros [-> | [-> | ->]]; [exists (0, 0)|exists (1, 0)|exists (2, 0)]; (split; [apply All; cbn; auto|reflexivity]).
  Qed.

  Theorem new_correct ypd : match new_subdivision ypd a b c with
    | Ok (m', Some se) => triangulation m' se /\ forall p, vertex_of m' se p <-> p = a \/ p = b \/ p = c
    | Ok (_, None) | Panic => True
    | Err _ => False
    end.
  Proof.
    unfold new_subdivision. fold m. destruct (resolve_any m _ new_mesh ypd (0, 0) (center (a, b, c)) (or_introl eq_refl)) as (r & err & -> & Fr).
    cbn [bind]. destruct err; [exact I|]. destruct r as [se|]; [|exact I]. apply new_triangulation, Fr. reflexivity.
  Qed.
End New.

Lemma fpt_neq p q : moderate p -> moderate q -> p <> q -> fpt p <> fpt q.
Proof. intros P Q N E. apply N, fpt_same; assumption. Qed.
Lemma connected_from m a b : connected m a b -> forall p, vertex_of m a p <-> vertex_of m b p.
Proof. intros C p. split; intros (e & Ce & Oe); exists e; (split; [|exact Oe]); (eapply c_trans; [|exact Ce]); [apply c_back, C|exact C]. Qed.
Lemma triangulation_from m a b : connected m a b -> triangulation m a -> triangulation m b.
Proof.
  intros C (H & S & L & F & A). destruct (mesh_of m a H S L F A) as [M T]. destruct (of_mesh m _ b M C T) as (P1 & P2 & P3 & P4). split; auto.
Qed.
Theorem reached_ok ypd sd ps : reached ypd sd ps ->
  triangulation (sd_mem sd) (sd_start sd) /\ Forall moderate ps
  /\ forall p, vertex_of (sd_mem sd) (sd_start sd) p <-> exists z, In z ps /\ p = fpt z.
Proof.
  induction 1 as [a b c m se Ma Mb Mc Nab Nbc Nac Q|sd ps x sd' done R (T & F & V) Mx Nx Ar (S1 & S2) Q].
  - pose proof (new_correct (fpt a) (fpt b) (fpt c) (fpt_neq a b Ma Mb Nab) (fpt_neq b c Mb Mc Nbc) (fpt_neq a c Ma Mc Nac) ypd) as N. rewrite Q in N.
    destruct N as [T V]. cbn [sd_mem sd_start]. split; [exact T|]. split; [exact (Forall_cons a Ma (Forall_cons b Mb (Forall_cons c Mc (Forall_nil _))))|]. intros p. rewrite V. split.
    + intros [-> | [-> | ->]]; eexists; (split; [|reflexivity]); cbn; auto.
    + intros (z & [<-|[<-|[<-|[]]]] & ->); auto.
  - destruct sd as [m se n]. cbn [sd_mem sd_start] in *.
    assert (Ig : integral m se) by (intros p P; apply V in P; destruct P as (z & Z & ->); exists z; split; [exact (proj1 (Forall_forall _ _) F z Z)|reflexivity]).
    pose proof (insert_correct ypd m se n x T Ig Mx) as I. rewrite Q in I.
    assert (Nv : ~ vertex_of m se (fpt x)).
    { intros P. apply V in P. destruct P as (z & Z & E). apply Nx. rewrite (fpt_same x z Mx (proj1 (Forall_forall _ _) F z Z) E). exact Z. }
    specialize (I Nv Ar). destruct done.
    + destruct I as (Es & b & Tb & Vb & Cb). rewrite Es. assert (C : connected (sd_mem sd') b se).
      { destruct Cb as [C|(a & [-> | ->] & On)]; [exact C|congruence..]. }
      split; [apply (triangulation_from _ b); assumption|]. split; [constructor; assumption|].
      intros p. rewrite <- (connected_from _ b se C), Vb, V. split.
      * intros [(z & Z & ->) | ->]; [exists z; split; [right; exact Z|reflexivity]|exists x; split; [left; reflexivity|reflexivity]].
      * intros (z & [<-|Z] & ->); [right; reflexivity|left; exists z; auto].
    + destruct I as [-> ->]. auto.
Qed.

(** ** Examples *)
Definition sd0 : subdivision := Subd (new_triangle (fpt (0, 0)%Z) (fpt (100, 0)%Z) (fpt (0, 100)%Z)) (0, 0) 3.
Definition next_sd (sd : subdivision) (x : Z * Z) : subdivision := match insert_site false sd (fpt x) with Ok (sd', _) => sd' | _ => sd end.
Definition ins_is (sd : subdivision) (x : Z * Z) (b : bool) : bool := match insert_site false sd (fpt x) with Ok (_, r) => Bool.eqb r b | _ => false end.
Definition sd1 := next_sd sd0 (10, 10)%Z.
Definition sd2 := next_sd sd1 (5, 5)%Z.
Lemma next_eq sd x b : ins_is sd x b = true -> insert_site false sd (fpt x) = Ok (next_sd sd x, b).
Proof.
  unfold ins_is, next_sd. destruct (insert_site false sd (fpt x)) as [[sd' r]|er|]; try discriminate. intros Q. apply eqb_prop in Q. subst. reflexivity.
Qed.
Definition even_edges (m : mem pt) : list edge := flat_map (fun q => [(q, 0); (q, 2)]) (seq 0 (count m)).
Lemma even_in m a : primal m a -> In a (even_edges m).
Proof.
  intros [[A B] E]. unfold even_edges. apply in_flat_map. exists (fst a). split; [apply in_seq; lia|]. destruct a as [q k]. cbn [fst snd] in *.
  do 4 (destruct k as [|k]; [try discriminate; cbn; auto|]). lia.
Qed.
Lemma dec_moderate p : (Z.abs (fst p) <=? 2 ^ 20)%Z && (Z.abs (snd p) <=? 2 ^ 20)%Z = true -> moderate p.
Proof. intros H. apply andb_true_iff in H. destruct H as [A B]. apply Z.leb_le in A, B. split; assumption. Qed.
Definition is_pt (o : option pt) (z : Z * Z) : bool := match o with Some p => (fst p =? fst (fpt z))%Z && (snd p =? snd (fpt z))%Z | None => false end.
Lemma is_pt_ok o z : is_pt o z = true -> o = Some (fpt z).
Proof. destruct o as [[u v]|]; [|discriminate]. cbn. intros H. apply andb_true_iff in H. destruct H as [A B]. apply Z.eqb_eq in A, B. subst. reflexivity. Qed.
Definition aroundb (m : mem pt) (x p q r s : Z * Z) (e : edge) : bool :=
  is_pt (orig m e) p && is_pt (dest m e) q && is_pt (orig m (lprev m e)) r
  && (is_pt (orig m (sym e)) q && is_pt (dest m (sym e)) p && is_pt (orig m (lprev m (sym e))) s)
  && ((0 <? cross (vec false x p) (vec false x s)) && (0 <? cross (vec false x s) (vec false x q))
      && (0 <? cross (vec false x q) (vec false x r)) && (0 <? cross (vec false x r) (vec false x p)))%Z.
Lemma aroundb_ok m x p q r s e : moderate p -> moderate q -> moderate r -> moderate s -> aroundb m x p q r s e = true -> around false m x e.
Proof.
  intros P Q R S H. unfold aroundb in H. rewrite !andb_true_iff, !Z.ltb_lt in H. destruct H as [[[[H1 H2] H3] [[H4 H5] H6]] [[[H7 H8] H9] H10]].
  exists p, q, r, s. repeat split; try (apply is_pt_ok; assumption); try assumption; try apply P; try apply Q; try apply R; try apply S.
Qed.

Lemma reached0 : reached false sd0 [(0, 0); (100, 0); (0, 100)]%Z.
Proof.
  unfold sd0. apply r_new; try (apply dec_moderate; reflexivity); try discriminate.
  assert (Q : match new_subdivision false (fpt (0, 0)%Z) (fpt (100, 0)%Z) (fpt (0, 100)%Z) with Ok (_, Some e) => edge_eqb e (0, 0) | _ => false end = true) by (vm_compute; reflexivity).
  unfold new_subdivision in *. destruct (resolve_edge false (new_triangle (fpt (0, 0)%Z) (fpt (100, 0)%Z) (fpt (0, 100)%Z)) (0, 0)
    (center (fpt (0, 0)%Z, fpt (100, 0)%Z, fpt (0, 100)%Z))) as [[r [er|]]|er|]; cbn [bind] in *; try discriminate.
  destruct r as [e|]; [|discriminate]. apply eqb_spec in Q. subst e. reflexivity.
Qed.
(** Only the edges of [l] carry the point. *)
Lemma only_on m se x l : history m -> primal m se -> forallb (fun a => negb (on_edge m (fpt x) a) || existsb (edge_eqb a) l) (even_edges m) = true ->
  forall a, connected m se a -> on_edge m (fpt x) a = true -> In a l.
Proof.
  intros H S C a Ca On. pose proof (connected_primal m se a (history_wf m H) Ca) as Pa. 
  rewrite forallb_forall in C. specialize (C a (even_in m a (proj1 Pa S))). rewrite On in C. cbn in C. apply existsb_exists in C.
  destruct C as (b & B & Q). apply eqb_spec in Q. subst b. exact B.
Qed.
Lemma reached1 : reached false sd1 [(10, 10); (0, 0); (100, 0); (0, 100)]%Z.
Proof.
  apply (r_insert false sd0 _ (10, 10)%Z sd1 true reached0).
  - apply dec_moderate; reflexivity.
  - intros [Q|[Q|[Q|[]]]]; discriminate.
  - intros a C On. exfalso. pose proof (reached_ok _ _ _ reached0) as ((H & S & _) & _).
    apply (only_on _ _ (10, 10)%Z [] H S) in On; [destruct On|vm_compute; reflexivity|exact C].
  - split; vm_compute; reflexivity.
  - apply next_eq. vm_compute. reflexivity.
Qed.
Definition spoke : edge := Eval vm_compute in hd (0, 0) (filter (fun a => on_edge (sd_mem sd1) (fpt (5, 5)%Z) a) (even_edges (sd_mem sd1))).
Lemma on_spoke a : connected (sd_mem sd1) (sd_start sd1) a -> on_edge (sd_mem sd1) (fpt (5, 5)%Z) a = true -> around false (sd_mem sd1) (5, 5)%Z a.
Proof.
  intros C On. pose proof (reached_ok _ _ _ reached1) as ((H & S & _) & _).
  apply (only_on _ _ (5, 5)%Z [spoke; sym spoke] H S) in On; [|vm_compute; reflexivity|exact C].
  assert (Md : forall p, In p [(0, 0); (100, 0); (0, 100); (10, 10)]%Z -> moderate p) by (intros p [<-|[<-|[<-|[<-|[]]]]]; apply dec_moderate; reflexivity).
  destruct On as [<-|[<-|[]]].
  - apply (aroundb_ok _ _ (0, 0)%Z (10, 10)%Z (0, 100)%Z (100, 0)%Z); [apply Md; cbn; auto..|vm_compute; reflexivity].
  - apply (aroundb_ok _ _ (10, 10)%Z (0, 0)%Z (100, 0)%Z (0, 100)%Z); [apply Md; cbn; auto..|vm_compute; reflexivity].
Qed.
Lemma reached2 : reached false sd2 [(5, 5); (10, 10); (0, 0); (100, 0); (0, 100)]%Z.
Proof.
  apply (r_insert false sd1 _ (5, 5)%Z sd2 true reached1).
  - apply dec_moderate; reflexivity.
  - intros [Q|[Q|[Q|[Q|[]]]]]; discriminate.
  - exact on_spoke.
  - split; vm_compute; reflexivity.
  - apply next_eq. vm_compute. reflexivity.
Qed.

(** ** Points which are not inserted *)
Definition all_edges (m : mem pt) : list edge := flat_map (fun q => [(q, 0); (q, 1); (q, 2); (q, 3)]) (seq 0 (count m)).
Lemma all_in m a : exists_in m a -> In a (all_edges m).
Proof.
  intros [A B]. unfold all_edges. apply in_flat_map. exists (fst a). split; [apply in_seq; lia|]. destruct a as [q k]. cbn [fst snd] in *.
  do 4 (destruct k as [|k]; [cbn; auto|]). lia.
Qed.
Lemma closed_check m (q : edge -> bool) : forallb (fun a => Bool.eqb (q a) (q (onext m a)) && Bool.eqb (q a) (q (sym a))) (all_edges m) = true ->
  forall a b, connected m a b -> q a = q b.
Proof.
  intros C a b Co. rewrite forallb_forall in C. induction Co as [a|a E|a E|a b _ IH|a b c _ IH1 _ IH2]; [reflexivity| | |congruence|congruence].
  - specialize (C a (all_in m a E)). apply andb_true_iff in C. apply eqb_prop, C.
  - specialize (C a (all_in m a E)). apply andb_true_iff in C. apply eqb_prop, C.
Qed.
Lemma start_origin : vertex_of (sd_mem sd0) (sd_start sd0) (fpt (0, 0)%Z) /\ exists sd', insert_site false sd0 (fpt (0, 0)%Z) = Ok (sd', false).
Proof.
  split; [exists (0, 0); split; [apply c_refl|vm_compute; reflexivity]|]. exists (next_sd sd0 (0, 0)%Z). apply next_eq. vm_compute. reflexivity.
Qed.
Lemma detached : exists sd', insert_site false sd0 (fpt (50, 0)%Z) = Ok (sd', true)
  /\ (forall p, vertex_of (sd_mem sd') (sd_start sd') p -> p = fpt (0, 0)%Z \/ p = fpt (100, 0)%Z).
Proof.
  exists (next_sd sd0 (50, 0)%Z). split; [apply next_eq; vm_compute; reflexivity|].
  set (m := sd_mem (next_sd sd0 (50, 0)%Z)).
  assert (St : sd_start (next_sd sd0 (50, 0)%Z) = (0, 0)) by (vm_compute; reflexivity). rewrite St.
  intros p (a & Ca & Oa).
  assert (Cl : edge_eqb (0, 0) (0, 0) || edge_eqb (0, 0) (0, 2) = edge_eqb a (0, 0) || edge_eqb a (0, 2)).
  { revert Ca. apply (closed_check m (fun a => edge_eqb a (0, 0) || edge_eqb a (0, 2))). vm_compute. reflexivity. }
  symmetry in Cl. rewrite eqb_refl in Cl. cbn [orb] in Cl. apply orb_true_iff in Cl.
  assert (O1 : is_pt (orig m (0, 0)) (0, 0)%Z = true) by (vm_compute; reflexivity).
  assert (O2 : is_pt (orig m (0, 2)) (100, 0)%Z = true) by (vm_compute; reflexivity).
  apply is_pt_ok in O1, O2. destruct Cl as [Cl|Cl]; apply eqb_spec in Cl; subst a; [left|right]; congruence.
Qed.
Lemma on_frame : (exists sd', insert_site false sd0 (fpt (0, 50)%Z) = Ok (sd', false)) /\ exists sd', insert_site false sd0 (fpt (50, 50)%Z) = Ok (sd', false).
Proof.
  split; [exists (next_sd sd0 (0, 50)%Z)|exists (next_sd sd0 (50, 50)%Z)]; apply next_eq; vm_compute; reflexivity.
Qed.
Lemma locate_run : triangulation (sd_mem sd2) (sd_start sd2) /\ integral (sd_mem sd2) (sd_start sd2)
  /\ exists e, locate false (sd_mem sd2) (sd_start sd2) (fpt (20, 30)%Z) 8 = Ok (Some e).
Proof.
  destruct (reached_ok _ _ _ reached2) as (T & F & V). split; [exact T|]. split.
  - intros p P. apply V in P. destruct P as (z & Z & ->). exists z. split; [exact (proj1 (Forall_forall _ _) F z Z)|reflexivity].
  - eexists. vm_compute. reflexivity.
Qed.
