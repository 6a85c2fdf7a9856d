(** Proofs about planar/makevalid/walker: statements and examples *)
From Coq Require Import ZArith Bool List Lia Reals Lra Permutation.
From Flocq Require Import Core.Core.
From Verif Require Import Base_Res Base_F64 Base_F64Arith Base_Geom M_Geom M_Extent M_Cmp M_Planar M_Triangle M_Winding M_Walker
  P_F64 P_F64Flocq P_F64Grid S_Intersect S_Walker S_Cmp P_Cmp P_Cmp2 P_Winding2 P_Intersect4 P_Clip5
  P_Walker P_Walker2 P_Walker4 P_Walker5 P_Walker6 P_Walker7 P_Walker8 P_Walker9.
Import ListNotations.
Local Open Scope nat_scope.

Lemma skipn_skipn'' {A} (l : list A) : forall n m, skipn n (skipn m l) = skipn (n + m) l.
Proof.
  intros n m. revert l. induction m as [|m IH]; intros l; [now rewrite Nat.add_0_r|]. rewrite Nat.add_succ_r.
  destruct l as [|x l]; [cbn; now rewrite skipn_nil|apply IH].
Qed.

Lemma cut_total rng s e :
  (cut rng s e = Panic <-> length rng <= s \/ length rng < e) /\
  (forall part rest, cut rng s e = Ok (part, rest) -> Permutation rng (part ++ rest)).
Proof.
  unfold cut. destruct (Nat.leb_spec (length rng) s) as [A|A], (Nat.ltb_spec (length rng) e) as [B|B]; cbn [orb];
    try (split; [split; [tauto|reflexivity]|discriminate]).
  destruct (Nat.ltb_spec e s) as [C|C]; [|destruct (Nat.eqb_spec e s) as [D|D]].
  - split; [split; [discriminate|lia]|]. intros part rest H. injection H as <- <-.
    rewrite <- (firstn_skipn e rng) at 1. rewrite <- app_assoc. rewrite Permutation_app_comm.
    rewrite (Permutation_app_comm (firstn e rng)), app_assoc. apply Permutation_app_tail.
    rewrite <- (firstn_skipn (s - e) (skipn e rng)) at 1. rewrite skipn_skipn''. replace (s - e + e) with s by lia. apply Permutation_app_comm.
  - subst e. destruct (nth_error rng s) as [p|] eqn:E; [|apply nth_error_None in E; lia]. split; [split; [discriminate|lia]|].
    intros part rest H. injection H as <- <-. rewrite <- (firstn_skipn s rng) at 1. rewrite (skipn_nth _ _ _ E), Nat.add_1_r. cbn [app].
    symmetry. apply Permutation_middle.
  - split; [split; [discriminate|lia]|]. intros part rest H. injection H as <- <-.
    rewrite <- (firstn_skipn s rng) at 1. rewrite app_assoc, (Permutation_app_comm (firstn (e - s) _)), <- app_assoc. apply Permutation_app_head.
    rewrite <- (firstn_skipn (e - s) (skipn s rng)) at 1. rewrite skipn_skipn''. replace (e - s + s) with e by lia. reflexivity.
Qed.

Theorem polygon_total ctx n rng : no_repeat go_eq rng ->
  exists out n', polygon_for_ring ctx n rng = Ok (out, n') /\
  match out with
  | None => True
  | Some rs => rs <> [] /\ Forall good_ring rs /\ exists dropped, Permutation rng (concat rs ++ dropped)
  end.
Proof.
  intros NR. destruct (polygon_for_ring_spec ctx n rng NR) as (out & n' & E & _ & S). exists out, n'. split; [exact E|].
  destruct out as [rs|]; [|exact I]. destruct S as (A & B & C & _). auto.
Qed.

Theorem polygon_area ctx n rng rs n' : no_repeat go_eq rng -> Forall small_int rng ->
  polygon_for_ring ctx n rng = Ok (Some rs, n') -> rings_area rs = ring_area rng.
Proof.
  intros NR Si E. destruct (polygon_for_ring_spec ctx n rng NR) as (out & n1 & E' & _ & S). rewrite E in E'.
  assert (Eo : out = Some rs) by congruence. subst out. destruct S as (_ & _ & _ & S). apply S; [now apply small_int_finite|now apply small_int_exact].
Qed.

Lemma rotated_twice {A} (l : list A) i j : i < length l -> j < length l -> exists k, rotated j (rotated i l) = rotated k l.
Proof.
  intros Hi Hj. unfold rotated. rewrite skipn_app, firstn_app, skipn_length. destruct (Nat.lt_ge_cases (i + j) (length l)) as [H|H].
  - exists (j + i). rewrite skipn_skipn''. replace (j - (length l - i)) with 0 by lia. cbn [skipn firstn]. rewrite app_nil_r, <- app_assoc. f_equal.
    rewrite <- (firstn_skipn i (firstn (j + i) l)). rewrite firstn_firstn, Nat.min_l by lia. f_equal.
    rewrite skipn_firstn_comm. f_equal. lia.
  - exists (j + i - length l). rewrite (skipn_all2 (skipn i l)) by (rewrite skipn_length; lia). rewrite (firstn_all2 (skipn i l)) by (rewrite skipn_length; lia).
    cbn [app]. set (k := j + i - length l). replace (j - (length l - i)) with k by lia. rewrite firstn_firstn, Nat.min_l by lia.
    rewrite app_assoc. f_equal. rewrite <- (firstn_skipn i l) at 3. rewrite skipn_app, firstn_length, Nat.min_l by lia.
    replace (k - i) with 0 by lia. reflexivity.
Qed.

Theorem polygon_simple ctx n r : (forall n, ctx n = false) -> 3 <= length r -> distinct r ->
  exists k n', polygon_for_ring ctx n r = Ok (Some [rotated k r], n') /\ good_ring (rotated k r).
Proof.
  intros C L D. pose proof (polygon_distinct ctx n r C L D) as E.
  assert (Lr : forall k, length (rotated k r) = length r).
  { intros k. unfold rotated. rewrite app_length, Nat.add_comm, <- app_length, firstn_skipn. reflexivity. }
  assert (NE : forall k, rotated k r <> []) by (intros k Z0; apply (f_equal (@length _)) in Z0; rewrite Lr in Z0; cbn in Z0; lia).
  assert (H1 : find_min_idx r < length r) by (apply find_min_lt; intros ->; cbn in L; lia).
  assert (H2 : find_min_idx (rotated (find_min_idx r) r) < length r) by (pose proof (find_min_lt _ (NE (find_min_idx r))) as Q; now rewrite Lr in Q).
  destruct (rotated_twice r _ _ H1 H2) as (k & Ek). exists k. eexists. rewrite <- Ek. split; [exact E|].
  split; [rewrite Ek, Lr; exact L|]. apply rotated_leftmost, NE.
Qed.

Lemma ring_total ts ctx n idx t seen : nth_error ts idx = Some t -> ~ In idx seen ->
  exists rng vis n', ring_for_triangle ts ctx n idx seen = Ok (rng, vis ++ seen, n') /\ In idx vis /\ NoDup vis /\
    (forall j, In j vis -> ~ In j seen /\ j < length ts) /\ length rng = 2 + length vis /\
    (forall p, In p rng -> exists j t, In j vis /\ nth_error ts j = Some t /\ In p (vertices3 t)).
Proof.
  intros E N. destruct (ring_for_triangle_any ts ctx n idx t seen E N) as (rng & vis & n' & A & B & C & D & F & G & _).
  exists rng, vis, n'. auto 8.
Qed.

Theorem multi_components ts ctx ypd : coherent ts -> (forall k, ctx k = false) ->
  exists groups seen n,
    multi_polygon ts ctx ypd =
      Ok (Some (flat_map (fun go => kept_polygon (match snd go with None => None | Some rs => fst (rectify_polygon ypd rs) end)) groups), seen, n) /\
    Permutation (concat (map fst groups)) (seq 0 (length ts)) /\
    (forall g o, In (g, o) groups -> component ts g /\ made_from ts g o).
Proof.
  intros Co Nv. destruct (multi_groups ts ctx ypd (proj1 Co) Nv) as (gs & seen & n & A & B & C & D).
  exists gs, seen, n. split; [exact A|]. split; [exact B|]. intros g o H. split; [exact (D Co g o H)|apply (C g o H)].
Qed.

(** ** Examples with integers *)
Definition small_z (p : Z * Z) : bool := (Z.abs (fst p) <=? 4096)%Z && (Z.abs (snd p) <=? 4096)%Z.

Lemma zpt_small p : small_z p = true -> small_int (zpt p).
Proof.
  unfold small_z. intros H. apply andb_prop in H. destruct H as [H1 H2]. apply Z.leb_le in H1, H2.
  exists (fst p), (snd p). assert (T : (4096 <= two53)%Z) by (vm_compute; discriminate).
  destruct (zpt_grid p) as [A B]; [lia|lia|]. auto.
Qed.
Lemma zpts_small l : forallb small_z l = true -> Forall small_int (map zpt l).
Proof.
  intros H. rewrite Forall_map. apply Forall_forall. intros p Hp. rewrite forallb_forall in H. now apply zpt_small, H.
Qed.
Lemma zpt_R p : small_z p = true -> rpt (zpt p) = (IZR (fst p), IZR (snd p)).
Proof.
  unfold small_z. intros H. apply andb_prop in H. destruct H as [H1 H2]. apply Z.leb_le in H1, H2.
  assert (T : (4096 <= two53)%Z) by (vm_compute; discriminate).
  destruct (zpt_grid p) as [A B]; [lia|lia|]. destruct A as (_ & _ & A), B as (_ & _ & B).
  unfold rpt. rewrite A, B. cbn [bpow]. rewrite !Rmult_1_r. reflexivity.
Qed.
Lemma zpt_inj p q : small_z p = true -> small_z q = true -> rpt (zpt p) = rpt (zpt q) -> p = q.
Proof.
  intros A B. rewrite (zpt_R p A), (zpt_R q B). intros H. apply pair_equal_spec in H. destruct H as [H1 H2].
  apply eq_IZR in H1, H2. destruct p, q. cbn in *. congruence.
Qed.
Lemma zring_area l : forallb small_z l = true -> ring_area (map zpt l) = areaR (map (fun p => (IZR (fst p), IZR (snd p))) l).
Proof.
  intros H. unfold ring_area. rewrite map_map. f_equal. apply map_ext_in. intros p Hp. apply zpt_R. rewrite forallb_forall in H. now apply H.
Qed.

Fixpoint apart (r : list pt) : bool :=
  match r with
  | p :: (q :: _) as tl => negb (go_eq p q) && apart tl
  | _ => true
  end.
Lemma apart_no_repeat r : apart (r ++ firstn 1 r) = true -> no_repeat go_eq r.
Proof.
  unfold no_repeat. generalize (r ++ firstn 1 r). clear r. intros r H l1. revert r H. induction l1 as [|x l1 IH]; intros r H p q l2 ->.
  - cbn in H. apply andb_prop in H. destruct H as [H _]. now apply negb_true_iff.
  - apply (IH (l1 ++ p :: q :: l2)) with l2; [|reflexivity]. cbn [app] in H. destruct (l1 ++ p :: q :: l2); [reflexivity|].
    cbn [apart] in H. now apply andb_prop in H.
Qed.

Lemma slivers_example :
  polygon_for_ring never 0 (map zpt [(0, 0); (5, 5); (9, 4); (9, 6); (5, 5); (0, 1)]%Z) =
    Ok (Some [map zpt [(0, 0); (5, 5); (0, 1)]%Z; map zpt [(5, 5); (9, 4); (9, 6)]%Z], 6) /\
  no_repeat go_eq (map zpt [(0, 0); (5, 5); (9, 4); (9, 6); (5, 5); (0, 1)]%Z) /\
  Forall small_int (map zpt [(0, 0); (5, 5); (9, 4); (9, 6); (5, 5); (0, 1)]%Z).
Proof. split; [vm_compute; reflexivity|]. split; [apply apart_no_repeat; vm_compute; reflexivity|apply zpts_small; reflexivity]. Qed.

Lemma polygon_lost : exists rng n', no_repeat go_eq rng /\ Forall small_int rng /\ ring_area rng <> 0%R /\
  polygon_for_ring never 0 rng = Ok (None, n').
Proof.
  exists (map zpt [(0, 0); (2, 1); (6, 0); (8, 4); (6, 8); (2, 1)]%Z). eexists.
  split; [apply apart_no_repeat; vm_compute; reflexivity|]. split; [apply zpts_small; reflexivity|].
  split; [|vm_compute; reflexivity]. rewrite zring_area by reflexivity. cbn. unfold crossR. cbn [fst snd]. lra.
Qed.

Lemma polygon_repeated : exists rng r rs n', no_repeat go_eq rng /\ Forall small_int rng /\
  polygon_for_ring never 0 rng = Ok (Some (r :: rs), n') /\ ~ distinct r.
Proof.
  exists (map zpt [(0, 0); (5, 5); (9, 4); (9, 6); (5, 5); (6, 9); (4, 9); (5, 5); (0, 1)]%Z).
  exists (map zpt [(0, 0); (5, 5); (6, 9); (4, 9); (5, 5); (0, 1)]%Z), [map zpt [(5, 5); (9, 4); (9, 6)]%Z]. eexists.
  split; [apply apart_no_repeat; vm_compute; reflexivity|]. split; [apply zpts_small; reflexivity|].
  split; [vm_compute; reflexivity|]. intros D. specialize (D 1 4 (zpt (5, 5)%Z) (zpt (5, 5)%Z)).
  assert (E : go_eq (zpt (5, 5)%Z) (zpt (5, 5)%Z) = true) by (vm_compute; reflexivity). rewrite D in E; [discriminate|lia|reflexivity|reflexivity].
Qed.

(** Triangles with integer vertices. *)
Definition ztri := ((Z * Z) * (Z * Z) * (Z * Z))%type.
Definition zt (t : ztri) : triangle := let '(a, b, c) := t in (zpt a, zpt b, zpt c).
Definition zvert (t : ztri) : list (Z * Z) := let '(a, b, c) := t in [a; b; c].
Definition zsides (t : ztri) : list ((Z * Z) * (Z * Z)) := let '(a, b, c) := t in [(a, b); (b, c); (c, a)].
Definition zeq (p q : Z * Z) : bool := (fst p =? fst q)%Z && (snd p =? snd q)%Z.
Definition zproper (l : list ztri) : bool :=
  forallb (fun t => forallb small_z (zvert t) && (let '(a, b, c) := t in negb (zeq a b) && negb (zeq b c) && negb (zeq c a))) l.
Fixpoint zcoherent (l : list ztri) : bool :=
  match l with
  | [] => true
  | t :: tl => forallb (fun u => forallb (fun s => forallb (fun s' => negb (zeq (fst s) (fst s') && zeq (snd s) (snd s'))) (zsides u)) (zsides t)) tl && zcoherent tl
  end.

Lemma zeq_iff p q : zeq p q = true <-> p = q.
Proof.
  unfold zeq. rewrite andb_true_iff, !Z.eqb_eq. destruct p, q. cbn. split; [intros [-> ->]; reflexivity|]. intros H. apply pair_equal_spec in H. exact H.
Qed.
Lemma zt_verts t : vertices3 (zt t) = map zpt (zvert t). Proof. now destruct t as [[a b] c]. Qed.
Lemma zt_sides t : sides3 (zt t) = map (fun s => (zpt (fst s), zpt (snd s))) (zsides t). Proof. now destruct t as [[a b] c]. Qed.
Lemma zside_verts t s : In s (zsides t) -> In (fst s) (zvert t) /\ In (snd s) (zvert t).
Proof. destruct t as [[a b] c]. cbn. intros [<-|[<-|[<-|[]]]]; cbn; tauto. Qed.

Lemma zproper_small l t p : zproper l = true -> In t l -> In p (zvert t) -> small_z p = true.
Proof.
  unfold zproper. rewrite forallb_forall. intros H Ht Hp. specialize (H t Ht). apply andb_prop in H. destruct H as [H _]. rewrite forallb_forall in H. now apply H.
Qed.
Lemma zproper_ok l : zproper l = true -> proper (map zt l) /\ (forall t p, In t (map zt l) -> In p (vertices3 t) -> small_int p).
Proof.
  intros H.
  assert (Sm : forall t p, In t (map zt l) -> In p (vertices3 t) -> small_int p).
  { intros t p Ht Hp. apply in_map_iff in Ht. destruct Ht as (u & <- & Hu). rewrite zt_verts in Hp. apply in_map_iff in Hp. destruct Hp as (q & <- & Hq).
    apply zpt_small. exact (zproper_small l u q H Hu Hq). }
  split; [|exact Sm]. split; [|split].
  - intros t p Ht Hp. assert (F : Forall finite_pt [p]) by (apply small_int_finite; constructor; [exact (Sm t p Ht Hp)|constructor]). now inversion F.
  - intros a b c Ht. apply in_map_iff in Ht. destruct Ht as ([[x y] z] & E & Hu). injection E as <- <- <-.
    pose proof (proj1 (forallb_forall _ _) H _ Hu) as G. apply andb_prop in G. destruct G as [_ G]. apply andb_prop in G. destruct G as [G G3]. apply andb_prop in G. destruct G as [G1 G2].
    assert (X : small_z x = true /\ small_z y = true /\ small_z z = true) by (repeat split; apply (zproper_small l (x, y, z)); cbn; tauto).
    destruct X as (X & Y & Z1). repeat split; intros E; apply zpt_inj in E; try assumption; apply zeq_iff in E; rewrite E in *; discriminate.
  - intros t u p q Ht Hu Hp Hq E. destruct (small_int_exact [p; q]) as [X _]; [constructor; [exact (Sm t p Ht Hp)|constructor; [exact (Sm u q Hu Hq)|constructor]]|].
    apply X; [now left|right; now left|]. rewrite hi_is. exact E.
Qed.

Lemma zcoherent_lt l : zcoherent l = true -> forall i j t u s s', i < j -> nth_error l i = Some t -> nth_error l j = Some u ->
  In s (zsides t) -> In s' (zsides u) -> fst s = fst s' -> snd s = snd s' -> False.
Proof.
  induction l as [|x l IH]; intros H i j t u s s' Lt Ei Ej Hs Hs' E1 E2; [now destruct i|].
  cbn [zcoherent] in H. apply andb_prop in H. destruct H as [H1 H2]. destruct j as [|j]; [lia|]. destruct i as [|i].
  - injection Ei as <-. rewrite forallb_forall in H1. specialize (H1 u (nth_error_In l j Ej)). rewrite forallb_forall in H1.
    specialize (H1 s Hs). rewrite forallb_forall in H1. specialize (H1 s' Hs'). apply zeq_iff in E1, E2. rewrite E1, E2 in H1. discriminate.
  - apply (IH H2 i j t u s s'); auto. lia.
Qed.

Lemma zcoherent_ok l : zproper l = true -> zcoherent l = true -> coherent (map zt l).
Proof.
  intros P C. split; [now apply zproper_ok|]. intros i j t u a b a' b' Ei Ej Ha Hb E1 E2.
  rewrite nth_error_map in Ei, Ej. destruct (nth_error l i) as [x|] eqn:Ex; [|discriminate]. destruct (nth_error l j) as [y|] eqn:Ey; [|discriminate].
  injection Ei as <-. injection Ej as <-. rewrite zt_sides in Ha, Hb. apply in_map_iff in Ha, Hb. destruct Ha as (s & Es & Hs), Hb as (s' & Es' & Hs').
  apply pair_equal_spec in Es, Es'. destruct Es as [<- <-], Es' as [<- <-].
  destruct (zside_verts x s Hs) as [V1 V2], (zside_verts y s' Hs') as [V3 V4]. pose proof (nth_error_In _ _ Ex) as Ix. pose proof (nth_error_In _ _ Ey) as Iy.
  apply (zpt_inj _ _ (zproper_small l x _ P Ix V1) (zproper_small l y _ P Iy V3)) in E1.
  apply (zpt_inj _ _ (zproper_small l x _ P Ix V2) (zproper_small l y _ P Iy V4)) in E2.
  destruct (Nat.lt_trichotomy i j) as [L|[L|L]]; [exfalso|exact L|exfalso].
  - exact (zcoherent_lt l C i j x y s s' L Ex Ey Hs Hs' E1 E2).
  - exact (zcoherent_lt l C j i y x s' s L Ey Ex Hs' Hs (eq_sym E1) (eq_sym E2)).
Qed.

Definition annulus : list triangle := map zt
  (let a := (0, 0) in let b := (6, 0) in let c := (6, 6) in let d := (0, 6) in let e := (2, 2) in let f := (4, 2) in let g := (4, 4) in let h := (2, 4) in
   [(a, b, e); (b, f, e); (b, c, f); (c, g, f); (c, d, g); (d, h, g); (d, a, h); (a, e, h)])%Z.
Lemma annulus_ok : coherent annulus /\ exists n,
  multi_polygon annulus never false =
    Ok (Some [[map zpt [(0, 6); (6, 6); (6, 0); (0, 0)]%Z; map zpt [(4, 2); (4, 4); (2, 4); (2, 2)]%Z]], [1; 2; 3; 4; 5; 6; 7; 0; 0], n).
Proof. split; [apply zcoherent_ok; vm_compute; reflexivity|]. eexists. vm_compute. reflexivity. Qed.

(** A triangle given twice disappears; a triangle with two equal vertices can make
    MultiPolygon panic. *)
Lemma multi_twice : exists t n seen, proper [t; t] /\ ring_area (vertices3 t) <> 0%R /\ multi_polygon [t; t] never false = Ok (Some [], seen, n).
Proof.
  exists (zt ((0, 0), (4, 0), (0, 4))%Z). eexists. eexists. split; [|split; [|vm_compute; reflexivity]].
  - apply (zproper_ok [((0, 0), (4, 0), (0, 4)); ((0, 0), (4, 0), (0, 4))]%Z). vm_compute. reflexivity.
  - rewrite zt_verts, zring_area by reflexivity. cbn. unfold crossR. cbn [fst snd]. lra.
Qed.
Lemma multi_panics : exists a b, rpt a <> rpt b /\ multi_polygon [(a, b, a)] never false = Panic.
Proof.
  exists (zpt (0, 0)%Z), (zpt (4, 4)%Z). split; [|vm_compute; reflexivity]. intros E. apply zpt_inj in E; [discriminate|reflexivity|reflexivity].
Qed.
