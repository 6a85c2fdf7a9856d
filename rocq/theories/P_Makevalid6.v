(** Examples for planar/makevalid *)
From Coq Require Import ZArith Bool List Lia Reals Lra Permutation.
From Flocq Require Import Core.Core.
From Verif Require Import Base_Res Base_F64 Base_F64Arith Base_Geom M_Geom M_Extent M_Cmp M_Intersect M_Sweep M_Triangle M_Rtree M_Ring M_Winding M_Hitmap M_Walker M_Makevalid
  S_Geom S_Extent S_Cmp S_Intersect S_RtreeEx S_Sweep P_F64 P_F64Flocq P_F64Round P_F64Grid P_Cmp3 P_Intersect3 P_Intersect4 P_Sweep3 P_Ring P_Ring2 P_Ring3 P_Hitmap2 P_Hitmap3 S_Walker P_Walker4 P_Walker10
  S_Hitmap S_Ring S_Makevalid P_Makevalid P_Makevalid2 P_Makevalid3 P_Makevalid4 P_Makevalid5.
Import ListNotations.
Local Open Scope Z_scope.

Definition zbox (a b c d : Z) : list pt := map zpt [(a, b); (c, b); (c, d); (a, d)].
Definition cut_up (clipbox : option extent) (mp : list (list (list pt))) : res unit (list line) :=
  destructure (E := unit) (fun less => isort less) (fun less => isort less) (fun less => isort less) default_compare (fun _ => None) (fun _ => false) hi_cmp clipbox mp.
(** Two squares which overlap; two with a common side; two, a side of the second on
    one of the first and with a point in its middle. *)
Definition overlapping := [[zbox 0 0 4 4]; [zbox 2 2 6 6]].
Definition side_by_side := [[zbox 0 0 4 4]; [zbox 4 0 8 4]].
Definition leaning := [[zbox 0 0 8 4]; [map zpt [(2, 4); (4, 4); (6, 4); (6, 8); (2, 8)]]].
Definition clip15 := Ext (f64_ofZ 1) (f64_ofZ 1) (f64_ofZ 5) (f64_ofZ 5).

(** ** Checks on integers *)
Definition zseg : Type := (Z * Z) * (Z * Z).
Definition zsmall (l : list zseg) : bool :=
  forallb (fun s : zseg => (Z.abs (fst (fst s)) <=? 512) && (Z.abs (snd (fst s)) <=? 512) && (Z.abs (fst (snd s)) <=? 512) && (Z.abs (snd (snd s)) <=? 512)) l.
Definition zaxis (l : list zseg) : bool := forallb (fun s : zseg => (fst (fst s) =? fst (snd s)) || (snd (fst s) =? snd (snd s))) l.
Lemma zsmall_in l s : zsmall l = true -> In s l -> small_seg (zline s) /\ rpt (fst (zline s)) = rz (fst s) /\ rpt (snd (zline s)) = rz (snd s).
Proof.
  unfold zsmall. rewrite forallb_forall. intros H Hs. apply H in Hs. rewrite !andb_true_iff, !Z.leb_le in Hs. destruct Hs as (((A & B) & C) & D).
  split; [split; apply P_Ring3.zpt_small; assumption|]. split; apply zpt_rz; unfold two53; lia.
Qed.
Lemma zaxis_ok l : zsmall l = true -> zaxis l = true -> rectilinear (map zline l).
Proof.
  intros S A x Hx. apply in_map_iff in Hx as (s & <- & Hs). destruct (zsmall_in l s S Hs) as (S1 & E1 & E2). split; [exact S1|]. rewrite E1, E2. unfold rz. cbn [fst snd].
  unfold zaxis in A. rewrite forallb_forall in A. apply A, orb_true_iff in Hs as [H|H]; apply Z.eqb_eq in H; rewrite H; auto.
Qed.
Definition zend (s : zseg) (q : Z * Z) : bool := ((fst q =? fst (fst s)) && (snd q =? snd (fst s))) || ((fst q =? fst (snd s)) && (snd q =? snd (snd s))).
Definition zcross (a b : zseg) : Z := (fst (snd a) - fst (fst a)) * (snd (snd b) - snd (fst b)) - (snd (snd a) - snd (fst a)) * (fst (snd b) - fst (fst b)).
Definition zon (s : zseg) (q : Z * Z) : bool :=
  (Z.min (fst (fst s)) (fst (snd s)) <=? fst q) && (fst q <=? Z.max (fst (fst s)) (fst (snd s))) &&
  (Z.min (snd (fst s)) (snd (snd s)) <=? snd q) && (snd q <=? Z.max (snd (fst s)) (snd (snd s))).
(** For every end [q] of [b] in the box of [a]. *)
Definition zcorner (l : list zseg) (a : zseg) (q : Z * Z) : bool :=
  negb (zon a q) || zend a q || existsb (fun d => negb (zcross a d =? 0) && zend d q) l.
Definition zcorners (l : list zseg) : bool :=
  forallb (fun a => forallb (fun b => negb (zcross a b =? 0) || (zcorner l a (fst b) && zcorner l a (snd b))) l) l.
Lemma zend_ok l s q : zsmall l = true -> In s l -> zend s q = true -> end_of (zline s) (rz q).
Proof.
  intros S Hs H. destruct (zsmall_in l s S Hs) as (_ & E1 & E2). unfold end_of. rewrite E1, E2. unfold zend in H. apply orb_true_iff in H as [H|H]; apply andb_true_iff in H as [A B]; apply Z.eqb_eq in A, B; [left|right]; unfold rz; congruence.
Qed.
Lemma end_on s q : end_of s q -> on_segment s q.
Proof. intros [-> | ->]; [exists 0%R; split; [lra|symmetry; apply along_0]|exists 1%R; split; [lra|symmetry; apply along_1]]. Qed.
Lemma zcross_ok l a b : zsmall l = true -> In a l -> In b l -> parallel (zline a) (zline b) <-> zcross a b = 0.
Proof.
  intros S Ha Hb. destruct (zsmall_in l a S Ha) as (_ & E1 & E2), (zsmall_in l b S Hb) as (_ & E3 & E4). unfold parallel. cbn zeta. rewrite E1, E2, E3, E4. unfold rz, zcross. cbn [fst snd].
  rewrite <- !minus_IZR, <- !mult_IZR. split; [intros H; apply eq_IZR in H; lia|intros H; f_equal; lia].
Qed.
Lemma zon_ok l a q : zsmall l = true -> In a l -> on_segment (zline a) (rz q) -> zon a q = true.
Proof.
  intros S Ha (t & T & E). destruct (zsmall_in l a S Ha) as (_ & E1 & E2). rewrite E1, E2 in E. unfold rz, along in E. cbn [fst snd] in E. injection E as Ex Ey.
  assert (G : forall u v w, IZR w = (IZR u + t * (IZR v - IZR u))%R -> Z.min u v <= w <= Z.max u v).
  { intros u v w H. destruct (Z.le_ge_cases u v) as [L|L]; [rewrite Z.min_l, Z.max_r by lia|rewrite Z.min_r, Z.max_l by lia]; apply IZR_le in L; split; apply le_IZR; nra. }
  unfold zon. rewrite !andb_true_iff, !Z.leb_le. apply G in Ex, Ey. tauto.
Qed.
Lemma zcorners_ok l : zsmall l = true -> zcorners l = true -> corners (map zline l).
Proof.
  intros S C a b q Ha Hb _ _ Pa Eq Qa. apply in_map_iff in Ha as (a' & <- & Ha), Hb as (b' & <- & Hb). unfold zcorners in C. rewrite forallb_forall in C. specialize (C a' Ha). rewrite forallb_forall in C. specialize (C b' Hb).
  apply (zcross_ok l a' b' S Ha Hb) in Pa. rewrite Pa in C. cbn [Z.eqb negb orb] in C. apply andb_true_iff in C as [C1 C2]. destruct (zsmall_in l b' S Hb) as (_ & E1 & E2).
  assert (G : forall p, zcorner l a' p = true -> on_segment (zline a') (rz p) -> end_of (zline a') (rz p) \/ exists d, In d (map zline l) /\ ~ parallel (zline a') d /\ on_segment d (rz p)).
  { intros p H Q. unfold zcorner in H. rewrite (zon_ok l a' p S Ha Q) in H. cbn [negb orb] in H. apply orb_true_iff in H as [H|H]; [left; now apply (zend_ok l)|right].
    apply existsb_exists in H as (d & Hd & H). apply andb_true_iff in H as [H1 H2]. exists (zline d). split; [now apply in_map|]. split; [|apply end_on; now apply (zend_ok l)].
    intros X. apply (zcross_ok l a' d S Ha Hd) in X. rewrite X in H1. discriminate. }
  destruct Eq as [-> | ->]; [rewrite E1 in *|rewrite E2 in *]; now apply G.
Qed.
Definition zring (r : list (Z * Z)) : list zseg := match r with a :: _ :: _ :: _ => combine (last r a :: r) r | _ => [] end.
Lemma last_map {A B} (f : A -> B) d : forall r, last (map f r) (f d) = f (last r d).
Proof. induction r as [|x [|y tl] IH]; [reflexivity|reflexivity|]. exact IH. Qed.
Lemma combine_map {A B} (f : A -> B) : forall l m, combine (map f l) (map f m) = map (fun s => (f (fst s), f (snd s))) (combine l m).
Proof. induction l as [|x l IH]; intros [|y m]; [reflexivity|reflexivity|reflexivity|]. cbn [map combine]. now rewrite IH. Qed.
Lemma zring_edges r : ring_edges (map zpt r) = map zline (zring r).
Proof.
  destruct r as [|a [|b [|c r]]]; try reflexivity. unfold ring_edges, zring. cbn [map].
  change (zpt a :: zpt b :: zpt c :: map zpt r) with (map zpt (a :: b :: c :: r)). rewrite last_map. change (zpt (last (a :: b :: c :: r) a) :: map zpt (a :: b :: c :: r)) with (map zpt (last (a :: b :: c :: r) a :: a :: b :: c :: r)).
  apply combine_map.
Qed.
Definition zmp (mp : list (list (list (Z * Z)))) : list (list (list pt)) := map (map (map zpt)) mp.
Lemma zmp_edges mp : mp_edges (zmp mp) = map zline (flat_map (flat_map zring) mp).
Proof.
  assert (G : forall py, flat_map ring_edges (map (map zpt) py) = map zline (flat_map zring py)).
  { induction py as [|r rs IH]; [reflexivity|]. cbn [map flat_map]. rewrite map_app, IH. now rewrite zring_edges. }
  unfold mp_edges, zmp. induction mp as [|py tl IH]; [reflexivity|]. cbn [map flat_map]. rewrite map_app. now rewrite IH, G.
Qed.
Lemma zmp_small mp : forallb (forallb (forallb (fun p => (Z.abs (fst p) <=? 512) && (Z.abs (snd p) <=? 512)))) mp = true -> small_mp (zmp mp).
Proof.
  rewrite forallb_forall. intros H poly r p H1 H2 H3. unfold zmp in H1. apply in_map_iff in H1 as (py & <- & H1). apply in_map_iff in H2 as (rr & <- & H2). apply in_map_iff in H3 as (q & <- & H3).
  apply H in H1. rewrite forallb_forall in H1. apply H1 in H2. rewrite forallb_forall in H2. apply H2, andb_true_iff in H3 as [A B]. apply P_Ring3.zpt_small; now apply Z.leb_le.
Qed.

(** ** The examples *)
Lemma overlapping_ok : small_mp overlapping /\ meet_on_grid (mp_edges overlapping) /\ corners (mp_edges overlapping) /\
  cut_up None overlapping = Ok (map zline
    [((0, 0), (0, 4)); ((0, 0), (4, 0)); ((0, 4), (2, 4)); ((2, 2), (2, 4)); ((2, 2), (4, 2)); ((2, 4), (2, 6));
     ((2, 4), (4, 4)); ((2, 6), (6, 6)); ((4, 0), (4, 2)); ((4, 2), (4, 4)); ((4, 2), (6, 2)); ((6, 2), (6, 6))]).
Proof.
  change overlapping with (zmp [[[(0, 0); (4, 0); (4, 4); (0, 4)]]; [[(2, 2); (6, 2); (6, 6); (2, 6)]]]). split; [apply zmp_small; reflexivity|].
  rewrite zmp_edges. split; [apply rectilinear_grid, zaxis_ok; reflexivity|]. split; [apply zcorners_ok; reflexivity|]. vm_compute. reflexivity.
Qed.
Lemma clip15_ok : clip_ok clip15 /\ meet_on_grid (box_sides clip15 ++ mp_edges overlapping) /\ corners (box_sides clip15 ++ mp_edges overlapping) /\
  ~ every_point overlapping (fun p => in_clip clip15 (rpt p)) /\
  exists out, cut_up (Some clip15) overlapping = Ok out /\ length out = 16%nat.
Proof.
  split; [|split; [|split; [|split]]].
  - unfold clip_ok, clip15. cbn [e0 e1 e2 e3]. destruct (P_Ring3.zpt_small (1, 5)) as [A B]; [cbn; lia|cbn; lia|].
    assert (V1 : f64_R (f64_ofZ 1) = IZR 1) by (apply (repr_int 1), repr_ofZ; unfold two53; lia). assert (V5 : f64_R (f64_ofZ 5) = IZR 5) by (apply (repr_int 5), repr_ofZ; unfold two53; lia).
    split; [exact A|]. split; [exact A|]. split; [exact B|]. split; [exact B|]. rewrite V1, V5. lra.
  - change overlapping with (zmp [[[(0, 0); (4, 0); (4, 4); (0, 4)]]; [[(2, 2); (6, 2); (6, 6); (2, 6)]]]). rewrite zmp_edges.
    change (box_sides clip15) with (map zline [((1, 1), (5, 1)); ((5, 1), (5, 5)); ((5, 5), (1, 5)); ((1, 5), (1, 1))]). rewrite <- map_app. apply rectilinear_grid, zaxis_ok; reflexivity.
  - change overlapping with (zmp [[[(0, 0); (4, 0); (4, 4); (0, 4)]]; [[(2, 2); (6, 2); (6, 6); (2, 6)]]]). rewrite zmp_edges.
    change (box_sides clip15) with (map zline [((1, 1), (5, 1)); ((5, 1), (5, 5)); ((5, 5), (1, 5)); ((1, 5), (1, 1))]). rewrite <- map_app. apply zcorners_ok; reflexivity.
  - intros H. specialize (H [zbox 0 0 4 4] (zbox 0 0 4 4) (zpt (0, 0))). destruct H as [H _]; [now left|now left|now left|].
    rewrite zpt_rz in H by (unfold two53; cbn; lia). unfold clip15, rz in H. cbn [e0 e2 fst snd] in H.
    assert (V1 : f64_R (f64_ofZ 1) = IZR 1) by (apply (repr_int 1), repr_ofZ; unfold two53; lia). rewrite V1 in H. lra.
  - eexists. split; [vm_compute; reflexivity|reflexivity].
Qed.
(** The last segment twice, though there was one. *)
Lemma twice : small_mp side_by_side /\ meet_on_grid (mp_edges side_by_side) /\ corners (mp_edges side_by_side) /\
  cut_up None side_by_side = Ok (map zline
    [((0, 0), (0, 4)); ((0, 0), (4, 0)); ((0, 4), (4, 4)); ((4, 0), (4, 4)); ((4, 0), (8, 0)); ((4, 4), (8, 4)); ((8, 0), (8, 4)); ((8, 0), (8, 4))]).
Proof.
  change side_by_side with (zmp [[[(0, 0); (4, 0); (4, 4); (0, 4)]]; [[(4, 0); (8, 0); (8, 4); (4, 4)]]]). split; [apply zmp_small; reflexivity|].
  rewrite zmp_edges. split; [apply rectilinear_grid, zaxis_ok; reflexivity|]. split; [apply zcorners_ok; reflexivity|]. vm_compute. reflexivity.
Qed.
(** A segment along two others. *)
Lemma leaning_ok : small_mp leaning /\ meet_on_grid (mp_edges leaning) /\ exists out,
  cut_up None leaning = Ok out /\ In (zline ((2, 4), (6, 4))) out /\ In (zline ((2, 4), (4, 4))) out /\ ~ settled out.
Proof.
  change leaning with (zmp [[[(0, 0); (8, 0); (8, 4); (0, 4)]]; [[(2, 4); (4, 4); (6, 4); (6, 8); (2, 8)]]]). split; [apply zmp_small; reflexivity|].
  rewrite zmp_edges. split; [apply rectilinear_grid, zaxis_ok; reflexivity|].
  exists (map zline [((0, 0), (0, 4)); ((0, 0), (8, 0)); ((0, 4), (2, 4)); ((2, 4), (2, 8)); ((2, 4), (4, 4)); ((2, 4), (6, 4)); ((2, 8), (6, 8)); ((4, 4), (6, 4)); ((6, 4), (6, 8)); ((6, 4), (8, 4)); ((8, 0), (8, 4))]).
  split; [vm_compute; reflexivity|]. split; [apply in_map; cbn; tauto|]. split; [apply in_map; cbn; tauto|].
  intros H. specialize (H (zline ((2, 4), (6, 4))) (zline ((2, 4), (4, 4))) (rz (4, 4))).
  assert (E24 : rpt (zpt (2, 4)) = rz (2, 4)) by (apply zpt_rz; unfold two53; cbn; lia). assert (E64 : rpt (zpt (6, 4)) = rz (6, 4)) by (apply zpt_rz; unfold two53; cbn; lia). assert (E44 : rpt (zpt (4, 4)) = rz (4, 4)) by (apply zpt_rz; unfold two53; cbn; lia).
  destruct H as [[H _]|[_ H]].
  - apply in_map; cbn; tauto.
  - apply in_map; cbn; tauto.
  - exists (1 / 2)%R. split; [lra|]. cbn [zline fst snd]. rewrite E24, E64. unfold along, rz. cbn [fst snd]. f_equal; lra.
  - exists 1%R. split; [lra|]. cbn [zline fst snd]. rewrite E24, E44. unfold along, rz. cbn [fst snd]. f_equal; lra.
  - unfold end_of in H. cbn [zline fst snd] in H. rewrite E24, E64 in H. unfold rz in H. cbn [fst snd] in H. destruct H as [H|H]; apply (f_equal fst) in H; cbn [fst] in H; lra.
  - cbn [zline fst snd] in H. rewrite E64, E44 in H. unfold rz in H. apply (f_equal fst) in H. cbn [fst snd] in H. lra.
Qed.

(** A square with a hole, cut into ten triangles of which two are in the hole. *)
Definition frame := [[zbox 0 0 18 18; map zpt [(6, 6); (6, 12); (12, 12); (12, 6)]]].
Definition ten : list triangle := map zt
  (let a := (0, 0) in let b := (18, 0) in let c := (18, 18) in let d := (0, 18) in let e := (6, 6) in let f := (12, 6) in let g := (12, 12) in let h := (6, 12) in
   [(a, b, e); (b, f, e); (e, f, g); (b, c, f); (c, g, f); (c, d, g); (d, h, g); (d, a, h); (e, g, h); (a, e, h)]).
Definition run {E} ctx stop halt walk (extent_error unknown : E) triangulate clipper g clipbox :=
  makevalid (E := E) (fun less => isort less) (fun less => isort less) (fun less => isort less) sort_dim numbers_any hsort_rings default_compare triangulate ctx stop halt walk extent_error unknown clipper g clipbox.
Definition live (n : nat) : option unit := None.
Lemma zcentred t : let '(a, b, c) := t in forallb (fun p => (Z.abs (fst p) <=? 512) && (Z.abs (snd p) <=? 512)) [a; b; c] = true ->
  (fst a + fst b + fst c) mod 3 = 0 -> (snd a + snd b + snd c) mod 3 = 0 -> centred (zt t).
Proof.
  destruct t as [[a b] c]. intros H X Y. rewrite forallb_forall in H.
  assert (S : forall p, In p [a; b; c] -> small_pt (zpt p) /\ rpt (zpt p) = rz p).
  { intros p Hp. apply H, andb_true_iff in Hp as [A B]. apply Z.leb_le in A, B. split; [now apply P_Ring3.zpt_small|apply zpt_rz; unfold two53; lia]. }
  split.
  - cbn [zt]. intros p [<-|[<-|[<-|[]]]]; apply S; [now left|right; now left|right; right; now left].
  - exists ((fst a + fst b + fst c) / 3), ((snd a + snd b + snd c) / 3). cbn [zt centroid]. rewrite (proj2 (S a (or_introl eq_refl))), (proj2 (S b (or_intror (or_introl eq_refl)))), (proj2 (S c (or_intror (or_intror (or_introl eq_refl))))).
    unfold rz. cbn [fst snd]. rewrite <- !plus_IZR. pose proof (Z.div_mod (fst a + fst b + fst c) 3 ltac:(lia)) as D1. pose proof (Z.div_mod (snd a + snd b + snd c) 3 ltac:(lia)) as D2. rewrite X in D1. rewrite Y in D2.
    f_equal; [rewrite D1 at 1|rewrite D2 at 1]; rewrite plus_IZR, mult_IZR; lra.
Qed.
Lemma frame_ok : small_mp frame /\ (exists segs, cut_up None frame = Ok segs /\ segs <> []) /\ Forall centred ten /\ coherent ten /\
  run live (fun _ => false) live (fun _ => false) tt tt (fun _ => Ok ten) None (GMultiPolygon frame) None =
    Ok (Pointer (Some (Some [[map zpt [(0, 18); (18, 18); (18, 0); (0, 0)]; map zpt [(12, 6); (12, 12); (6, 12); (6, 6)]]])), true).
Proof.
  split; [apply (zmp_small [[[(0, 0); (18, 0); (18, 18); (0, 18)]; [(6, 6); (6, 12); (12, 12); (12, 6)]]]); reflexivity|].
  split; [eexists; split; [vm_compute; reflexivity|discriminate]|]. split.
  - unfold ten. cbn [map]. repeat (constructor; [apply (zcentred (_, _, _)); reflexivity|]). constructor.
  - split; [apply zcoherent_ok; vm_compute; reflexivity|]. vm_compute. reflexivity.
Qed.

(** ** What Makevalid returns *)
(** The context is cancelled: no error, and a pointer which is nil. *)
Lemma cancelled : forall E (cause extent_error unknown : E) triangulate clipper,
  run (fun _ => Some cause) (fun _ => true) (fun _ => Some cause) (fun _ => true) extent_error unknown triangulate clipper (GMultiPolygon frame) None = Ok (Pointer None, true).
Proof. intros. vm_compute. reflexivity. Qed.
(** Nothing is left: a pointer which is nil. *)
Lemma nothing : forall E (extent_error unknown : E) triangulate clipper,
  run (fun _ => None) (fun _ => false) (fun _ => None) (fun _ => false) extent_error unknown triangulate clipper (GMultiPolygon []) None = Ok (Pointer None, true).
Proof. intros. vm_compute. reflexivity. Qed.
