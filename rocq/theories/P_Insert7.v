(** * Proofs about InsertSite: from the opened face to the new triangulation *)
From Coq Require Import Bool List Arith ZArith Lia.
From Verif Require Import Base_F64 Base_F64Arith Base_Res Base_Geom M_Cmp M_Triangle M_Walker M_Winding M_Quadedge S_Quadedge P_F64Flocq P_F64Round P_F64Grid P_Circle P_MvtPrepare3 P_Quadedge P_Quadedge2 P_Quadedge3 P_Quadedge4 P_QuadedgeTop M_Subdivision S_Subdivision
  P_Subdivision P_Subdivision2 P_Subdivision3 P_Subdivision5 S_Winding S_MvtPrepare M_ResolveEdge S_ResolveEdge P_ResolveEdge P_ResolveEdge2 P_ResolveEdge3 P_ResolveEdge5
  M_Insert P_Insert P_Insert2 P_Insert3 P_Insert4 P_Insert5 P_Insert6.
Import ListNotations.
Local Open Scope nat_scope.

Definition good (p : pt) : Prop := exists z, moderate z /\ p = fpt z.

Lemma circle_moderate a b c : moderate a -> moderate b -> moderate c -> circle_from_points 2 (fpt a) (fpt b) (fpt c) <> None.
Proof.
  intros A B C.
  assert (Df : forall p q, moderate p -> moderate q -> f64_finite (f64_sub (snd (fpt p)) (snd (fpt q))) = true).
  { intros p q [_ P] [_ Q]. unfold fpt. cbn [snd]. assert (R : repr 0 (snd p - snd q) (f64_sub (f64_ofZ (snd p)) (f64_ofZ (snd q)))).
    { apply repr_sub; [lia|unfold two53; lia|apply repr_ofZ; unfold two53; lia|apply repr_ofZ; unfold two53; lia]. }
    apply R. }
  assert (F : forall p, moderate p -> S_Triangle.finite_pt (fpt p)).
  { intros p [P Q]. assert (R : forall n, (Z.abs n <= 2 ^ 20)%Z -> repr 0 n (f64_ofZ n)) by (intros n N; apply repr_ofZ; unfold two53; lia).
    pose proof (R _ P) as R1. pose proof (R _ Q) as R2. destruct R1 as (W1 & F1 & _), R2 as (W2 & F2 & _). repeat split; assumption. }
  destruct (circle_terminates (fpt a) (fpt b) (fpt c) (F a A) (F b B) (F c C) (Df b a B A) (Df c b C B)) as (r & H). rewrite (H 2) by lia. discriminate.
Qed.

Lemma good_eq p : good p -> point_equal hi_cmp p p = true.
Proof. intros (z & Mz & ->). rewrite (same_int z z Mz Mz). unfold same_zpt. rewrite !Z.eqb_refl. reflexivity. Qed.

Lemma suspect_ok ypd x D m e : mesh m D -> labels D good m -> D e ->
  suspect ypd x m e <> Err tt /\ (suspect ypd x m e = Ok true -> dest m (lnext m (sym e)) <> dest m (lnext m e)).
Proof.
  intros M L De. pose proof (me_sym m D M e De) as Ds.
  pose proof (me_lnext m D M e De) as Du. pose proof (me_lnext m D M _ Ds) as Dy.
  unfold suspect. rewrite !oprev_lnext by (apply (me_ex m D M); assumption). rewrite (me_ss m D M e De).
  destruct (L e De) as (o & -> & (zo & Mo & ->)). destruct (L _ Ds) as (d & Hd & (zd & Md & ->)). change (orig m (sym e)) with (dest m e) in Hd. rewrite Hd.
  destruct (L _ (me_sym m D M _ Dy)) as (t & Ht & Gt). change (orig m (sym (lnext m (sym e)))) with (dest m (lnext m (sym e))) in Ht. rewrite Ht.
  destruct (L _ (me_sym m D M _ Du)) as (s & Hs & Gs). change (orig m (sym (lnext m e))) with (dest m (lnext m e)) in Hs. rewrite Hs.
  assert (Gt' := Gt). destruct Gt' as (zt & Mt & Et).
  assert (Cc : exists b, (if some_colinear ypd x (fpt zo) (fpt zd) t then Ok false else
     match circle_from_points 2 (fpt zo) t (fpt zd) with None => Err tt | Some (Ok c) => Ok (circle_contains c x) | Some _ => Ok false end) = (Ok b : res unit bool)).
  { destruct (some_colinear ypd x (fpt zo) (fpt zd) t); [eexists; reflexivity|]. pose proof (circle_moderate zo zt zd Mo Mt Md) as N. rewrite <- Et in N.
    destruct (circle_from_points 2 (fpt zo) t (fpt zd)) as [[c|er|]|]; [eexists; reflexivity..|contradiction]. }
  destruct Cc as (b & ->). cbn [bind].
  destruct (right_of ypd m t e && b); [|split; discriminate].
  destruct (point_equal hi_cmp t s) eqn:Q; [split; discriminate|]. split; [discriminate|]. intros _ [= ->]. rewrite (good_eq s Gs) in Q. discriminate.
Qed.

(** The face of [e] has the corners [v0], the origin of [e], and [ds]. *)
Lemma insert_at_ok ypd x m D e E f v0 ds : moderate x -> mesh m D -> labels D good m -> (forall a, D a -> orig m a <> Some (fpt x)) ->
  cycle (lnext m) (e :: E ++ [f]) -> D e -> (forall a, D a -> ~ In a (e :: E ++ [f]) -> tri3 m a) ->
  Forall2 (fun a d => dest m a = Some (fpt d)) (e :: E) ds -> orig m e = Some (fpt v0) -> moderate v0 -> v0 <> x ->
  turns ypd x v0 v0 [v0] ds -> length ds <= 4 ->
  insert_at ypd m e (fpt x) <> Err tt
  /\ forall m', insert_at ypd m e (fpt x) = Ok m' -> exists D', mesh m' D' /\ (forall a, D' a -> tri3 m' a) /\ labels D' good m'
      /\ (forall a, D a -> D' a) /\ D' (count m, 0)
      /\ forall p, (exists a, D' a /\ orig m' a = Some p) <-> (exists a, D a /\ orig m a = Some p) \/ p = fpt x.
Proof.
  intros Mx M Lb Nx F De Tr En Oe Mv Nv Tu Len.
  set (first := (count m, 0)). set (m1 := spike m e (fpt x)). set (D1 := fun a => D a \/ a = first \/ a = sym first).
  destruct (spike_effect m D e (fpt x) M De Nx) as (M1 & C1 & Oo & O1 & O2 & L1 & L2 & L3 & L4 & R1).
  fold first in M1, O1, O2, L1, L2, L3, R1. fold m1 in M1, C1, Oo, O1, O2, L1, L2, L3, L4, R1. fold D1 in M1.
  pose proof (history_wf m (me_hist m D M)) as W.
  assert (Fd : forall a, In a (e :: E ++ [f]) -> D a).
  { intros a I. destruct (cycle_cut (lnext m) _ _ F I) as (l1 & l2 & Q & _). 
    assert (K : forall l b, chain (lnext m) e (b :: l) -> D b -> forall c, In c (b :: l) -> D c).
    { clear - M. induction l as [|c l IH]; intros b Ch Db d [<-|I]; [exact Db|destruct I|exact Db|]. destruct Ch as [Q Ch]. apply (IH c Ch); [rewrite <- Q; apply (me_lnext m D M), Db|exact I]. }
    destruct F as [_ Ch]. exact (K _ e Ch De a I). }
  assert (Df : D f) by (apply Fd; right; apply in_or_app; right; left; reflexivity).
  assert (Lf : lnext m f = e).
  { destruct F as [_ Ch]. change (e :: E ++ [f]) with ((e :: E) ++ f :: []) in Ch. apply chain_app in Ch. apply Ch. }
  assert (Pf : lprev m e = f) by (apply lprev_of; [exact W|apply (me_ex m D M f Df)|exact Lf]). rewrite Pf in *.
  assert (Fresh : forall a, D a -> a <> first /\ a <> sym first).
  { intros a Da. pose proof (fresh_not m D a M Da) as Fr. split; intros ->; apply Fr; reflexivity. }
  assert (Nd : NoDup (e :: E ++ [f])) by apply F.
  assert (Old : forall a, In a (e :: E) -> lnext m1 a = lnext m a).
  { intros a I. apply L4; [apply Fd; destruct I as [<-|I]; [left; reflexivity|right; apply in_or_app; left; exact I]|]. intros ->.
    change (e :: E ++ [f]) with ((e :: E) ++ [f]) in Nd. apply NoDup_remove_2 in Nd. apply Nd. rewrite app_nil_r. exact I. }
  assert (Po : polygon ypd x m1 D1 (e :: E) f first (sym first) [] (fun _ => v0) ds).
  { assert (Spl : (e :: E) ++ [f; first; sym first] = (e :: E ++ [f]) ++ [first; sym first]) by (cbn [app]; rewrite <- app_assoc; reflexivity).
    constructor.
    - exact M1.
    - intros a I. rewrite Spl in I. apply in_app_or in I. destruct I as [I|[<-|[<-|[]]]]; [left; apply Fd, I|right; left; reflexivity|right; right; reflexivity].
    - split.
      + rewrite Spl. apply nodup_app; [exact Nd|constructor; [intros [Q|[]]; exact (sym_neq first Q)|constructor; [intros []|constructor]]|].
        intros a I [<-|[<-|[]]]; apply Fd, Fresh in I; destruct I; congruence.
      + change ((e :: E) ++ [f; first; sym first]) with ((e :: E) ++ f :: [first; sym first]). apply chain_app. split.
        * destruct F as [_ Ch]. change (e :: E ++ [f]) with ((e :: E) ++ f :: []) in Ch. apply chain_app in Ch. destruct Ch as [Ch _].
          apply (chain_ext (lnext m)); [|exact Ch]. intros a I. symmetry. apply Old, I.
        * cbn [chain]. auto.
    - intros a [Da|[-> | ->]] N; [|exfalso; apply N; rewrite Spl; apply in_or_app; right; cbn; auto..].
      assert (Na : ~ In a (e :: E ++ [f])) by (intros I; apply N; rewrite Spl; apply in_or_app; left; exact I).
      pose proof (Tr a Da Na) as T3. pose proof (tri_face m D a M Da T3) as Fa.
      assert (Out : forall c, In c [a; lnext m a; lnext m (lnext m a)] -> D c -> lnext m1 c = lnext m c).
      { intros c I Dc. apply L4; [exact Dc|]. intros ->. apply Na.
        apply (cycle_meet (lnext m) _ _ f F Fa); [right; apply in_or_app; right; left; reflexivity|exact I|left; reflexivity]. }
      pose proof (me_lnext m D M a Da) as Da1. pose proof (me_lnext m D M _ Da1) as Da2. unfold tri3.
      rewrite (Out a), (Out (lnext m a)), (Out (lnext m (lnext m a))); [exact T3|cbn; auto|auto..|cbn; auto|auto|cbn; auto|auto].
    - assert (Ho : forall b, In b (e :: E) -> dest m1 b = dest m b).
      { intros b I. apply Oo, (me_sym m D M), Fd. destruct I as [<-|I]; [left; reflexivity|right; apply in_or_app; left; exact I]. }
      clear - En Ho. induction En as [|b c E' ds Hb _ IH]; constructor; [rewrite Ho by (left; reflexivity); exact Hb|]. apply IH. intros b' I. apply Ho. right. exact I.
    - exact R1.
    - reflexivity.
    - exact O2.
    - intros g [<-|[]]. split; [|auto]. change (dest m1 (sym first)) with (orig m1 (sym (sym first))). change (sym (sym first)) with first. rewrite O1. exact Oe.
    - intros g h [<-|[]] [<-|[]] _. reflexivity.
    - exact Tu. }
  inversion En as [|e0 d E0 ds' De0 En']; subst e0 E0 ds.
  destruct (star_step ypd x Mx m1 D1 e E f first (sym first) [] (fun _ => v0) d ds' Po) as (m2 & n & D2 & at2 & C & Cm & Po2 & Sn & On & Sub & Oo2 & Lab).
  assert (Cp : 1 <= count m2) by lia.
  destruct (star_ok ypd x Mx (4 * count m2) m2 D2 E f first (sym n) ([] ++ [sym first]) at2 ds' n Po2 eq_refl ltac:(cbn in Len; lia)) as (m3 & D3 & Q3 & Fi & C3).
  assert (Ins : insert_at ypd m e (fpt x) = swap_loop (4 * count m3 + 1) (suspect ypd (fpt x)) m3 first f).
  { unfold insert_at, new_edge. change (new m) with (fst (new m), first). cbn iota beta zeta. 
    change (splice (end_points (fst (new m)) first (orig m e) (Some (fpt x))) first e) with m1. rewrite C. cbn [bind]. rewrite On, Q3. cbn [bind]. reflexivity. }
  destruct Fi as [G1 G2 G3 G4 G5 G6 G7 G8 (s & L & G9 & G10 & G11 & G12)].
  assert (Vx : forall p, (exists a, D1 a /\ orig m1 a = Some p) <-> (exists a, D a /\ orig m a = Some p) \/ p = fpt x).
  { intros p. split.
    - intros (a & [Da|[-> | ->]] & Oa).
      + left. exists a. split; [exact Da|]. rewrite <- Oa. symmetry. apply Oo, Da.
      + left. exists e. split; [exact De|]. congruence.
      + right. change (orig m1 (sym first)) with (dest m1 first) in Oa. congruence.
    - intros [(a & Da & Oa) | ->].
      + exists a. split; [left; exact Da|]. rewrite Oo by exact Da. exact Oa.
      + exists (sym first). split; [right; right; reflexivity|]. exact O2. }
  assert (V3 : forall p, (exists a, D3 a /\ orig m3 a = Some p) <-> (exists a, D a /\ orig m a = Some p) \/ p = fpt x) by (intros p; rewrite G5, Lab; apply Vx).
  assert (Lb3 : labels D3 good m3).
  { intros a Da. destruct (orig m3 a) as [p|] eqn:Q; [|exfalso; exact (me_lab m3 D3 G1 a Da Q)]. exists p. split; [reflexivity|].
    destruct (proj1 (V3 p) (ex_intro _ a (conj Da Q))) as [(b & Db & Ob)| ->]; [|exists x; auto]. destruct (Lb b Db) as (p' & Q' & Gp). congruence. }
  assert (Fa : facing D3 good (fpt x) first m3 (L : list edge) [] f).
  { constructor; try assumption.
    - rewrite G8, G9. apply (cycle_rotate (onext m3) [s] L). exact G10.
    - rewrite G8, G9. rewrite <- G12. destruct L; reflexivity.
    - rewrite G8, G9. exact G11. }
  pose proof (ring_bound m3 D3 _ s G1 G10 (or_introl eq_refl) ltac:(rewrite <- G9; apply (me_lnext m3 D3 G1), G7)) as Rb.
  destruct (swap_loop_ok D3 good (suspect ypd (fpt x)) (fpt x) first (fun m e => suspect_ok ypd (fpt x) D3 m e) (4 * count m3 + 1) m3 L [] f Fa) as [S1 S2].
  { rewrite app_length. cbn [length] in *. lia. }
  rewrite Ins. split; [exact S1|]. intros m' Q. destruct (S2 m' Q) as (T1 & T2 & T3 & T4 & T5).
  exists D3. split; [exact T1|]. split; [exact T2|]. split; [exact T3|]. split; [intros a Da; apply G3, Sub; left; exact Da|].
  split; [exact G7|]. intros p. rewrite T5. apply V3.
Qed.
