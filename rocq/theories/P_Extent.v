(** Proofs about extents. *)
From Coq Require Import ZArith Bool List Lia Reals Lra.
From Coq Require Import ZifyBool ZifyNat.
From Verif Require Import Base_F64 Base_F64Arith Base_Geom P_List M_Geom S_Geom P_Geom P_F64 P_F64Flocq M_Extent S_Extent.
Import ListNotations.
Open Scope Z_scope.

(** ** One axis *)
Lemma num_nn w : num w -> nn w. Proof. now intros [_ H]. Qed.
Global Hint Resolve num_nn : core.

Ltac keys :=
  repeat match goal with
  | H : num ?w |- _ => lazymatch goal with K : nn w |- _ => fail | _ => pose proof (num_nn w H) end
  end;
  rewrite ?le_key, ?lt_key, ?eq_key in * by auto.

(** Folding one axis of NewExtent. *)
Definition wide (lo_hi : f64 * f64) (x : f64) : f64 * f64 :=
  let (lo, hi) := lo_hi in
  if f64_lt x lo then (x, hi) else if f64_gt x hi then (lo, x) else (lo, hi).

Lemma widen1_axes e p :
  widen1 e p =
  let (a, b) := wide (e0 e, e2 e) (fst p) in
  let (c, d) := wide (e1 e, e3 e) (snd p) in
  Ext a c b d.
Proof.
  unfold widen1, wide. destruct e as [a b c d]. cbn [e0 e1 e2 e3].
  destruct (f64_lt (fst p) a), (f64_gt (fst p) c); cbn [e0 e1 e2 e3];
  destruct (f64_lt (snd p) b), (f64_gt (snd p) d); reflexivity.
Qed.

Lemma fold_widen l : forall e,
  fold_left widen1 l e =
  let (a, b) := fold_left wide (map fst l) (e0 e, e2 e) in
  let (c, d) := fold_left wide (map snd l) (e1 e, e3 e) in
  Ext a c b d.
Proof.
  induction l as [|p l IH]; intros e; [now destruct e|].
  cbn [fold_left map]. rewrite IH, widen1_axes.
  destruct (wide (e0 e, e2 e) (fst p)), (wide (e1 e, e3 e) (snd p)). reflexivity.
Qed.

(** [lo] and [hi] bound [l], are members of it, and lo <= hi. *)
Definition spans (l : list f64) (lo hi : f64) : Prop :=
  In lo l /\ In hi l /\ forall x, In x l -> f64_le lo x = true /\ f64_le x hi = true.

Lemma fold_wide_spans l : forall done lo hi,
  Forall num l -> Forall num done -> spans done lo hi ->
  let (lo', hi') := fold_left wide l (lo, hi) in spans (done ++ l) lo' hi'.
Proof.
  induction l as [|x l IH]; intros done lo hi Hl Hd Hs.
  - cbn. now rewrite app_nil_r.
  - inv Hl. replace (done ++ x :: l) with ((done ++ [x]) ++ l) by (now rewrite <- app_assoc).
    cbn [fold_left].
    assert (spans (done ++ [x]) (fst (wide (lo, hi) x)) (snd (wide (lo, hi) x))) as Hs'.
    { destruct Hs as (L & Hh & B). unfold wide, f64_gt.
      pose proof (proj1 (Forall_forall _ _) Hd _ L) as NL.
      pose proof (proj1 (Forall_forall _ _) Hd _ Hh) as NH.
      destruct (f64_lt x lo) eqn:E1; [|destruct (f64_lt hi x) eqn:E2]; cbn [fst snd].
      - split; [apply in_or_app; right; now left|]. split; [apply in_or_app; now left|].
        intros y Hy. apply in_app_iff in Hy as [Hy|[<-|[]]].
        + destruct (B _ Hy). split; [|auto]. eapply f64_le_trans; [|eassumption].
          now apply f64_lt_le.
        + split; [apply f64_le_refl; auto|]. apply f64_le_trans with lo; [now apply f64_lt_le | apply B, Hh || now apply B].
      - split; [apply in_or_app; now left|]. split; [apply in_or_app; right; now left|].
        intros y Hy. apply in_app_iff in Hy as [Hy|[<-|[]]].
        + destruct (B _ Hy). split; [auto|]. eapply f64_le_trans; [eassumption|].
          now apply f64_lt_le.
        + split; [apply f64_not_lt_le; auto | apply f64_le_refl; auto].
      - split; [apply in_or_app; now left|]. split; [apply in_or_app; now left|].
        intros y Hy. apply in_app_iff in Hy as [Hy|[<-|[]]]; [auto|].
        split; apply f64_not_lt_le; auto. }
    destruct (wide (lo, hi) x) as [lo1 hi1]. apply IH; auto.
    apply Forall_app; auto.
Qed.

Lemma spans_single x : num x -> spans [x] x x.
Proof.
  intros H. split; [now left|]. split; [now left|]. intros y [<-|[]].
  split; apply f64_le_refl; auto.
Qed.

Lemma Forall_map' {A B} (f : A -> B) (P : B -> Prop) l :
  Forall (fun x => P (f x)) l -> Forall P (map f l).
Proof. intros H. induction H; constructor; auto. Qed.

Lemma new_extent_spans ps : Forall num_pt ps -> ps <> [] ->
  exists e, new_extent ps = Some e /\
    spans (map fst ps) (e0 e) (e2 e) /\ spans (map snd ps) (e1 e) (e3 e).
Proof.
  intros H N. destruct ps as [|p tl]; [congruence|]. inv H. cbn [new_extent].
  eexists. split; [reflexivity|]. rewrite fold_widen. cbn [e0 e1 e2 e3].
  pose proof (fold_wide_spans (map fst tl) [fst p] (fst p) (fst p)) as HX.
  pose proof (fold_wide_spans (map snd tl) [snd p] (snd p) (snd p)) as HY.
  destruct H2 as [Nx Ny].
  destruct (fold_left wide (map fst tl) (fst p, fst p)) as [a b].
  destruct (fold_left wide (map snd tl) (snd p, snd p)) as [c d].
  cbn [e0 e1 e2 e3 map app] in *. split.
  - apply HX; [|auto|now apply spans_single]. apply Forall_map'. eapply Forall_impl; [|exact H3]. now intros q [? ?].
  - apply HY; [|auto|now apply spans_single]. apply Forall_map'. eapply Forall_impl; [|exact H3]. now intros q [? ?].
Qed.

Lemma spans_inside ps e :
  spans (map fst ps) (e0 e) (e2 e) -> spans (map snd ps) (e1 e) (e3 e) ->
  forall p, In p ps -> inside e p.
Proof.
  intros (_ & _ & BX) (_ & _ & BY) p Hp.
  destruct (BX (fst p) (in_map fst _ _ Hp)), (BY (snd p) (in_map snd _ _ Hp)).
  repeat split; auto.
Qed.

Theorem new_extent_nil ps : new_extent ps = None <-> ps = [].
Proof. destruct ps; cbn; split; congruence. Qed.

Theorem new_extent_least ps : Forall num_pt ps -> ps <> [] ->
  exists e, new_extent ps = Some e /\
    (forall p, In p ps -> inside e p) /\
    (exists p1 p2 p3 p4, In p1 ps /\ In p2 ps /\ In p3 ps /\ In p4 ps /\
       e = Ext (fst p1) (snd p2) (fst p3) (snd p4)) /\
    (forall e', (forall p, In p ps -> inside e' p) -> box_within e e').
Proof.
  intros H N. destruct (new_extent_spans ps H N) as (e & E & SX & SY).
  exists e. split; [exact E|]. split; [eapply spans_inside; eassumption|].
  destruct SX as (I0 & I2 & _), SY as (I1 & I3 & _).
  apply in_map_iff in I0 as (p0 & Q0 & I0), I1 as (p1 & Q1 & I1), I2 as (p2 & Q2 & I2), I3 as (p3 & Q3 & I3).
  split.
  - exists p0, p1, p2, p3. repeat split; auto. destruct e; cbn in *; congruence.
  - intros e' H'. unfold box_within. rewrite <- Q0, <- Q1, <- Q2, <- Q3.
    repeat split; apply H'; assumption.
Qed.

(** ** Growing *)
Definition join (a b : extent) : extent :=
  Ext (f64_min (e0 a) (e0 b)) (f64_min (e1 a) (e1 b)) (f64_maxf (e2 a) (e2 b)) (f64_maxf (e3 a) (e3 b)).

Lemma ext_eq a b : e0 a = e0 b -> e1 a = e1 b -> e2 a = e2 b -> e3 a = e3 b -> a = b.
Proof. destruct a, b; cbn; congruence. Qed.

Lemma join_num a b : num_box a -> num_box b -> num_box (join a b).
Proof.
  intros (?&?&?&?) (?&?&?&?). repeat split; cbn; try apply min_num; try apply max_num; auto.
Qed.
Lemma join_comm a b : num_box a -> num_box b -> join a b = join b a.
Proof.
  intros (?&?&?&?) (?&?&?&?). apply ext_eq; cbn; auto using min_comm, max_comm.
Qed.
Lemma join_assoc a b c : num_box a -> num_box b -> num_box c ->
  join a (join b c) = join (join a b) c.
Proof.
  intros (?&?&?&?) (?&?&?&?) (?&?&?&?). apply ext_eq; cbn; auto using min_assoc, max_assoc.
Qed.
Lemma join_idem a : num_box a -> join a a = a.
Proof. intros (?&?&?&?). apply ext_eq; cbn; auto using min_idem, max_idem. Qed.

Lemma add_point1_join e p : num_box e -> num_pt p -> add_point1 e p = join e (pt_box p).
Proof.
  intros (?&?&?&?) (?&?). apply ext_eq; cbn; auto using min_comm, max_comm.
Qed.

Lemma pt_box_num p : num_pt p -> num_box (pt_box p).
Proof. intros [? ?]. repeat split; cbn; auto; apply H || apply H0. Qed.
Lemma num_box_pt p : num_box (pt_box p) -> num_pt p.
Proof. intros (?&?&_). split; assumption. Qed.

Lemma fold_add_points l : forall e, num_box e -> Forall num_box (map pt_box l) ->
  fold_left add_point1 l e = fold_left join (map pt_box l) e.
Proof.
  induction l as [|p l IH]; intros e He H; [reflexivity|]. inv H.
  cbn [fold_left map]. rewrite add_point1_join by auto using num_box_pt.
  apply IH; auto using join_num.
Qed.

Lemma fold_join_num l : forall e, num_box e -> Forall num_box l -> num_box (fold_left join l e).
Proof.
  induction l as [|b l IH]; intros e He H; [exact He|]. inv H. cbn. apply IH; auto using join_num.
Qed.

Lemma fold_left_concat {A B} (f : A -> B -> A) l : forall a,
  fold_left (fun a x => fold_left f x a) l a = fold_left f (concat l) a.
Proof. induction l as [|x l IH]; intros a; [reflexivity|]. cbn. now rewrite IH, fold_left_app. Qed.

Lemma fold_add_points_opt ls : forall e,
  fold_left add_points ls (Some e) = Some (fold_left add_point1 (concat ls) e).
Proof.
  induction ls as [|l ls IH]; intros e; [reflexivity|]. cbn [fold_left add_points concat].
  now rewrite IH, fold_left_app.
Qed.
Lemma fold_add_points_none ls : fold_left add_points ls None = None.
Proof. induction ls; auto. Qed.
Lemma fold_add_polys_opt pls : forall e,
  fold_left (fun e rs => fold_left add_points rs e) pls (Some e) =
  Some (fold_left add_point1 (concat (concat pls)) e).
Proof.
  induction pls as [|l ls IH]; intros e; [reflexivity|]. cbn [fold_left concat].
  now rewrite fold_add_points_opt, IH, concat_app, fold_left_app.
Qed.
Lemma fold_add_polys_none pls :
  fold_left (fun e rs => fold_left add_points rs e) pls None = None.
Proof. induction pls as [|l ls IH]; [reflexivity|]. cbn. now rewrite fold_add_points_none. Qed.

Definition ge_members :=
  fix members (l : list (geom f64)) (e : option extent) : option extent * bool :=
    match l with
    | [] => (e, false)
    | x :: xs =>
        let (e', bad) := get_extent x e in
        if bad then (e', true) else members xs e'
    end.

Theorem get_extent_ok g : unknown_inside g = false -> forall e,
  get_extent g e = (match e with None => None | Some e => Some (fold_left add_point1 (coords g) e) end, false).
Proof.
  induction g as [p|ps|ps|ls|rs|pls|gs IH|] using geom_ind'; cbn [unknown_inside coords];
    intros H e; try discriminate.
  1-3: destruct e; reflexivity.
  - cbn. destruct e; [now rewrite fold_add_points_opt | now rewrite fold_add_points_none].
  - cbn. destruct e; [now rewrite fold_add_points_opt | now rewrite fold_add_points_none].
  - cbn. destruct e; [now rewrite fold_add_polys_opt | now rewrite fold_add_polys_none].
  - change (get_extent (GCollection gs) e) with (ge_members gs e).
    revert e. induction IH as [|x xs Hx Hxs IH']; intros e; [now destruct e|].
    cbn [existsb] in H. apply orb_false_iff in H as [H1 H2].
    cbn [ge_members flat_map]. fold ge_members. rewrite (Hx H1), (IH' H2).
    destruct e; [now rewrite fold_left_app | reflexivity].
Qed.

Theorem get_extent_err g : forall e, snd (get_extent g e) = unknown_inside g.
Proof.
  induction g as [p|ps|ps|ls|rs|pls|gs IH|] using geom_ind'; intros e; try reflexivity.
  change (get_extent (GCollection gs) e) with (ge_members gs e). cbn [unknown_inside].
  revert e. induction IH as [|x xs Hx Hxs IH']; intros e; [reflexivity|].
  cbn [ge_members existsb]. fold ge_members. specialize (Hx e).
  destruct (get_extent x e) as [a b]; cbn [snd] in Hx. rewrite <- Hx.
  destruct b; [reflexivity|]. apply IH'.
Qed.

Lemma add_pointers_fold ps : forall e,
  add_pointers (Some e) ps = Some (fold_left add_point1 ps e).
Proof.
  unfold add_pointers. induction ps as [|p ps IH]; intros e; [reflexivity|].
  cbn [fold_left add_points]. apply IH.
Qed.

Lemma op_run_join o e : num_box e -> op_valid o ->
  op_run (Some e) o = Some (fold_left join (op_contents o) e).
Proof.
  intros He [Hg Ho]. destruct o as [n|ps|ps|g]; cbn [op_run op_contents] in *.
  - reflexivity.
  - cbn [add_points]. now rewrite fold_add_points.
  - rewrite add_pointers_fold. now rewrite fold_add_points.
  - unfold add_geometry. rewrite get_extent_ok by exact Hg. cbn [fst].
    now rewrite fold_add_points.
Qed.

Lemma op_run_none o : op_run None o = None.
Proof.
  destruct o as [n|ps|ps|g]; cbn; auto.
  - unfold add_pointers. induction ps; auto.
  - unfold add_geometry. induction g as [p|ps|ps|ls|rs|pls|gs IH|] using geom_ind'; auto.
    + cbn. apply fold_add_points_none.
    + cbn. apply fold_add_points_none.
    + cbn. apply fold_add_polys_none.
    + change (get_extent (GCollection gs) None) with (ge_members gs None).
      induction IH as [|x xs Hx Hxs IH']; [reflexivity|]. cbn [ge_members]. fold ge_members.
      destruct (get_extent x None) as [a []]; cbn [fst] in *; subst; auto.
Qed.

Definition all_contents (h : list grow_op) := flat_map op_contents h.

Lemma run_join h : forall e, num_box e -> Forall op_valid h ->
  fold_left op_run h (Some e) = Some (fold_left join (all_contents h) e).
Proof.
  induction h as [|o h IH]; intros e He H; [reflexivity|]. inv H.
  unfold all_contents. cbn [fold_left flat_map]. rewrite op_run_join by auto.
  rewrite IH; auto.
  - now rewrite fold_left_app.
  - apply fold_join_num; auto. now destruct H2.
Qed.

Lemma contents_num h : Forall op_valid h -> Forall num_box (all_contents h).
Proof.
  intros H. induction H as [|o h Ho Hh IH]; [constructor|]. unfold all_contents. cbn.
  apply Forall_app. split; [now destruct Ho | exact IH].
Qed.

(** Least upper bound *)
Lemma within_refl e : num_box e -> box_within e e.
Proof. intros (?&?&?&?). repeat split; apply f64_le_refl; auto. Qed.
Lemma within_trans a b c : box_within a b -> box_within b c -> box_within a c.
Proof.
  intros (?&?&?&?) (?&?&?&?). repeat split; eapply f64_le_trans; eassumption.
Qed.
Lemma join_l a b : num_box a -> num_box b -> box_within a (join a b).
Proof. intros (?&?&?&?) (?&?&?&?). repeat split; cbn; auto using min_le_l, max_ge_l. Qed.
Lemma join_r a b : num_box a -> num_box b -> box_within b (join a b).
Proof. intros (?&?&?&?) (?&?&?&?). repeat split; cbn; auto using min_le_r, max_ge_r. Qed.
Lemma join_least a b c : num_box a -> num_box b -> box_within a c -> box_within b c -> box_within (join a b) c.
Proof.
  intros (A0&A1&A2&A3) (B0&B1&B2&B3) (?&?&?&?) (?&?&?&?). repeat split; cbn.
  - destruct (min_case _ _ A0 B0) as [-> | ->]; auto.
  - destruct (max_case _ _ A2 B2) as [-> | ->]; auto.
  - destruct (min_case _ _ A1 B1) as [-> | ->]; auto.
  - destruct (max_case _ _ A3 B3) as [-> | ->]; auto.
Qed.

Lemma fold_join_ub l : forall e, num_box e -> Forall num_box l ->
  box_within e (fold_left join l e) /\ (forall b, In b l -> box_within b (fold_left join l e)).
Proof.
  induction l as [|b l IH]; intros e He H.
  - split; [now apply within_refl | intros b []].
  - inv H. cbn [fold_left]. destruct (IH (join e b)) as [U1 U2]; auto using join_num. split.
    + eapply within_trans; [|exact U1]. now apply join_l.
    + intros b' [<-|Hb]; [|auto]. eapply within_trans; [|exact U1]. now apply join_r.
Qed.
Lemma fold_join_least l c : forall e, num_box e -> Forall num_box l ->
  box_within e c -> (forall b, In b l -> box_within b c) -> box_within (fold_left join l e) c.
Proof.
  induction l as [|b l IH]; intros e He H HE HL; [exact HE|]. inv H. cbn [fold_left].
  apply IH; auto using join_num.
  - apply join_least; auto. apply HL. now left.
  - intros; apply HL; now right.
Qed.

Theorem grow_least h e : num_box e -> Forall op_valid h ->
  exists e', fold_left op_run h (Some e) = Some e' /\
    box_within e e' /\
    (forall b, In b (flat_map op_contents h) -> box_within b e') /\
    (forall c, box_within e c -> (forall b, In b (flat_map op_contents h) -> box_within b c) ->
       box_within e' c).
Proof.
  intros He Hh. eexists. split; [now apply run_join|].
  pose proof (contents_num h Hh) as N.
  destruct (fold_join_ub _ e He N) as [U1 U2]. repeat split; try apply U1; auto.
  - apply U2; assumption. - apply U2; assumption. - apply U2; assumption. - apply U2; assumption.
  - apply (fold_join_least (all_contents h) c e); auto.
  - apply (fold_join_least (all_contents h) c e); auto.
  - apply (fold_join_least (all_contents h) c e); auto.
  - apply (fold_join_least (all_contents h) c e); auto.
Qed.

Lemma fold_join_shift l : forall e b, num_box e -> num_box b -> Forall num_box l ->
  fold_left join l (join e b) = join (fold_left join l e) b.
Proof.
  induction l as [|x l IH]; intros e b He Hb H; [reflexivity|]. inv H. cbn [fold_left].
  rewrite <- IH by auto using join_num. f_equal.
  rewrite <- !join_assoc by auto. f_equal. now apply join_comm.
Qed.

(** Order independence: absorb *)
Lemma fold_join_in l : forall e b, num_box e -> num_box b -> Forall num_box l -> In b l ->
  join (fold_left join l e) b = fold_left join l e.
Proof.
  induction l as [|x l IH]; intros e b He Hb H Hin; [destruct Hin|]. inv H. cbn [fold_left].
  destruct Hin as [<-|Hin]; [|now apply IH; auto using join_num].
  rewrite <- fold_join_shift by auto using join_num. f_equal. rewrite <- join_assoc by auto. now rewrite join_idem.
Qed.

Lemma fold_join_absorb l : forall l' e,
  num_box e -> Forall num_box l -> Forall num_box l' -> (forall b, In b l -> In b l') ->
  join (fold_left join l' e) (fold_left join l e) = fold_left join l' e.
Proof.
  intros l' e He Hl Hl' Hin.
  assert (A : forall l e0, num_box e0 -> Forall num_box l -> (forall b, In b l -> In b l') ->
     join (fold_left join l' e) e0 = fold_left join l' e ->
     join (fold_left join l' e) (fold_left join l e0) = fold_left join l' e).
  { clear l Hl Hin. induction l as [|b l IH]; intros x Hx Hl Hin Hj; [exact Hj|]. inv Hl.
    cbn [fold_left]. apply IH; auto using join_num.
    - intros; apply Hin; now right.
    - rewrite join_assoc by auto using fold_join_num. rewrite Hj.
      apply fold_join_in; auto. apply Hin. now left. }
  apply A; auto.
  (* the starting extent is absorbed *)
  clear A Hl Hin l. revert e He. induction l' as [|b l IH]; intros e He; [now apply join_idem|].
  inv Hl'. cbn [fold_left]. 
  rewrite fold_join_shift by auto. rewrite <- join_assoc by auto using fold_join_num.
  rewrite (join_comm b e) by auto. rewrite join_assoc by auto using fold_join_num.
  now rewrite IH.
Qed.

Theorem grow_order h1 h2 e : num_box e -> Forall op_valid h1 -> Forall op_valid h2 ->
  (forall b, In b (flat_map op_contents h1) <-> In b (flat_map op_contents h2)) ->
  fold_left op_run h1 (Some e) = fold_left op_run h2 (Some e).
Proof.
  intros He H1 H2 E. rewrite !run_join by auto. f_equal.
  pose proof (contents_num _ H1) as N1. pose proof (contents_num _ H2) as N2.
  pose proof (fold_join_absorb (all_contents h1) (all_contents h2) e He N1 N2 (fun b => proj1 (E b))) as A1.
  pose proof (fold_join_absorb (all_contents h2) (all_contents h1) e He N2 N1 (fun b => proj2 (E b))) as A2.
  rewrite <- A1. rewrite join_comm by auto using fold_join_num. now rewrite A2.
Qed.

Theorem grow_nil h : fold_left op_run h None = None.
Proof. induction h as [|o h IH]; [reflexivity|]. cbn. now rewrite op_run_none. Qed.
