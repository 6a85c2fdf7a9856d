(** Containment, intersection, scaling of extents. *)
From Coq Require Import ZArith Bool List Lia Reals Lra.
From Coq Require Import ZifyBool ZifyNat.
From Verif Require Import Base_F64 Base_F64Arith Base_Geom P_List M_Geom S_Geom P_Geom P_F64 P_F64Flocq P_F64Round M_Extent S_Extent P_Extent.
Import ListNotations.
Open Scope Z_scope.

Lemma contains_within e n : contains (Some e) n = true <-> box_within n e.
Proof. unfold contains, box_within, f64_ge. rewrite !andb_true_iff. tauto. Qed.

Lemma contains_point_inside e p : contains_point e p = true <-> inside_opt e p.
Proof.
  destruct e as [e|]; cbn [contains_point inside_opt]; [|tauto].
  unfold inside. rewrite !andb_true_iff. tauto.
Qed.

Lemma within_inside n e p : box_within n e -> inside n p -> inside e p.
Proof.
  intros (?&?&?&?) (?&?&?&?). repeat split; eapply f64_le_trans; eassumption.
Qed.

Theorem contains_inclusion e n : nonempty n ->
  contains e n = true <-> (forall p, inside n p -> inside_opt e p).
Proof.
  intros [Hx Hy]. destruct e as [e|]; [|cbn; tauto]. rewrite contains_within. cbn [inside_opt]. split.
  - intros W p Hp. eapply within_inside; eassumption.
  - intros H.
    pose proof (le_inv _ _ Hx) as (N0 & N2 & _). pose proof (le_inv _ _ Hy) as (N1 & N3 & _).
    destruct (H (e0 n, e1 n)) as (A & _ & B & _).
    { repeat split; cbn [fst snd]; auto using f64_le_refl. }
    destruct (H (e2 n, e3 n)) as (_ & C & _ & D).
    { repeat split; cbn [fst snd]; auto using f64_le_refl. }
    repeat split; assumption.
Qed.

Theorem contains_refl e : num_box e -> contains (Some e) e = true.
Proof. intros H. apply contains_within. now apply within_refl. Qed.
Theorem contains_trans a b c : contains a b = true -> contains (Some b) c = true -> contains a c = true.
Proof.
  destruct a as [a|]; [|auto]. rewrite !contains_within. intros H1 H2. eapply within_trans; eassumption.
Qed.
Theorem contains_antisym a b : contains (Some a) b = true -> contains (Some b) a = true -> box_eq a b.
Proof.
  rewrite !contains_within. intros (?&?&?&?) (?&?&?&?). repeat split; apply f64_le_antisym; auto.
Qed.

Theorem contains_line_ends e l :
  contains_line e l = true <-> inside_opt e (fst l) /\ inside_opt e (snd l).
Proof.
  unfold contains_line. destruct e as [e|]; [|cbn; tauto].
  rewrite andb_true_iff, !contains_point_inside. tauto.
Qed.

(** ** Intersect *)
Lemma sel_max a b p : num a -> num b ->
  f64_le (if f64_lt a b then b else a) p = true <-> f64_le a p = true /\ f64_le b p = true.
Proof.
  intros Ha Hb. destruct (f64_lt a b) eqn:E.
  - split; [|tauto]. intros H. split; [|exact H]. eapply f64_le_trans; [apply f64_lt_le, E | exact H].
  - apply f64_not_lt_le in E; auto. split; [|tauto]. intros H. split; [exact H|].
    eapply f64_le_trans; eassumption.
Qed.
Lemma sel_min a b p : num a -> num b ->
  f64_le p (if f64_gt a b then b else a) = true <-> f64_le p a = true /\ f64_le p b = true.
Proof.
  intros Ha Hb. unfold f64_gt. destruct (f64_lt b a) eqn:E.
  - split; [|tauto]. intros H. split; [|exact H]. eapply f64_le_trans; [exact H | apply f64_lt_le, E].
  - apply f64_not_lt_le in E; auto. split; [|tauto]. intros H. split; [exact H|].
    eapply f64_le_trans; eassumption.
Qed.

Definition meet (a b : extent) : extent :=
  Ext (if f64_lt (e0 a) (e0 b) then e0 b else e0 a) (if f64_lt (e1 a) (e1 b) then e1 b else e1 a)
      (if f64_gt (e2 a) (e2 b) then e2 b else e2 a) (if f64_gt (e3 a) (e3 b) then e3 b else e3 a).

Lemma intersect_meet a b :
  intersect (Some a) (Some b) =
  if f64_ge (e0 (meet a b)) (e2 (meet a b)) || f64_ge (e1 (meet a b)) (e3 (meet a b))
  then (None, false) else (Some (meet a b), true).
Proof.
  unfold intersect. fold (f64_gt (e2 a) (e2 b)). unfold meet; cbn [e0 e1 e2 e3].
  destruct (f64_ge _ _); [reflexivity|]. cbn [orb]. destruct (f64_ge _ _); reflexivity.
Qed.

Lemma meet_inside a b p : num_box a -> num_box b ->
  inside (meet a b) p <-> inside a p /\ inside b p.
Proof.
  intros (?&?&?&?) (?&?&?&?). unfold inside, meet; cbn [e0 e1 e2 e3].
  rewrite !sel_max, !sel_min by assumption. tauto.
Qed.

Lemma meet_num a b : num_box a -> num_box b -> num_box (meet a b).
Proof.
  intros (?&?&?&?) (?&?&?&?). unfold meet. repeat split; cbn;
    match goal with |- context [if ?c then _ else _] => destruct c end;
    match goal with H : num ?x |- _ ?x = _ => apply H | H : num ?x |- nn ?x => apply H end.
Qed.


Theorem intersect_members a b r : box_opt a -> box_opt b -> intersect a b = (r, true) ->
  forall p, inside_opt r p <-> inside_opt a p /\ inside_opt b p.
Proof.
  intros Ha Hb H p. destruct a as [a|], b as [b|]; cbn [box_opt] in *.
  - rewrite intersect_meet in H. destruct (_ || _); [discriminate|]. inv H.
    cbn [inside_opt]. now apply meet_inside.
  - inv H. cbn; tauto.
  - inv H. cbn; tauto.
  - inv H. cbn; tauto.
Qed.

(** Interiors *)
Lemma finite_or_inf w : num w -> f64_finite w = true \/ w = f64_pinf \/ w = f64_ninf.
Proof.
  intros [Hw Hn]. unfold nn, f64_isnan, f64_finite in *.
  pose proof (wf_word w Hw) as E. destruct (f64_mag w <? f64_pinf) eqn:F; [now left|]. right.
  assert (f64_mag w = f64_pinf) as M by lia. rewrite M in E. rewrite E.
  destruct (f64_sign w); [right|left]; reflexivity.
Qed.

Lemma key_pinf : f64_key f64_pinf = f64_pinf. Proof. reflexivity. Qed.
Lemma key_ninf : f64_key f64_ninf = - f64_pinf. Proof. reflexivity. Qed.
Lemma finite_key w : f64_finite w = true -> - f64_pinf < f64_key w < f64_pinf.
Proof.
  unfold f64_finite, f64_key. intros H. pose proof (mag_bounds w).
  generalize dependent f64_pinf. intros pinf H. destruct (f64_sign w); lia.
Qed.
Lemma pinf_pos : 0 < f64_pinf. Proof. reflexivity. Qed.

(** Position of a number on the extended line. *)
Lemma above_key x w : num w -> above x w ->
  f64_key w < f64_pinf /\ (f64_finite w = true -> (f64_R w < x)%R).
Proof.
  intros Hw [->|[F H]].
  - split; [rewrite key_ninf; pose proof pinf_pos; lia|]. intros F. discriminate F.
  - split; [apply finite_key; exact F | auto].
Qed.
Lemma below_key x w : num w -> below x w ->
  - f64_pinf < f64_key w /\ (f64_finite w = true -> (x < f64_R w)%R).
Proof.
  intros Hw [->|[F H]].
  - split; [rewrite key_pinf; pose proof pinf_pos; lia|]. intros F. discriminate F.
  - split; [apply finite_key; exact F | auto].
Qed.

Lemma above_le a b x : num a -> num b -> f64_le a b = true -> above x b -> above x a.
Proof.
  intros Ha Hb E H. pose proof (above_key x b Hb H) as [K1 K2].
  apply le_inv in E as E'. destruct E' as (_ & _ & K).
  destruct (finite_or_inf a Ha) as [Fa|[Q|Q]]; [|rewrite Q, key_pinf in K; lia|now left].
  right. split; [exact Fa|].
  destruct (finite_or_inf b Hb) as [Fb|[Q|Q]].
  - apply le_R in E; [|apply Ha|apply Hb|exact Fa|exact Fb]. specialize (K2 Fb). lra.
  - rewrite Q, key_pinf in K1. lia.
  - rewrite Q, key_ninf in K. apply finite_key in Fa. lia.
Qed.
Lemma below_le a b x : num a -> num b -> f64_le a b = true -> below x a -> below x b.
Proof.
  intros Ha Hb E H. pose proof (below_key x a Ha H) as [K1 K2].
  apply le_inv in E as E'. destruct E' as (_ & _ & K).
  destruct (finite_or_inf b Hb) as [Fb|[Q|Q]]; [|now left|rewrite Q, key_ninf in K; lia].
  right. split; [exact Fb|].
  destruct (finite_or_inf a Ha) as [Fa|[Q|Q]].
  - apply le_R in E; [|apply Ha|apply Hb|exact Fa|exact Fb]. specialize (K2 Fa). lra.
  - rewrite Q, key_pinf in K. apply finite_key in Fb. lia.
  - rewrite Q, key_ninf in K1. lia.
Qed.

Lemma above_max a b x : num a -> num b ->
  above x (if f64_lt a b then b else a) <-> above x a /\ above x b.
Proof.
  intros Ha Hb. destruct (f64_lt a b) eqn:E.
  - apply f64_lt_le in E. split; [|tauto]. intros H. split; [|exact H]. now apply (above_le a b).
  - apply f64_not_lt_le in E; auto. split; [|tauto]. intros H. split; [exact H|]. now apply (above_le b a).
Qed.
Lemma below_min a b x : num a -> num b ->
  below x (if f64_gt a b then b else a) <-> below x a /\ below x b.
Proof.
  intros Ha Hb. unfold f64_gt. destruct (f64_lt b a) eqn:E.
  - apply f64_lt_le in E. split; [|tauto]. intros H. split; [|exact H]. now apply (below_le b a).
  - apply f64_not_lt_le in E; auto. split; [|tauto]. intros H. split; [exact H|]. now apply (below_le a b).
Qed.

(** A real strictly between two floats exists exactly when the first is less. *)
Lemma between_iff lo hi : num lo -> num hi ->
  (exists x, above x lo /\ below x hi) <-> f64_ge lo hi = false.
Proof.
  intros Hl Hh. unfold f64_ge. split.
  - intros (x & A & B). destruct (f64_le hi lo) eqn:E; [exfalso|reflexivity].
    pose proof (above_key _ _ Hl A) as [K1 K2]. pose proof (below_key _ _ Hh B) as [K3 K4].
    apply le_inv in E as E'. destruct E' as (_ & _ & K).
    destruct (finite_or_inf lo Hl) as [Fl|[Q|Q]].
    + destruct (finite_or_inf hi Hh) as [Fh|[Q|Q]].
      * apply le_R in E; [|apply Hh|apply Hl|exact Fh|exact Fl]. specialize (K2 Fl). specialize (K4 Fh). lra.
      * rewrite Q, key_pinf in K. lia.
      * rewrite Q, key_ninf in K3. lia.
    + rewrite Q, key_pinf in K1. lia.
    + rewrite Q, key_ninf in K. lia.
  - intros E. apply f64_not_le_lt in E; auto. apply lt_inv in E as E'. destruct E' as (N1 & N2 & K).
    apply ninf_least in N1. apply pinf_greatest in N2. rewrite key_ninf in N1. rewrite key_pinf in N2.
    destruct (finite_or_inf lo Hl) as [Fl|[Q|Q]].
    + destruct (finite_or_inf hi Hh) as [Fh|[Q|Q]].
      * apply lt_R in E; [| apply Hl | apply Hh | auto | auto].
        exists ((f64_R lo + f64_R hi) / 2)%R. split; right; split; auto; lra.
      * exists (f64_R lo + 1)%R. split; [right; split; [auto | lra] | now left].
      * rewrite Q, key_ninf in K. lia.
    + rewrite Q, key_pinf in K. lia.
    + destruct (finite_or_inf hi Hh) as [Fh|[Q'|Q']].
      * exists (f64_R hi - 1)%R. split; [now left | right; split; [auto | lra]].
      * exists 0%R. split; now left.
      * rewrite Q, Q' in K. lia.
Qed.

Theorem intersect_false_iff a b : num_box a -> num_box b ->
  snd (intersect (Some a) (Some b)) = false <->
  ~ exists x y, interior a x y /\ interior b x y.
Proof.
  intros Ha Hb. rewrite intersect_meet.
  pose proof (meet_num a b Ha Hb) as (M0 & M1 & M2 & M3).
  assert (I : (exists x y, interior a x y /\ interior b x y) <->
              f64_ge (e0 (meet a b)) (e2 (meet a b)) = false /\ f64_ge (e1 (meet a b)) (e3 (meet a b)) = false).
  { rewrite <- !between_iff by assumption.
    destruct Ha as (?&?&?&?), Hb as (?&?&?&?). unfold meet, interior; cbn [e0 e1 e2 e3].
    split.
    - intros (x & y & (A0&A2&A1&A3) & (B0&B2&B1&B3)). split.
      + exists x. now rewrite above_max, below_min by assumption.
      + exists y. now rewrite above_max, below_min by assumption.
    - intros [(x & A & B) (y & C & D)]. exists x, y.
      rewrite above_max in A, C by assumption. rewrite below_min in B, D by assumption. tauto. }
  rewrite I. destruct (f64_ge _ _), (f64_ge _ _); cbn; intuition congruence.
Qed.

Lemma sel_comm_max a b : num a -> num b ->
  f64_eq (if f64_lt a b then b else a) (if f64_lt b a then a else b) = true.
Proof. intros Ha Hb. keys. destruct (f64_key a <? f64_key b) eqn:E1, (f64_key b <? f64_key a) eqn:E2; rewrite eq_key by auto; lia. Qed.

Lemma eq_le a b c : f64_eq a b = true -> f64_le a c = f64_le b c.
Proof. intros H. apply eq_inv in H as (A & B & K). unfold f64_le. unfold nn in *. rewrite A, B, K. reflexivity. Qed.
Lemma eq_le' a b c : f64_eq a b = true -> f64_le c a = f64_le c b.
Proof. intros H. apply eq_inv in H as (A & B & K). unfold f64_le. unfold nn in *. rewrite A, B, K. reflexivity. Qed.

Lemma f64_eq_refl a : nn a -> f64_eq a a = true.
Proof. intros H. rewrite eq_key by auto. lia. Qed.

Theorem intersect_comm a b : box_opt a -> box_opt b ->
  snd (intersect a b) = snd (intersect b a) /\ opt_eq (fst (intersect a b)) (fst (intersect b a)).
Proof.
  intros Ha Hb. destruct a as [a|], b as [b|]; cbn [box_opt] in *.
  - rewrite !intersect_meet.
    assert (M : box_eq (meet a b) (meet b a)).
    { destruct Ha as (?&?&?&?), Hb as (?&?&?&?). unfold meet, f64_gt.
      repeat split; cbn [e0 e1 e2 e3]; try (now apply sel_comm_max).
      - rewrite f64_eq_sym. keys.
        destruct (f64_key (e2 b) <? f64_key (e2 a)) eqn:E1, (f64_key (e2 a) <? f64_key (e2 b)) eqn:E2;
          rewrite eq_key by auto; lia.
      - rewrite f64_eq_sym. keys.
        destruct (f64_key (e3 b) <? f64_key (e3 a)) eqn:E1, (f64_key (e3 a) <? f64_key (e3 b)) eqn:E2;
          rewrite eq_key by auto; lia. }
    pose proof M as (M0 & M1 & M2 & M3). unfold f64_ge.
    rewrite (eq_le _ _ _ M2), (eq_le' _ _ _ M0), (eq_le _ _ _ M3), (eq_le' _ _ _ M1).
    destruct (_ || _); cbn; split; auto.
  - destruct Ha as (?&?&?&?). cbn. repeat split; apply f64_eq_refl; auto.
  - destruct Hb as (?&?&?&?). cbn. repeat split; apply f64_eq_refl; auto.
  - cbn. auto.
Qed.

(** ** ContainsGeom *)
Lemma fold_add_least l e : num_box e -> Forall num_pt l -> forall c,
  box_within (fold_left add_point1 l e) c <->
  box_within e c /\ (forall p, In p l -> inside c p).
Proof.
  intros He Hl c.
  assert (Forall num_box (map pt_box l)) as Hb.
  { apply Forall_map'. eapply Forall_impl; [|exact Hl]. intros; now apply pt_box_num. }
  rewrite fold_add_points by auto.
  assert (P : forall p, inside c p <-> box_within (pt_box p) c).
  { intros p. unfold inside, box_within, pt_box; cbn. tauto. }
  split.
  - intros H. destruct (fold_join_ub (map pt_box l) e He Hb) as [U1 U2]. split.
    + exact (within_trans _ _ _ U1 H).
    + intros p Hp. apply P. eapply within_trans; [|exact H]. apply U2. now apply in_map.
  - intros [H1 H2]. apply fold_join_least; [exact He | exact Hb | exact H1 |].
    intros b Hb'. apply in_map_iff in Hb' as (p & <- & Hp). apply (proj1 (P p)). now apply H2.
Qed.



Theorem contains_geom_exact e g :
  is_universe e = false -> Forall num_pt (coords g) ->
  contains_geom e g =
  if unknown_inside g then None
  else Some (forallb (contains_point e) (coords g) && (is_point g || contains_point e origin)).
Proof.
  intros U N. unfold contains_geom. rewrite U.
  destruct e as [e|]; [|discriminate].
  destruct (is_point g) eqn:P.
  - destruct g; try discriminate. cbn. rewrite andb_true_r. unfold f64_ge.
    f_equal. destruct (f64_le (e0 e) (fst p)), (f64_le (fst p) (e2 e)); cbn; try reflexivity.
    now rewrite andb_true_r.
  - assert (contains_geom_body :
      (let (ne, err) := add_geometry (Some (Ext 0 0 0 0)) g in
       if err then None else match ne with Some n => Some (contains (Some e) n) | None => None end) =
      (if unknown_inside g then None
       else Some (forallb (contains_point (Some e)) (coords g) && contains_point (Some e) origin))).
    { unfold add_geometry. pose proof (get_extent_err g (Some (Ext 0 0 0 0))) as Er.
      destruct (get_extent g (Some (Ext 0 0 0 0))) as [ne err] eqn:E. cbn [snd] in Er. rewrite Er.
      destruct (unknown_inside g) eqn:Ug; [reflexivity|].
      rewrite get_extent_ok in E by exact Ug. inv E. f_equal.
      apply eq_true_iff_eq. rewrite contains_within, andb_true_iff, forallb_forall.
      rewrite fold_add_least; [|repeat split; reflexivity|exact N].
      rewrite contains_point_inside.
      assert (O : box_within (Ext 0 0 0 0) e <-> inside_opt (Some e) origin).
      { unfold box_within, inside_opt, inside, origin, f64_zero; cbn. tauto. }
      rewrite O. split; intros [A B]; split; auto; intros p Hp.
      - apply contains_point_inside. exact (B p Hp).
      - exact (proj1 (contains_point_inside (Some e) p) (A p Hp)). }
    cbn [orb]. destruct g; try discriminate; exact contains_geom_body.
Qed.

(** ** NewExtentFromGeometry *)
Lemma spans_join l : Forall num_pt l -> forall p, num_pt p -> In p l ->
  let e := fold_left join (map pt_box l) (pt_box p) in
  forall f, new_extent l = Some f -> box_eq e f.
Proof.
  intros Hl p Hp Hin e f Hf.
  assert (Forall num_box (map pt_box l)) as Hb.
  { apply Forall_map'. eapply Forall_impl; [|exact Hl]. intros; now apply pt_box_num. }
  assert (N : l <> []) by (intros ->; destruct Hin).
  destruct (new_extent_least l Hl N) as (f' & E' & I & A & L). rewrite Hf in E'. inv E'.
  assert (box_within e f') as W1.
  { apply fold_join_least; auto using pt_box_num.
    - specialize (I p Hin). unfold inside, box_within, pt_box in *; cbn. tauto.
    - intros b Hb'. apply in_map_iff in Hb' as (q & <- & Hq).
      specialize (I q Hq). unfold inside, box_within, pt_box in *; cbn. tauto. }
  assert (box_within f' e) as W2.
  { apply L. intros q Hq. destruct (fold_join_ub (map pt_box l) (pt_box p) (pt_box_num _ Hp) Hb) as [_ U].
    specialize (U (pt_box q) (in_map _ _ _ Hq)). unfold inside, box_within, pt_box in *; cbn in U. tauto. }
  destruct W1 as (?&?&?&?), W2 as (?&?&?&?). repeat split; now apply f64_le_antisym.
Qed.

Theorem extent_from_geometry g : Forall num_pt (coords g) ->
  match new_extent_from_geometry g with
  | None => unknown_inside g = true
  | Some e => unknown_inside g = false /\ opt_eq e (new_extent (coords g))
  end.
Proof.
  intros N. unfold new_extent_from_geometry.
  pose proof (get_coordinates_err g) as Er. destruct (get_coordinates g) as [pts err] eqn:E.
  cbn [snd] in Er. subst err. destruct (unknown_inside g) eqn:U; [reflexivity|].
  rewrite get_coordinates_ok in E by exact U. inv E.
  destruct (coords g) as [|p tl] eqn:C; [split; [reflexivity | exact I]|].
  split; [reflexivity|]. rewrite add_pointers_fold.
  inv N. rewrite fold_add_points.
  2: { apply (pt_box_num p H1). }
  2: { apply (Forall_map' pt_box num_box (p :: tl)). constructor; [now apply pt_box_num|].
       eapply Forall_impl; [|exact H2]. intros; now apply pt_box_num. }
  cbn [opt_eq new_extent].
  apply (spans_join (p :: tl) (Forall_cons _ H1 H2) p H1 (or_introl eq_refl)). reflexivity.
Qed.

Theorem extent_from_geometry_nil g :
  new_extent_from_geometry g = Some None <-> unknown_inside g = false /\ coords g = [].
Proof.
  unfold new_extent_from_geometry. pose proof (get_coordinates_err g) as Er.
  destruct (get_coordinates g) as [pts err] eqn:E. cbn [snd] in Er. subst err.
  destruct (unknown_inside g) eqn:U; [split; [discriminate | intros [? _]; discriminate]|].
  rewrite get_coordinates_ok in E by exact U. inv E.
  destruct (coords g) as [|p tl]; [tauto|].
  rewrite add_pointers_fold. split; [discriminate | intros [_ ?]; discriminate].
Qed.

(** ** Scaling *)

Lemma new_extent2_ok p q : num_pt p -> num_pt q ->
  exists e, new_extent [p; q] = Some e /\ nonempty e /\ inside e p /\ inside e q.
Proof.
  intros Hp Hq. assert (Forall num_pt [p; q]) as N by auto.
  destruct (new_extent_spans [p; q] N ltac:(discriminate)) as (e & E & SX & SY).
  exists e. split; [exact E|].
  pose proof (spans_inside _ _ SX SY) as I.
  destruct SX as (A & B & SX), SY as (C & D & SY). split; [|split].
  - split; [apply (SX _ B) | apply (SY _ D)].
  - apply I. now left.
  - apply I. right. now left.
Qed.

Theorem scale_ok e s : finite_box e -> finite_num s ->
  exists e', scale_by (Some e) s = Some e' /\ nonempty e' /\
    inside e' (f64_mul (e0 e) s, f64_mul (e1 e) s) /\ inside e' (f64_mul (e2 e) s, f64_mul (e3 e) s).
Proof.
  intros ([? ?]&[? ?]&[? ?]&[? ?]) [? ?]. apply new_extent2_ok; split; cbn [fst snd];
    eapply is_round_num; apply mul_round; assumption.
Qed.

Theorem expand_ok e s : finite_box e -> finite_num s ->
  exists e', expand_by (Some e) s = Some e' /\ nonempty e'.
Proof.
  intros ([? ?]&[? ?]&[? ?]&[? ?]) [? ?].
  destruct (new_extent2_ok (f64_sub (e0 e) s, f64_sub (e1 e) s) (f64_add (e2 e) s, f64_add (e3 e) s))
    as (e' & E & Ne & _); [split..|]; cbn [fst snd];
    try (eapply is_round_num; (apply add_round || apply sub_round); assumption).
  exists e'. split; assumption.
Qed.

Lemma sub_le a s : finite_num a -> finite_num s -> f64_le f64_zero s = true ->
  f64_le (f64_sub a s) a = true.
Proof.
  intros [? ?] [? ?] Hs. apply is_round_mono with (f64_R a - f64_R s)%R (f64_R a).
  - now apply sub_round. - now apply is_round_self.
  - apply le_R in Hs; auto; try reflexivity.
    replace (f64_R f64_zero) with 0%R in Hs by reflexivity. lra.
Qed.
Lemma add_ge a s : finite_num a -> finite_num s -> f64_le f64_zero s = true ->
  f64_le a (f64_add a s) = true.
Proof.
  intros [? ?] [? ?] Hs. apply is_round_mono with (f64_R a) (f64_R a + f64_R s)%R.
  - now apply is_round_self. - now apply add_round.
  - apply le_R in Hs; auto; try reflexivity.
    replace (f64_R f64_zero) with 0%R in Hs by reflexivity. lra.
Qed.

Theorem expand_contains e s : finite_box e -> nonempty e -> finite_num s -> f64_le f64_zero s = true ->
  exists e', expand_by (Some e) s = Some e' /\ box_within e e'.
Proof.
  intros (F0&F1&F2&F3) [Nx Ny] Fs Hs.
  destruct (new_extent2_ok (f64_sub (e0 e) s, f64_sub (e1 e) s) (f64_add (e2 e) s, f64_add (e3 e) s))
    as (e' & E & Ne & I1 & I2).
  { destruct F0, F1, Fs. split; cbn [fst snd]; eapply is_round_num; apply sub_round; assumption. }
  { destruct F2, F3, Fs. split; cbn [fst snd]; eapply is_round_num; apply add_round; assumption. }
  exists e'. split; [exact E|]. destruct I1 as (A0&_&A1&_), I2 as (_&A2&_&A3). cbn [fst snd] in *.
  repeat split; eapply f64_le_trans; try eassumption; auto using sub_le, add_ge.
Qed.
