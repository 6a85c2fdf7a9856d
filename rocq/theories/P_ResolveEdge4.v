(** * Proofs about resolving an edge: which edge is returned *)
From Coq Require Import Bool List Arith ZArith Lia.
From Verif Require Import Base_F64 Base_F64Arith Base_Res Base_Geom M_Planar M_Cmp M_Walker M_Winding M_Quadedge M_ResolveEdge
  S_Winding S_Quadedge S_ResolveEdge S_MvtPrepare P_MvtPrepare3 P_Quadedge P_Quadedge2 P_Quadedge3 P_ResolveEdge P_ResolveEdge2 P_ResolveEdge3.
Import ListNotations.
Open Scope Z_scope.

(** The edge before the point. *)
Lemma closest (r : edge -> Z) d l : l <> [] -> exists a, In a l /\ forall f, In f l -> ~ cyc (r a) (r f) d.
Proof.
  induction l as [|g l IH]; [easy|]. intros _. destruct l as [|g' l].
  - exists g. split; [left; reflexivity|]. intros f [<-|[]]. unfold cyc. lia.
  - destruct IH as (a & A & B); [discriminate|].
    assert (D : cyc (r a) (r g) d \/ ~ cyc (r a) (r g) d) by (unfold cyc; lia). destruct D as [D|D].
    + exists g. split; [left; reflexivity|]. intros f [<-|F]; [unfold cyc; lia|]. specialize (B f F). unfold cyc in *. lia.
    + exists a. split; [right; exact A|]. intros f [<-|F]; [exact D|exact (B f F)].
Qed.

Section Star.
  Context (ypd : bool) (m : mem (point f64)) (o : Z * Z) (at_ : edge -> Z * Z) (x : Z * Z) (gse : edge) (l : list edge).
  Notation ring := (gse :: l).
  Hypothesis H : history m.
  Hypothesis St : star ypd m ring o at_.
  Hypothesis X : moderate x.
  Hypothesis XO : x <> o.
  Notation v := (v ypd o at_).
  Notation d := (d ypd o x).
  Notation st := (st ypd m o at_ x).

  Lemma v_inj e f : In e ring -> In f ring -> same_dir (v e) (v f) -> e = f.
  Proof. destruct St as (_ & _ & _ & D). exact (D e f). Qed.
  Lemma onext_in e : In e ring -> In (onext m e) ring.
  Proof. exact (ring_onext ypd m ring o at_ St e). Qed.
  Lemma alone e : In e ring -> onext m e = e -> l = [].
  Proof.
    intros E Q. destruct St as (C & _). destruct (cycle_cut (onext m) ring e C E) as (l1 & l2 & R & C').
    destruct (l2 ++ l1) as [|f r] eqn:Q'.
    - apply app_eq_nil in Q'. destruct Q' as [-> ->]. cbn in R. congruence.
    - exfalso. destruct C' as [N C']. destruct C' as [C' _]. rewrite C' in Q. subst f. inversion N as [|? ? N1]; subst. apply N1. left. reflexivity.
  Qed.

  Section Off.
    Hypothesis Off : forall e, In e ring -> ~ same_dir (v e) d.
    Lemma st_off e : In e ring ->
      (in_sector ypd m o at_ x e /\ fst (st e) = Some e /\ (snd (st e) = None \/ snd (st e) = Some EColinear /\ l = [] /\ opposite (v e) d))
      \/ (~ in_sector ypd m o at_ x e /\ st e = (None, None)).
    Proof.
      intros E. pose proof (onext_in e E) as E'.
      pose proof (table_between ypd (v e) d (v (onext m e)) (line_contains_point (fpt o, fpt (at_ e)) (fpt x))
        (v_nz ypd m ring o at_ St e E) (d_nz ypd o x XO) (v_nz ypd m ring o at_ St _ E')
        (fun S => Off e E (same_dir_sym _ _ S)) (fun S => Off _ E' (same_dir_sym _ _ S))) as T.
      fold (act ypd m o at_ x e) in T. change (between (v e) d (v (onext m e))) with (in_sector ypd m o at_ x e) in T.
      unfold P_ResolveEdge3.st. destruct (act ypd m o at_ x e); cbn [fst snd].
      - right. tauto.
      - left. tauto.
      - left. destruct T as (T & S & O). pose proof (v_inj e _ E E' S) as Q. pose proof (alone e E (eq_sym Q)). tauto.
      - left. destruct T as (T & S & O). pose proof (v_inj e _ E E' S) as Q. pose proof (alone e E (eq_sym Q)). rewrite <- Q. tauto.
      - contradiction.
      - right. tauto.
    Qed.
    Lemma resolve_off : exists r err, resolve_edge ypd m gse (fpt x) = Ok (r, err)
      /\ (err = None \/ err = Some EColinear /\ l = [] /\ opposite (v gse) d)
      /\ match r with
         | Some e => exists l1 l2, ring = l1 ++ e :: l2 /\ in_sector ypd m o at_ x e /\ forall f, In f l1 -> ~ in_sector ypd m o at_ x f
         | None => forall f, In f ring -> ~ in_sector ypd m o at_ x f
         end.
    Proof.
      rewrite (resolve_hit ypd m ring o at_ x H St X XO gse l eq_refl).
      assert (K : forall l', (forall e, In e l' -> In e ring) -> exists r err, first_hit st l' = (r, err)
        /\ (err = None \/ err = Some EColinear /\ l = [] /\ opposite (v gse) d)
        /\ match r with
           | Some e => exists l1 l2, l' = l1 ++ e :: l2 /\ in_sector ypd m o at_ x e /\ forall f, In f l1 -> ~ in_sector ypd m o at_ x f
           | None => forall f, In f l' -> ~ in_sector ypd m o at_ x f
           end).
      { induction l' as [|e l' IH]; intros I.
        - exists None, None. split; [reflexivity|]. split; [left; reflexivity|]. intros f [].
        - cbn [first_hit]. destruct (st_off e (I e (or_introl eq_refl))) as [(S & S1 & S2)|(S & S1)].
          + exists (Some e), (snd (st e)). destruct (st e) as [r er]. cbn [fst snd] in *. subst r. split; [destruct er; reflexivity|]. split.
            * destruct S2 as [S2|(S2 & L & S3)]; [left; exact S2|right]. split; [exact S2|]. split; [exact L|].
              assert (e = gse) as ->; [|exact S3]. specialize (I e (or_introl eq_refl)). rewrite L in I. destruct I as [I|[]]. congruence.
            * exists [], l'. split; [reflexivity|]. split; [exact S|]. intros f [].
          + rewrite S1. destruct (IH (fun f F => I f (or_intror F))) as (r & err & Q1 & Q2 & Q3). exists r, err. split; [exact Q1|]. split; [exact Q2|].
            destruct r as [y|].
            * destruct Q3 as (l1 & l2 & -> & Q3 & Q4). exists (e :: l1), l2. split; [reflexivity|]. split; [exact Q3|]. intros f [<-|F]; [exact S|exact (Q4 f F)].
            * intros f [<-|F]; [exact S|exact (Q3 f F)]. }
      destruct (K ring (fun e E => E)) as (r & err & Q1 & Q2 & Q3). exists r, err. rewrite Q1. tauto.
    Qed.
  End Off.

  (** Ranks of the edges and of the point. *)
  Definition all : list (Z * Z) := d :: map v ring.
  Lemma all_nz u : In u all -> nz u.
  Proof.
    intros [<-|U]; [apply d_nz, XO|]. apply in_map_iff in U. destruct U as (e & <- & E). exact (v_nz ypd m ring o at_ St e E).
  Qed.
  Lemma v_all e : In e ring -> In (v e) all. Proof. intros E. right. apply in_map, E. Qed.
  Definition r (e : edge) : Z := rk all (v e).
  Lemma r_inj e f : In e ring -> In f ring -> r e = r f -> e = f.
  Proof. intros E F Q. apply v_inj; try assumption. apply (rk_eq all _ _ all_nz (v_all e E) (v_all f F)), Q. Qed.
  Hypothesis Ord : in_order ypd m ring o at_.
  Lemma r_order e f : In e ring -> In f ring -> ~ cyc (r e) (r f) (r (onext m e)).
  Proof.
    intros E F C. apply (Ord e f E F). apply (between_rk all); [exact all_nz|apply v_all; assumption..|apply v_all, onext_in, E|exact C].
  Qed.
  Lemma r_sector e : In e ring -> (in_sector ypd m o at_ x e <-> cyc (r e) (rk all d) (r (onext m e))).
  Proof.
    intros E. apply (between_rk all (v e) d (v (onext m e))); [exact all_nz|apply v_all, E|left; reflexivity|apply v_all, onext_in, E].
  Qed.
  Lemma one_sector : (forall e, In e ring -> ~ same_dir (v e) d) ->
    exists e, In e ring /\ in_sector ypd m o at_ x e /\ forall f, In f ring -> in_sector ypd m o at_ x f -> f = e.
  Proof.
    intros Off. assert (N : forall e, In e ring -> r e <> rk all d).
    { intros e E Q. apply (Off e E). apply (rk_eq all); [exact all_nz|apply v_all, E|left; reflexivity|exact Q]. }
    destruct (closest r (rk all d) ring ltac:(discriminate)) as (a & A & C). exists a. split; [exact A|].
    assert (S : in_sector ypd m o at_ x a).
    { apply r_sector; [exact A|]. pose proof (C _ (onext_in a A)) as C1. pose proof (N _ (onext_in a A)). pose proof (N _ A). unfold cyc in *. lia. }
    split; [exact S|]. intros f F Sf. apply r_inj; try assumption. apply r_sector in S; [|exact A]. apply r_sector in Sf; [|exact F].
    pose proof (r_order a f A F). pose proof (r_order f a F A). pose proof (r_order a _ A (onext_in f F)). pose proof (r_order f _ F (onext_in a A)).
    pose proof (C f F). pose proof (N _ A). pose proof (N _ F). unfold cyc in *. lia.
  Qed.

  (** On the ray of an edge. *)
  Section On.
    Context (e : edge).
    Hypothesis E : In e ring.
    Hypothesis On : same_dir (v e) d.
    Lemma st_skip g : In g ring -> g <> e -> onext m g <> e -> st g = (None, None).
    Proof.
      intros G N1 N2. pose proof (onext_in g G) as G'.
      assert (Off : forall f, In f ring -> f <> e -> ~ same_dir d (v f)).
      { intros f F N S. apply N. apply r_inj; try assumption. unfold r. transitivity (rk all d).
        - symmetry. apply (rk_eq all); [exact all_nz|left; reflexivity|apply v_all, F|exact S].
        - symmetry. apply (rk_eq all); [exact all_nz|apply v_all, E|left; reflexivity|exact On]. }
      pose proof (table_between ypd (v g) d (v (onext m g)) (line_contains_point (fpt o, fpt (at_ g)) (fpt x))
        (v_nz ypd m ring o at_ St g G) (d_nz ypd o x XO) (v_nz ypd m ring o at_ St _ G') (Off g G N1) (Off _ G' N2)) as T.
      fold (act ypd m o at_ x g) in T.
      assert (B : ~ between (v g) d (v (onext m g))).
      { change (~ in_sector ypd m o at_ x g). rewrite (r_sector g G). replace (rk all d) with (r e); [apply r_order; assumption|].
        apply (rk_eq all); [exact all_nz|apply v_all, E|left; reflexivity|exact On]. }
      unfold P_ResolveEdge3.st. destruct (act ypd m o at_ x g); try reflexivity; tauto.
    Qed.
    Lemma st_before g : In g ring -> g <> e -> onext m g = e -> st g = (Some e, Some EColinear).
    Proof.
      intros G N Q. pose proof (ray_b ypd (v g) d (v e) (line_contains_point (fpt o, fpt (at_ g)) (fpt x))
        (v_nz ypd m ring o at_ St g G) (v_nz ypd m ring o at_ St e E) (same_dir_sym _ _ On)) as T.
      unfold P_ResolveEdge3.st, act. rewrite Q, T. destruct (Z.eqb_spec (cross (v g) (v e)) 0) as [C|C]; [|reflexivity].
      assert (line_contains_point (fpt o, fpt (at_ g)) (fpt x) = false) as ->; [|reflexivity].
      apply not_true_iff_false. destruct St as (_ & O & P & _). destruct (P g G) as (_ & _ & _ & Mg & Ng). rewrite box_int by assumption. intros B.
      destruct (zero_cross _ _ (v_nz ypd m ring o at_ St g G) (v_nz ypd m ring o at_ St e E) C) as [S|S]; [apply N, v_inj; assumption|].
      assert (W : 0 <= dot (v g) d).
      { unfold P_ResolveEdge3.v, P_ResolveEdge3.d. rewrite flip_dot. unfold dot, vec, in_box in *. cbn [fst snd]. nia. }
      assert (I : dot (v g) d * dot (v e) (v e) = dot (v g) (v e) * dot (v e) d + cross (v g) (v e) * cross d (v e)) by (unfold dot, cross; ring).
      destruct On as [On1 On2]. destruct S as [_ S]. rewrite C in I. pose proof (v_nz ypd m ring o at_ St e E) as Z. apply nz_cases in Z.
      assert (0 < dot (v e) (v e)) by (unfold dot; nia). assert (dot (v g) (v e) * dot (v e) d < 0) by (apply Z.mul_neg_pos; assumption). nia.
    Qed.
    Lemma st_at : (opposite (v e) (v (onext m e)) -> dot d d <= dot (v e) (v e)) -> st e = (Some e, Some EColinear).
    Proof.
      intros Short. pose proof (onext_in e E) as E'. pose proof (ray_a ypd (v e) d (v (onext m e)) (line_contains_point (fpt o, fpt (at_ e)) (fpt x))
        (v_nz ypd m ring o at_ St e E) (v_nz ypd m ring o at_ St _ E') (same_dir_sym _ _ On)) as T.
      unfold P_ResolveEdge3.st, act. rewrite T. destruct (Z.eqb_spec (cross (v e) (v (onext m e))) 0) as [C|C]; [|reflexivity].
      destruct (zero_cross _ _ (v_nz ypd m ring o at_ St e E) (v_nz ypd m ring o at_ St _ E') C) as [S|S].
      - rewrite <- (v_inj e _ E E' S). destruct (line_contains_point _ _); reflexivity.
      - assert (line_contains_point (fpt o, fpt (at_ e)) (fpt x) = true) as ->; [|reflexivity].
        specialize (Short S). clear T C S. destruct St as (_ & O & P & _). destruct (P e E) as (_ & _ & _ & Me & Ne). apply box_int; try assumption.
        pose proof (v_nz ypd m ring o at_ St e E) as Z. apply nz_cases in Z. destruct On as [On1 On2].
        unfold P_ResolveEdge3.v, P_ResolveEdge3.d in *. rewrite flip_cross in On1. rewrite flip_dot in On2. rewrite (flip_dot ypd o x x), (flip_dot ypd o (at_ e) (at_ e)) in Short.
        assert (On3 : cross (vec false o (at_ e)) (vec false o x) = 0) by (destruct ypd; lia). clear On1.
        unfold vec, cross, dot, in_box in *. cbn [fst snd] in *. clear - On2 On3 Short.
        set (a := fst (at_ e) - fst o) in *. set (b := snd (at_ e) - snd o) in *. set (c := fst x - fst o) in *. set (g := snd x - snd o) in *.
        assert (K : (0 <= a * c /\ c * c <= a * a) /\ (0 <= b * g /\ g * g <= b * b)).
        { clearbody a b c g. assert (a * g = b * c) by lia. 
          assert (A1 : a * c * (a * a + b * b) = a * a * (a * c + b * g)) by (replace (a * c * (a * a + b * b)) with (a * a * (a * c) + a * b * (b * c)) by ring; rewrite <- H; ring).
          assert (B1 : b * g * (a * a + b * b) = b * b * (a * c + b * g)) by (replace (b * g * (a * a + b * b)) with (b * b * (b * g) + b * a * (a * g)) by ring; rewrite H; ring).
          assert (A2 : c * c * (a * a + b * b) = a * a * (c * c + g * g)) by (replace (c * c * (a * a + b * b)) with (a * a * (c * c) + b * c * (b * c)) by ring; rewrite <- H; ring).
          assert (B2 : g * g * (a * a + b * b) = b * b * (c * c + g * g)) by (replace (g * g * (a * a + b * b)) with (b * b * (g * g) + a * g * (a * g)) by ring; rewrite H; ring).
          assert (P0 : 0 < a * a + b * b) by nia.
          pose proof (Z.square_nonneg a). pose proof (Z.square_nonneg b).
          repeat split.
          - apply (Z.mul_nonneg_cancel_r (a * c) _ P0). rewrite A1. apply Z.mul_nonneg_nonneg; lia.
          - apply (Z.mul_le_mono_pos_r _ _ _ P0). rewrite A2. apply Z.mul_le_mono_nonneg_l; lia.
          - apply (Z.mul_nonneg_cancel_r (b * g) _ P0). rewrite B1. apply Z.mul_nonneg_nonneg; lia.
          - apply (Z.mul_le_mono_pos_r _ _ _ P0). rewrite B2. apply Z.mul_le_mono_nonneg_l; lia. }
        destruct K as [[K1 K2] [K3 K4]].
        assert (Box : forall a c, 0 <= a * c -> c * c <= a * a -> Z.min 0 a <= c <= Z.max 0 a) by (clear; intros a c; nia).
        pose proof (Box a c K1 K2). pose proof (Box b g K3 K4). subst a b c g. lia.
    Qed.
    Lemma resolve_on : (gse = e -> opposite (v e) (v (onext m e)) -> dot d d <= dot (v e) (v e)) ->
      resolve_edge ypd m gse (fpt x) = Ok (Some e, Some EColinear).
    Proof.
      intros Short. rewrite (resolve_hit ypd m ring o at_ x H St X XO gse l eq_refl). f_equal.
      destruct (edge_dec gse e) as [Q|N].
      - cbn [first_hit]. rewrite Q. rewrite (st_at (Short Q)). reflexivity.
      - assert (C : chain (onext m) gse ring) by (destruct St as (C & _); apply C).
        assert (I : In e l) by (destruct E as [Q|I]; [contradiction|exact I]).
        assert (K : forall l' y first, chain (onext m) first (y :: l') -> y <> e -> In e l' -> (forall z, In z (y :: l') -> In z ring) ->
                  first_hit st (y :: l') = (Some e, Some EColinear)).
        { clear - H St X XO Ord E On. induction l' as [|z l' IH]; intros y first C N I A; [destruct I|]. destruct C as [C C'].
          cbn [first_hit]. destruct (edge_dec z e) as [Q|N'].
          - cbv iota in C. rewrite (st_before y (A y (or_introl eq_refl)) N (eq_trans C Q)). reflexivity.
          - rewrite (st_skip y (A y (or_introl eq_refl)) N) by congruence. apply (IH z first C' N').
            + destruct I as [I|I]; [contradiction|exact I].
            + intros w W. apply A. right. exact W. }
        apply (K l gse gse C N I). intros z Z. exact Z.
    Qed.
  End On.
End Star.
