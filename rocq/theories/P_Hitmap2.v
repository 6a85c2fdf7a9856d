(** Proofs about planar/makevalid/hitmap: labels *)
From Coq Require Import ZArith Bool List Lia Reals Lra Permutation Classical_Prop.
From Flocq Require Import Core.Core.
From Verif Require Import Base_Res Base_F64 Base_F64Arith Base_Geom M_Geom M_Extent M_Cmp M_Intersect M_Rtree M_Ring M_Hitmap
  S_Geom S_Cmp S_Intersect S_Ring P_F64 P_F64Flocq P_F64Round P_F64Grid P_Cmp3 P_Ring P_Ring2 P_Ring3 P_Hitmap S_Hitmap.
From Verif Require S_Sweep.
Import ListNotations.
Local Open Scope nat_scope.

Lemma ring_cmp_default : ring_cmp = default_compare. Proof. reflexivity. Qed.

(** ** Rounding does nothing to small coordinates *)
Lemma round_small w : small_int w -> exists w', round20 w = Ok w' /\ small_int w' /\ f64_R w' = f64_R w.
Proof.
  intros H. destruct (small_val w H) as (W & F & n & Rn & Bn & En).
  destruct (round20_spec w W F) as (w' & E & W' & F' & V).
  - rewrite En, <- abs_IZR. apply Rle_trans with (IZR 512); [apply IZR_le; lia|]. change 512%Z with (Zpower radix2 9). rewrite IZR_Zpower by lia. apply bpow_le. lia.
  - exists w'. split; [exact E|]. assert (V' : f64_R w' = f64_R w).
    { rewrite V. apply round_generic; [apply valid_rnd_N|]. rewrite En. apply generic_format_FLX. exists (Float radix2 n 0); [unfold F2R; cbn; lra|]. cbn [Fnum]. change (Zpower radix2 20) with 1048576%Z. lia. }
    split; [|exact V']. exists n. split; [|exact Bn]. split; [exact W'|]. split; [exact F'|]. rewrite V', En. cbn [bpow]. lra.
Qed.

Lemma covers_value r p q : rpt p = rpt q -> covers r p <-> covers r q.
Proof. unfold covers. now intros ->. Qed.
Lemma within_value r p q : rpt p = rpt q -> within r p <-> within r q.
Proof. unfold within. now intros ->. Qed.
Lemma hit_value plys p q : rpt p = rpt q -> hit plys p <-> hit plys q.
Proof. unfold hit, covers, within. now intros ->. Qed.

(** ** Boxes *)
Lemma add_to_around e n : small_ext e -> small_ext n -> small_ext (add_to e n) /\
  (forall q, around e q -> around (add_to e n) q) /\ (forall q, around n q -> around (add_to e n) q).
Proof.
  intros (A & B & C & D) (A' & B' & C' & D'). unfold add_to, add_ext, small_ext, around. cbn [e0 e1 e2 e3].
  destruct (min_small _ _ A A') as (S0 & L0 & M0), (min_small _ _ B B') as (S1 & L1 & M1), (max_small _ _ C C') as (S2 & L2 & M2), (max_small _ _ D D') as (S3 & L3 & M3).
  split; [auto|]. split; intros q Q; lra.
Qed.
Lemma zero_small : small_ext zero_extent.
Proof. assert (Z0 : small_int f64_zero) by (exists 0%Z; split; [apply repr_zero|cbn; lia]). repeat split; exact Z0. Qed.

Lemma small_area_nn e : small_ext e -> f64_isnan (area (Some e)) = false.
Proof.
  intros (A & B & C & D). destruct (small_val _ A) as (_ & _ & a & Ra & Ba & _), (small_val _ B) as (_ & _ & b & Rb & Bb & _),
    (small_val _ C) as (_ & _ & c & Rc & Bc & _), (small_val _ D) as (_ & _ & d & Rd & Bd & _).
  unfold area. cbn [maxX maxY minX minY].
  assert (R1 : repr 0 (d - b) (f64_sub (e3 e) (e1 e))) by (apply repr_sub; [lia|unfold two53; lia|assumption|assumption]).
  assert (R2 : repr 0 (c - a) (f64_sub (e2 e) (e0 e))) by (apply repr_sub; [lia|unfold two53; lia|assumption|assumption]).
  assert (R3 : repr (0 + 0) ((d - b) * (c - a)) (f64_mul (f64_sub (e3 e) (e1 e)) (f64_sub (e2 e) (e0 e)))).
  { apply repr_mul; [lia|unfold two53; nia|assumption|assumption]. }
  destruct R3 as (_ & F & _). unfold f64_isnan, f64_abs, f64_finite, f64_mag in *. rewrite Zmod_mod. apply Z.ltb_lt in F. apply Z.ltb_ge. lia.
Qed.

Section Labels.
  Variable sorted : nat -> list (entry seg_rect) -> list (entry seg_rect).
  Variable nums : list seg_rect -> nat * Z * Z * Z.
  Variable sort_rings : (hring -> hring -> bool) -> list hring -> list hring.
  Variable sort_maps : (hitmap -> hitmap -> bool) -> list hitmap -> list hitmap.
  Hypothesis Hs : forall i es, Permutation (sorted i es) es.
  Hypothesis Hn : numbers_ok nums.
  Hypothesis Hr : S_Sweep.sorts sort_rings.
  Hypothesis Hm : S_Sweep.sorts sort_maps.

  (** What a ring of the hit map answers. *)
  Definition answers (r : hring) (pts : list pt) : Prop :=
    small_ext (hring_extent r) /\
    (forall p, small_pt p -> exists v, hring_contains r p = Ok v /\
       (v = true -> around (hring_extent r) (rpt p)) /\
       (v = true <-> match h_label r with Inside => covers pts p | _ => within pts p end)).

  Lemma new_answers pts l : Forall small_pt pts -> exists r, new_hring sorted nums pts l = Ok r /\ h_label r = l /\ answers r pts.
  Proof.
    intros F. destruct (ring_parity sorted nums Hs Hn (label_eqb l Inside) pts F) as (r & E & A). unfold new_hring. rewrite ring_cmp_default, E. cbn [bind].
    exists (HRing r l). split; [reflexivity|]. split; [reflexivity|].
    assert (Eb : r_bbox r = ring_bbox (segs_of pts)).
    { revert E. unfold new_ring_from_points, new_ring. fold (segs_of pts). destruct (if _ <? _ then _ else _) as [idx| |]; cbn [bind]; [|discriminate|discriminate].
      intros E. injection E as <-. reflexivity. }
    assert (Sb : small_ext (r_bbox r)) by (rewrite Eb; apply bbox_around, segs_small, F).
    split; [exact Sb|]. intros p Hp. destruct (A p Hp) as (v & Ev & V1 & V2). exists v. unfold hring_contains. cbn [h_ring h_label]. split; [exact Ev|]. split.
    - intros ->. unfold hring_extent. cbn [h_ring]. apply (in_bbox _ p Sb Hp). revert Ev. unfold ring_contains. destruct (contains_point (Some (r_bbox r)) p); [reflexivity|]. cbn [negb]. discriminate.
    - unfold covers, within. destruct (classic (on_ring (map rpt pts) (rpt p))) as [O|O].
      + rewrite (V1 O). destruct l; cbn [label_eqb]; intuition congruence.
      + rewrite (V2 O). destruct l; tauto.
  Qed.

  (** ** Building *)
  Definition ring_in (plys : list (list (list pt))) (pts : list pt) (l : label) : Prop :=
    pts <> [] /\ match l with
    | Inside => exists holes, In (pts :: holes) plys
    | Outside => exists outer holes, In (outer :: holes) plys /\ outer <> [] /\ In pts holes
    | Unknown => False
    end.
  Definition rings_for (In_ : list pt -> label -> Prop) (rs : list hring) : Prop :=
    (forall r, In r rs -> exists pts, In_ pts (h_label r) /\ answers r pts) /\
    (forall pts l, In_ pts l -> exists r, In r rs /\ h_label r = l /\ answers r pts).
  Definition grown (clip clip' : extent) (rs : list hring) : Prop :=
    small_ext clip' /\ (forall q, around clip q -> around clip' q) /\ (forall r q, In r rs -> around (hring_extent r) q -> around clip' q).

  Lemma append_holes_spec holes : Forall (Forall small_pt) holes -> forall clip rs0, small_ext clip ->
    exists clip' rs, append_holes sorted nums None holes (clip, rs0) = Ok (clip', rs0 ++ rs) /\ grown clip clip' rs /\
      rings_for (fun pts l => pts <> [] /\ l = Outside /\ In pts holes) rs.
  Proof.
    induction 1 as [|h holes Fh F IH]; intros clip rs0 Sc.
    - exists clip, []. rewrite app_nil_r. split; [reflexivity|]. split; [split; [exact Sc|]; split; [auto|intros r q []]|]. split; [intros r []|intros pts l (_ & _ & [])].
    - destruct h as [|a h].
      + destruct (IH clip rs0 Sc) as (clip' & rs & E & G & R1 & R2). exists clip', rs. split; [exact E|]. split; [exact G|]. split.
        * intros r H. destruct (R1 r H) as (pts & (N & L & I) & A). exists pts. split; [|exact A]. split; [exact N|]. split; [exact L|now right].
        * intros pts l (N & L & [<-|I]); [now elim N|]. apply R2. auto.
      + cbn [append_holes]. destruct (new_answers (a :: h) Outside Fh) as (r0 & E0 & L0 & A0). rewrite E0. cbn [bind]. unfold append_ring. cbn [fst snd].
        destruct (add_to_around clip (hring_extent r0) Sc (proj1 A0)) as (S1 & G1 & G2).
        destruct (IH _ (rs0 ++ [r0]) S1) as (clip' & rs & E & (Ga & Gb & Gc) & R1 & R2). exists clip', (r0 :: rs). rewrite E. split; [now rewrite <- app_assoc|].
        split; [|split].
        * split; [exact Ga|]. split; [auto|]. intros r q [<-|H] Q; [auto|exact (Gc r q H Q)].
        * intros r [<-|H]; [exists (a :: h); split; [|exact A0]; rewrite L0; split; [discriminate|split; [reflexivity|now left]]|].
          destruct (R1 r H) as (pts & (N & L & I) & A). exists pts. split; [|exact A]. split; [exact N|]. split; [exact L|now right].
        * intros pts l (N & L & [<-|I]); [exists r0; subst l; split; [now left|auto]|]. destruct (R2 pts l) as (r & H & Q); [auto|]. exists r. split; [now right|exact Q].
  Qed.

  Lemma append_polygons_spec plys : Forall (Forall (Forall small_pt)) plys -> forall clip rs0, small_ext clip ->
    exists clip' rs, append_polygons sorted nums None plys (clip, rs0) = Ok (clip', rs0 ++ rs) /\ grown clip clip' rs /\ rings_for (ring_in plys) rs.
  Proof.
    induction 1 as [|py plys Fp F IH]; intros clip rs0 Sc.
    - exists clip, []. rewrite app_nil_r. split; [reflexivity|]. split; [split; [exact Sc|]; split; [auto|intros r q []]|].
      split; [intros r []|intros pts [| |] (_ & H); [destruct H|destruct H as (? & ? & [] & _)|destruct H as (? & [])]].
    - destruct py as [|[|a outer] holes].
      + destruct (IH clip rs0 Sc) as (clip' & rs & E & G & R1 & R2). exists clip', rs. split; [exact E|]. split; [exact G|]. split.
        * intros r H. destruct (R1 r H) as (pts & (N & I) & A). exists pts. split; [|exact A]. split; [exact N|]. destruct (h_label r); [exact I| |].
          -- destruct I as (o & hs & I & Q). exists o, hs. split; [now right|exact Q].
          -- destruct I as (hs & I). exists hs. now right.
        * intros pts l (N & I). apply R2. split; [exact N|]. destruct l; [exact I| |].
          -- destruct I as (o & hs & [I|I] & Q); [discriminate|]. eauto.
          -- destruct I as (hs & [I|I]); [discriminate|]. eauto.
      + destruct (IH clip rs0 Sc) as (clip' & rs & E & G & R1 & R2). exists clip', rs. split; [exact E|]. split; [exact G|]. split.
        * intros r H. destruct (R1 r H) as (pts & (N & I) & A). exists pts. split; [|exact A]. split; [exact N|]. destruct (h_label r); [exact I| |].
          -- destruct I as (o & hs & I & Q). exists o, hs. split; [now right|exact Q].
          -- destruct I as (hs & I). exists hs. now right.
        * intros pts l (N & I). apply R2. split; [exact N|]. destruct l; [exact I| |].
          -- destruct I as (o & hs & [I|I] & Q & Q'); [injection I as <- _; now elim Q|]. eauto.
          -- destruct I as (hs & [I|I]); [injection I as <- _; now elim N|]. eauto.
      + inversion_clear Fp as [|? ? Fo Fh]. cbn [append_polygons]. destruct (new_answers (a :: outer) Inside Fo) as (r0 & E0 & L0 & A0). rewrite E0. cbn [bind]. unfold append_ring. cbn [fst snd].
        destruct (add_to_around clip (hring_extent r0) Sc (proj1 A0)) as (S1 & G1 & G2).
        destruct (append_holes_spec holes Fh _ (rs0 ++ [r0]) S1) as (c1 & rh & Eh & (Ha & Hb & Hc) & H1 & H2). rewrite Eh. cbn [bind].
        destruct (IH c1 ((rs0 ++ [r0]) ++ rh) Ha) as (clip' & rs & E & (Ga & Gb & Gc) & R1 & R2). exists clip', (r0 :: rh ++ rs). rewrite E. split; [now rewrite <- !app_assoc|].
        split; [|split].
        * split; [exact Ga|]. split; [auto|]. intros r q [<-|H] Q; [auto|]. apply in_app_or in H. destruct H as [H|H]; [apply Gb; exact (Hc r q H Q)|exact (Gc r q H Q)].
        * intros r [<-|H]; [exists (a :: outer); split; [|exact A0]; rewrite L0; split; [discriminate|exists holes; now left]|].
          apply in_app_or in H. destruct H as [H|H].
          -- destruct (H1 r H) as (pts & (N & L & I) & A). exists pts. split; [|exact A]. split; [exact N|]. rewrite L. exists (a :: outer), holes. split; [now left|]. split; [discriminate|exact I].
          -- destruct (R1 r H) as (pts & (N & I) & A). exists pts. split; [|exact A]. split; [exact N|]. destruct (h_label r); [exact I| |].
             ++ destruct I as (o & hs & I & Q). exists o, hs. split; [now right|exact Q].
             ++ destruct I as (hs & I). exists hs. now right.
        * intros pts l (N & I). destruct l; [now destruct I| |].
          -- destruct I as (o & hs & [I|I] & Q & Q').
             ++ injection I as <- <-. destruct (H2 pts Outside) as (r & Hin & Q2); [auto|]. exists r. split; [right; apply in_or_app; now left|exact Q2].
             ++ destruct (R2 pts Outside) as (r & Hin & Q2); [split; [exact N|eauto]|]. exists r. split; [right; apply in_or_app; now right|exact Q2].
          -- destruct I as (hs & [I|I]).
             ++ injection I as <- <-. exists r0. split; [now left|auto].
             ++ destruct (R2 pts Inside) as (r & Hin & Q2); [split; [exact N|eauto]|]. exists r. split; [right; apply in_or_app; now right|exact Q2].
  Qed.

  (** ** The order of the rings *)
  Lemma smaller_order rs : (forall r, In r rs -> small_ext (hring_extent r) /\ h_label r <> Unknown) ->
    in_order (fun a b => smaller a b = true) (sort_rings smaller rs).
  Proof.
    intros H. apply (proj2 (Hr smaller rs)).
    - intros a Ha. unfold smaller. destruct (h_label a); apply f64_lt_irrefl.
    - intros a b d Ha Hb Hd. unfold smaller, hring_area. destruct (H a Ha) as [_ Na], (H b Hb) as [_ Nb], (H d Hd) as [_ Nd].
      destruct (h_label a), (h_label b), (h_label d); cbn [label_eqb negb]; try congruence; intros A B; apply lt_inv in A, B; destruct A as (A1 & A2 & A3), B as (B1 & B2 & B3);
        (rewrite lt_key by assumption; apply Z.ltb_lt; lia).
    - intros a b d Ha Hb Hd. unfold smaller, hring_area. destruct (H a Ha) as [Sa Na], (H b Hb) as [Sb Nb], (H d Hd) as [Sd Nd].
      apply small_area_nn in Sa, Sb, Sd. 
      destruct (h_label a), (h_label b), (h_label d); cbn [label_eqb negb]; try congruence; rewrite !lt_key by assumption; lia.
  Qed.

  Lemma first_hit_spec p : small_pt p -> forall rings, (forall r, In r rings -> h_label r <> Unknown /\ exists pts, answers r pts) ->
    in_order (fun a b => smaller a b = true) rings ->
    exists l, first_hit rings p = Ok l /\ (l = Inside \/ l = Outside) /\
      (l = Inside <-> (exists r, In r rings /\ h_label r = Inside /\ hring_contains r p = Ok true) /\
                      (forall r, In r rings -> h_label r = Outside -> hring_contains r p = Ok false)).
  Proof.
    intros Hp. induction rings as [|r rings IH]; intros A O.
    - exists Outside. split; [reflexivity|]. split; [now right|]. split; [discriminate|]. intros ((r & [] & _) & _).
    - destruct (A r (or_introl eq_refl)) as (Nl & pts & _ & An). destruct (An p Hp) as (v & Ev & _).
      assert (A' : forall r', In r' rings -> h_label r' <> Unknown /\ exists pts, answers r' pts) by (intros r' H'; apply A; now right).
      assert (O' : in_order (fun a b => smaller a b = true) rings) by (intros i j x y Hij Hi Hj; apply (O (S i) (S j) x y); [lia|exact Hi|exact Hj]).
      destruct (IH A' O') as (l & El & Cl & Il). cbn [first_hit]. rewrite Ev. cbn [bind]. destruct v.
      + exists (h_label r). split; [reflexivity|]. split; [destruct (h_label r); tauto|]. split.
        * intros L. split; [exists r; split; [now left|auto]|]. intros r' [<-|H'] L'; [congruence|]. exfalso.
          apply In_nth_error in H'. destruct H' as (j & Hj). apply (O 0 (S j) r r'); [lia|reflexivity|exact Hj|]. unfold smaller. rewrite L, L'. reflexivity.
        * intros (_ & Q). destruct (h_label r) eqn:L; [congruence| |reflexivity]. specialize (Q r (or_introl eq_refl) L). congruence.
      + exists l. split; [exact El|]. split; [exact Cl|]. rewrite Il. split.
        * intros ((x & Hx & Lx & Cx) & Q). split; [exists x; split; [now right|auto]|]. intros r' [<-|H'] L'; [exact Ev|now apply Q].
        * intros ((x & [<-|Hx] & Lx & Cx) & Q); [congruence|]. split; [exists x; auto|]. intros r' H' L'. apply Q; [now right|exact L'].
  Qed.

  Theorem polygons_spec plys : Forall (Forall (Forall small_pt)) plys ->
    exists h, new_from_polygons sorted nums sort_rings None plys = Ok h /\
      forall p, small_pt p -> exists l, label_for h p = Ok l /\ (l = Inside \/ l = Outside) /\ (l = Inside <-> hit plys p).
  Proof.
    intros F. destruct (append_polygons_spec plys F zero_extent [] zero_small) as (clip & rs & E & (G1 & _ & G3) & R1 & R2).
    unfold new_from_polygons. rewrite E. cbn [bind fst snd app]. eexists. split; [reflexivity|]. intros p Hp. cbn [label_for]. unfold polygon_label.
    destruct Hp as [Hx Hy]. destruct (round_small _ Hx) as (x' & Ex & Sx & Vx), (round_small _ Hy) as (y' & Ey & Sy & Vy). rewrite Ex. cbn [bind]. rewrite Ey. cbn [bind].
    assert (Hp' : small_pt (x', y')) by (split; assumption). assert (Vp : rpt (x', y') = rpt p) by (unfold rpt; cbn [fst snd]; now rewrite Vx, Vy).
    set (rings := sort_rings smaller rs).
    assert (Pm : Permutation rs rings) by apply Hr.
    assert (Io : forall r, In r rs -> h_label r <> Unknown /\ exists pts, answers r pts).
    { intros r H. destruct (R1 r H) as (pts & (_ & I) & A). split; [destruct (h_label r); [destruct I|discriminate|discriminate]|eauto]. }
    assert (Or : in_order (fun a b => smaller a b = true) rings).
    { apply smaller_order. intros r H. destruct (Io r H) as (N & pts & A & _). auto. }
    assert (Hit : hit plys (x', y') <-> (exists r, In r rs /\ h_label r = Inside /\ hring_contains r (x', y') = Ok true) /\
                      (forall r, In r rs -> h_label r = Outside -> hring_contains r (x', y') = Ok false)).
    { unfold hit. split.
      - intros ((outer & holes & I & C) & Q). split.
        + destruct (R2 outer Inside) as (r & Hin & L & A); [split; [|eauto]; intros ->; destruct C as [(e & [] & _)|C]; discriminate|].
          exists r. split; [exact Hin|]. split; [exact L|]. destruct (proj2 A (x', y') Hp') as (v & Ev & _ & V). rewrite L in V. rewrite Ev. f_equal. now apply V.
        + intros r Hin L. destruct (R1 r Hin) as (pts & (N & I') & A). rewrite L in I'. destruct I' as (o & hs & I' & No & Ih).
          destruct (proj2 A (x', y') Hp') as (v & Ev & _ & V). rewrite L in V. rewrite Ev. f_equal. destruct v; [|reflexivity]. exfalso. apply (Q o hs pts I' No Ih). now apply V.
      - intros ((r & Hin & L & C) & Q). split.
        + destruct (R1 r Hin) as (pts & (N & I') & A). rewrite L in I'. destruct I' as (hs & I'). exists pts, hs. split; [exact I'|].
          destruct (proj2 A (x', y') Hp') as (v & Ev & _ & V). rewrite L in V. rewrite C in Ev. apply V. congruence.
        + intros o hs h I No Ih W. destruct (R2 h Outside) as (r' & Hin' & L' & A'); [split; [|eauto]; intros ->; destruct W as [_ W]; discriminate|].
          specialize (Q r' Hin' L'). destruct (proj2 A' (x', y') Hp') as (v & Ev & _ & V). rewrite L' in V. rewrite Q in Ev. apply V in W. congruence. }
    destruct (contains_point (Some clip) (x', y')) eqn:C; cbn [negb].
    - destruct (first_hit_spec (x', y') Hp' rings) as (l & El & Cl & Il); [intros r H; apply Io; now apply (Permutation_in _ (Permutation_sym Pm))|exact Or|].
      exists l. split; [exact El|]. split; [exact Cl|]. rewrite Il, <- (hit_value plys _ _ Vp), Hit. split.
      + intros ((r & Hin & Q1) & Q2). split; [exists r; split; [now apply (Permutation_in _ (Permutation_sym Pm))|exact Q1]|]. intros r' H'. apply Q2. now apply (Permutation_in _ Pm).
      + intros ((r & Hin & Q1) & Q2). split; [exists r; split; [now apply (Permutation_in _ Pm)|exact Q1]|]. intros r' H'. apply Q2. now apply (Permutation_in _ (Permutation_sym Pm)).
    - exists Outside. split; [reflexivity|]. split; [now right|]. split; [discriminate|]. intros H. exfalso.
      apply (hit_value plys _ _ Vp) in H. apply Hit in H. destruct H as ((r & Hin & L & Q) & _).
      assert (Ar : around clip (rpt (x', y'))). { destruct (R1 r Hin) as (pts & _ & A). destruct (proj2 A (x', y') Hp') as (v & Ev & V & _). rewrite Q in Ev. apply (G3 r _ Hin). apply V. congruence. }
      apply (in_bbox clip (x', y') G1 Hp') in Ar. congruence.
  Qed.

  (** ** Collections *)
  Definition labels (h : hitmap) (H : pt -> Prop) : Prop :=
    forall p, small_pt p -> exists l, label_for h p = Ok l /\ (l = Inside \/ l = Outside) /\ (l = Inside <-> H p).
  Lemma ordered_labels (hms : list hitmap) (H : hitmap -> pt -> Prop) : (forall h, In h hms -> labels h (H h)) ->
    labels (HOrdered hms) (fun p => exists h, In h hms /\ H h p).
  Proof.
    intros L p Hp. cbn [label_for]. induction hms as [|h hms IH].
    - exists Outside. split; [reflexivity|]. split; [now right|]. split; [discriminate|intros (h & [] & _)].
    - destruct (L h (or_introl eq_refl) p Hp) as (l & El & Cl & Il). destruct IH as (l' & El' & Cl' & Il'); [intros h' Hh; apply L; now right|].
      rewrite El. cbn [bind]. destruct Cl as [-> | ->]; cbn [label_eqb].
      + exists Inside. split; [reflexivity|]. split; [now left|]. split; [|reflexivity]. intros _. exists h. split; [now left|now apply Il].
      + exists l'. split; [exact El'|]. split; [exact Cl'|]. rewrite Il'. split.
        * intros (x & Hx & Q). exists x. split; [now right|exact Q].
        * intros (x & [<-|Hx] & Q); [apply Il in Q; discriminate|]. eauto.
  Qed.
  Theorem ordered_first hms p : (forall h, In h hms -> exists l, label_for h p = Ok l) -> exists l, label_for (new_ordered hms) p = Ok l /\
    (l = Inside \/ l = Outside) /\ (l = Inside <-> exists h, In h hms /\ label_for h p = Ok Inside).
  Proof.
    intros A. assert (A' : forall h, In h (rev hms) -> exists l, label_for h p = Ok l) by (intros h H; apply A; now apply in_rev).
    assert (G : exists l, label_for (HOrdered (rev hms)) p = Ok l /\ (l = Inside \/ l = Outside) /\ (l = Inside <-> exists h, In h (rev hms) /\ label_for h p = Ok Inside)).
    { cbn [label_for]. induction (rev hms) as [|h tl IH].
      - exists Outside. split; [reflexivity|]. split; [now right|]. split; [discriminate|intros (h & [] & _)].
      - destruct (A' h (or_introl eq_refl)) as (l & El). destruct IH as (l' & El' & Cl' & Il'); [intros h' Hh; apply A'; now right|].
        rewrite El. cbn [bind]. destruct (label_eqb l Inside) eqn:B.
        + exists Inside. split; [reflexivity|]. split; [now left|]. split; [|reflexivity]. intros _. exists h. split; [now left|]. destruct l; try discriminate. exact El.
        + exists l'. split; [exact El'|]. split; [exact Cl'|]. rewrite Il'. split.
          * intros (x & Hx & Q). exists x. split; [now right|exact Q].
          * intros (x & [<-|Hx] & Q); [rewrite El in Q; injection Q as ->; discriminate|]. eauto. }
    destruct G as (l & El & Cl & Il). exists l. split; [exact El|]. split; [exact Cl|]. rewrite Il. split; intros (h & Hh & Q); exists h; (split; [|exact Q]); [now apply in_rev|now apply -> in_rev].
  Qed.

  Lemma new_members gs : Forall (fun g => small_geom g -> unknown_inside g = false -> exists h, new_hitmap sorted nums sort_rings sort_maps g = Ok h /\
      match h with None => thin g = true | Some h => thin g = false /\ labels h (fun p => hit_geom p g) end) gs ->
    Forall small_geom gs -> existsb unknown_inside gs = false ->
    exists hms, (fix members (l : list (geom f64)) : res unit (list hitmap) :=
                     match l with
                     | [] => Ok []
                     | g :: tl =>
                         do h <- new_hitmap sorted nums sort_rings sort_maps g;
                         do hs <- members tl;
                         Ok (match h with None => hs | Some h => h :: hs end)
                     end) gs = Ok hms /\
      (forall h, In h hms -> exists g, In g gs /\ labels h (fun p => hit_geom p g)) /\
      (forall g, In g gs -> thin g = false -> exists h, In h hms /\ labels h (fun p => hit_geom p g)).
  Proof.
    induction 1 as [|g gs Hg F IH]; intros S U.
    - exists []. split; [reflexivity|]. split; [intros h []|intros g []].
    - inversion_clear S as [|? ? S1 S2]. cbn [existsb] in U. apply orb_false_iff in U as [U1 U2].
      destruct (Hg S1 U1) as (h & E & A). destruct (IH S2 U2) as (hms & E' & A1 & A2). rewrite E. cbn [bind]. rewrite E'. cbn [bind].
      eexists. split; [reflexivity|]. destruct h as [h|].
      + split.
        * intros x [<-|H]; [exists g; split; [now left|apply A]|]. destruct (A1 x H) as (y & Hy & Q). exists y. split; [now right|exact Q].
        * intros x [<-|H] T; [exists h; split; [now left|apply A]|]. destruct (A2 x H T) as (y & Hy & Q). exists y. split; [now right|exact Q].
      + split.
        * intros x H. destruct (A1 x H) as (y & Hy & Q). exists y. split; [now right|exact Q].
        * intros x [<-|H] T; [congruence|]. exact (A2 x H T).
  Qed.
  Lemma thin_no_hit p g : thin g = true -> ~ hit_geom p g.
  Proof. intros T H. destruct H; discriminate. Qed.

  Theorem new_spec g : small_geom g -> unknown_inside g = false -> exists h, new_hitmap sorted nums sort_rings sort_maps g = Ok h /\
      match h with None => thin g = true | Some h => thin g = false /\ labels h (fun p => hit_geom p g) end.
  Proof.
    induction g as [p|ps|ps|ls|rs|pls|gs IH|] using geom_ind'; intros S U; cbn [new_hitmap].
    1-4: exists None; split; reflexivity.
    - inversion_clear S as [| | | | |? F| |]. destruct (polygons_spec [rs]) as (h & E & L); [now constructor|]. rewrite E. cbn [bind]. exists (Some h). split; [reflexivity|]. split; [reflexivity|].
      intros p Hp. destruct (L p Hp) as (l & El & Cl & Il). exists l. split; [exact El|]. split; [exact Cl|]. rewrite Il. split; [now constructor|]. now inversion 1.
    - inversion_clear S as [| | | | | |? F|]. destruct (polygons_spec pls F) as (h & E & L). rewrite E. cbn [bind]. exists (Some h). split; [reflexivity|]. split; [reflexivity|].
      intros p Hp. destruct (L p Hp) as (l & El & Cl & Il). exists l. split; [exact El|]. split; [exact Cl|]. rewrite Il. split; [now constructor|]. now inversion 1.
    - inversion_clear S as [| | | | | | |? F]. cbn [unknown_inside] in U. destruct (new_members gs IH F U) as (hms & E & A1 & A2). rewrite E. cbn [bind].
      eexists. split; [reflexivity|]. split; [reflexivity|]. unfold new_ordered.
      assert (Pm : Permutation (rev (sort_maps less_area hms)) hms).
      { eapply perm_trans; [apply Permutation_sym, Permutation_rev|]. apply Permutation_sym, Hm. }
      intros p Hp. destruct (ordered_labels (rev (sort_maps less_area hms)) (fun h p => exists g, In g gs /\ labels h (fun p => hit_geom p g) /\ hit_geom p g)) with (p := p) as (l & El & Cl & Il); [|exact Hp|].
      + intros h H q Hq. apply (Permutation_in _ Pm) in H. destruct (A1 h H) as (g & Hg & L). destruct (L q Hq) as (l & El & Cl & Il). exists l. split; [exact El|]. split; [exact Cl|]. split.
        * intros Q. exists g. split; [exact Hg|]. split; [exact L|now apply Il].
        * intros (g' & Hg' & L' & Q). destruct (L' q Hq) as (l' & El' & _ & Il'). apply Il' in Q. congruence.
      + exists l. split; [exact El|]. split; [exact Cl|]. rewrite Il. split.
        * intros (h & _ & g & Hg & _ & Q). now apply hit_member with g.
        * intros Q. inversion_clear Q as [| |g ? Hg Q']. destruct (thin g) eqn:T; [now apply (thin_no_hit p) in T|].
          destruct (A2 g Hg T) as (h & Hh & L). exists h. split; [now apply (Permutation_in _ (Permutation_sym Pm))|]. eauto.
    - discriminate.
  Qed.
  Theorem new_unknown g : small_geom g -> unknown_inside g = true -> new_hitmap sorted nums sort_rings sort_maps g = Err tt.
  Proof.
    induction g as [p|ps|ps|ls|rs|pls|gs IH|] using geom_ind'; intros S U; cbn [new_hitmap]; try discriminate; [|reflexivity].
    inversion_clear S as [| | | | | | |? F]. cbn [unknown_inside] in U.
    match goal with |- bind ?m _ = _ => assert (m = Err tt) as ->; [|reflexivity] end.
    induction IH as [|g gs Hg Fs IH']; [discriminate|]. inversion_clear F as [|? ? F1 F2]. cbn [existsb] in U. destruct (unknown_inside g) eqn:Ug.
    - rewrite (Hg F1 eq_refl). reflexivity.
    - destruct (new_spec g F1 Ug) as (h & -> & _). cbn [bind]. cbn [orb] in U. rewrite (IH' U F2). reflexivity.
  Qed.
End Labels.
