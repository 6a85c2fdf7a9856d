(** Proofs about planar/makevalid: which triangles are kept, what Makevalid returns, examples *)
From Coq Require Import ZArith Bool List Lia Reals Lra Permutation.
From Flocq Require Import Core.Core.
From Verif Require Import Base_Res Base_F64 Base_F64Arith Base_Geom M_Geom M_Extent M_Cmp M_Intersect M_Sweep M_Triangle M_Rtree M_Ring M_Winding M_Hitmap M_Walker M_Makevalid
  S_Geom S_Extent S_Cmp S_Intersect S_RtreeEx S_Sweep P_F64 P_F64Flocq P_F64Round P_F64Grid P_Extent P_Extent2 P_Cmp P_Cmp2 P_Cmp3 P_PlanarLine P_Planar P_Intersect3 P_Intersect4 P_Sweep2 P_Sweep3 P_Ring P_Ring2 P_Ring3 P_Hitmap2 P_Hitmap3 S_Walker P_Walker4 P_Walker10
  S_Hitmap S_Ring S_Makevalid P_Makevalid P_Makevalid2 P_Makevalid3 P_Makevalid4.
Import ListNotations.
Local Open Scope Z_scope.

(** ** The centre *)
Lemma center_dim a b c n : S_Ring.small_int a -> S_Ring.small_int b -> S_Ring.small_int c -> ((f64_R a + f64_R b + f64_R c) / 3 = IZR n)%R ->
  S_Ring.small_int (f64_div (f64_add (f64_add a b) c) f64_three) /\ f64_R (f64_div (f64_add (f64_add a b) c) f64_three) = IZR n.
Proof.
  intros (x & X & Bx) (y & Y & By) (z & Z & Bz) E.
  assert (Q : repr 0 (x + y + z) (f64_add (f64_add a b) c)).
  { apply repr_add; [lia|unfold two53; lia| |exact Z]. apply repr_add; [lia|unfold two53; lia|exact X|exact Y]. }
  rewrite (proj2 (proj2 (repr_int _ _ X))), (proj2 (proj2 (repr_int _ _ Y))), (proj2 (proj2 (repr_int _ _ Z))) in E.
  assert (E' : x + y + z = n * 3).
  { apply eq_IZR. rewrite mult_IZR, !plus_IZR. lra. }
  rewrite E' in Q. assert (D : repr 0 n (f64_div (f64_add (f64_add a b) c) f64_three)).
  { apply (repr_div_int 0 n 3); [lia|unfold two53; lia|lia|exact Q|exact R3]. }
  split; [exists n; split; [exact D|lia]|apply (repr_int _ _ D)].
Qed.
Lemma center_small t : centred t -> small_pt (center t) /\ rpt (center t) = centroid t.
Proof.
  destruct t as [[a b] c]. intros (S & n & m & E). cbn [centroid] in E. injection E as E1 E2. unfold rpt in E1, E2. cbn [fst snd] in E1, E2.
  destruct (S a) as [A1 A2]; [now left|]. destruct (S b) as [B1 B2]; [right; now left|]. destruct (S c) as [C1 C2]; [right; right; now left|].
  destruct (center_dim _ _ _ n A1 B1 C1 E1) as [X1 X2], (center_dim _ _ _ m A2 B2 C2 E2) as [Y1 Y2].
  split; [split; assumption|]. unfold center, centroid, rpt. cbn [fst snd]. now rewrite X2, Y2, E1, E2.
Qed.
Lemma hit_value plys p q : rpt p = rpt q -> hit plys p -> hit plys q.
Proof. intros E. unfold hit, covers, within. rewrite E. auto. Qed.
Lemma centre_hit_center mp t : centred t -> hit mp (center t) <-> centre_hit mp t.
Proof.
  intros C. destruct (center_small t C) as [_ E]. split; [intros H; exists (center t); auto|]. intros (p & Ep & H). eapply hit_value; [|exact H]. congruence.
Qed.

(** ** The triangles which are kept *)
Lemma sifted_in {A} (P : A -> Prop) ts l : sifted P ts l -> forall x, In x l -> In x ts.
Proof. induction 1; intros y Hy; [destruct Hy|destruct Hy as [<-|Hy]; [now left|right; auto]|right; auto]. Qed.
Lemma sifted_index {A} (P : A -> Prop) ts l : sifted P ts l ->
  exists f : nat -> nat, (forall i j, f i = f j -> i = j) /\ forall i x, nth_error l i = Some x -> nth_error ts (f i) = Some x.
Proof.
  induction 1 as [|x ts l Px H (f & I & F)|x ts l Nx H (f & I & F)].
  - exists (fun i => i). split; [auto|]. intros [|i] x; discriminate.
  - exists (fun i => match i with O => O | S i => S (f i) end). split.
    + intros [|i] [|j] E; try discriminate; [reflexivity|]. injection E as E. now rewrite (I _ _ E).
    + intros [|i] y Hy; [exact Hy|]. cbn [nth_error] in *. now apply F.
  - exists (fun i => S (f i)). split; [intros i j E; injection E; apply I|]. intros i y Hy. cbn [nth_error]. now apply F.
Qed.
Lemma sifted_coherent P ts l : sifted P ts l -> coherent ts -> coherent l.
Proof.
  intros H ((C1 & C2 & C3) & C4). pose proof (sifted_in P ts l H) as Hin. split; [split; [|split]|].
  - intros t p Ht. apply C1. auto.
  - intros a b c Ht. apply C2. auto.
  - intros t u p q Ht Hu. apply C3; auto.
  - destruct (sifted_index P ts l H) as (f & I & F). intros i j t u a b a' b' Hi Hj A B E1 E2. apply I. exact (C4 (f i) (f j) t u a b a' b' (F _ _ Hi) (F _ _ Hj) A B E1 E2).
Qed.
Lemma inside_triangles_spec {E} (halt : nat -> option E) hm (P : triangle -> Prop) : (forall k, halt k = None) ->
  forall ts, (forall t, In t ts -> exists l, label_for hm (center t) = Ok l /\ (l = Inside \/ l = Outside) /\ (l = Inside <-> P t)) ->
  forall n, exists kept, inside_triangles halt hm n ts = Ok kept /\ sifted P ts kept.
Proof.
  intros Hh. induction ts as [|t tl IH]; intros H n; cbn [inside_triangles]; [exists []; split; [reflexivity|constructor]|].
  rewrite Hh. destruct (H t (or_introl eq_refl)) as (l & -> & [-> | ->] & I); destruct (IH (fun t' H' => H t' (or_intror H')) (S n)) as (kept & -> & Q).
  - exists (t :: kept). split; [reflexivity|]. apply sifted_keep; [now apply I|exact Q].
  - exists kept. split; [reflexivity|]. apply sifted_drop; [|exact Q]. intros X. apply I in X. discriminate.
Qed.
Lemma small_forall mp : small_mp mp -> Forall (Forall (Forall small_pt)) mp.
Proof. intros S. apply Forall_forall. intros poly H1. apply Forall_forall. intros r H2. apply Forall_forall. intros p H3. eapply S; eassumption. Qed.

Section Pipe.
  Context {E : Type}.
  Variable sort_events : (event -> event -> bool) -> list event -> list event.
  Variable sort_pts : (pt -> pt -> bool) -> list pt -> list pt.
  Variable sort_lines : (line -> line -> bool) -> list line -> list line.
  Variable sorted : nat -> list (entry seg_rect) -> list (entry seg_rect).
  Variable nums : list seg_rect -> nat * Z * Z * Z.
  Variable sort_hrings : (hring -> hring -> bool) -> list hring -> list hring.
  Hypothesis Hperm : forall i es, Permutation (sorted i es) es.
  Hypothesis Hnums : numbers_ok nums.
  Hypothesis Hrings : sorts sort_hrings.
  Variable triangulate : list line -> res E (list triangle).
  Variable extent_error unknown : E.

  Lemma kept_spec clipbox mp segs ts : small_mp mp ->
    destructure (E := E) sort_events sort_pts sort_lines default_compare (fun _ => None) (fun _ => false) hi_cmp clipbox mp = Ok segs -> segs <> [] ->
    triangulate segs = Ok ts -> Forall centred ts ->
    exists hm kept, new_from_polygons sorted nums sort_hrings None mp = Ok hm /\ sifted (centre_hit mp) ts kept /\
      inside_triangles_for_mp sort_events sort_pts sort_lines default_compare triangulate (fun _ => None) (fun _ => false) (fun _ => None) extent_error clipbox mp hm = Ok kept.
  Proof.
    intros S Ed Ne Et Ce. destruct (polygons_spec sorted nums sort_hrings Hperm Hnums Hrings mp (small_forall mp S)) as (hm & Eh & L).
    destruct (inside_triangles_spec (fun _ => @None E) hm (centre_hit mp) (fun _ => eq_refl) ts) with (n := 0%nat) as (kept & Ek & Sf).
    { intros t Ht. rewrite Forall_forall in Ce. specialize (Ce t Ht). destruct (center_small t Ce) as [Sc _]. destruct (L (center t) Sc) as (l & El & Cl & Il).
      exists l. split; [exact El|]. split; [exact Cl|]. rewrite Il. now apply centre_hit_center. }
    exists hm, kept. split; [exact Eh|]. split; [exact Sf|]. unfold inside_triangles_for_mp. rewrite Ed. destruct segs as [|s segs]; [congruence|].
    unfold inside_triangles_for_segments. rewrite Et. cbn [bind]. exact Ek.
  Qed.
  Theorem makevalid_spec clipper clipbox mp segs ts : small_mp mp ->
    destructure (E := E) sort_events sort_pts sort_lines default_compare (fun _ => None) (fun _ => false) hi_cmp clipbox mp = Ok segs -> segs <> [] ->
    triangulate segs = Ok ts -> Forall centred ts -> coherent ts ->
    exists kept, sifted (centre_hit mp) ts kept /\ 
      match kept with
      | [] => makevalid sort_events sort_pts sort_lines sorted nums sort_hrings default_compare triangulate (fun _ => None) (fun _ => false) (fun _ => None) (fun _ => false) extent_error unknown clipper (GMultiPolygon mp) clipbox = Ok (Pointer None, true)
      | _ => exists groups,
          makevalid sort_events sort_pts sort_lines sorted nums sort_hrings default_compare triangulate (fun _ => None) (fun _ => false) (fun _ => None) (fun _ => false) extent_error unknown clipper (GMultiPolygon mp) clipbox =
            Ok (Pointer (Some (Some (flat_map (fun go => kept_polygon (match snd go with None => None | Some rs => fst (rectify_polygon false rs) end)) groups))), true) /\
          Permutation (concat (map fst groups)) (seq 0 (length kept)) /\
          (forall g o, In (g, o) groups -> component kept g /\ made_from kept g o)
      end.
  Proof.
    intros S Ed Ne Et Ce Co. destruct (kept_spec clipbox mp segs ts S Ed Ne Et Ce) as (hm & kept & Eh & Sf & Ek). exists kept. split; [exact Sf|].
    cbn [makevalid]. unfold makevalid_polygon. rewrite Eh, Ek. cbn [bind]. destruct kept as [|k kept]; [reflexivity|].
    destruct (multi_components (k :: kept) (fun _ => false) false (sifted_coherent _ _ _ Sf Co) (fun _ => eq_refl)) as (groups & seen & n & Em & P & G).
    exists groups. rewrite Em. cbn [bind]. split; [reflexivity|]. split; assumption.
  Qed.
  (** A polygon is a multipolygon of one polygon. *)
  Lemma makevalid_single ctx stop halt walk clipper clipbox rs :
    makevalid sort_events sort_pts sort_lines sorted nums sort_hrings default_compare triangulate ctx stop halt walk extent_error unknown clipper (GPolygon rs) clipbox =
    makevalid sort_events sort_pts sort_lines sorted nums sort_hrings default_compare triangulate ctx stop halt walk extent_error unknown clipper (GMultiPolygon [rs]) clipbox.
  Proof. reflexivity. Qed.
  Lemma makevalid_flat ctx stop halt walk clipbox g : flat g ->
    makevalid sort_events sort_pts sort_lines sorted nums sort_hrings default_compare triangulate ctx stop halt walk extent_error unknown None g clipbox = Ok (Same g, false) /\
    forall clip, makevalid sort_events sort_pts sort_lines sorted nums sort_hrings default_compare triangulate ctx stop halt walk extent_error unknown (Some clip) g clipbox =
      match clip g clipbox with Ok o => Ok (Clipped o, true) | Err e => Err e | Panic => Panic end.
  Proof. destruct g; intros []; (split; [reflexivity|]); intros clip; cbn [makevalid]; destruct (clip _ clipbox); reflexivity. Qed.
  Lemma makevalid_unknown ctx stop halt walk clipper clipbox g : (exists gs, g = GCollection gs) \/ g = GUnknown ->
    makevalid sort_events sort_pts sort_lines sorted nums sort_hrings default_compare triangulate ctx stop halt walk extent_error unknown clipper g clipbox = Err unknown.
  Proof. intros [[gs ->] | ->]; reflexivity. Qed.
End Pipe.

(** ** Segments along the axes *)
Definition rectilinear (ls : list line) : Prop :=
  forall l, In l ls -> small_seg l /\ (fst (rpt (fst l)) = fst (rpt (snd l)) \/ snd (rpt (fst l)) = snd (rpt (snd l))).
Lemma rectilinear_grid ls : rectilinear ls -> meet_on_grid ls.
Proof.
  intros H a b q Ha Hb Np (t & T & Et) (u & U & Eu). destruct (H a Ha) as [[Sa _] Da], (H b Hb) as [[Sb _] Db].
  destruct Sa as [(n & N & _) (m & M & _)], Sb as [(n' & N' & _) (m' & M' & _)].
  assert (Q1 : fst q = (fst (rpt (fst a)) + t * (fst (rpt (snd a)) - fst (rpt (fst a))))%R /\ snd q = (snd (rpt (fst a)) + t * (snd (rpt (snd a)) - snd (rpt (fst a))))%R) by (rewrite Et; split; reflexivity).
  assert (Q2 : fst q = (fst (rpt (fst b)) + u * (fst (rpt (snd b)) - fst (rpt (fst b))))%R /\ snd q = (snd (rpt (fst b)) + u * (snd (rpt (snd b)) - snd (rpt (fst b))))%R) by (rewrite Eu; split; reflexivity).
  assert (V : fst (rpt (fst a)) = IZR n /\ snd (rpt (fst a)) = IZR m /\ fst (rpt (fst b)) = IZR n' /\ snd (rpt (fst b)) = IZR m') by (unfold rpt; cbn [fst snd]; repeat split; now apply repr_int).
  destruct V as (V1 & V2 & V3 & V4). unfold parallel in Np. cbn zeta in Np. destruct q as [x y]. cbn [fst snd] in Q1, Q2.
  destruct Da as [Da|Da], Db as [Db|Db].
  - exfalso. apply Np. rewrite <- Da, <- Db. ring.
  - exists n, m'. f_equal; [destruct Q1 as [Q _]; rewrite Q, <- Da, V1; ring|destruct Q2 as [_ Q]; rewrite Q, <- Db, V4; ring].
  - exists n', m. f_equal; [destruct Q2 as [Q _]; rewrite Q, <- Db, V3; ring|destruct Q1 as [_ Q]; rewrite Q, <- Da, V2; ring].
  - exfalso. apply Np. rewrite <- Da, <- Db. ring.
Qed.
