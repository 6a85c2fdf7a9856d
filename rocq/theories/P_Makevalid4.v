(** Proofs about planar/makevalid: Destructure as a whole *)
From Coq Require Import ZArith Bool List Lia Reals Lra Permutation.
From Flocq Require Import Core.Core.
From Verif Require Import Base_Res Base_F64 Base_F64Arith Base_Geom M_Geom M_Extent M_Cmp M_Intersect M_Sweep M_Walker M_Makevalid
  S_Geom S_Extent S_Cmp S_Intersect S_Sweep P_F64 P_F64Flocq P_F64Round P_F64Grid P_Extent P_Extent2 P_Cmp P_Cmp2 P_Cmp3 P_Intersect3 P_Sweep2 P_Sweep3 P_Ring P_Ring2 P_Walker4 S_Ring S_Makevalid P_Makevalid P_Makevalid2 P_Makevalid3.
Import ListNotations.
Local Open Scope R_scope.

(** ** Edges and extents of a multipolygon *)
Lemma chain_combine : forall r prev, chain_from prev r = combine (prev :: r) r.
Proof.
  induction r as [|p tl IH]; intros prev; [reflexivity|]. cbn [chain_from combine]. f_equal. rewrite IH. reflexivity.
Qed.
Lemma nth_last {A} (d : A) : forall l n, length l = S n -> nth_error l n = Some (last l d).
Proof.
  induction l as [|x tl IH]; intros n H; [discriminate|]. destruct tl as [|y tl]; [destruct n; [reflexivity|discriminate]|].
  destruct n as [|n]; [discriminate|]. injection H as H. cbn [nth_error]. rewrite (IH n); [reflexivity|]. cbn. now rewrite H.
Qed.
Lemma ring_segments_edges r : concat (ring_segments r) = ring_edges r.
Proof.
  destruct r as [|a [|b [|d tl]]]; try reflexivity. unfold ring_segments. cbn [length]. rewrite (nth_last a) by reflexivity.
  cbn [concat]. rewrite app_nil_r, chain_combine. reflexivity.
Qed.
Lemma concat_flat {A B} (f : A -> list (list B)) (g : A -> list B) (l : list A) : (forall x, concat (f x) = g x) -> concat (flat_map f l) = flat_map g l.
Proof. intros H. induction l as [|x tl IH]; [reflexivity|]. cbn [flat_map]. now rewrite concat_app, H, IH. Qed.
Lemma as_segments_mp mp : as_segments (GMultiPolygon mp) = Some (mp_edges mp).
Proof.
  unfold as_segments, mp_as_segments, mp_edges. f_equal. rewrite map_map, flat_map_concat_map. f_equal. apply map_ext. intros p. unfold polygon_as_segments.
  apply concat_flat. apply ring_segments_edges.
Qed.
Lemma combine_ends {A} (x y : A) l m : In (x, y) (combine l m) -> In x l /\ In y m.
Proof. intros H. split; [eapply in_combine_l|eapply in_combine_r]; eassumption. Qed.
Lemma last_in {A} (d : A) l : In (last l d) (d :: l).
Proof. induction l as [|x [|y tl] IH]; [now left|right; now left|]. destruct IH as [IH|IH]; [left; exact IH|right; right; exact IH]. Qed.
Lemma ring_edges_ends r l : In l (ring_edges r) -> In (fst l) r /\ In (snd l) r.
Proof.
  destruct l as [x y]. unfold ring_edges. destruct r as [|a [|b [|d tl]]]; [intros []|intros []|intros []|]. intros H. apply combine_ends in H as [[<-|H] H2]; [|auto].
  split; [|exact H2]. destruct (last_in a (a :: b :: d :: tl)) as [Q|Q]; [rewrite <- Q; now left|exact Q].
Qed.
Lemma mp_edges_in mp l : In l (mp_edges mp) -> exists poly r, In poly mp /\ In r poly /\ In (fst l) r /\ In (snd l) r.
Proof. unfold mp_edges. intros H. apply in_flat_map in H as (poly & Hp & H). apply in_flat_map in H as (r & Hr & H). apply ring_edges_ends in H as []. eauto 7. Qed.
Lemma mp_small mp : small_mp mp -> forall l, In l (mp_edges mp) -> small_seg l.
Proof. intros S l H. apply mp_edges_in in H as (poly & r & ? & ? & ? & ?). split; eapply S; eassumption. Qed.

Lemma mp_coords (mp : list (list (list pt))) p : In p (coords (GMultiPolygon mp)) <-> exists poly r, In poly mp /\ In r poly /\ In p r.
Proof.
  cbn [coords]. rewrite in_concat. split.
  - intros (r & H & Hp). apply in_concat in H as (poly & H1 & H2). eauto.
  - intros (poly & r & H1 & H2 & H3). exists r. split; [apply in_concat; eauto|exact H3].
Qed.
Lemma small_num_pt p : small_pt p -> num_pt p.
Proof. intros H. apply small_words in H as (? & ? & ? & ?). split; split; auto; now apply finite_nn. Qed.
Lemma inside_clip e p : clip_ok e -> small_pt p -> (S_Extent.inside e p <-> in_clip e (rpt p)).
Proof.
  intros (A & B & C & D & _) H. apply small_words in H as (W1 & F1 & W2 & F2).
  apply small_val in A as (? & ? & _), B as (? & ? & _), C as (? & ? & _), D as (? & ? & _).
  unfold S_Extent.inside, in_clip, rpt. cbn [fst snd]. rewrite !le_R by assumption. tauto.
Qed.
Lemma le_eq_l a b d : f64_eq a b = true -> f64_le a d = f64_le b d. Proof. apply eq_le. Qed.

Lemma extent_clip mp e : small_mp mp -> clip_ok e ->
  exists gext, new_extent_from_geometry (GMultiPolygon mp) = Some gext /\
    (some_point mp (fun _ => True) -> has_clipbox (Some e) gext = false <-> every_point mp (fun p => in_clip e (rpt p))) /\
    (~ some_point mp (fun _ => True) -> gext = None).
Proof.
  intros S Ce. assert (N : Forall num_pt (coords (GMultiPolygon mp))).
  { apply Forall_forall. intros p Hp. apply mp_coords in Hp as (poly & r & A & B & C). apply small_num_pt. eapply S; eassumption. }
  pose proof (extent_from_geometry (GMultiPolygon mp) N) as Q. destruct (new_extent_from_geometry (GMultiPolygon mp)) as [gext|] eqn:E; [|discriminate].
  exists gext. split; [reflexivity|]. destruct Q as [_ Q]. split.
  - intros (poly & r & p & I1 & I2 & I3 & _). assert (Np : coords (GMultiPolygon mp) <> []).
    { intros Z. assert (In p (coords (GMultiPolygon mp))) by (apply mp_coords; eauto). rewrite Z in H. destruct H. }
    destruct (new_extent_least _ N Np) as (f & Ef & Fin & _ & Fl). rewrite Ef in Q. destruct gext as [x|]; [|destruct Q].
    unfold has_clipbox. rewrite negb_false_iff. cbn [ext_values minX minY maxX maxY]. rewrite contains_within.
    assert (W : box_within (Ext (e0 x) (e1 x) (e2 x) (e3 x)) e <-> box_within f e).
    { destruct Q as (Q0 & Q1 & Q2 & Q3). unfold box_within. cbn [e0 e1 e2 e3].
      rewrite (eq_le' _ _ (e0 e) Q0), (eq_le' _ _ (e1 e) Q1), (eq_le _ _ (e2 e) Q2), (eq_le _ _ (e3 e) Q3). tauto. }
    unfold ext_values, minX, minY, maxX, maxY. rewrite W. split.
    + intros H poly' r' p' J1 J2 J3. apply inside_clip; [exact Ce|eapply S; eassumption|]. eapply within_inside; [exact H|]. apply Fin. apply mp_coords. eauto.
    + intros H. apply Fl. intros p' Hp'. apply mp_coords in Hp' as (poly' & r' & J1 & J2 & J3). apply inside_clip; [exact Ce|eapply S; eassumption|]. eapply H; eassumption.
  - intros No. assert (Z : coords (GMultiPolygon mp) = []).
    { destruct (coords (GMultiPolygon mp)) as [|p tl] eqn:Z; [reflexivity|]. exfalso. apply No. assert (I : In p (coords (GMultiPolygon mp))) by (rewrite Z; now left).
      apply mp_coords in I as (poly & r & ? & ? & ?). exists poly, r, p. auto. }
    assert (X := proj2 (extent_from_geometry_nil (GMultiPolygon mp)) (conj eq_refl Z)). rewrite X in E. injection E. auto.
Qed.
Lemma extent_some mp : small_mp mp -> exists gext, new_extent_from_geometry (GMultiPolygon mp) = Some gext.
Proof.
  intros S. assert (N : Forall num_pt (coords (GMultiPolygon mp))).
  { apply Forall_forall. intros p Hp. apply mp_coords in Hp as (poly & r & A & B & C). apply small_num_pt. eapply S; eassumption. }
  pose proof (extent_from_geometry (GMultiPolygon mp) N) as Q. destruct (new_extent_from_geometry (GMultiPolygon mp)) as [gext|] eqn:E; [eauto|discriminate].
Qed.
Lemma has_none e : clip_ok e -> has_clipbox (Some e) None = true.
Proof.
  intros (A & _ & _ & _ & _). apply small_val in A as (W & F & n & _ & B & V). unfold has_clipbox. rewrite negb_true_iff.
  unfold contains, ext_values, minX, minY, maxX, maxY. cbn [e0 e1 e2 e3].
  assert (f64_le (e0 e) f64_nmax = false) as ->; [|reflexivity].
  assert (R : repr 0 (-513) (f64_ofZ (-513))) by (apply repr_ofZ; unfold two53; lia). apply repr_int in R as (W5 & F5 & V5).
  destruct (f64_le (e0 e) f64_nmax) eqn:L; [exfalso|reflexivity]. apply le_R in L; [|exact W|reflexivity|exact F|reflexivity].
  assert (Q : f64_le f64_nmax (f64_ofZ (-513)) = true) by (vm_compute; reflexivity). apply le_R in Q; [|reflexivity|exact W5|reflexivity|exact F5].
  rewrite V5 in Q. rewrite V in L. assert (-512 <= IZR n) by (apply IZR_le; lia). lra.
Qed.

(** ** The sweep, the pieces, the duplicates *)
Section All.
  Variable sort_events : (event -> event -> bool) -> list event -> list event.
  Variable sort_pts : (pt -> pt -> bool) -> list pt -> list pt.
  Variable sort_lines : (line -> line -> bool) -> list line -> list line.
  Hypothesis He : sorts sort_events.
  Hypothesis Hp : sorts sort_pts.
  Hypothesis Hl : sorts sort_lines.
  Variable c : compare.
  Hypothesis Tc : tells_apart c.

  Lemma small_number segs : (forall l, In l segs -> small_seg l) -> number_segments segs.
  Proof.
    intros S l p H [<-|[<-|[]]]; destruct (S l H) as [A B]; apply small_words in A as (? & ? & ? & ?), B as (? & ? & ? & ?);
      split; split; auto; now apply finite_nn.
  Qed.
  Lemma call_all {E} todo : forall made, call_each (fun (_ : list call) (_ : call) => @Continue E) made todo = (made ++ todo, Ok tt).
  Proof. induction todo as [|x tl IH]; intros made; cbn [call_each]; [now rewrite app_nil_r|]. rewrite IH, <- app_assoc. reflexivity. Qed.

  Lemma arrange {E} segs clip : (forall l, In l segs -> small_seg l) -> meet_on_grid segs ->
    exists calls nsegs,
      find_intersects default_compare segs true (fun _ _ => Continue) (fun _ => @None E) (new_event_queue sort_events segs) = (calls, Ok tt) /\
      split sort_pts (fun _ => false) c clip calls 0 segs = Some nsegs /\
      (forall i j p, In (i, j, p) calls ->
       i <> j /\ exists a b, nth_error segs i = Some a /\ nth_error segs j = Some b /\ overlap_x a b /\
         reported default_compare true a b /\ p = fst (segment_intersect a b)) /\
      (forall i j a b, i <> j -> nth_error segs i = Some a -> nth_error segs j = Some b ->
       overlap_x a b -> reported default_compare true a b -> exists p, In (i, j, p) calls \/ In (j, i, p) calls) /\
      (forall l, In l (unique sort_lines nsegs) -> exists i s, nth_error segs i = Some s /\ In l (pieces_of sort_pts c calls clip i s)) /\
      (forall i s l, nth_error segs i = Some s -> In l (pieces_of sort_pts c calls clip i s) -> exists l', In l' (unique sort_lines nsegs) /\ same_line l l').
  Proof.
    intros S M. destruct (find_calls sort_events He segs (small_number segs S) default_compare default_positive true) as (F1 & F2 & F3 & _).
    set (calls := the_calls sort_events segs default_compare true) in *.
    destruct (split_spec sort_pts c calls (fun _ => false) clip segs) with (i := 0%nat) as (nsegs & Es & Ns); [reflexivity|].
    exists calls, nsegs. split; [rewrite F1; apply call_all|]. split; [exact Es|]. split; [exact F2|]. split; [exact F3|].
    assert (Sn : forall l, In l nsegs -> small_seg l).
    { intros l H. apply Ns in H as (k & s & Hk & H). destruct (piece_sound sort_pts Hp c Tc segs S M calls F2 clip k s l Hk H) as (_ & _ & Q & _). exact Q. }
    destruct (unique_set sort_lines nsegs Hl Sn) as [U1 U2]. split.
    - intros l H. apply U1, Ns in H as (k & s & Hk & H). eauto.
    - intros i s l Hi H. apply U2. apply Ns. eauto.
  Qed.
  Lemma same_line_on l l' q : same_line l l' -> on_segment l q -> on_segment l' q.
  Proof. intros [A B] (t & T & Et). exists t. split; [exact T|]. now rewrite <- A, <- B. Qed.
  Lemma rightward_ne l : rightward l -> rpt (fst l) <> rpt (snd l).
  Proof. intros H Q. unfold rightward in H. rewrite Q in H. lra. Qed.

  (** No box, or everything inside the box. *)
  Theorem destructure_plain {E} clipbox mp : small_mp mp -> meet_on_grid (mp_edges mp) ->
    match clipbox with None => True | Some e => clip_ok e /\ some_point mp (fun _ => True) /\ every_point mp (fun p => in_clip e (rpt p)) end ->
    exists out, destructure (E := E) sort_events sort_pts sort_lines default_compare (fun _ => None) (fun _ => false) c clipbox mp = Ok out /\
      (forall l, In l out -> small_pt (fst l) /\ small_pt (snd l) /\ rightward l) /\ noded out /\ (corners (mp_edges mp) -> settled out) /\
      (forall q, drawn out q <-> drawn (mp_edges mp) q).
  Proof.
    intros S M Hb. pose proof (mp_small mp S) as Ss. destruct (arrange (E := E) (mp_edges mp) None Ss M) as (calls & nsegs & Ef & Es & F2 & F3 & U1 & U2).
    exists (unique sort_lines nsegs). split.
    { unfold destructure. rewrite as_segments_mp. destruct clipbox as [e|].
      - destruct Hb as (Ce & Sp & Ev). destruct (extent_clip mp e S Ce) as (gext & Eg & H & _). rewrite Eg. rewrite (proj2 (H Sp) Ev). cbn [source_segments].
        rewrite Ef, Es. reflexivity.
      - destruct (extent_some mp S) as (gext & Eg). rewrite Eg. cbn [has_clipbox source_segments]. rewrite Ef, Es. reflexivity. }
    split; [|split; [|split]].
    - intros l H. apply U1 in H as (i & s & Hi & H). destruct (piece_sound sort_pts Hp c Tc _ Ss M calls F2 None i s l Hi H) as (_ & _ & [A B] & R & _). auto.
    - intros a b q Ha Hb' Np Qa Qb. apply U1 in Ha as (i & s & Hi & Ha), Hb' as (j & t & Hj & Hb').
      exact (pieces_noded sort_pts Hp c Tc _ Ss M calls F2 F3 None i j s t a b q Hi Hj Ha Hb' Np Qa Qb).
    - intros Co a b q Ha Hb' Qa Qb. apply U1 in Ha as (i & s & Hi & Ha), Hb' as (j & t & Hj & Hb').
      exact (pieces_settled sort_pts Hp c Tc _ Ss M calls F2 F3 None i j s t a b q Co Hi Hj Ha Hb' Qa Qb).
    - intros q. split.
      + intros (l & H & _ & Q). apply U1 in H as (i & s & Hi & H). destruct (piece_sound sort_pts Hp c Tc _ Ss M calls F2 None i s l Hi H) as (Nd & _ & _ & _ & On & _).
        exists s. split; [now apply nth_error_In in Hi|]. split; [exact Nd|now apply On].
      + intros (s & H & Nd & Q). apply In_nth_error in H as (i & Hi). destruct (piece_cover sort_pts Hp c Tc _ Ss M calls F2 i s q Hi Nd Q) as (l & H & Ql).
        destruct (U2 i s l Hi H) as (l' & Hl' & Sl). exists l'. split; [exact Hl'|]. split; [|eapply same_line_on; eassumption].
        apply rightward_ne. apply U1 in Hl' as (i' & s' & Hi' & Hl'). destruct (piece_sound sort_pts Hp c Tc _ Ss M calls F2 None i' s' l' Hi' Hl') as (_ & _ & _ & R & _). exact R.
  Qed.

  (** ** The box *)
  Lemma sides_edges e : edges (Some e) None = box_sides e. Proof. reflexivity. Qed.
  Lemma exit_dim lo hi q p : lo <= q <= hi -> exists t, 0 <= t <= 1 /\ lo <= q + t * (p - q) <= hi /\ (t = 1 \/ q + t * (p - q) = lo \/ q + t * (p - q) = hi).
  Proof.
    intros H. destruct (Rlt_le_dec hi p) as [L|L].
    - exists ((hi - q) / (p - q)). assert (D : 0 < p - q) by lra. assert (X : (hi - q) / (p - q) * (p - q) = hi - q) by (field; lra).
      split; [split; [apply Rmult_le_reg_r with (p - q)|apply Rmult_le_reg_r with (p - q)]; lra|]. rewrite X. lra.
    - destruct (Rlt_le_dec p lo) as [L'|L'].
      + exists ((lo - q) / (p - q)). assert (D : p - q < 0) by lra. assert (X : (lo - q) / (p - q) * (p - q) = lo - q) by (field; lra).
        split; [split; [apply Rmult_le_reg_r with (q - p)|apply Rmult_le_reg_r with (q - p)]; lra|]. rewrite X. lra.
      + exists 1. split; [lra|]. split; [lra|]. now left.
  Qed.
  Definition boundary (e : extent) (q : R * R) : Prop :=
    in_clip e q /\ (fst q = f64_R (e0 e) \/ fst q = f64_R (e2 e) \/ snd q = f64_R (e1 e) \/ snd q = f64_R (e3 e)).
  Lemma exit e q p : in_clip e q -> ~ in_clip e p -> exists t, 0 <= t <= 1 /\ boundary e (along q p t).
  Proof.
    intros [X Y] Np. destruct (exit_dim _ _ _ (fst p) X) as (t & T & Tx & Tc'). set (r := along q p t).
    destruct (exit_dim _ _ _ (snd r) Y) as (u & U & Uy & Uc). exists (u * t). split; [nra|].
    assert (Er : fst r = fst q + t * (fst p - fst q) /\ snd r = snd q + t * (snd p - snd q)) by (split; reflexivity). destruct Er as [Rx Ry].
    assert (V1 : fst q + u * t * (fst p - fst q) = fst q + u * (fst r - fst q)) by (rewrite Rx; ring).
    assert (V2 : snd q + u * t * (snd p - snd q) = snd q + u * (snd r - snd q)) by (rewrite Ry; ring).
    unfold boundary, along, in_clip. cbn [fst snd]. rewrite V1, V2. rewrite <- Rx in Tx, Tc'.
    assert (Hx : f64_R (e0 e) <= fst q + u * (fst r - fst q) <= f64_R (e2 e)).
    { destruct X, Tx. split; nra. }
    split; [split; assumption|]. destruct Uc as [->|[Uc|Uc]]; auto.
    replace (fst q + 1 * (fst r - fst q)) with (fst r) by ring. destruct Tc' as [->|[K|K]]; [|left; exact K|right; left; exact K].
    exfalso. apply Np. unfold in_clip. replace (fst p) with (fst r) by (rewrite Rx; ring). replace (snd p) with (snd r) by (rewrite Ry; ring). split; [exact Tx|].
    replace (snd q + 1 * (snd r - snd q)) with (snd r) in Uy by ring. exact Uy.
  Qed.
  Lemma boundary_side e q : clip_ok e -> boundary e q -> exists l, In l (box_sides e) /\ on_segment l q.
  Proof.
    intros (_ & _ & _ & _ & Lx & Ly) ([X Y] & B).
    assert (G : forall a b v, a < b -> a <= v <= b -> exists t, 0 <= t <= 1 /\ v = a + t * (b - a)).
    { intros a b v L H. exists ((v - a) / (b - a)). split; [split; apply Rmult_le_reg_r with (b - a); try lra; replace ((v - a) / (b - a) * (b - a)) with (v - a) by (field; lra); lra|field; lra]. }
    destruct q as [x y]. cbn [fst snd] in *. destruct (G _ _ x Lx X) as (t & T & Et), (G _ _ y Ly Y) as (u & U & Eu).
    unfold box_sides. destruct B as [->|[->|[->| ->]]].
    - exists ((e0 e, e3 e), (e0 e, e1 e)). split; [cbn; tauto|]. exists (1 - u). split; [lra|]. unfold along, rpt. cbn [fst snd]. f_equal; [ring|]. rewrite Eu at 1. ring.
    - exists ((e2 e, e1 e), (e2 e, e3 e)). split; [cbn; tauto|]. exists u. split; [lra|]. unfold along, rpt. cbn [fst snd]. f_equal; [ring|exact Eu].
    - exists ((e0 e, e1 e), (e2 e, e1 e)). split; [cbn; tauto|]. exists t. split; [lra|]. unfold along, rpt. cbn [fst snd]. f_equal; [exact Et|ring].
    - exists ((e2 e, e3 e), (e0 e, e3 e)). split; [cbn; tauto|]. exists (1 - t). split; [lra|]. unfold along, rpt. cbn [fst snd]. f_equal; [|ring]. rewrite Et at 1. ring.
  Qed.
  Lemma side_boundary e l q : clip_ok e -> In l (box_sides e) -> on_segment l q -> boundary e q.
  Proof.
    intros (_ & _ & _ & _ & Lx & Ly) [<-|[<-|[<-|[<-|[]]]]] (t & T & ->); unfold boundary, in_clip, along, rpt; cbn [fst snd]; (split; [split; split; nra|]).
    - right; right; left; ring.
    - right; left; ring.
    - right; right; right; ring.
    - left; ring.
  Qed.
  Lemma side_small e l : clip_ok e -> In l (box_sides e) -> small_seg l /\ rpt (fst l) <> rpt (snd l).
  Proof.
    intros (A & B & C & D & Lx & Ly) [<-|[<-|[<-|[<-|[]]]]]; (split; [split; split; assumption|]); unfold rpt; cbn [fst snd]; intros Q; injection Q; lra.
  Qed.
  Lemma convex e p q t : in_clip e p -> in_clip e q -> 0 <= t <= 1 -> in_clip e (along p q t).
  Proof. unfold in_clip, along. cbn [fst snd]. intros [[A B] [C D]] [[A' B'] [C' D']] T. split; split; nra. Qed.
  (** A point of the box on the line of a side is on the boundary. *)
  Lemma parallel_side e l s q r : clip_ok e -> In l (box_sides e) -> rpt (fst s) <> rpt (snd s) -> parallel l s ->
    on_segment s q -> on_segment s r -> on_segment l r -> in_clip e q -> boundary e q.
  Proof.
    intros (_ & _ & _ & _ & Lx & Ly) Hl' Nd P (t & T & Eq) (u & U & Er) (v & V & Ev) C. split; [exact C|]. destruct s as [a b]. cbn [fst snd] in *.
    assert (Q : along (rpt a) (rpt b) u = along (rpt (fst l)) (rpt (snd l)) v) by congruence. clear Er Ev r. subst q. clear C T U V Nd.
    destruct Hl' as [<-|[<-|[<-|[<-|[]]]]]; unfold parallel, along, rpt in *; cbn [fst snd] in *; injection Q; intros Q1 Q2.
    - right; right; left. assert (K : f64_R (snd b) - f64_R (snd a) = 0) by nra. rewrite K in *. lra.
    - right; left. assert (K : f64_R (fst b) - f64_R (fst a) = 0) by nra. rewrite K in *. lra.
    - right; right; right. assert (K : f64_R (snd b) - f64_R (snd a) = 0) by nra. rewrite K in *. lra.
    - left. assert (K : f64_R (fst b) - f64_R (fst a) = 0) by nra. rewrite K in *. lra.
  Qed.
  Lemma contains_clip e l : clip_ok e -> small_seg l -> contains_line (Some e) l = true <-> in_clip e (rpt (fst l)) /\ in_clip e (rpt (snd l)).
  Proof. intros Ce [A B]. rewrite contains_line_ends. cbn [inside_opt]. now rewrite !inside_clip. Qed.
  (** Between an end of a segment and a point of it there is no other end. *)
  Lemma beyond l p q r t : p = rpt (fst l) \/ p = rpt (snd l) -> rpt (fst l) <> rpt (snd l) -> on_segment l q -> 0 <= t <= 1 -> r = along q p t -> end_of l r -> r = p \/ r = q.
  Proof.
    intros Hp' Nd (u & U & ->) T Er [E|E]; destruct Hp' as [-> | ->]; auto; right; rewrite E in Er |- *; clear E; revert Er Nd; unfold along;
      destruct (rpt (fst l)) as [x y], (rpt (snd l)) as [x' y']; cbn [fst snd]; intros Er Nd; injection Er; intros E2 E1.
    - (* r is the first end, p the second *)
      assert (K1 : (u + t * (1 - u)) * (x' - x) = 0) by lra. assert (K2 : (u + t * (1 - u)) * (y' - y) = 0) by lra.
      assert (K : u + t * (1 - u) = 0). { apply Rmult_integral in K1 as [K1|K1]; [exact K1|]. apply Rmult_integral in K2 as [K2|K2]; [exact K2|]. exfalso. apply Nd. f_equal; lra. }
      assert (u = 0) by nra. subst u. f_equal; ring.
    - assert (K1 : (1 - u + t * u) * (x' - x) = 0) by lra. assert (K2 : (1 - u + t * u) * (y' - y) = 0) by lra.
      assert (K : 1 - u + t * u = 0). { apply Rmult_integral in K1 as [K1|K1]; [exact K1|]. apply Rmult_integral in K2 as [K2|K2]; [exact K2|]. exfalso. apply Nd. f_equal; lra. }
      assert (u = 1) by nra. subst u. f_equal; ring.
  Qed.
  Lemma on_part l q p t : (p = rpt (fst l) \/ p = rpt (snd l)) -> on_segment l q -> 0 <= t <= 1 -> on_segment l (along q p t).
  Proof.
    intros Hp' (u & U & ->) T. destruct Hp' as [-> | ->].
    - exists (u - t * u). split; [nra|]. unfold along. cbn [fst snd]. f_equal; ring.
    - exists (u + t * (1 - u)). split; [nra|]. unfold along. cbn [fst snd]. f_equal; ring.
  Qed.

  Theorem destructure_clipped {E} e mp : small_mp mp -> clip_ok e -> meet_on_grid (box_sides e ++ mp_edges mp) ->
    ~ (some_point mp (fun _ => True) /\ every_point mp (fun p => in_clip e (rpt p))) ->
    exists out, destructure (E := E) sort_events sort_pts sort_lines default_compare (fun _ => None) (fun _ => false) c (Some e) mp = Ok out /\
      (forall l, In l out -> small_pt (fst l) /\ small_pt (snd l) /\ rightward l) /\ noded out /\ (corners (box_sides e ++ mp_edges mp) -> settled out) /\
      (forall q, drawn out q <-> drawn (box_sides e) q \/ drawn (mp_edges mp) q /\ in_clip e q).
  Proof.
    intros S Ce M Hb. set (segs := box_sides e ++ mp_edges mp) in *.
    assert (Ss : forall l, In l segs -> small_seg l). { intros l H. apply in_app_or in H as [H|H]; [now apply (side_small e)|now apply (mp_small mp)]. }
    destruct (arrange (E := E) segs (Some e) Ss M) as (calls & nsegs & Ef & Es & F2 & F3 & U1 & U2).
    exists (unique sort_lines nsegs). split.
    { unfold destructure. rewrite as_segments_mp. destruct (extent_clip mp e S Ce) as (gext & Eg & H & H0). rewrite Eg.
      assert (Hc : has_clipbox (Some e) gext = true).
      { destruct (Classical_Prop.classic (some_point mp (fun _ => True))) as [Sp|Sp].
        - destruct (has_clipbox (Some e) gext) eqn:Q; [reflexivity|]. exfalso. apply Hb. split; [exact Sp|]. now apply (H Sp).
        - rewrite (H0 Sp). now apply has_none. }
      rewrite Hc. cbn [source_segments]. rewrite sides_edges. fold segs. rewrite Ef, Es. reflexivity. }
    assert (Snd : forall i s l, nth_error segs i = Some s -> In l (pieces_of sort_pts c calls (Some e) i s) ->
      rpt (fst s) <> rpt (snd s) /\ contains_line (Some e) l = true /\ piece_ok calls i s l).
    { intros i s l Hi H. exact (piece_sound sort_pts Hp c Tc segs Ss M calls F2 (Some e) i s l Hi H). }
    assert (Keep : forall i s l q, nth_error segs i = Some s -> In l (pieces_of sort_pts c calls (Some e) i s) -> on_segment l q -> drawn (unique sort_lines nsegs) q).
    { intros i s l q Hi H Q. destruct (U2 i s l Hi H) as (l' & Hl' & Sl). exists l'. split; [exact Hl'|]. split; [|eapply same_line_on; eassumption].
      apply rightward_ne. apply U1 in Hl' as (i' & s' & Hi' & Hl'). destruct (Snd i' s' l' Hi' Hl') as (_ & _ & _ & R & _). exact R. }
    assert (Side : forall l q, In l (box_sides e) -> on_segment l q -> drawn (unique sort_lines nsegs) q).
    { intros l q H Q. destruct (side_small e l Ce H) as [_ Nd]. assert (H' : In l segs) by (apply in_or_app; now left). apply In_nth_error in H' as (i & Hi).
      destruct (piece_cover sort_pts Hp c Tc segs Ss M calls F2 i l q Hi Nd Q) as (m & Hm & Qm).
      apply (Keep i l m q Hi); [|exact Qm]. apply piece_clip. split; [exact Hm|].
      destruct (piece_sound sort_pts Hp c Tc segs Ss M calls F2 None i l m Hi Hm) as (_ & _ & Sm' & _ & On & _). apply contains_clip; [exact Ce|exact Sm'|].
      split; apply (side_boundary e l _ Ce H), On; [exists 0; split; [lra|now rewrite along_0]|exists 1; split; [lra|now rewrite along_1]]. }
    split; [|split; [|split]].
    - intros l H. apply U1 in H as (i & s & Hi & H). destruct (Snd i s l Hi H) as (_ & _ & [A B] & R & _). auto.
    - intros a b q Ha Hb' Np Qa Qb. apply U1 in Ha as (i & s & Hi & Ha), Hb' as (j & t & Hj & Hb').
      exact (pieces_noded sort_pts Hp c Tc _ Ss M calls F2 F3 (Some e) i j s t a b q Hi Hj Ha Hb' Np Qa Qb).
    - intros Co a b q Ha Hb' Qa Qb. apply U1 in Ha as (i & s & Hi & Ha), Hb' as (j & t & Hj & Hb').
      exact (pieces_settled sort_pts Hp c Tc _ Ss M calls F2 F3 (Some e) i j s t a b q Co Hi Hj Ha Hb' Qa Qb).
    - intros q. split.
      + intros (l & H & _ & Q). apply U1 in H as (i & s & Hi & H). destruct (Snd i s l Hi H) as (Nd & Cl & Sl & _ & On & _).
        assert (Is : In s segs) by (now apply nth_error_In in Hi). apply in_app_or in Is as [Is|Is]; [left; exists s; auto|right].
        split; [exists s; auto|]. apply contains_clip in Cl as [C1 C2]; [|exact Ce|exact Sl]. destruct Q as (t & T & ->). now apply convex.
      + intros [(l & H & _ & Q)|((s & H & Nd & Q) & C)]; [now apply (Side l)|].
        assert (H' : In s segs) by (apply in_or_app; now right). apply In_nth_error in H' as (i & Hi).
        destruct (piece_cover sort_pts Hp c Tc segs Ss M calls F2 i s q Hi Nd Q) as (l & Hl' & Ql).
        destruct (piece_sound sort_pts Hp c Tc segs Ss M calls F2 None i s l Hi Hl') as (_ & _ & Sl & R & On & _ & Ends).
        destruct (contains_line (Some e) l) eqn:Cl; [apply (Keep i s l q Hi); [apply piece_clip; auto|exact Ql]|].
        assert (Out : exists p, (p = rpt (fst l) \/ p = rpt (snd l)) /\ ~ in_clip e p).
        { destruct (Classical_Prop.classic (in_clip e (rpt (fst l)))) as [K1|K1]; [|eauto]. destruct (Classical_Prop.classic (in_clip e (rpt (snd l)))) as [K2|K2]; [|eauto].
          rewrite (proj2 (contains_clip e l Ce Sl) (conj K1 K2)) in Cl. discriminate. }
        destruct Out as (p & Pe & Po). destruct (exit e q p C Po) as (t & T & Bd). set (r := along q p t) in *.
        destruct (boundary_side e r Ce Bd) as (d & Hd & Qd). assert (Qr : on_segment l r) by (now apply on_part).
        assert (B : boundary e q).
        { destruct (Classical_Prop.classic (parallel d s)) as [Pa|Pa].
          - exact (parallel_side e d s q r Ce Hd Nd Pa Q (On r Qr) Qd C).
          - assert (Id : In d segs) by (apply in_or_app; now left). apply In_nth_error in Id as (j & Hj).
            assert (Pa' : ~ parallel s d) by (intros X; apply Pa; unfold parallel in *; lra).
            destruct (meeting segs Ss M calls F2 F3 i j s d r Hi Hj Pa' (On r Qr) Qd) as ((x & Hx & Ex) & _).
            destruct (beyond l p q r t Pe (rightward_ne l R) Ql T eq_refl (Ends x r Hx Qr (eq_sym Ex))) as [-> | E']; [elim Po; apply Bd|rewrite <- E'; exact Bd]. }
        destruct (boundary_side e q Ce B) as (d' & Hd' & Qd'). now apply (Side d').
  Qed.
End All.
