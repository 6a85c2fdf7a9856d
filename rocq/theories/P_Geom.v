(** Proofs about traversals. *)
From Coq Require Import ZArith Bool List Lia.
From Coq Require Import ZifyBool ZifyNat.
From Verif Require Import Base_Res Base_F64 Base_Geom P_List M_Geom S_Geom.
Import ListNotations.

Definition gc_members :=
  fix members (l : list (geom f64)) : list (point f64) * bool :=
    match l with
    | [] => ([], false)
    | x :: xs =>
        let (a, e) := get_coordinates x in
        if e then (a, true)
        else let (b, e') := members xs in (a ++ b, e')
    end.

Lemma gc_collection gs : get_coordinates (GCollection gs) = gc_members gs.
Proof. reflexivity. Qed.

Theorem get_coordinates_ok g :
  unknown_inside g = false -> get_coordinates g = (coords g, false).
Proof.
  induction g as [p|ps|ps|ls|rs|pls|gs IH|] using geom_ind'; cbn [unknown_inside coords];
    intros H; try reflexivity; try discriminate.
  - cbn [get_coordinates]. now rewrite concat_map_concat.
  - rewrite gc_collection. induction IH as [|x xs Hx Hxs IH']; [reflexivity|].
    cbn [existsb] in H. apply orb_false_iff in H as [H1 H2].
    cbn [gc_members flat_map]. fold gc_members. rewrite (Hx H1), (IH' H2). reflexivity.
Qed.

Theorem get_coordinates_err g : snd (get_coordinates g) = unknown_inside g.
Proof.
  induction g as [p|ps|ps|ls|rs|pls|gs IH|] using geom_ind'; try reflexivity.
  rewrite gc_collection. cbn [unknown_inside].
  induction IH as [|x xs Hx Hxs IH']; [reflexivity|].
  cbn [gc_members existsb]. fold gc_members.
  destruct (get_coordinates x) as [a e]; cbn [snd] in Hx. rewrite <- Hx.
  destruct e; [reflexivity|]. destruct (gc_members xs) as [b e']. exact IH'.
Qed.

(** ** Lines *)

Lemma consecutive_nth {A} (v : list A) : forall i s,
  nth_error (consecutive v) i = Some s <-> segment_at v i s.
Proof.
  unfold segment_at. induction v as [|p tl IH]; intros i [a b]; cbn [fst snd].
  - split; [destruct i; discriminate | intros [H _]; destruct i; discriminate].
  - destruct tl as [|q tl].
    + cbn [consecutive]. split; [destruct i; discriminate|].
      intros [_ H]. cbn in H. destruct i; discriminate.
    + destruct i as [|i].
      * cbn. split; [intros H; inv H; auto | intros [H1 H2]; inv H1; inv H2; auto].
      * change (consecutive (p :: q :: tl)) with ((p, q) :: consecutive (q :: tl)).
        cbn [nth_error]. apply (IH i (a, b)).
Qed.

Lemma consecutive_length {A} (v : list A) : length (consecutive v) = (length v - 1)%nat.
Proof.
  induction v as [|p tl IH]; [reflexivity|]. destruct tl as [|q tl]; [reflexivity|].
  change (consecutive (p :: q :: tl)) with ((p, q) :: consecutive (q :: tl)).
  cbn [length] in *. rewrite IH. lia.
Qed.

Lemma is_ring_closed v : is_ring v = ring_closed v.
Proof.
  destruct v as [|p tl]; [reflexivity|]. unfold is_ring.
  destruct tl as [|q tl]; [reflexivity|].
  change (1 <? length (p :: q :: tl))%nat with true.
  replace (length (p :: q :: tl) - 1)%nat with (length (q :: tl)) by (cbn [length]; lia).
  rewrite nth_error_last_cons. reflexivity.
Qed.

Lemma consecutive_between {A} (v : list A) : segments_between v (consecutive v).
Proof. split; [apply consecutive_length | intros; apply consecutive_nth]. Qed.

Lemma ring_lines_spec v : path_lines (Ring v) (ring_lines v).
Proof.
  cbn [path_lines]. exists (consecutive v). split; [apply consecutive_between|].
  unfold ring_lines. rewrite is_ring_closed.
  destruct ((2 <? length v)%nat && negb (ring_closed v)) eqn:E; [|apply app_nil_r].
  apply andb_true_iff in E as [E _].
  destruct v as [|p [|q tl]]; [discriminate E | discriminate E |].
  replace (length (p :: q :: tl) - 1)%nat with (length (q :: tl)) by (cbn [length]; lia).
  rewrite nth_error_last_cons. cbn [nth_error].
  exists p, (removelast (q :: tl)), (last (q :: tl) p). split; [|reflexivity].
  f_equal. apply app_removelast_last. discriminate.
Qed.

Fixpoint lines_of (g : geom f64) : list line :=
  match g with
  | GLineString ps => consecutive ps
  | GMultiLineString ls => flat_map consecutive ls
  | GPolygon rs => flat_map ring_lines rs
  | GMultiPolygon pls => flat_map ring_lines (concat pls)
  | GCollection gs => flat_map lines_of gs
  | _ => []
  end.

Definition el_members :=
  fix members (l : list (geom f64)) : list line * bool :=
    match l with
    | [] => ([], false)
    | x :: xs =>
        let (a, e) := extract_lines x in
        if e then (a, true)
        else let (b, e') := members xs in (a ++ b, e')
    end.

Theorem extract_lines_ok g : unknown_inside g = false -> extract_lines g = (lines_of g, false).
Proof.
  induction g as [p|ps|ps|ls|rs|pls|gs IH|] using geom_ind'; cbn [unknown_inside lines_of];
    intros H; try reflexivity; try discriminate.
  - cbn [extract_lines]. now rewrite flat_map_flat_map.
  - change (extract_lines (GCollection gs)) with (el_members gs).
    induction IH as [|x xs Hx Hxs IH']; [reflexivity|].
    cbn [existsb] in H. apply orb_false_iff in H as [H1 H2].
    cbn [el_members flat_map]. fold el_members. rewrite (Hx H1), (IH' H2). reflexivity.
Qed.

Theorem extract_lines_err g : snd (extract_lines g) = unknown_inside g.
Proof.
  induction g as [p|ps|ps|ls|rs|pls|gs IH|] using geom_ind'; try reflexivity.
  change (extract_lines (GCollection gs)) with (el_members gs). cbn [unknown_inside].
  induction IH as [|x xs Hx Hxs IH']; [reflexivity|].
  cbn [el_members existsb]. fold el_members.
  destruct (extract_lines x) as [a e]; cbn [snd] in Hx. rewrite <- Hx.
  destruct e; [reflexivity|]. destruct (el_members xs) as [b e']. exact IH'.
Qed.

Lemma map_lines {A} (k : A -> path f64) (h : A -> list line) l :
  (forall a, path_lines (k a) (h a)) -> Forall2 path_lines (map k l) (map h l).
Proof. intros H. induction l as [|a l IH]; cbn; constructor; auto. Qed.

Theorem lines_of_spec g :
  exists ls, Forall2 path_lines (paths g) ls /\ lines_of g = concat ls.
Proof.
  induction g as [p|ps|ps|ls|rs|pls|gs IH|] using geom_ind'; cbn [paths lines_of];
    try (exists []; split; [constructor | reflexivity]).
  - exists [consecutive ps]. split; [|cbn; now rewrite app_nil_r].
    constructor; [apply consecutive_between | constructor].
  - exists (map consecutive ls). rewrite flat_map_concat_map. split; [|reflexivity].
    apply map_lines. intros; apply consecutive_between.
  - exists (map ring_lines rs). rewrite flat_map_concat_map. split; [|reflexivity].
    apply map_lines. apply ring_lines_spec.
  - exists (map ring_lines (concat pls)). rewrite flat_map_concat_map. split; [|reflexivity].
    apply map_lines. apply ring_lines_spec.
  - induction IH as [|x xs (l1 & H1 & E1) Hxs (l2 & H2 & E2)]; [now exists []; split; [constructor|]|].
    exists (l1 ++ l2). cbn [flat_map]. split; [now apply Forall2_app|].
    now rewrite concat_app, E1, E2.
Qed.

Theorem extract_lines_spec g :
  unknown_inside g = false ->
  exists ls, Forall2 path_lines (paths g) ls /\ extract_lines g = (concat ls, false).
Proof.
  intros H. destruct (lines_of_spec g) as (ls & H1 & H2).
  exists ls. split; [exact H1|]. rewrite <- H2. now apply extract_lines_ok.
Qed.

(** ** AsSegments *)

Lemma ls_segments_spec ls :
  match ls_as_segments ls with
  | None => length ls = 1%nat
  | Some segs =>
      length ls <> 1%nat /\ segments_between ls segs
  end.
Proof.
  unfold ls_as_segments. destruct ls as [|a [|b [|c tl]]].
  - split; [discriminate | exact (consecutive_between [])].
  - reflexivity.
  - split; [discriminate | exact (consecutive_between [a; b])].
  - split; [discriminate | apply consecutive_between].
Qed.

Lemma mls_segments_spec mls :
  match mls_as_segments mls with
  | None => exists l, In l mls /\ length l = 1%nat
  | Some segs =>
      Forall2 (fun l s => length l <> 1%nat /\ segments_between l s) mls segs
  end.
Proof.
  induction mls as [|l tl IH]; cbn [mls_as_segments]; [constructor|].
  pose proof (ls_segments_spec l) as H. destruct (ls_as_segments l) as [s|].
  - destruct (mls_as_segments tl) as [segs|]; cbn [option_map].
    + constructor; auto.
    + destruct IH as (l' & H1 & H2). exists l'. split; [now right | exact H2].
  - exists l. split; [now left | exact H].
Qed.

Lemma chain_length p r : length (chain_from p r) = length r.
Proof. revert p. induction r as [|q r IH]; intros p; [reflexivity|]. cbn. now rewrite IH. Qed.

Lemma chain_nth r : forall prev i s,
  nth_error (chain_from prev r) i = Some s <->
  nth_error (prev :: r) i = Some (fst s) /\ nth_error r i = Some (snd s).
Proof.
  induction r as [|p r IH]; intros prev i [a b]; cbn [fst snd].
  - split; [destruct i; discriminate | intros [_ H]; destruct i; discriminate].
  - destruct i as [|i]; cbn [chain_from nth_error].
    + split; [intros H; inv H; auto | intros [H1 H2]; inv H1; inv H2; auto].
    + rewrite IH. cbn [fst snd]. reflexivity.
Qed.

Lemma chain_snd p r : map snd (chain_from p r) = r.
Proof. revert p. induction r as [|q r IH]; intros p; [reflexivity|]. cbn. now rewrite IH. Qed.

Lemma chain_fst p r : map fst (chain_from p r) = removelast (p :: r).
Proof.
  revert p. induction r as [|q r IH]; intros p; [reflexivity|].
  cbn [chain_from map fst]. rewrite IH. reflexivity.
Qed.

(** A ring of at least three points gives exactly one chain, whose segments end
    at the vertices in order and start at their cyclic predecessors. *)
Lemma ring_segments_spec r :
  ring_segments r = [] /\ (length r < 3)%nat \/
  exists c lst, ring_segments r = [c] /\ (3 <= length r)%nat /\
    map snd c = r /\ last r lst = lst /\ In lst r /\ map fst c = lst :: removelast r.
Proof.
  unfold ring_segments. destruct r as [|a [|b [|c tl]]]; cbn [length].
  1-3: left; split; [reflexivity | lia].
  right. change (S (S (length tl))) with (length (b :: c :: tl)).
  rewrite (nth_error_last_cons a (b :: c :: tl)).
  exists (chain_from (last (b :: c :: tl) a) (a :: b :: c :: tl)), (last (b :: c :: tl) a).
  split; [reflexivity|]. split; [cbn [length]; lia|]. split; [apply chain_snd|]. split; [|split].
  - rewrite last_cons. reflexivity.
  - rewrite <- (last_cons a _ a).
    destruct (exists_last (l := a :: b :: c :: tl)) as (l' & z & E); [discriminate|].
    rewrite E, last_last. apply in_or_app. right. now left.
  - rewrite chain_fst. reflexivity.
Qed.

Lemma polygon_segments_spec p :
  Forall2 closed_chain (filter (fun r => 3 <=? length r)%nat p) (polygon_as_segments p).
Proof.
  unfold polygon_as_segments. induction p as [|r p IH]; [constructor|].
  cbn [flat_map filter].
  destruct (ring_segments_spec r) as [[E H]|(c & lst & E & H & H1 & H2 & H3 & H4)]; rewrite E.
  - replace (3 <=? length r)%nat with false by lia. exact IH.
  - replace (3 <=? length r)%nat with true by lia. cbn [app]. constructor; [|exact IH].
    exists (removelast r), lst. split; [|auto].
    assert (r <> []) as N by (intros ->; cbn in H; lia).
    pose proof (app_removelast_last lst N) as E'. now rewrite H2 in E'.
Qed.

Lemma mp_segments_spec mp :
  Forall2 (fun p segs => Forall2 closed_chain (filter (fun r => 3 <=? length r)%nat p) segs)
    mp (mp_as_segments mp).
Proof. induction mp as [|p mp IH]; constructor; [apply polygon_segments_spec | exact IH]. Qed.

Lemma polygon_segments_flat p : polygon_as_segments p = flat_map ring_segments p.
Proof. reflexivity. Qed.

(** ** ApplyToPoints *)

Section ApplyProofs.
  Context {C S : Type} (f : S -> list C -> S * option (list C)).

  (** How a traversal relates to [run_f] on the coordinates [cs] it visits:
      success with [cs'] = new coordinates, or failure. *)
  Definition tracks {A} (flat : A -> list (point C)) (shape : A -> A -> Prop)
    (h : S -> A -> S * res apply_err A) : Prop :=
    forall s a,
      match h s a with
      | (s', Ok b) => run_f f s (flat a) s' (Some (flat b)) /\ shape a b
      | (s', Err e) => e <> AE_unknown /\ run_f f s (flat a) s' None
      | (_, Panic) => False
      end.

  Lemma run_f_det s l s1 r1 s2 r2 :
    run_f f s l s1 r1 -> run_f f s l s2 r2 -> s1 = s2 /\ r1 = r2.
  Proof.
    intros H. revert s2 r2. induction H; intros s2' r2' H'; inv H';
      try (split; congruence);
      repeat match goal with
      | H1 : f ?s ?a = _, H2 : f ?s ?a = _ |- _ => rewrite H1 in H2; inv H2
      end; auto; try (cbn in *; lia).
    match goal with IH : forall _ _, run_f _ _ _ _ _ -> _, H : run_f _ _ _ _ _ |- _ =>
      destruct (IH _ _ H); subst; auto end.
  Qed.

  Lemma run_app_some s l1 l2 : forall s1 r1 s2 r2,
    run_f f s l1 s1 (Some r1) -> run_f f s1 l2 s2 r2 ->
    run_f f s (l1 ++ l2) s2 (option_map (app r1) r2).
  Proof.
    revert s. induction l1 as [|p l1 IH]; intros s s1 r1 s2 r2 H1 H2.
    - inv H1. cbn. destruct r2; exact H2.
    - inv H1. cbn [app].
      destruct r as [r|]; [|discriminate].
      match goal with H : option_map _ _ = Some _ |- _ => cbn in H; inv H end.
      pose proof (IH _ _ _ _ _ H7 H2) as R.
      pose proof (RF_step f _ _ _ _ _ _ _ _ _ H6 R) as R'.
      destruct r2; exact R'.
  Qed.

  Lemma run_app_none s l1 l2 s1 :
    run_f f s l1 s1 None -> run_f f s (l1 ++ l2) s1 None.
  Proof.
    revert s. induction l1 as [|p l1 IH]; intros s H; inv H; cbn [app].
    - destruct r as [r|]; [discriminate|].
      change (@None (list (point C))) with (option_map (cons (x, y)) (@None (list (point C)))).
      eapply RF_step; [eassumption|]. now apply IH.
    - now apply RF_error.
    - eapply RF_short; eassumption.
  Qed.

  Lemma tracks_pt : tracks (fun p => [p]) (fun _ _ => True) (apply_pt f).
  Proof.
    intros s p. unfold apply_pt. destruct (f s [fst p; snd p]) as [s' [out|]] eqn:E.
    - destruct out as [|x [|y more]].
      + split; [discriminate|]. eapply RF_short; [exact E | cbn; lia].
      + split; [discriminate|]. eapply RF_short; [exact E | cbn; lia].
      + split; [|exact I].
        change (Some [(x, y)]) with (option_map (cons (x, y)) (Some (@nil (point C)))).
        eapply RF_step; [exact E | constructor].
    - split; [discriminate|]. now apply RF_error.
  Qed.

  Lemma tracks_each {A} (flat : A -> list (point C)) (shape : A -> A -> Prop) h :
    tracks flat shape h ->
    tracks (flat_map flat) (Forall2 shape) (apply_each h).
  Proof.
    intros Hh s l. revert s. induction l as [|a l IH]; intros s; cbn [apply_each].
    - split; [constructor | constructor].
    - specialize (Hh s a). destruct (h s a) as [s1 [b|e|]].
      + destruct Hh as [H1 H2]. specialize (IH s1).
        destruct (apply_each h s1 l) as [s2 [bs|e|]]; cbn [map_res bind].
        * destruct IH as [I1 I2]. split; [|now constructor].
          cbn [flat_map]. pose proof (run_app_some _ _ _ _ _ _ _ H1 I1) as R. exact R.
        * destruct IH as [I1 I2]. split; [exact I1|].
          cbn [flat_map]. pose proof (run_app_some _ _ _ _ _ _ _ H1 I2) as R. exact R.
        * exact IH.
      + destruct Hh as [H1 H2]. split; [exact H1|]. cbn [flat_map]. now apply run_app_none.
      + exact Hh.
  Qed.

  Lemma flat_single {A} (l : list A) : flat_map (fun p => [p]) l = l.
  Proof. induction l as [|x l IH]; [reflexivity|]. cbn. now rewrite IH. Qed.

  Lemma tracks_ext {A} (fl fl' : A -> list (point C)) (sh sh' : A -> A -> Prop) h :
    (forall a, fl a = fl' a) -> (forall a b, sh a b -> sh' a b) -> tracks fl sh h -> tracks fl' sh' h.
  Proof.
    intros H1 H2 H s a. specialize (H s a). destruct (h s a) as [s' [b|e|]].
    - rewrite <- !H1. intuition.
    - rewrite <- H1. exact H.
    - exact H.
  Qed.

  Lemma tracks_line : tracks (fun l => l) same_lengths (apply_line f).
  Proof.
    eapply tracks_ext; [| |apply (tracks_each _ _ _ tracks_pt)].
    - apply flat_single.
    - intros a b H. now apply Forall2_len in H.
  Qed.

  Lemma tracks_lines : tracks (@concat _) (Forall2 same_lengths) (apply_lines f).
  Proof.
    eapply tracks_ext; [| |apply (tracks_each _ _ _ tracks_line)].
    - intros a. now rewrite flat_map_concat_map, map_id.
    - auto.
  Qed.

  Lemma tracks_polys :
    tracks (fun a => concat (concat a)) (Forall2 (Forall2 same_lengths)) (apply_polys f).
  Proof.
    eapply tracks_ext; [| |apply (tracks_each _ _ _ tracks_lines)].
    - intros a. rewrite flat_map_concat_map. apply concat_map_concat.
    - auto.
  Qed.

  Theorem apply_spec s g : basic_kind g = true ->
    match apply_to_points f s g with
    | (s', Ok g') => run_f f s (coords g) s' (Some (coords g')) /\ same_shape g g'
    | (s', Err e) => e <> AE_unknown /\ run_f f s (coords g) s' None
    | (_, Panic) => False
    end.
  Proof.
    destruct g as [p|ps|ps|ls|rs|pls|gs|]; try discriminate; intros _;
      cbn [apply_to_points coords].
    - pose proof (tracks_pt s p) as H. destruct (apply_pt f s p) as [s' [b|e|]]; cbn; auto.
      destruct H as [H _]. split; [exact H | constructor].
    - pose proof (tracks_line s ps) as H. destruct (apply_line f s ps) as [s' [b|e|]]; cbn; auto.
      destruct H as [H H']. split; [exact H | now constructor].
    - pose proof (tracks_line s ps) as H. destruct (apply_line f s ps) as [s' [b|e|]]; cbn; auto.
      destruct H as [H H']. split; [exact H | now constructor].
    - pose proof (tracks_lines s ls) as H. destruct (apply_lines f s ls) as [s' [b|e|]]; cbn; auto.
      destruct H as [H H']. split; [exact H | now constructor].
    - pose proof (tracks_lines s rs) as H. destruct (apply_lines f s rs) as [s' [b|e|]]; cbn; auto.
      destruct H as [H H']. split; [exact H | now constructor].
    - pose proof (tracks_polys s pls) as H. destruct (apply_polys f s pls) as [s' [b|e|]]; cbn; auto.
      destruct H as [H H']. split; [exact H | now constructor].
  Qed.

  Lemma apply_other s g : basic_kind g = false -> apply_to_points f s g = (s, Err AE_unknown).
  Proof. destruct g; try discriminate; reflexivity. Qed.
End ApplyProofs.

(** ** Clone *)

Section CloneProofs.
  Context {C : Type}.
  (** [h] copies the value and uses fresh, pairwise different addresses. *)
  Definition fresh_copy {A V} (v : A -> V) (ad : A -> list nat) (h : nat -> A -> nat * A) : Prop :=
    forall a x, let (a', y) := h a x in
      v y = v x /\ (a <= a')%nat /\ NoDup (ad y) /\ (forall n, In n (ad y) -> a <= n < a')%nat.

  Lemma fresh_pts : fresh_copy elems addr1 (@clone_pts C).
  Proof.
    intros a x. cbn. split; [reflexivity|]. split; [lia|]. split.
    - constructor; [intros [] | constructor].
    - intros n [<-|[]]. lia.
  Qed.

  Lemma NoDup_app_intro {A} (l l' : list A) :
    NoDup l -> NoDup l' -> (forall x, In x l -> In x l' -> False) -> NoDup (l ++ l').
  Proof.
    induction l as [|x l IH]; intros H1 H2 H; [exact H2|]. inv H1. cbn. constructor.
    - rewrite in_app_iff. intros [?|?]; [tauto|]. eapply H; [now left | eassumption].
    - apply IH; auto. intros y ? ?. eapply H; [right; eassumption | eassumption].
  Qed.

  Lemma fresh_each {A V} (v : A -> V) ad h :
    fresh_copy v ad h -> fresh_copy (map v) (flat_map ad) (clone_each h).
  Proof.
    intros Hh a l. revert a. induction l as [|x l IH]; intros a; cbn [clone_each].
    - cbn. split; [reflexivity|]. split; [lia|]. split; [constructor | intros n []].
    - specialize (Hh a x). destruct (h a x) as [a1 y]. specialize (IH a1).
      destruct (clone_each h a1 l) as [a2 ys].
      destruct Hh as (H1 & H2 & H3 & H4), IH as (I1 & I2 & I3 & I4).
      cbn [map flat_map]. split; [now rewrite H1, I1|]. split; [lia|]. split.
      + apply NoDup_app_intro; auto. intros n Hn Hn'. apply H4 in Hn. apply I4 in Hn'. lia.
      + intros n Hn. apply in_app_iff in Hn as [Hn|Hn]; [apply H4 in Hn | apply I4 in Hn]; lia.
  Qed.

  Lemma fresh_nest {A V} (v : A -> V) ad h :
    fresh_copy v ad h ->
    fresh_copy (fun s => map v (elems s)) (fun s => addr1 s ++ flat_map ad (elems s)) (clone_nest h).
  Proof.
    intros Hh a s. unfold clone_nest.
    pose proof (fresh_each v ad h Hh (Datatypes.S a) (elems s)) as H.
    destruct (clone_each h (Datatypes.S a) (elems s)) as [a' l].
    destruct H as (H1 & H2 & H3 & H4). cbn [elems addr1 app].
    split; [exact H1|]. split; [lia|]. split.
    - constructor; [|exact H3]. intros Hn. apply H4 in Hn. lia.
    - intros n [<-|Hn]; [lia|]. apply H4 in Hn. lia.
  Qed.

  Theorem clone_spec (a : nat) (g : hgeom C) :
    match clone a g with
    | (a', Some g') =>
        val g' = val g /\ basic_kind (val g) = true /\ NoDup (addrs g') /\
        (forall n, In n (addrs g') -> a <= n)%nat
    | (_, None) => exists g0, g = HOther g0
    end.
  Proof.
    destruct g as [p|s|s|s|s|s|g]; cbn [clone].
    - cbn. repeat split; auto; try constructor. intros n [].
    - pose proof (fresh_pts a s) as H. destruct (clone_pts a s) as [a' s'].
      destruct H as (H1 & H2 & H3 & H4). cbn [val addrs]. rewrite H1. repeat split; auto.
      intros n Hn. apply H4 in Hn. lia.
    - pose proof (fresh_pts a s) as H. destruct (clone_pts a s) as [a' s'].
      destruct H as (H1 & H2 & H3 & H4). cbn [val addrs]. rewrite H1. repeat split; auto.
      intros n Hn. apply H4 in Hn. lia.
    - pose proof (fresh_nest _ _ _ fresh_pts a s) as H. destruct (clone_nest clone_pts a s) as [a' s'].
      destruct H as (H1 & H2 & H3 & H4). cbn [val addrs]. rewrite H1. repeat split; auto.
      intros n Hn. apply H4 in Hn. lia.
    - pose proof (fresh_nest _ _ _ fresh_pts a s) as H. destruct (clone_nest clone_pts a s) as [a' s'].
      destruct H as (H1 & H2 & H3 & H4). cbn [val addrs]. rewrite H1. repeat split; auto.
      intros n Hn. apply H4 in Hn. lia.
    - pose proof (fresh_nest _ _ _ (fresh_nest _ _ _ fresh_pts) a s) as H.
      destruct (clone_nest (clone_nest clone_pts) a s) as [a' s'].
      destruct H as (H1 & H2 & H3 & H4). cbn [val addrs]. rewrite H1. repeat split; auto.
      intros n Hn. apply H4 in Hn. lia.
    - now exists g.
  Qed.
End CloneProofs.
