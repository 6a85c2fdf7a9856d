(** Proofs about planar/makevalid/walker: MultiPolygon *)
From Coq Require Import ZArith Bool List Lia Reals Lra Permutation.
From Flocq Require Import Core.Core.
From Verif Require Import Base_Res Base_F64 Base_F64Arith Base_Geom M_Geom M_Extent M_Cmp M_Planar M_Triangle M_Winding M_Walker
  P_F64 P_F64Flocq S_Intersect S_Walker S_Cmp P_Cmp P_Cmp2 P_Winding2 P_Walker P_Walker2 P_Walker4 P_Walker5 P_Walker6 P_Walker7 P_Walker8.
Import ListNotations.
Local Open Scope nat_scope.

Lemma neighbours_sym t u : neighbours t u -> neighbours u t.
Proof.
  rewrite !neighbours_edge. intros (x & y & S & [S'|S']); [exists x, y|exists y, x]; (split; [exact S'|]); [now left|now right].
Qed.

Lemma linked_trans ts i j k : linked ts i j -> linked ts j k -> linked ts i k.
Proof. intros A B. induction B as [|j m k t u B IH Em Ek N]; [exact A|]. apply linked_step with m t u; auto. Qed.
Lemma linked_sym ts i j : linked ts i j -> linked ts j i.
Proof.
  intros A. induction A as [|i j k t u A IH Ej Ek N]; [constructor|].
  apply linked_trans with j; [|exact IH]. apply linked_step with k u t; [constructor|exact Ek|exact Ej|now apply neighbours_sym].
Qed.

Lemma NoDup_app' {A} (l m : list A) : NoDup l -> NoDup m -> (forall x, In x l -> In x m -> False) -> NoDup (l ++ m).
Proof.
  intros L M D. induction L as [|x l N L IH]; [exact M|]. cbn. constructor.
  - rewrite in_app_iff. intros [H|H]; [now apply N|]. apply (D x); [now left|exact H].
  - apply IH. intros y H1 H2. apply (D y); [now right|exact H2].
Qed.

Section Multi.
  Variable ts : list triangle.
  Variable ctx : nat -> bool.

  Lemma ring_visit n idx t seen : nth_error ts idx = Some t -> ~ In idx seen ->
    exists rng vis n', ring_for_triangle ts ctx n idx (idx :: seen) = Ok (rng, vis ++ idx :: seen, n') /\ In idx vis /\ NoDup vis /\
      (forall j, In j vis -> ~ In j seen /\ j < length ts) /\ length rng = 2 + length vis /\
      (forall p, In p rng -> exists j t, In j vis /\ nth_error ts j = Some t /\ In p (vertices3 t)).
  Proof.
    intros Et Ni.
    destruct (ring_for_triangle_ind ts ctx n idx t (idx :: seen) (fun rng _ s => exists vis, s = vis ++ idx :: seen /\ In idx vis /\ NoDup vis /\
      (forall j, In j vis -> ~ In j seen /\ j < length ts) /\ length rng = 2 + length vis /\
      (forall p, In p rng -> exists j t, In j vis /\ nth_error ts j = Some t /\ In p (vertices3 t))) Et)
      as (rng & head & s & n' & E & (vis & -> & R) & _).
    - exists [idx]. split; [reflexivity|]. split; [now left|]. split; [constructor; [easy|constructor]|]. split; [|split].
      + intros j [<-|[]]. split; [exact Ni|]. apply nth_error_Some. congruence.
      + destruct t as [[a b] c]. reflexivity.
      + intros p Hp. exists idx, t. split; [now left|]. auto.
    - intros p l q head s (vis & -> & Hi & ND & Out & Ln & Pt) L A. exists vis. split; [reflexivity|]. split; [exact Hi|]. split; [exact ND|]. split; [exact Out|]. split.
      + cbn [length] in *. rewrite app_length in Ln. cbn in Ln. lia.
      + intros x Hx. apply Pt. destruct Hx as [<-|[<-|Hx]]; [right; apply in_or_app; right; now left|now left|right; apply in_or_app; now left].
    - intros p l q head s j u (vis & -> & Hi & ND & Out & Ln & Pt) L O Nj Eu. exists (j :: vis). split; [reflexivity|]. split; [now right|]. split; [|split; [|split]].
      + constructor; [|exact ND]. intros H. apply Nj, in_or_app. now left.
      + intros i [<-|H]; [|now apply Out]. split; [intros H; apply Nj, in_or_app; right; now right|]. apply nth_error_Some. congruence.
      + rewrite app_length, Ln. cbn [length]. lia.
      + intros x Hx. apply in_app_or in Hx. destruct Hx as [Hx|[<-|[]]].
        * destruct (Pt x Hx) as (i & v & Hv & R). exists i, v. split; [now right|exact R].
        * exists j, u. split; [now left|]. split; [exact Eu|]. clear. destruct u as [[a b] c]. unfold third_point.
          destruct (_ || _); [cbn; tauto|]. destruct (_ || _); cbn; tauto.
    - exists rng, vis, n'. split; [exact E|exact R].
  Qed.


  Lemma polygon_visit ypd n idx t seen : proper ts -> nth_error ts idx = Some t -> ~ In idx seen ->
    exists o vis n', polygon_for_triangle ts ctx ypd n idx (idx :: seen) =
        Ok (match o with None => None | Some rs => fst (rectify_polygon ypd rs) end, vis ++ idx :: seen, n') /\
      In idx vis /\ NoDup vis /\ (forall j, In j vis -> ~ In j seen /\ j < length ts) /\ made_from ts vis o /\
      (coherent ts -> (forall i, In i vis -> linked ts idx i) /\
        ((forall k, ctx k = false) ->
         forall i j ti tj, In i vis -> nth_error ts i = Some ti -> nth_error ts j = Some tj -> neighbours ti tj -> In j (vis ++ idx :: seen))).
  Proof.
    intros Pr Et Ni. destruct (ring_visit n idx t seen Et Ni) as (rng & vis & n1 & E & Hi & ND & Out & Ln & Pt).
    destruct (ring_no_repeat ts ctx Pr n idx t (idx :: seen) Et) as (rng' & s' & n1' & E' & NR).
    rewrite E in E'. assert (rng' = rng) by congruence. subst rng'. clear E' s' n1'.
    destruct (polygon_for_ring_spec ctx n1 rng NR) as (o & n2 & Ep & _ & Sp).
    exists o, vis, n2. split; [unfold polygon_for_triangle; rewrite E; cbn [bind]; rewrite Ep; reflexivity|].
    split; [exact Hi|]. split; [exact ND|]. split; [exact Out|].
    assert (Ch : coherent ts -> ring_area rng = triangles_area ts vis /\ (forall i, In i vis -> linked ts idx i) /\
        ((forall k, ctx k = false) ->
         forall i j ti tj, In i vis -> nth_error ts i = Some ti -> nth_error ts j = Some tj -> neighbours ti tj -> In j (vis ++ idx :: seen))).
    { intros Co. destruct (ring_coherent ts ctx Co n idx t (idx :: seen) Et) as (rng' & vis' & n' & E' & A & Lk & Cl).
      rewrite E in E'. assert (Er : rng' = rng) by congruence. assert (Ev : vis ++ idx :: seen = vis' ++ idx :: seen) by congruence.
      apply app_inv_tail in Ev. subst rng' vis'. split; [exact A|]. split; [exact Lk|]. intros C. apply Cl. intros; apply C. }
    split; [|intros Co; destruct (Ch Co) as (_ & H); exact H].
    destruct o as [rs|]; [|exact I]. destruct Sp as (S1 & S2 & (dr & S3) & S4). split; [exact S1|]. split; [exact S2|].
    split; [apply Permutation_length in S3; rewrite app_length in S3; lia|]. split.
    - intros r p Hr Hp. apply Pt. apply (Permutation_in _ (Permutation_sym S3)). apply in_or_app. left. apply in_concat. eauto.
    - intros Co Sm. destruct (Ch Co) as (A & _). rewrite <- A. assert (Si : Forall small_int rng).
      { apply Forall_forall. intros p Hp. destruct (Pt p Hp) as (j & u & Hj & Ej & Hu). exact (Sm j u p Hj Ej Hu). }
      apply S4; [now apply small_int_finite|now apply small_int_exact].
  Qed.

  Lemma seen_in_iff seen i : seen_in seen i = true <-> In i seen.
  Proof. apply seen_in_spec. Qed.

  Lemma rect_points ypd rs out r p : fst (rectify_polygon ypd rs) = Some out -> In r out -> In p r -> exists r', In r' rs /\ In p r'.
  Proof.
    intros E Hr Hp. destruct (rectify_polygon ypd rs) as [o inp] eqn:Er. cbn [fst] in E. subst o. apply rectified_kept in Er.
    set (fl := filter _ rs) in Er. assert (I : incl fl rs) by (intros x Hx; now apply filter_In in Hx). clearbody fl.
    induction Er as [|x y l l' H Er IH]; [easy|]. destruct Hr as [<-|Hr].
    - exists x. split; [apply I; now left|]. destruct H as [-> | ->]; [exact Hp|now apply in_rev].
    - apply IH; [exact Hr|]. intros z Hz. apply I. now right.
  Qed.

  Lemma at_end pre t (rest : list triangle) : ts = pre ++ t :: rest -> nth_error ts (length pre) = Some t.
  Proof. intros ->. rewrite nth_error_app2, Nat.sub_diag; [reflexivity|lia]. Qed.

  Theorem multi_total ypd : proper ts -> exists out seen n, multi_polygon ts ctx ypd = Ok (out, seen, n) /\
    (forall mp, out = Some mp -> forall py r p, In py mp -> In r py -> In p r -> exists t, In t ts /\ In p (vertices3 t)).
  Proof.
    intros Pr. unfold multi_polygon.
    assert (G : forall rest pre n seen mp, ts = pre ++ rest ->
      (forall py r p, In py mp -> In r py -> In p r -> exists t, In t ts /\ In p (vertices3 t)) ->
      exists out seen' n', multi_loop ts ctx ypd n (length pre) rest seen mp = Ok (out, seen', n') /\
      (forall mp', out = Some mp' -> forall py r p, In py mp' -> In r py -> In p r -> exists t, In t ts /\ In p (vertices3 t))).
    { induction rest as [|t rest IH]; intros pre n seen mp Sk Hp; cbn [multi_loop].
      - exists (Some mp), seen, n. split; [reflexivity|]. intros mp' [= <-]. exact Hp.
      - pose proof (at_end _ _ _ Sk) as Et.
        assert (Sk' : ts = (pre ++ [t]) ++ rest) by (rewrite <- app_assoc; exact Sk).
        assert (Ln : S (length pre) = length (pre ++ [t])) by (rewrite app_length; cbn; lia).
        destruct (ctx n); [exists None, seen, (S n); split; [reflexivity|discriminate]|].
        destruct (seen_in seen (length pre)) eqn:Es; [rewrite Ln; now apply IH|].
        assert (Ni : ~ In (length pre) seen) by (rewrite <- seen_in_iff; congruence).
        destruct (polygon_visit ypd (S n) (length pre) t seen Pr Et Ni) as (o & vis & n' & E & Hi & ND & Out & Md & _).
        rewrite E. cbn [bind]. rewrite Ln. apply IH; [exact Sk'|]. destruct o as [rs|]; [|exact Hp].
        destruct (fst (rectify_polygon ypd rs)) as [[|r0 rs0]|] eqn:Er; [exact Hp| |exact Hp].
        intros py r p Hpy Hr Hpp. apply in_app_or in Hpy. destruct Hpy as [Hpy|[<-|[]]]; [now apply (Hp py r p)|].
        destruct Md as (_ & _ & _ & Md & _). destruct (rect_points _ _ _ _ _ Er Hr Hpp) as (r' & Hr' & Hp').
        destruct (Md r' p Hr' Hp') as (j & u & _ & Ej & Hu). exists u. split; [eapply nth_error_In, Ej|exact Hu]. }
    apply (G ts [] 0 [] []); [reflexivity|]. intros py r p [].
  Qed.

  Definition poly_of (ypd : bool) (o : option (list (list pt))) : list (list (list pt)) :=
    kept_polygon (match o with None => None | Some rs => fst (rectify_polygon ypd rs) end).

  Theorem multi_groups ypd : proper ts -> (forall k, ctx k = false) -> exists groups seen n,
    multi_polygon ts ctx ypd = Ok (Some (flat_map (fun go => poly_of ypd (snd go)) groups), seen, n) /\
    Permutation (concat (map fst groups)) (seq 0 (length ts)) /\
    (forall g o, In (g, o) groups -> g <> [] /\ made_from ts g o) /\
    (coherent ts -> forall g o, In (g, o) groups -> component ts g).
  Proof.
    intros Pr Nv. unfold multi_polygon.
    assert (G : forall rest pre n seen gs, ts = pre ++ rest ->
      (forall i, i < length pre -> In i seen) ->
      (forall i, In i seen <-> In i (concat (map fst gs))) -> NoDup (concat (map fst gs)) -> (forall i, In i (concat (map fst gs)) -> i < length ts) ->
      (forall g o, In (g, o) gs -> g <> [] /\ made_from ts g o) ->
      (coherent ts -> (forall g o, In (g, o) gs -> component ts g) /\
         (forall i j ti tj, In i seen -> nth_error ts i = Some ti -> nth_error ts j = Some tj -> neighbours ti tj -> In j seen)) ->
      exists groups seen' n', multi_loop ts ctx ypd n (length pre) rest seen (flat_map (fun go => poly_of ypd (snd go)) gs) =
          Ok (Some (flat_map (fun go => poly_of ypd (snd go)) groups), seen', n') /\
        Permutation (concat (map fst groups)) (seq 0 (length ts)) /\
        (forall g o, In (g, o) groups -> g <> [] /\ made_from ts g o) /\
        (coherent ts -> forall g o, In (g, o) groups -> component ts g)).
    { induction rest as [|t rest IH]; intros pre n seen gs Sk Hs Sg ND Rg Mg Cg; cbn [multi_loop].
      - exists gs, seen, n. split; [reflexivity|]. split; [|split; [exact Mg|intros Co; apply (Cg Co)]].
        apply NoDup_Permutation; [exact ND|apply seq_NoDup|]. intros i. rewrite in_seq. rewrite app_nil_r in Sk. subst pre. split.
        + intros H. specialize (Rg i H). lia.
        + intros H. apply Sg, Hs. lia.
      - pose proof (at_end _ _ _ Sk) as Et.
        assert (Sk' : ts = (pre ++ [t]) ++ rest) by (rewrite <- app_assoc; exact Sk).
        assert (Ln : S (length pre) = length (pre ++ [t])) by (rewrite app_length; cbn; lia).
        rewrite Nv.
        destruct (seen_in seen (length pre)) eqn:Es.
        { rewrite Ln. apply IH; try assumption. rewrite <- Ln. intros i Hi. destruct (Nat.eq_dec i (length pre)) as [->|]; [now apply seen_in_iff|]. apply Hs. lia. }
        assert (Ni : ~ In (length pre) seen) by (rewrite <- seen_in_iff; congruence).
        destruct (polygon_visit ypd (S n) (length pre) t seen Pr Et Ni) as (o & vis & n' & E & Hi & NDv & Out & Md & Ch).
        rewrite E. cbn [bind]. rewrite Ln.
        replace (match match o with Some rs => fst (rectify_polygon ypd rs) | None => None end with
                 | Some (r :: rs) => flat_map (fun go => poly_of ypd (snd go)) gs ++ [r :: rs]
                 | _ => flat_map (fun go => poly_of ypd (snd go)) gs end)
          with (flat_map (fun go => poly_of ypd (snd go)) (gs ++ [(vis, o)])).
        2:{ rewrite flat_map_app. cbn [flat_map snd]. rewrite app_nil_r. unfold poly_of at 2, kept_polygon.
            destruct (match o with Some rs => fst (rectify_polygon ypd rs) | None => None end) as [[|r rs]|]; [apply app_nil_r|reflexivity|apply app_nil_r]. }
        assert (Cc : concat (map fst (gs ++ [(vis, o)])) = concat (map fst gs) ++ vis) by (rewrite map_app, concat_app; cbn; now rewrite app_nil_r).
        apply IH; [exact Sk'|..].
        + rewrite <- Ln. intros i Hlt. apply in_or_app. destruct (Nat.eq_dec i (length pre)) as [->|]; [now left|]. right. right. apply Hs. lia.
        + intros i. rewrite Cc, !in_app_iff. cbn [In]. rewrite <- Sg. split; [intros [H|[<-|H]]; tauto|tauto].
        + rewrite Cc. apply NoDup_app'; [exact ND|exact NDv|]. intros i H1 H2. apply Sg in H1. now apply (Out i H2).
        + intros i. rewrite Cc, in_app_iff. intros [H|H]; [now apply Rg|now apply Out].
        + intros g o' H. apply in_app_or in H. destruct H as [H|[[= <- <-]|[]]]; [now apply Mg|]. split; [|exact Md]. intros ->. exact Hi.
        + intros Co. destruct (Cg Co) as (Cp & Cl). destruct (Ch Co) as (Lk & Nb). specialize (Nb Nv).
          assert (Cv : forall i j ti tj, In i vis -> nth_error ts i = Some ti -> nth_error ts j = Some tj -> neighbours ti tj -> In j vis).
          { intros i j ti tj Hv Ei Ej N. specialize (Nb i j ti tj Hv Ei Ej N). apply in_app_or in Nb. destruct Nb as [H|[<-|H]]; [exact H|exact Hi|].
            exfalso. apply (Out i Hv). apply (Cl j i tj ti H Ej Ei). now apply neighbours_sym. }
          split.
          * intros g o' H. apply in_app_or in H. destruct H as [H|[[= <- <-]|[]]]; [now apply (Cp g o')|].
            split; [intros ->; exact Hi|]. split; [exact NDv|]. intros i j Hv. split.
            -- intros Hj. apply linked_trans with (length pre); [apply linked_sym, Lk, Hv|apply Lk, Hj].
            -- intros L. induction L as [|i j k ti tj L IHL Ei Ej N]; [exact Hv|]. exact (Cv j k ti tj (IHL Hv) Ei Ej N).
          * intros i j ti tj H Ei Ej N. apply in_app_or in H. apply in_or_app. destruct H as [H|[<-|H]]; [left; exact (Cv i j ti tj H Ei Ej N)|left; exact (Cv _ j ti tj Hi Ei Ej N)|].
            right. right. exact (Cl i j ti tj H Ei Ej N). }
    apply (G ts [] 0 [] []); cbn; try easy; try (intros; lia). constructor.
  Qed.
End Multi.
