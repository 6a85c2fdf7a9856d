(** Proofs about clipping: the pieces are those of the runs; refutations and examples *)
From Coq Require Import ZArith Bool List Lia Reals Lra.
From Flocq Require Import Core.Core.
From Verif Require Import Base_Res Base_F64 Base_F64Arith Base_Geom M_Geom M_Extent M_Cmp M_Intersect M_Clip S_Intersect S_Winding S_Cmp S_Clip
  P_F64 P_F64Flocq P_F64Round P_F64Grid P_Intersect P_Intersect2 P_Intersect3 P_Intersect4 P_WktExt P_Cmp2 P_Cmp3 P_Clip P_Clip2 P_Clip3 P_Clip4.
Import ListNotations.
Open Scope nat_scope.

Definition never : context := fun _ => false.

Section Runs.
  Variable c : compare.
  Variable b : extent.

  (** The loop, without the context. *)
  Definition loop prev lin rest mls cls := fst (clip_loop c never 0 (Some b) prev lin rest mls cls).
  Lemma loop_n : forall rest n prev lin mls cls,
    fst (clip_loop c never n (Some b) prev lin rest mls cls) = loop prev lin rest mls cls.
  Proof.
    unfold loop. induction rest as [|p rest IH]; intros; [reflexivity|]. cbn [clip_loop never].
    destruct lin, (contains_point (Some b) p); try (rewrite IH; symmetry; apply IH).
    destruct (unique_points c (Some b) (prev, p)); [rewrite IH; symmetry; apply IH|].
    destruct cls; [reflexivity|]. rewrite IH. symmetry. apply IH.
  Qed.

  Definition after (mls : list (list pt)) (r : res clip_error (list (list pt))) := do o <- r; Ok (mls ++ o).

  Lemma loop_mls : forall rest prev lin mls cls, loop prev lin rest mls cls = after mls (loop prev lin rest [] cls).
  Proof.
    induction rest as [|p rest IH]; intros prev lin mls cls.
    - unfold loop. cbn. destruct (length cls) as [|[|k]]; cbn; [now rewrite app_nil_r | now rewrite app_nil_r | reflexivity].
    - assert (A : forall a r, after (mls ++ a) r = after mls (after a r)).
      { intros a [o|e|]; cbn; [now rewrite app_assoc | reflexivity | reflexivity]. }
      unfold loop. cbn [clip_loop never].
      destruct lin, (contains_point (Some b) p).
      + rewrite !loop_n. apply IH.
      + destruct (unique_points c (Some b) (prev, p)) as [|u us].
        * rewrite !loop_n. rewrite IH, A, <- IH. reflexivity.
        * destruct cls as [|q cls]; [reflexivity|]. rewrite !loop_n. rewrite IH, A, <- IH. reflexivity.
      + rewrite !loop_n. apply IH.
      + rewrite !loop_n. destruct (unique_points c (Some b) (prev, p)) as [|u [|d us]]; [apply IH | apply IH |].
        rewrite IH, A, <- IH. reflexivity.
  Qed.

  Lemma after_nil r : after [] r = r.
  Proof. destruct r; reflexivity. Qed.

  (** Both halves of a line cut at an outside vertex. *)
  Definition joined (x y : res clip_error (list (list pt))) := do o <- x; after o y.

  Lemma loop_cut w rest2 : contains_point (Some b) w = false -> forall rest1 prev lin cls,
    lin = contains_point (Some b) prev -> ready prev lin cls -> Forall (fun p => contains_point (Some b) p = true) rest1 ->
    loop prev lin (rest1 ++ w :: rest2) [] cls = joined (loop prev lin (rest1 ++ [w]) [] cls) (loop w false rest2 [] []) /\
    exists o, loop prev lin (rest1 ++ [w]) [] cls = Ok o /\ length o <= 1.
  Proof.
    intros Hw. induction rest1 as [|p rest1 IH]; intros prev lin cls Hl Hr F.
    - cbn [app]. unfold loop. cbn [clip_loop never]. rewrite Hw. rewrite !loop_n. destruct lin.
      + destruct Hr as [l ->]. destruct (unique_points c (Some b) (prev, w)) as [|u us].
        * rewrite ?loop_n. split; [etransitivity; [apply loop_mls | reflexivity] | eexists; split; [reflexivity | cbn; lia]].
        * destruct (l ++ [prev]) as [|q0 ql] eqn:El; [destruct l; discriminate|].
          rewrite ?loop_n. split; [etransitivity; [apply loop_mls | reflexivity] | eexists; split; [reflexivity | cbn; lia]].
      + cbn in Hr. subst cls. destruct (unique_points c (Some b) (prev, w)) as [|u [|d us]];
        (rewrite ?loop_n; split; [etransitivity; [apply loop_mls | reflexivity] | eexists; split; [reflexivity | cbn; lia]]).
    - inversion F as [|? ? Hp F']; subst. cbn [app]. unfold loop. cbn [clip_loop never]. rewrite Hp.
      destruct (contains_point (Some b) prev) eqn:Epr; rewrite !loop_n.
      + apply IH; auto. unfold ready. rewrite ?Hp. eexists; reflexivity.
      + cbn in Hr. subst cls. apply IH; auto. unfold ready. rewrite ?Hp. eexists; reflexivity.
  Qed.

  Lemma loop_last : forall rest1 w prev lin cls,
    lin = contains_point (Some b) prev -> ready prev lin cls -> Forall (fun p => contains_point (Some b) p = true) rest1 ->
    exists o, loop prev lin (rest1 ++ [w]) [] cls = Ok o /\ length o <= 1.
  Proof.
    intros rest1 w prev lin cls Hl Hr F. destruct (contains_point (Some b) w) eqn:Hw.
    - revert prev lin cls Hl Hr. induction rest1 as [|p rest1 IH]; intros prev lin cls Hl Hr.
      + cbn [app]. unfold loop. cbn [clip_loop never]. rewrite Hw. destruct lin; cbn [fst clip_loop];
        eexists; (split; [reflexivity|]); match goal with |- length (if ?x then _ else _) <= 1 => destruct x; cbn; lia end.
      + inversion F as [|? ? Hp F']; subst. cbn [app]. unfold loop. cbn [clip_loop never]. rewrite Hp.
        destruct (contains_point (Some b) prev) eqn:Epr; rewrite !loop_n.
        * apply (IH F'); auto. unfold ready. rewrite ?Hp. eexists; reflexivity.
        * cbn in Hr. subst cls. apply (IH F'); auto. unfold ready. rewrite ?Hp. eexists; reflexivity.
    - exact (proj2 (loop_cut w [] Hw rest1 prev lin cls Hl Hr F)).
  Qed.

  Hypothesis Nu : is_universe (Some b) = false.

  Lemma clip_line_is p q ls : fst (clip_line c never 0 (Some b) (p :: q :: ls)) =
    loop p (contains_point (Some b) p) (q :: ls) [] (if contains_point (Some b) p then [p] else []).
  Proof. unfold clip_line, contains_geom. rewrite Nu. reflexivity. Qed.

  Lemma start_ready p : ready p (contains_point (Some b) p) (if contains_point (Some b) p then [p] else []).
  Proof. unfold ready. destruct (contains_point (Some b) p); [exists []; reflexivity | reflexivity]. Qed.

  (** A line is a run and the line after it. *)
  Lemma first_run : forall rest p q, exists rest1 w rest2, q :: rest = rest1 ++ w :: rest2 /\
    Forall (fun p => contains_point (Some b) p = true) rest1 /\ (rest2 = [] \/ contains_point (Some b) w = false) /\
    runs b (p :: q :: rest) = (p :: rest1 ++ [w]) :: (match rest2 with [] => [] | _ => runs b (w :: rest2) end).
  Proof.
    induction rest as [|r rest IH]; intros p q.
    - exists [], q, []. repeat split; auto.
    - destruct (IH q r) as (rest1 & w & rest2 & E & F & Hw & Er).
      change (runs b (p :: q :: r :: rest)) with
        (match runs b (q :: r :: rest) with
         | x :: rs => if inside b q then (p :: x) :: rs else [p; q] :: x :: rs
         | [] => [[p; q]]
         end). rewrite Er. destruct (inside b q) eqn:Iq.
      + exists (q :: rest1), w, rest2. rewrite E. repeat split; auto.
      + exists [], q, (r :: rest). repeat split; auto. cbn [app]. now rewrite <- Er.
  Qed.

  Theorem clip_runs : forall n ls, length ls <= n -> forall out, fst (clip_line c never 0 (Some b) ls) = Ok out ->
    exists outs, out = concat outs /\
      Forall2 (fun run o => fst (clip_line c never 0 (Some b) run) = Ok o /\ length o <= 1) (runs b ls) outs.
  Proof.
    induction n as [|n IH]; intros ls L out E.
    - destruct ls; [|cbn in L; lia]. cbn in E. injection E as <-. exists []. split; [reflexivity | constructor].
    - destruct ls as [|p [|q ls]]; [cbn in E; injection E as <-; exists []; split; [reflexivity | constructor] | discriminate |].
      destruct (first_run ls p q) as (rest1 & w & rest2 & El & F & Hw & Er). rewrite Er.
      rewrite clip_line_is, El in E.
      assert (Run : fst (clip_line c never 0 (Some b) (p :: rest1 ++ [w])) =
        loop p (contains_point (Some b) p) (rest1 ++ [w]) [] (if contains_point (Some b) p then [p] else [])).
      { destruct rest1; apply clip_line_is. }
      destruct rest2 as [|r2 rest2].
      + destruct (loop_last rest1 w p _ _ eq_refl (start_ready p) F) as (o & Eo & Lo).
        rewrite Eo in E. injection E as ->. exists [out]. cbn. rewrite app_nil_r. split; [reflexivity|].
        constructor; [|constructor]. rewrite Run. auto.
      + destruct Hw as [Hw|Hw]; [discriminate|].
        destruct (loop_cut w (r2 :: rest2) Hw rest1 p _ _ eq_refl (start_ready p) F) as (Ec & o & Eo & Lo).
        rewrite Ec, Eo in E. unfold joined in E. cbn [bind] in E.
        assert (En : fst (clip_line c never 0 (Some b) (w :: r2 :: rest2)) = loop w false (r2 :: rest2) [] []) by now rewrite clip_line_is, Hw.
        rewrite <- En in E.
        destruct (fst (clip_line c never 0 (Some b) (w :: r2 :: rest2))) as [o2|x|] eqn:E2; try discriminate.
        injection E as <-.
        destruct (IH (w :: r2 :: rest2)) with (out := o2) as (outs & -> & F2); auto.
        { assert (length (q :: ls) = length (rest1 ++ w :: r2 :: rest2)) by now rewrite El. rewrite app_length in H. cbn in *. lia. }
        exists (o :: outs). split; [reflexivity|]. constructor; [rewrite Run; auto | exact F2].
  Qed.
End Runs.

(** ** Every kind of geometry *)
Theorem geometry_total c ctx box g :
  match clip_geometry c ctx box g with
  | Panic => False
  | Err Unsupported => is_universe box = false /\
      match g with Some (GPoint _) | Some (GMultiPoint _) | Some (GLineString _) | Some (GMultiLineString _) | None => False | Some _ => True end
  | Err InvalidLineString => exists ls, length ls = 1 /\
      (g = Some (GLineString ls) \/ exists mls, g = Some (GMultiLineString mls) /\ In ls mls)
  | Err Cancelled => exists i, ctx i = true
  | Ok r => is_universe box = true -> r = g
  end.
Proof.
  unfold clip_geometry. destruct (is_universe box) eqn:Nu; [auto|].
  destruct g as [g|]; [|discriminate]. destruct g as [p|ps|ls|mls| | | |]; try (split; [reflexivity | exact I]); try discriminate.
  - unfold clip_multipoint. rewrite Nu. destruct box as [b|]; [|discriminate].
    pose proof (clip_points_filter ctx b ps 0 []) as H.
    destruct (clip_points ctx 0 (Some b) ps []) as [[out|[]|] n']; cbn; try contradiction; [discriminate|].
    destruct H as (i & _ & H). eauto.
  - pose proof (clip_total c ctx 0 box ls) as H. destruct (clip_line c ctx 0 box ls) as [[out|[]|] n']; cbn; try contradiction; try discriminate.
    + destruct H as (i & _ & H). eauto.
    + exists ls. auto.
  - unfold clip_multiline. rewrite Nu.
    assert (K : forall l n acc, incl l mls -> match clip_lines c ctx n box l acc with
      | (Panic, _) | (Err Unsupported, _) => False
      | (Err InvalidLineString, _) => exists ls, length ls = 1 /\ In ls mls
      | (Err Cancelled, _) => exists i, ctx i = true
      | (Ok _, _) => True end).
    { induction l as [|ls l IH]; intros n acc Hi; [exact I|]. cbn [clip_lines].
      pose proof (clip_total c ctx n box ls) as H. destruct (clip_line c ctx n box ls) as [[out|[]|] n']; try contradiction.
      - apply IH. intros x Hx. apply Hi. now right.
      - destruct H as (i & _ & H). eauto.
      - exists ls. split; [exact H|]. apply Hi. now left. }
    specialize (K mls 0 [] (incl_refl _)). destruct (clip_lines c ctx 0 box mls []) as [[out|[]|] n']; cbn; try contradiction; try discriminate; auto.
    destruct K as (ls & H & H'). exists ls. split; [exact H|]. right. eauto.
Qed.

Theorem point_kept c ctx b p : is_universe (Some b) = false ->
  clip_geometry c ctx (Some b) (Some (GPoint p)) = Ok (if inside b p then Some (GPoint p) else None).
Proof. intros Nu. unfold clip_geometry. now rewrite Nu. Qed.

(** ** Examples *)
Open Scope Z_scope.
Definition zbox (l h : Z * Z) : extent := Ext (f64_ofZ (fst l)) (f64_ofZ (snd l)) (f64_ofZ (fst h)) (f64_ofZ (snd h)).
Definition ten := zbox (0, 0) (10, 10).

Lemma zbox_grid l h ls :
  (fst l <= fst h /\ snd l <= snd h) ->
  (forall p, In p (l :: h :: ls) -> Z.abs (fst p) <= 2 ^ 16 /\ Z.abs (snd p) <= 2 ^ 16) ->
  clip_grid (zbox l h) (map zpt ls).
Proof.
  intros O B. exists 0, ls, l, h. split; [lia|].
  assert (B' : forall p, In p (l :: h :: ls) -> Z.abs (fst p) <= two53 /\ Z.abs (snd p) <= two53).
  { intros p Hp. apply B in Hp. unfold two53. lia. }
  split; [|split; [|split; [exact O | exact B]]].
  - assert (K : forall p, In p ls -> Z.abs (fst p) <= two53 /\ Z.abs (snd p) <= two53) by (intros p I; apply B'; right; now right).
    clear -K. unfold on_grid. induction ls as [|p ls IH]; constructor; [apply zpt_grid; apply K; now left | apply IH; intros; apply K; now right].
  - unfold on_grid, zbox. constructor; [|constructor; [|constructor]]; cbn [e0 e1 e2 e3]; apply zpt_grid; apply B'; [now left | now left | right; now left | right; now left].
Qed.
Ltac small := cbn [In fst snd]; let p := fresh in let H := fresh in
  intros p H; repeat (destruct H as [<-|H]; [cbn [fst snd]; lia|]); destruct H.

(** Through two corners: lost. *)
Lemma corner_lost : exists b ls,
  clip_grid b ls /\ is_universe (Some b) = false /\ f64_lt (e0 b) (e2 b) = true /\ f64_lt (e1 b) (e3 b) = true /\
  (forall ctx, (forall n, ctx n = false) -> clip_line default_compare ctx 0 (Some b) ls = (Ok [], 1%nat)) /\
  exists p, in_rect b p /\ Exists (fun ln => on_segment ln p) (segments ls).
Proof.
  exists ten, [zpt (15, -5); zpt (-5, 15)]. split; [apply (zbox_grid (0, 0) (10, 10) [(15, -5); (-5, 15)]); [cbn; lia | small]|].
  split; [vm_compute; reflexivity|]. split; [vm_compute; reflexivity|]. split; [vm_compute; reflexivity|]. split.
  - intros ctx Hc. unfold clip_line. replace (contains_geom (Some ten) GUnknown) with (@None bool) by (vm_compute; reflexivity).
    replace (contains_point (Some ten) (zpt (15, -5))) with false by (vm_compute; reflexivity).
    cbn [clip_loop]. rewrite Hc. replace (contains_point (Some ten) (zpt (-5, 15))) with false by (vm_compute; reflexivity).
    replace (unique_points default_compare (Some ten) (zpt (15, -5), zpt (-5, 15))) with [zpt (10, 0)] by (vm_compute; reflexivity).
    reflexivity.
  - exists (5, 5)%R.
    assert (R : forall n, Z.abs n <= two53 -> f64_R (f64_ofZ n) = IZR n).
    { intros n Hn. rewrite (repr_val _ _ _ (repr_ofZ n Hn)). cbn. ring. }
    split.
    + unfold in_rect, ten, zbox. cbn [e0 e1 e2 e3 fst snd]. rewrite !R by (unfold two53; lia). lra.
    + constructor. exists (1 / 2)%R. split; [lra|]. unfold along, rpt, zpt. cbn [fst snd].
      rewrite !R by (unfold two53; lia). f_equal; lra.
Qed.

(** From a side out of the box: a piece of one point. *)
Lemma one_point : exists b ls p,
  clip_grid b ls /\ is_universe (Some b) = false /\
  forall ctx, (forall n, ctx n = false) -> clip_line default_compare ctx 0 (Some b) ls = (Ok [[p]], 1%nat).
Proof.
  exists ten, [zpt (10, 5); zpt (20, 5)], (zpt (10, 5)).
  split; [apply (zbox_grid (0, 0) (10, 10) [(10, 5); (20, 5)]); [cbn; lia | small]|].
  split; [vm_compute; reflexivity|].
  intros ctx Hc. unfold clip_line. replace (contains_geom (Some ten) GUnknown) with (@None bool) by (vm_compute; reflexivity).
  replace (contains_point (Some ten) (zpt (10, 5))) with true by (vm_compute; reflexivity).
  cbn [clip_loop]. rewrite Hc. replace (contains_point (Some ten) (zpt (20, 5))) with false by (vm_compute; reflexivity).
  replace (unique_points default_compare (Some ten) (zpt (10, 5), zpt (20, 5))) with [zpt (10, 5)] by (vm_compute; reflexivity).
  cbn [last filter]. replace (point_equal default_compare (zpt (10, 5)) (zpt (10, 5))) with true by (vm_compute; reflexivity).
  reflexivity.
Qed.

(** In, out, through: two pieces. *)
Definition walk : list pt := map zpt [(5, 5); (15, 5); (12, 8); (-4, 4)].
Lemma walk_clipped :
  clip_grid ten walk /\ is_universe (Some ten) = false /\
  clip_line default_compare never 0 (Some ten) walk =
    (Ok [[zpt (5, 5); zpt (10, 5)]; [(f64_ofZ 10, f64_div (f64_ofZ 15) (f64_ofZ 2)); zpt (0, 5)]], 3%nat) /\
  runs ten walk = [map zpt [(5, 5); (15, 5)]; map zpt [(15, 5); (12, 8)]; map zpt [(12, 8); (-4, 4)]].
Proof.
  split; [apply (zbox_grid (0, 0) (10, 10)); [cbn; lia | small]|]. split; [vm_compute; reflexivity|]. split; vm_compute; reflexivity.
Qed.

Lemma zR n : Z.abs n <= two53 -> f64_R (f64_ofZ n) = IZR n.
Proof. intros Hn. rewrite (repr_val _ _ _ (repr_ofZ n Hn)). cbn. ring. Qed.
Lemma ten_zero x y : f64_wf x = true -> f64_finite x = true -> f64_R x = 10%R ->
  f64_wf y = true -> f64_finite y = true -> f64_R y = 0%R ->
  cmp_float default_compare x y = false /\ cmp_float default_compare y x = false.
Proof.
  intros W1 F1 R1 W2 F2 R2.
  assert (E1 : f64_eq x (f64_ofZ 10) = true) by (apply eq_R; try assumption; try reflexivity; rewrite R1, zR; [reflexivity | unfold two53; lia]).
  assert (E2 : f64_eq y (f64_ofZ 0) = true) by (apply eq_R; solve [assumption | reflexivity | rewrite R2, zR; [reflexivity | unfold two53; lia]]).
  apply eq_words in E1; [|assumption|reflexivity]. apply eq_words in E2; [|assumption|reflexivity].
  destruct E1 as [-> | [_ [K|K]]]; [|vm_compute in K; discriminate | vm_compute in K; discriminate].
  destruct E2 as [-> | [[-> | ->] _]]; split; vm_compute; reflexivity.
Qed.
Lemma ten_apart u w : Z.abs (fst u) <= two53 -> Z.abs (fst w) <= two53 -> 0 < snd u < 10 -> 0 < snd w < 10 ->
  apart default_compare ten (zline (u, w)).
Proof.
  destruct u as [ux uy], w as [wx wy]. cbn [fst snd]. intros Bu Bw Hu Hw. unfold two53 in Bu, Bw.
  assert (K : forall i q, meets_side ten (zline ((ux, uy), (wx, wy))) i q ->
    (i = 1%nat /\ f64_finite (fst q) = true /\ f64_R (fst q) = 10%R) \/ (i = 3%nat /\ f64_finite (fst q) = true /\ f64_R (fst q) = 0%R)).
  { intros i q (_ & _ & side & p & Hi & (s & S & Ps) & (t & T & Pt) & F1 & _ & Rx & _).
    assert (Y : (0 < snd p < 10)%R).
    { rewrite Pt. unfold along, rpt, zline, zpt. cbn [fst snd]. rewrite !zR by (unfold two53 in *; lia).
      destruct Hu as [Hu1 Hu2], Hw as [Hw1 Hw2]. apply IZR_lt in Hu1, Hu2, Hw1, Hw2. destruct (Rle_or_lt (IZR uy) (IZR wy)); split; nra. }
    unfold sides, ten, zbox in Hi. cbn [e0 e1 e2 e3 fst snd] in Hi.
    assert (Z0 : rnd 0 = 0%R) by apply rnd_0.
    assert (Z10 : rnd 10 = 10%R).
    { pose proof (rnd_id (f64_ofZ 10) eq_refl eq_refl) as H. rewrite zR in H by (unfold two53; lia). exact H. }
    destruct i as [|[|[|[|i]]]]; cbn [nth_error] in Hi; [| | | |destruct i; discriminate]; injection Hi as <-;
      rewrite Ps in Y, Rx; unfold along, rpt in Y, Rx; cbn [fst snd] in Y, Rx; rewrite !zR in Y, Rx by (unfold two53 in *; lia).
    - exfalso. lra.
    - left. split; [reflexivity|]. split; [exact F1|]. rewrite Rx. etransitivity; [|exact Z10]. f_equal. ring.
    - exfalso. lra.
    - right. split; [reflexivity|]. split; [exact F1|]. rewrite Rx. etransitivity; [|exact Z0]. f_equal. ring. }
  intros i j q r Nij Hq Hr. unfold point_equal. apply andb_false_iff. left.
  destruct (K _ _ Hq) as [(-> & A & B)|(-> & A & B)], (K _ _ Hr) as [(-> & C & D)|(-> & C & D)]; try contradiction.
  - exact (proj1 (ten_zero _ _ (proj1 Hq) A B (proj1 Hr) C D)).
  - exact (proj2 (ten_zero _ _ (proj1 Hr) C D (proj1 Hq) A B)).
Qed.
Lemma walk_apart : f64_lt (e0 ten) (e2 ten) = true /\ f64_lt (e1 ten) (e3 ten) = true /\
  forall ln, In ln (segments walk) -> apart default_compare ten ln.
Proof.
  split; [vm_compute; reflexivity|]. split; [vm_compute; reflexivity|].
  unfold walk. cbn [map segments In]. intros ln [<-|[<-|[<-|[]]]].
  - apply (ten_apart (5, 5) (15, 5)); cbn [fst snd]; unfold two53; lia.
  - apply (ten_apart (15, 5) (12, 8)); cbn [fst snd]; unfold two53; lia.
  - apply (ten_apart (12, 8) (-4, 4)); cbn [fst snd]; unfold two53; lia.
Qed.

(** ** The universe *)
Theorem universe_keeps c ctx n box : is_universe box = true ->
  (forall ps, clip_multipoint ctx n box ps = (Ok ps, n)) /\
  (forall mls, clip_multiline c ctx n box mls = (Ok mls, n)) /\
  (forall ls, (2 <= length ls)%nat -> clip_line c ctx n box ls = (Ok [ls], n)).
Proof.
  intros U. unfold clip_multipoint, clip_multiline, clip_line. rewrite U. split; [reflexivity|]. split; [reflexivity|].
  intros [|p [|q ls]] L; cbn in L; [lia|lia|]. cbn [contains_geom].
  destruct box as [b|]; cbn [contains_geom]; [|reflexivity]. unfold contains_geom. rewrite U. reflexivity.
Qed.
