(** Proofs about clipping: what the loop does, for all words *)
From Coq Require Import ZArith Bool List Lia Arith.
From Verif Require Import Base_Res Base_F64 Base_Geom M_Geom M_Extent M_Cmp M_Intersect M_Clip S_Intersect S_Clip.
Import ListNotations.

Lemma segments_app {A} (l : list A) d x : segments (l ++ d :: x) = segments (l ++ [d]) ++ segments (d :: x).
Proof.
  induction l as [|a l IH]; [reflexivity|]. destruct l as [|b l].
  - cbn. destruct x; reflexivity.
  - change ((a :: b :: l) ++ d :: x) with (a :: b :: (l ++ d :: x)).
    change ((a :: b :: l) ++ [d]) with (a :: b :: (l ++ [d])).
    change (segments (a :: b :: l ++ d :: x)) with ((a, b) :: segments (b :: l ++ d :: x)).
    change (segments (a :: b :: l ++ [d])) with ((a, b) :: segments (b :: l ++ [d])).
    cbn [app]. f_equal. exact IH.
Qed.

Open Scope nat_scope.
Section Clip.
  Variable c : compare.
  Variable ctx : context.
  Variable box : option extent.

  (** What one segment contributes. *)
  Definition contribution (ln : line) : list line :=
    match contains_point box (fst ln), contains_point box (snd ln) with
    | false, false => match unique_points c box ln with
                      | a :: b :: _ => [if same_direction ln a b then (a, b) else (b, a)]
                      | _ => []
                      end
    | true, true => [ln]
    | false, true => match unique_points c box ln with
                     | [] => []
                     | [a] => [(a, snd ln)]
                     | a :: b :: _ => [(if same_direction ln a b then a else b, snd ln)]
                     end
    | true, false => segments (fst ln :: filter (fun x => negb (point_equal c x (fst ln))) (unique_points c box ln))
    end.

  Definition ready (prev : pt) (lin : bool) (cls : list pt) : Prop :=
    if lin then exists l, cls = l ++ [prev] else cls = [].

  Lemma last_snoc {A} (l : list A) x d : last (l ++ [x]) d = x.
  Proof. induction l as [|a l IH]; [reflexivity|]. cbn. destruct (l ++ [x]) eqn:E; [now destruct l | exact IH]. Qed.

  Lemma loop_segments : forall rest n prev lin mls cls out n',
    lin = contains_point box prev -> ready prev lin cls ->
    clip_loop c ctx n box prev lin rest mls cls = (Ok out, n') ->
    flat_map segments out = flat_map segments mls ++ segments cls ++ flat_map contribution (segments (prev :: rest)).
  Proof.
    induction rest as [|p rest IH]; intros n prev lin mls cls out n' Hl Hr E.
    - cbn in E. injection E as <- <-. cbn. rewrite app_nil_r. destruct cls as [|a [|b cls]]; cbn.
      + now rewrite app_nil_r.
      + now rewrite app_nil_r.
      + rewrite flat_map_app. cbn. now rewrite ?app_nil_r.
    - cbn in E. destruct (ctx n); [discriminate|].
      change (segments (prev :: p :: rest)) with ((prev, p) :: segments (p :: rest)).
      cbn [flat_map]. unfold contribution at 1. cbn [fst snd]. rewrite <- Hl.
      destruct lin, (contains_point box p) eqn:Hp.
      + destruct Hr as [l ->]. apply IH in E; [|auto|eexists; reflexivity]. rewrite E.
        rewrite <- app_assoc. cbn [app]. rewrite (segments_app l prev [p]). cbn [segments].
        now rewrite <- !app_assoc.
      + destruct Hr as [l ->].
        assert (E' : clip_loop c ctx (S n) box p false rest
            (mls ++ [l ++ [prev] ++ filter (fun x => negb (point_equal c x prev)) (unique_points c box (prev, p))]) [] = (Ok out, n')).
        { destruct (unique_points c box (prev, p)) as [|a t] eqn:Eu; [cbn; exact E|].
          destruct (l ++ [prev]) as [|q l'] eqn:El; [now destruct l|].
          rewrite <- El in E. rewrite last_snoc in E. rewrite <- app_assoc in E. exact E. }
        clear E. apply IH in E'; [|auto|reflexivity]. rewrite E', flat_map_app. cbn [flat_map segments app].
        rewrite app_nil_r. rewrite (segments_app l prev). now rewrite <- !app_assoc.
      + cbn in Hr. subst cls. apply IH in E; [|auto|destruct (unique_points c box (prev, p)) as [|a [|b t]];
          [exists []; reflexivity | exists [a]; reflexivity | eexists; reflexivity]].
        rewrite E. destruct (unique_points c box (prev, p)) as [|a [|b t]]; reflexivity.
      + cbn in Hr. subst cls. apply IH in E; [|auto|reflexivity]. rewrite E. cbn [segments app].
        destruct (unique_points c box (prev, p)) as [|a [|b t]]; try reflexivity.
        rewrite flat_map_app. destruct (same_direction (prev, p) a b); cbn; now rewrite <- !app_assoc.
  Qed.

  (** Every vertex of the result is a vertex in the box or an intersection. *)
  Lemma loop_points (P : pt -> Prop) : forall rest n prev lin mls cls out n',
    (forall p, In p rest -> contains_point box p = true -> P p) ->
    (forall ln a, In ln (segments (prev :: rest)) -> In a (unique_points c box ln) -> P a) ->
    Forall (Forall P) mls -> Forall P cls ->
    clip_loop c ctx n box prev lin rest mls cls = (Ok out, n') -> Forall (Forall P) out.
  Proof.
    induction rest as [|p rest IH]; intros n prev lin mls cls out n' Hv Hu Hm Hc E.
    - cbn [clip_loop] in E. injection E as <- <-. destruct (1 <? length cls)%nat; [apply Forall_app; auto | exact Hm].
    - cbn [clip_loop] in E. destruct (ctx n); [discriminate|].
      assert (Hu' : Forall P (unique_points c box (prev, p))).
      { apply Forall_forall. intros a. apply Hu. now left. }
      assert (Hu2 : forall ln a, In ln (segments (p :: rest)) -> In a (unique_points c box ln) -> P a).
      { intros ln a H. apply Hu. now right. }
      assert (Hv2 : forall q, In q rest -> contains_point box q = true -> P q).
      { intros q H. apply Hv. now right. }
      destruct lin, (contains_point box p) eqn:Hp.
      + apply IH in E; auto. apply Forall_app; split; auto. constructor; auto. apply Hv; auto. now left.
      + destruct (unique_points c box (prev, p)) as [|a t] eqn:Eu.
        * apply IH in E; auto. apply Forall_app; auto.
        * destruct cls as [|q cl]; [discriminate|]. apply IH in E; auto. apply Forall_app; split; auto.
          constructor; auto. apply Forall_app; split; auto.
          rewrite Forall_forall in *. intros x Hx. apply Hu'. apply filter_In in Hx. apply Hx.
      + apply IH in E; auto. apply Forall_app; split; [|constructor; auto; apply Hv; auto; now left].
        destruct (unique_points c box (prev, p)) as [|a [|b t]]; [auto| |].
        * apply Forall_app; auto.
        * inversion Hu' as [|? ? Pa Pt]; subst. inversion Pt; subst.
          apply Forall_app; split; auto. constructor; auto. destruct (same_direction _ _ _); auto.
      + apply IH in E; auto. destruct (unique_points c box (prev, p)) as [|a [|b t]]; auto.
        inversion Hu' as [|? ? Pa Pt]; subst. inversion Pt; subst.
        apply Forall_app; split; auto. constructor; auto. destruct (same_direction _ _ _); auto.
  Qed.

  (** It ends, and fails only when the context says so. *)
  Lemma loop_total : forall rest n prev lin mls cls,
    ready prev lin cls ->
    (exists out, clip_loop c ctx n box prev lin rest mls cls = (Ok out, n + length rest) /\
       forall i, n <= i < n + length rest -> ctx i = false) \/
    (exists i, n <= i < n + length rest /\ ctx i = true /\ clip_loop c ctx n box prev lin rest mls cls = (Err Cancelled, S i)).
  Proof.
    induction rest as [|p rest IH]; intros n prev lin mls cls Hr.
    - left. eexists. cbn. rewrite Nat.add_0_r. split; [reflexivity | intros; lia].
    - cbn. destruct (ctx n) eqn:Ec.
      + right. exists n. split; [lia|]. auto.
      + assert (K : forall lin' mls' cls', ready p lin' cls' ->
          (exists out, clip_loop c ctx (S n) box p lin' rest mls' cls' = (Ok out, n + S (length rest)) /\
             forall i, n <= i < n + S (length rest) -> ctx i = false) \/
          (exists i, n <= i < n + S (length rest) /\ ctx i = true /\ clip_loop c ctx (S n) box p lin' rest mls' cls' = (Err Cancelled, S i))).
        { intros lin' mls' cls' H. destruct (IH (S n) p lin' mls' cls' H) as [(out & E & Hi)|(i & Hi & Hc & E)].
          - left. exists out. rewrite E. split; [f_equal; lia|]. intros i Hi'. destruct (Nat.eq_dec i n) as [->|N]; [exact Ec|].
            apply Hi. lia.
          - right. exists i. split; [lia|]. auto. }
        destruct lin, (contains_point box p) eqn:Hp.
        * apply K. eexists; reflexivity.
        * destruct Hr as [l ->]. destruct (unique_points c box (prev, p)) as [|a t]; [apply K; reflexivity|].
          destruct (l ++ [prev]) as [|q l'] eqn:El; [now destruct l|]. apply K. reflexivity.
        * apply K. cbn. eexists; reflexivity.
        * apply K. cbn in *. exact Hr.
  Qed.

  (** The lines found do not depend on the context. *)
  Lemma loop_ctx ctx2 : forall rest n prev lin mls cls out n',
    clip_loop c ctx n box prev lin rest mls cls = (Ok out, n') ->
    (forall i, n <= i < n + length rest -> ctx2 i = false) ->
    clip_loop c ctx2 n box prev lin rest mls cls = (Ok out, n').
  Proof.
    induction rest as [|p rest IH]; intros n prev lin mls cls out n' E H; [exact E|].
    cbn in E |- *. destruct (ctx n); [discriminate|]. rewrite (H n) by (cbn; lia).
    assert (H' : forall i, S n <= i < S n + length rest -> ctx2 i = false) by (intros; apply H; cbn; lia).
    destruct lin, (contains_point box p).
    - now apply IH.
    - destruct (unique_points c box (prev, p)) as [|a t]; [now apply IH|].
      destruct cls as [|q cl]; [discriminate|]. now apply IH.
    - now apply IH.
    - now apply IH.
  Qed.

  (** ** The points found on the edges *)
  Lemma points_from : forall es ln pts a, In a (intersect_points c es ln pts) ->
    In a pts \/ exists e, In e es /\ segment_intersect e ln = (a, true).
  Proof.
    induction es as [|e es IH]; intros ln pts a H; [now left|]. cbn [intersect_points] in H.
    destruct (segment_intersect e ln) as [p ok] eqn:E. destruct ok; cbn [negb] in H.
    - destruct (existsb _ pts); [now left|].
      assert (K : In a (pts ++ [p]) \/ exists e', In e' es /\ segment_intersect e' ln = (a, true)).
      { destruct (2 <=? length (pts ++ [p])); [now left | now apply IH]. }
      destruct K as [K|(e' & I & K)]; [|right; exists e'; split; [now right | exact K]].
      apply in_app_or in K as [K|[<-|[]]]; [now left|]. right. exists e. split; [now left | exact E].
    - destruct (IH ln pts a H) as [K|(e' & I & K)]; [now left|]. right. exists e'. split; [now right | exact K].
  Qed.
  Lemma points_two : forall es ln pts, (length pts <= 1)%nat ->
    length (intersect_points c es ln pts) <= 2 /\
    forall a b, intersect_points c es ln pts = [a; b] -> point_equal c a b = false.
  Proof.
    induction es as [|e es IH]; intros ln pts H; [cbn; split; [lia|]; intros a b ->; cbn in H; lia|].
    cbn. destruct (segment_intersect e ln) as [p ok]. destruct ok; cbn [negb]; [|now apply IH].
    destruct pts as [|q [|q' pts]]; [cbn | cbn | cbn in H; lia].
    - apply IH. cbn. lia.
    - destruct (point_equal c q p) eqn:Eq; cbn; [split; [lia | intros; discriminate]|].
      split; [lia|]. intros a b E. now injection E as <- <-.
  Qed.
End Clip.
