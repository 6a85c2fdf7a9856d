(** * The sweep examines each pair of segments with overlapping x once *)
From Coq Require Import ZArith Bool List Lia Permutation.
From Verif Require Import Base_Res Base_F64 Base_Geom M_Geom M_Cmp M_Intersect M_Sweep S_Cmp S_Intersect S_Sweep
  P_F64 P_Cmp2 P_PlanarLine.
Import ListNotations.
Local Open Scope nat_scope.

(** ** Keys *)
Lemma add_key_in k m x : In x (add_key k m) <-> x = k \/ In x m.
Proof.
  induction m as [|y m IH]; cbn [add_key In]; [intuition congruence|].
  destruct (k <? y) eqn:L; [cbn [In]; intuition congruence|]. destruct (k =? y) eqn:Q.
  - apply Nat.eqb_eq in Q as ->. cbn [In]. intuition congruence.
  - cbn [In]. rewrite IH. intuition congruence.
Qed.
Lemma delete_key_in k m x : In x (delete_key k m) <-> x <> k /\ In x m.
Proof. unfold delete_key. rewrite filter_In, negb_true_iff, Nat.eqb_neq. tauto. Qed.

(** Strictly ascending. *)
Inductive ascending : list nat -> Prop :=
  | asc_nil : ascending []
  | asc_cons x l : (forall y, In y l -> x < y) -> ascending l -> ascending (x :: l).
Lemma add_key_asc k m : ascending m -> ascending (add_key k m).
Proof.
  induction 1 as [|x m H A IH]; cbn [add_key]; [constructor; [intros ? []|constructor]|].
  destruct (k <? x) eqn:L.
  - apply Nat.ltb_lt in L. constructor; [|now constructor]. intros y [->|Hy]; [exact L|]. specialize (H y Hy). lia.
  - apply Nat.ltb_ge in L. destruct (k =? x) eqn:Q; [now constructor|]. apply Nat.eqb_neq in Q.
    constructor; [|exact IH]. intros y Hy. apply add_key_in in Hy as [->|Hy]; [lia|auto].
Qed.
Lemma delete_key_asc k m : ascending m -> ascending (delete_key k m).
Proof.
  induction 1 as [|x m H A IH]; [constructor|]. unfold delete_key. cbn [filter]. fold (delete_key k m).
  destruct (negb (x =? k)); [|exact IH]. constructor; [|exact IH]. intros y Hy. apply delete_key_in in Hy as [_ Hy]. auto.
Qed.
Lemma asc_nodup m : ascending m -> NoDup m.
Proof. induction 1 as [|x m H A IH]; constructor; auto. intros I. specialize (H x I). lia. Qed.

(** ** The pairs examined *)
Fixpoint examined (evs : list event) (m : list nat) : list (nat * nat) :=
  match evs with
  | [] => []
  | e :: tl =>
      match ev_type e with
      | LEFT => examined tl (add_key (ev_edge e) m)
      | RIGHT => map (pair (ev_edge e)) (delete_key (ev_edge e) m) ++ examined tl (delete_key (ev_edge e) m)
      end
  end.
Fixpoint active (evs : list event) (m : list nat) : list nat :=
  match evs with
  | [] => m
  | e :: tl => active tl (match ev_type e with LEFT => add_key (ev_edge e) m | RIGHT => delete_key (ev_edge e) m end)
  end.

Lemma examined_in evs : forall m i j, In (i, j) (examined evs m) <->
  exists a b e, evs = a ++ e :: b /\ ev_edge e = i /\ ev_type e = RIGHT /\ j <> i /\ In j (active a m).
Proof.
  induction evs as [|x evs IH]; intros m i j; cbn [examined].
  { split; [intros []|]. intros (a & b & e & E & _). destruct a; discriminate. }
  destruct (ev_type x) eqn:T.
  - rewrite IH. split.
    + intros (a & b & e & -> & H). exists (x :: a), b, e. split; [reflexivity|]. cbn [active]. rewrite T. exact H.
    + intros (a & b & e & E & Hi & Ht & H). destruct a as [|y a]; injection E as -> E; [congruence|].
      exists a, b, e. split; [exact E|]. cbn [active] in H. rewrite T in H. auto.
  - rewrite in_app_iff, in_map_iff, IH. split.
    + intros [(j' & E & Hj)|(a & b & e & -> & H)].
      * injection E as Ei ->. apply delete_key_in in Hj as [Hj Hm]. exists [], evs, x. cbn [app active]. repeat split; auto; congruence.
      * exists (x :: a), b, e. split; [reflexivity|]. cbn [active]. rewrite T. exact H.
    + intros (a & b & e & E & Hi & Ht & Hj & H). destruct a as [|y a]; injection E as -> E.
      * left. exists j. subst i. split; [reflexivity|]. apply delete_key_in. cbn [active] in H. auto.
      * right. exists a, b, e. split; [exact E|]. cbn [active] in H. rewrite T in H. auto.
Qed.

Definition is_event (i : nat) (t : event_type) (e : event) : Prop := ev_edge e = i /\ ev_type e = t.
Lemma active_in evs : forall m j, In j (active evs m) <->
  (exists a b e, evs = a ++ e :: b /\ is_event j LEFT e /\ forall e', In e' b -> ~ is_event j RIGHT e') \/
  (In j m /\ forall e', In e' evs -> ~ is_event j RIGHT e').
Proof.
  induction evs as [|x evs IH]; intros m j; cbn [active].
  { split; [intros H; right; split; [exact H|intros ? []]|]. intros [(a & b & e & E & _)|[H _]]; [destruct a; discriminate|exact H]. }
  rewrite IH. split.
  - intros [(a & b & e & -> & H)|[H N]]; [left; exists (x :: a), b, e; split; [reflexivity|exact H]|].
    destruct (ev_type x) eqn:T.
    + apply add_key_in in H as [->|H].
      * left. exists [], evs, x. repeat split; auto.
      * right. split; [exact H|]. intros e' [<-|He]; [intros [_ K]; congruence|auto].
    + apply delete_key_in in H as [Hj H]. right. split; [exact H|]. intros e' [<-|He]; [intros [K _]; congruence|auto].
  - intros [(a & b & e & E & H & N)|[H N]].
    + destruct a as [|y a]; injection E as -> E.
      * right. subst b. destruct H as [H1 H2]. rewrite H2. split; [apply add_key_in; left; congruence|exact N].
      * left. exists a, b, e. auto.
    + right. split; [|intros e' He; apply N; now right].
      destruct (ev_type x) eqn:T; [apply add_key_in; now right|]. apply delete_key_in. split; [|exact H].
      intros ->. apply (N x); [now left|now split].
Qed.

Lemma active_asc evs : forall m, ascending m -> ascending (active evs m).
Proof.
  induction evs as [|x evs IH]; intros m H; cbn [active]; [exact H|]. apply IH. destruct (ev_type x); [now apply add_key_asc|now apply delete_key_asc].
Qed.

(** ** Calls *)
Section Calls.
  Context {E : Type}.
  Variable c : compare.
  Variable segs : list line.
  Variable connected : bool.
  Definition pick (ij : nat * nat) : list call :=
    match nth_error segs (fst ij), nth_error segs (snd ij) with
    | Some seg, Some seg1 =>
        if connected && share_end c seg seg1 then []
        else let (p, ok) := segment_intersect seg seg1 in if negb ok then [] else [(fst ij, snd ij, p)]
    | _, _ => []
    end.
  Definition all_calls (evs : list event) : list call := flat_map pick (examined evs []).


  (** One scan, continued by [k]. *)
  Lemma scan_calls (fn : list call -> call -> answer E) i seg : nth_error segs i = Some seg -> forall keys rest made,
    (forall j, In j keys -> j < length segs) ->
    call_each fn made (flat_map pick (map (pair i) keys) ++ rest) =
    match scan c segs connected fn i seg keys made with
    | (made', Some r) => (made', r)
    | (made', None) => call_each fn made' rest
    end.
  Proof.
    intros Hi keys. induction keys as [|j keys IH]; intros rest made Hk; cbn [map flat_map scan app]; [reflexivity|].
    assert (Hk' : forall j', In j' keys -> j' < length segs) by (intros; apply Hk; now right).
    destruct (nth_error segs j) as [seg1|] eqn:Hj; [|exfalso; apply nth_error_None in Hj; specialize (Hk j (or_introl eq_refl)); lia].
    unfold pick at 1. cbn [fst snd]. rewrite Hi, Hj.
    destruct (connected && share_end c seg seg1); [apply IH; exact Hk'|].
    destruct (segment_intersect seg seg1) as [p ok]. destruct ok; cbn [negb]; [|apply IH; exact Hk'].
    cbn [app call_each]. destruct (fn made (i, j, p)); auto.
  Qed.

  Lemma sweep_calls (fn : list call -> call -> answer E) evs : forall n m made,
    (forall e, In e evs -> ev_edge e < length segs) -> (forall j, In j m -> j < length segs) ->
    sweep c segs connected fn (fun _ => None) n evs m made = call_each fn made (flat_map pick (examined evs m)).
  Proof.
    induction evs as [|e evs IH]; intros n m made He Hm; cbn [sweep examined]; [reflexivity|].
    assert (He' : forall e', In e' evs -> ev_edge e' < length segs) by (intros; apply He; now right).
    pose proof (He e (or_introl eq_refl)) as H0. destruct (ev_type e).
    - apply IH; [exact He'|]. intros j Hj. apply add_key_in in Hj as [->|Hj]; auto.
    - assert (Hm' : forall j, In j (delete_key (ev_edge e) m) -> j < length segs) by (intros j Hj; apply delete_key_in in Hj as [_ Hj]; auto).
      destruct (nth_error segs (ev_edge e)) as [seg|] eqn:Hs; [|exfalso; apply nth_error_None in Hs; lia].
      rewrite flat_map_app, (scan_calls fn _ seg Hs) by exact Hm'.
      destruct (scan _ _ _ _ _ _ _ _) as [made' [r|]]; [reflexivity|]. now apply IH.
  Qed.
End Calls.
