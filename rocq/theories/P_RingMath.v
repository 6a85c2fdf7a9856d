(** * The even-odd rule: constant along paths off the ring, changed by crossing a side *)
From Coq Require Import ZArith Bool List Lia Reals Lra.
From Verif Require Import S_Intersect S_Ring.
Import ListNotations.
Local Open Scope R_scope.

Lemma rltb_spec x y : rltb x y = true <-> x < y.
Proof. unfold rltb. destruct (Rlt_dec x y); split; intros; auto; discriminate. Qed.
Lemma rltb_false x y : rltb x y = false <-> y <= x.
Proof. unfold rltb. destruct (Rlt_dec x y); split; intros; auto; try discriminate; lra. Qed.

(** [v] is left of the segment [pq], at a height between its ends. *)
Definition left_of (p q v : R * R) : bool :=
  xorb (below v p) (below v q) && rltb (fst v) (x_at (p, q) (snd v)).
Definition total (e : (R * R) * (R * R)) (p q : R * R) : bool :=
  xorb (xorb (passes p e) (passes q e)) (xorb (left_of p q (fst e)) (left_of p q (snd e))).
Definition meet (p q : R * R) (e : (R * R) * (R * R)) : Prop := exists t, 0 <= t <= 1 /\ on_side e (along p q t).

(** ** Exchanging ends *)
Lemma x_at_swap a b y : snd a <> snd b -> x_at (a, b) y = x_at (b, a) y.
Proof. intros H. unfold x_at. cbn [fst snd]. field. split; lra. Qed.
Lemma passes_swap q a b : passes q (a, b) = passes q (b, a).
Proof.
  unfold passes. cbn [fst snd]. rewrite xorb_comm. destruct (Req_dec (snd a) (snd b)) as [E|E]; [|now rewrite x_at_swap].
  unfold below. rewrite E, xorb_nilpotent. reflexivity.
Qed.
Lemma left_swap p q v : left_of p q v = left_of q p v.
Proof.
  unfold left_of. rewrite xorb_comm. destruct (Req_dec (snd p) (snd q)) as [E|E]; [|now rewrite x_at_swap].
  unfold below. rewrite E, xorb_nilpotent. reflexivity.
Qed.
Lemma total_swap_e a b p q : total (a, b) p q = total (b, a) p q.
Proof. unfold total. cbn [fst snd]. rewrite (passes_swap p), (passes_swap q), (xorb_comm (left_of p q a)). reflexivity. Qed.
Lemma total_swap_p e p q : total e p q = total e q p.
Proof. unfold total. rewrite !(left_swap p q), (xorb_comm (passes p e)). reflexivity. Qed.
Lemma along_flip a b t : along a b t = along b a (1 - t).
Proof. unfold along. f_equal; ring. Qed.
Lemma meet_swap_e p q a b : meet p q (a, b) -> meet p q (b, a).
Proof. intros (t & T & u & U & E). exists t. split; [exact T|]. exists (1 - u). split; [lra|]. cbn [fst snd] in *. now rewrite E, along_flip. Qed.
Lemma meet_swap_p p q e : meet p q e -> meet q p e.
Proof. intros (t & T & H). exists (1 - t). split; [lra|]. now rewrite <- along_flip. Qed.
Lemma crosses_swap_e p q a b : crosses p q (a, b) -> crosses p q (b, a).
Proof.
  intros (t & u & T & U & E & N). exists t, (1 - u). cbn [fst snd] in *. split; [exact T|]. split; [lra|]. split; [now rewrite E, along_flip|].
  intros K. apply N. lra.
Qed.
Lemma crosses_swap_p p q e : crosses p q e -> crosses q p e.
Proof.
  intros (t & u & T & U & E & N). exists (1 - t), u. cbn [fst snd] in *. split; [lra|]. split; [exact U|]. split; [now rewrite <- along_flip|].
  intros K. apply N. lra.
Qed.

(** ** Two lines which are not horizontal, as functions of the height *)
Section Lines.
  Variables (ax ay bx by_ px py qx qy : R).
  Hypothesis (Hab : ay < by_) (Hpq : py < qy).
  Let X y := x_at ((ax, ay), (bx, by_)) y.
  Let Y y := x_at ((px, py), (qx, qy)) y.
  Let s y := rltb (X y) (Y y).
  Definition common y := ay <= y <= by_ /\ py <= y <= qy.

  Let Xlin : exists m k, forall y, X y = m * y + k.
  Proof.
    exists ((bx - ax) / (by_ - ay)), (ax - ay * ((bx - ax) / (by_ - ay))). intros y. unfold X, x_at. cbn [fst snd]. field. lra.
  Qed.
  Let Ylin : exists m k, forall y, Y y = m * y + k.
  Proof.
    exists ((qx - px) / (qy - py)), (px - py * ((qx - px) / (qy - py))). intros y. unfold Y, x_at. cbn [fst snd]. field. lra.
  Qed.
  Let Xa : X ay = ax. Proof. unfold X, x_at. cbn [fst snd]. field. lra. Qed.
  Let Xb : X by_ = bx. Proof. unfold X, x_at. cbn [fst snd]. field. lra. Qed.
  Let Yp : Y py = px. Proof. unfold Y, x_at. cbn [fst snd]. field. lra. Qed.
  Let Yq : Y qy = qx. Proof. unfold Y, x_at. cbn [fst snd]. field. lra. Qed.

  Lemma total_s : total ((ax, ay), (bx, by_)) (px, py) (qx, qy) =
    xorb (xorb (xorb (rltb ay py) (rltb by_ py) && s py) (xorb (rltb ay qy) (rltb by_ qy) && s qy))
         (xorb (xorb (rltb ay py) (rltb ay qy) && s ay) (xorb (rltb by_ py) (rltb by_ qy) && s by_)).
  Proof.
    unfold total, passes, left_of, below, s. cbn [fst snd]. fold (X py) (X qy) (Y ay) (Y by_).
    rewrite Yp, Yq, Xa, Xb. reflexivity.
  Qed.

  Lemma meet_at y : common y -> X y = Y y -> meet (px, py) (qx, qy) ((ax, ay), (bx, by_)).
  Proof.
    intros [H1 H2] E. exists ((y - py) / (qy - py)).
    assert (T : forall u v w, u < v -> u <= w <= v -> 0 <= (w - u) / (v - u) <= 1).
    { clear. intros u v w H1 [H2 H3]. split; [apply Rmult_le_pos; [lra|apply Rlt_le, Rinv_0_lt_compat; lra]|].
      apply (Rmult_le_reg_r (v - u)); [lra|]. unfold Rdiv. rewrite Rmult_assoc, Rinv_l by lra. lra. }
    split; [now apply T|]. exists ((y - ay) / (by_ - ay)). split; [now apply T|]. unfold along. cbn [fst snd]. unfold X, Y, x_at in E. cbn [fst snd] in E.
    f_equal; [lra|]. field. lra.
  Qed.

  (** Not meeting: one is left of the other throughout. *)
  Lemma same_side u v : ~ meet (px, py) (qx, qy) ((ax, ay), (bx, by_)) -> common u -> common v -> s u = s v.
  Proof.
    intros N Hu Hv. unfold s. destruct Xlin as (m & k & EX), Ylin as (m' & k' & EY).
    assert (K : forall u v, common u -> common v -> X u < Y u -> Y v <= X v -> False).
    { intros u' v' Hu' Hv' A B. rewrite EX, EY in A, B. apply N.
      set (f := fun y => (m' - m) * y + (k' - k)). assert (Fu : 0 < f u') by (unfold f; lra). assert (Fv : f v' <= 0) by (unfold f; lra).
      set (t := f u' / (f u' - f v')).
      assert (T : 0 <= t <= 1).
      { unfold t. split; [apply Rmult_le_pos; [lra|apply Rlt_le, Rinv_0_lt_compat; lra]|].
        apply (Rmult_le_reg_r (f u' - f v')); [lra|]. unfold Rdiv. rewrite Rmult_assoc, Rinv_l by lra. lra. }
      apply (meet_at (u' + t * (v' - u'))).
      - destruct Hu' as [U1 U2], Hv' as [V1 V2]. clear - T U1 U2 V1 V2. unfold common. repeat split; nra.
      - rewrite EX, EY. assert (Z : f (u' + t * (v' - u')) = 0).
        { transitivity (f u' + t * (f v' - f u')); [unfold f; ring|]. unfold t. field. lra. }
        unfold f in Z. lra. }
    destruct (rltb (X u) (Y u)) eqn:A, (rltb (X v) (Y v)) eqn:B; try reflexivity; exfalso.
    - apply rltb_spec in A. apply rltb_false in B. now apply (K u v).
    - apply rltb_spec in B. apply rltb_false in A. now apply (K v u).
  Qed.
  Lemma total_apart : ~ meet (px, py) (qx, qy) ((ax, ay), (bx, by_)) -> total ((ax, ay), (bx, by_)) (px, py) (qx, qy) = false.
  Proof.
    intros N. rewrite total_s. pose proof (fun u v => same_side u v N) as S. unfold common in S. clearbody s. clear N Xlin Ylin Xa Xb Yp Yq X Y.
    unfold rltb. destruct (Rlt_dec ay py), (Rlt_dec by_ py), (Rlt_dec ay qy), (Rlt_dec by_ qy); cbn [xorb andb]; try (exfalso; lra); try reflexivity.
    - rewrite (S py by_) by lra. now destruct (s by_).
    - rewrite (S py qy) by lra. now destruct (s qy).
    - rewrite (S ay by_) by lra. now destruct (s by_).
    - rewrite (S ay qy) by lra. now destruct (s qy).
  Qed.

  (** Crossing: the sides change. *)
  Lemma crossing_height : crosses (px, py) (qx, qy) ((ax, ay), (bx, by_)) ->
    exists y, ay < y < by_ /\ py < y < qy /\ forall u v, u < y < v -> s u = negb (s v).
  Proof.
    intros (t & w & T & W & E & N). unfold along in E. cbn [fst snd] in *.
    exists (py + t * (qy - py)). pose proof (f_equal snd E) as Ey. pose proof (f_equal fst E) as Ex. cbn [fst snd] in Ex, Ey.
    split; [rewrite Ey; clear - W Hab; nra|]. split; [clear - T Hpq; nra|]. intros u v H. unfold s.
    set (y := py + t * (qy - py)) in *.
    set (m := (bx - ax) / (by_ - ay)). set (m' := (qx - px) / (qy - py)).
    assert (Hy : X y = Y y).
    { unfold X, Y, x_at. cbn [fst snd]. rewrite Ey at 1.
      replace ((ay + w * (by_ - ay) - ay) / (by_ - ay)) with w by (field; lra). replace ((y - py) / (qy - py)) with t by (unfold y; field; lra). lra. }
    assert (D : forall z, Y z - X z = (m' - m) * (z - y)).
    { intros z. transitivity ((Y z - X z) - (Y y - X y)); [rewrite Hy; ring|]. unfold X, Y, x_at, m, m'. cbn [fst snd]. field. lra. }
    assert (M : m' <> m).
    { intros K. apply N. unfold m, m' in K. assert (K' : (qx - px) / (qy - py) * ((qy - py) * (by_ - ay)) = (bx - ax) / (by_ - ay) * ((qy - py) * (by_ - ay))) by now rewrite K.
      field_simplify in K'; lra. }
    pose proof (D u) as Du. pose proof (D v) as Dv. clear - Du Dv M H. unfold rltb.
    destruct (Rlt_dec (X u) (Y u)), (Rlt_dec (X v) (Y v)); cbn [negb]; try reflexivity; exfalso; destruct (Rtotal_order m' m) as [K|[K|K]]; try tauto; nra.
  Qed.
  Lemma total_cross : crosses (px, py) (qx, qy) ((ax, ay), (bx, by_)) -> total ((ax, ay), (bx, by_)) (px, py) (qx, qy) = true.
  Proof.
    intros N. rewrite total_s. destruct (crossing_height N) as (y & H1 & H2 & S). clearbody s. clear N Xlin Ylin Xa Xb Yp Yq X Y.
    unfold rltb. destruct (Rlt_dec ay py), (Rlt_dec by_ py), (Rlt_dec ay qy), (Rlt_dec by_ qy); cbn [xorb andb]; try (exfalso; lra).
    - rewrite (S py by_) by lra. now destruct (s by_).
    - rewrite (S py qy) by lra. now destruct (s qy).
    - rewrite (S ay by_) by lra. now destruct (s by_).
    - rewrite (S ay qy) by lra. now destruct (s qy).
  Qed.
End Lines.

(** ** Horizontal sides and pieces *)
Lemma between_along u v w : (u <= w /\ w <= v) \/ (v <= w /\ w <= u) -> exists t, 0 <= t <= 1 /\ w = u + t * (v - u).
Proof.
  intros H. destruct (Req_dec u v) as [E|E]; [exists 0; lra|]. exists ((w - u) / (v - u)). split; [|field; lra].
  assert (K : (w - u) / (v - u) * (v - u) = w - u) by (field; lra). set (t := (w - u) / (v - u)) in *. clearbody t.
  destruct (Rtotal_order u v) as [L|[L|L]]; [|lra|]; split; nra.
Qed.
Lemma total_flat_side ax bx h px py qx qy : py < qy ->
  (~ meet (px, py) (qx, qy) ((ax, h), (bx, h)) -> total ((ax, h), (bx, h)) (px, py) (qx, qy) = false) /\
  (crosses (px, py) (qx, qy) ((ax, h), (bx, h)) -> total ((ax, h), (bx, h)) (px, py) (qx, qy) = true).
Proof.
  intros L. unfold total, passes, left_of, below. cbn [fst snd]. rewrite !xorb_nilpotent. cbn [andb xorb].
  set (x := x_at (px, py, (qx, qy)) h).
  assert (Q : py <= h <= qy -> 0 <= (h - py) / (qy - py) <= 1).
  { intros [H2 H3]. split; [apply Rmult_le_pos; [lra|apply Rlt_le, Rinv_0_lt_compat; lra]|].
    apply (Rmult_le_reg_r (qy - py)); [lra|]. unfold Rdiv. rewrite Rmult_assoc, Rinv_l by lra. lra. }
  assert (Pt : along (px, py) (qx, qy) ((h - py) / (qy - py)) = (x, h)).
  { unfold along, x, x_at. cbn [fst snd]. f_equal. field. lra. }
  split.
  - intros N. destruct (xorb (rltb h py) (rltb h qy)) eqn:B; [|reflexivity]. cbn [andb].
    assert (R : py <= h < qy).
    { unfold rltb in B. destruct (Rlt_dec h py), (Rlt_dec h qy); cbn in B; try discriminate; lra. }
    assert (K : ~ ((ax <= x /\ x <= bx) \/ (bx <= x /\ x <= ax))).
    { intros H. apply between_along in H as (u & U & E). apply N. exists ((h - py) / (qy - py)). split; [apply Q; lra|].
      exists u. split; [exact U|]. rewrite Pt. unfold along. cbn [fst snd]. f_equal; [exact E|ring]. }
    unfold rltb. destruct (Rlt_dec ax x), (Rlt_dec bx x); try reflexivity; exfalso; apply K; lra.
  - intros (t & w & T & W & E & N). cbn [fst snd] in N.
    assert (Eh : py + t * (qy - py) = h) by (pose proof (f_equal snd E) as Ey; unfold along in Ey; cbn [fst snd] in Ey; rewrite Ey; ring).
    assert (R : py < h < qy) by (rewrite <- Eh; clear - T L; nra).
    assert (Et : (h - py) / (qy - py) = t) by (rewrite <- Eh; field; lra). rewrite Et in Pt. rewrite Pt in E.
    assert (Ex : x = ax + w * (bx - ax)) by (pose proof (f_equal fst E) as K; unfold along in K; cbn [fst snd] in K; exact K).
    assert (Ne : ax <> bx) by (intros K; apply N; rewrite K; ring).
    assert (H1 : rltb h py = false) by (apply rltb_false; lra). assert (H2 : rltb h qy = true) by (apply rltb_spec; lra).
    rewrite H1, H2. cbn [xorb andb].
    assert (K : (ax < x /\ x < bx) \/ (bx < x /\ x < ax)).
    { rewrite Ex. clear - W Ne. destruct (Rtotal_order ax bx) as [K|[K|K]]; [left|tauto|right]; split; nra. }
    destruct K as [[K1 K2]|[K1 K2]].
    + rewrite (proj2 (rltb_spec ax x)) by exact K1. rewrite (proj2 (rltb_false bx x)) by lra. reflexivity.
    + rewrite (proj2 (rltb_spec bx x)) by exact K1. rewrite (proj2 (rltb_false ax x)) by lra. reflexivity.
Qed.
Lemma total_flat_piece ax ay bx by_ h px qx : ay < by_ ->
  (~ meet (px, h) (qx, h) ((ax, ay), (bx, by_)) -> total ((ax, ay), (bx, by_)) (px, h) (qx, h) = false) /\
  (crosses (px, h) (qx, h) ((ax, ay), (bx, by_)) -> total ((ax, ay), (bx, by_)) (px, h) (qx, h) = true).
Proof.
  intros L. unfold total, passes, left_of, below. cbn [fst snd]. rewrite !xorb_nilpotent. cbn [andb]. rewrite xorb_false_r.
  set (x := x_at (ax, ay, (bx, by_)) h).
  assert (Q : ay <= h <= by_ -> 0 <= (h - ay) / (by_ - ay) <= 1).
  { intros [H2 H3]. split; [apply Rmult_le_pos; [lra|apply Rlt_le, Rinv_0_lt_compat; lra]|].
    apply (Rmult_le_reg_r (by_ - ay)); [lra|]. unfold Rdiv. rewrite Rmult_assoc, Rinv_l by lra. lra. }
  assert (Pt : along (ax, ay) (bx, by_) ((h - ay) / (by_ - ay)) = (x, h)).
  { unfold along, x, x_at. cbn [fst snd]. f_equal. field. lra. }
  split.
  - intros N. destruct (xorb (rltb ay h) (rltb by_ h)) eqn:B; [|reflexivity]. cbn [andb].
    assert (R : ay <= h <= by_).
    { unfold rltb in B. destruct (Rlt_dec ay h), (Rlt_dec by_ h); cbn in B; try discriminate; lra. }
    assert (K : ~ ((px <= x /\ x <= qx) \/ (qx <= x /\ x <= px))).
    { intros H. apply between_along in H as (u & U & E). apply N. exists u. split; [exact U|]. exists ((h - ay) / (by_ - ay)). split; [apply Q; lra|].
      cbn [fst snd]. rewrite Pt. unfold along. cbn [fst snd]. f_equal; [symmetry; exact E|ring]. }
    unfold rltb. destruct (Rlt_dec x px), (Rlt_dec x qx); try reflexivity; exfalso; apply K; lra.
  - intros (t & w & T & W & E & N). cbn [fst snd] in N, E.
    assert (Eh : ay + w * (by_ - ay) = h) by (pose proof (f_equal snd E) as Ey; unfold along in Ey; cbn [fst snd] in Ey; rewrite <- Ey; ring).
    assert (R : ay < h < by_) by (rewrite <- Eh; clear - W L; nra).
    assert (Et : (h - ay) / (by_ - ay) = w) by (rewrite <- Eh; field; lra). rewrite Et in Pt. rewrite Pt in E.
    assert (Ex : x = px + t * (qx - px)) by (pose proof (f_equal fst E) as K; unfold along in K; cbn [fst snd] in K; symmetry; exact K).
    assert (Ne : px <> qx) by (intros K; apply N; rewrite K; ring).
    assert (H1 : rltb ay h = true) by (apply rltb_spec; lra). assert (H2 : rltb by_ h = false) by (apply rltb_false; lra).
    rewrite H1, H2. cbn [xorb andb].
    assert (K : (px < x /\ x < qx) \/ (qx < x /\ x < px)).
    { rewrite Ex. clear - T Ne. destruct (Rtotal_order px qx) as [K|[K|K]]; [left|tauto|right]; split; nra. }
    destruct K as [[K1 K2]|[K1 K2]].
    + rewrite (proj2 (rltb_spec x qx)) by exact K2. rewrite (proj2 (rltb_false x px)) by lra. reflexivity.
    + rewrite (proj2 (rltb_spec x px)) by exact K2. rewrite (proj2 (rltb_false x qx)) by lra. reflexivity.
Qed.
Lemma total_flat e p q : snd (fst e) = snd (snd e) -> snd p = snd q -> total e p q = false /\ ~ crosses p q e.
Proof.
  intros E F. split.
  - unfold total, passes, left_of, below. rewrite E, F, !xorb_nilpotent. reflexivity.
  - intros (t & w & T & W & _ & N). apply N. rewrite E, F. ring.
Qed.

Theorem side_total e p q : (~ meet p q e -> total e p q = false) /\ (crosses p q e -> total e p q = true).
Proof.
  destruct e as [[ax ay] [bx by_]], p as [px py], q as [qx qy].
  assert (Up : forall ax ay bx by_ px py qx qy, py < qy ->
    (~ meet (px, py) (qx, qy) ((ax, ay), (bx, by_)) -> total ((ax, ay), (bx, by_)) (px, py) (qx, qy) = false) /\
    (crosses (px, py) (qx, qy) ((ax, ay), (bx, by_)) -> total ((ax, ay), (bx, by_)) (px, py) (qx, qy) = true)).
  { clear. intros. destruct (Rtotal_order ay by_) as [L|[L|L]].
    - split; [now apply total_apart|now apply total_cross].
    - subst by_. now apply total_flat_side.
    - split; intros K; rewrite total_swap_e.
      + apply total_apart; auto. intros M. apply K. now apply meet_swap_e.
      + apply total_cross; auto. now apply crosses_swap_e. }
  destruct (Rtotal_order py qy) as [L|[L|L]]; [now apply Up| |].
  - subst qy. destruct (Rtotal_order ay by_) as [M|[M|M]].
    + now apply total_flat_piece.
    + subst by_. destruct (total_flat ((ax, ay), (bx, ay)) (px, py) (qx, py) eq_refl eq_refl) as [A B]. split; [auto|tauto].
    + split; intros K; rewrite total_swap_e.
      * apply total_flat_piece; auto. intros G. apply K. now apply meet_swap_e.
      * apply total_flat_piece; auto. now apply crosses_swap_e.
  - split; intros K; rewrite total_swap_p.
    + apply Up; auto. intros G. apply K. now apply meet_swap_p.
    + apply Up; auto. now apply crosses_swap_p.
Qed.

(** ** Along the ring *)
Lemma odd_filter {A} (f : A -> bool) l : Nat.odd (length (filter f l)) = fold_right (fun x b => xorb (f x) b) false l.
Proof.
  induction l as [|x l IH]; cbn [filter fold_right]; [reflexivity|]. destruct (f x); cbn [length]; [|rewrite IH; now destruct (fold_right _ _ _)].
  rewrite Nat.odd_succ, <- Nat.negb_odd, IH. now destruct (fold_right _ _ _).
Qed.
Definition sum {A} (f : A -> bool) (l : list A) : bool := fold_right (fun x b => xorb (f x) b) false l.
Lemma inside_sum r q : inside r q = sum (passes q) (sides r).
Proof. apply odd_filter. Qed.
Lemma sum_path p q l : forall v, sum (fun e => xorb (left_of p q (fst e)) (left_of p q (snd e))) (path_sides v l) =
  xorb (left_of p q v) (left_of p q (last l v)).
Proof.
  induction l as [|w l IH]; intros v; cbn [path_sides sum fold_right]; [now rewrite xorb_nilpotent|].
  change (fold_right _ false (path_sides w l)) with (sum (fun e => xorb (left_of p q (fst e)) (left_of p q (snd e))) (path_sides w l)).
  rewrite IH. cbn [fst snd]. replace (last (w :: l) v) with (last l w).
  - destruct (left_of p q v), (left_of p q w), (left_of p q (last l w)); reflexivity.
  - clear. revert w. induction l as [|x l IH]; intros w; [reflexivity|]. cbn [last] in *. destruct l; [reflexivity|]. apply IH.
Qed.
Lemma last_default {A} (l : list A) x a b : last (x :: l) a = last (x :: l) b.
Proof. revert x. induction l as [|y l IH]; intros x; [reflexivity|]. change (last (y :: l) a = last (y :: l) b). apply IH. Qed.
Lemma sum_sides p q r : sum (fun e => xorb (left_of p q (fst e)) (left_of p q (snd e))) (sides r) = false.
Proof.
  destruct r as [|v r]; [reflexivity|]. unfold sides. rewrite sum_path.
  rewrite (last_default r v (last (v :: r) v) v). apply xorb_nilpotent.
Qed.
Lemma sum_cons {A} (f : A -> bool) x l : sum f (x :: l) = xorb (f x) (sum f l).
Proof. reflexivity. Qed.
Lemma sum_xor {A} (f g : A -> bool) l : sum (fun x => xorb (f x) (g x)) l = xorb (sum f l) (sum g l).
Proof. induction l as [|x l IH]; [reflexivity|]. rewrite !sum_cons, IH. destruct (f x), (g x), (sum f l), (sum g l); reflexivity. Qed.
Lemma sum_total r p q : sum (fun e => total e p q) (sides r) = xorb (inside r p) (inside r q).
Proof.
  unfold total. rewrite (sum_xor (fun e => xorb (passes p e) (passes q e)) (fun e => xorb (left_of p q (fst e)) (left_of p q (snd e)))).
  rewrite sum_sides, xorb_false_r, sum_xor, !inside_sum. reflexivity.
Qed.
Lemma sum_zero {A} (f : A -> bool) l : (forall x, In x l -> f x = false) -> sum f l = false.
Proof. induction l as [|x l IH]; intros H; [reflexivity|]. rewrite sum_cons, (H x), xorb_false_l by now left. apply IH. intros. apply H. now right. Qed.

Theorem same_joined r p q : joined r p q -> inside r p = inside r q.
Proof.
  induction 1 as [p|p q s H _ IH]; [reflexivity|]. rewrite <- IH. apply xorb_eq. rewrite <- sum_total. apply sum_zero.
  intros e He. apply (proj1 (side_total e p q)). intros (t & T & On). apply (H t T). exists e. auto.
Qed.

Theorem changed_crossing r p q l1 e l2 : sides r = l1 ++ e :: l2 -> crosses p q e ->
  (forall e' t, In e' (l1 ++ l2) -> 0 <= t <= 1 -> ~ on_side e' (along p q t)) -> inside r q = negb (inside r p).
Proof.
  intros E C N. assert (T : xorb (inside r p) (inside r q) = true).
  { rewrite <- sum_total, E. unfold sum. rewrite fold_right_app. cbn [fold_right]. rewrite (proj2 (side_total e p q) C).
    change (fold_right _ false l2) with (sum (fun e => total e p q) l2). rewrite sum_zero.
    - assert (Z : forall b, fold_right (fun x b => xorb (total x p q) b) b l1 = b).
      { intros b. assert (K : forall x, In x l1 -> total x p q = false).
        { intros x Hx. apply (proj1 (side_total x p q)). intros (t & T & On). apply (N x t); auto. apply in_app_iff. now left. }
        clear - K. induction l1 as [|x l IH]; [reflexivity|]. cbn [fold_right]. rewrite K by now left. rewrite xorb_false_l. apply IH. intros. apply K. now right. }
      now rewrite Z.
    - intros x Hx. apply (proj1 (side_total x p q)). intros (t & T & On). apply (N x t); auto. apply in_app_iff. now right. }
  destruct (inside r p), (inside r q); cbn in *; congruence.
Qed.

(** ** Beyond the ring *)
Lemma path_ends v l e : In e (path_sides v l) -> (fst e = v \/ In (fst e) l) /\ In (snd e) l.
Proof.
  revert v. induction l as [|w l IH]; intros v; [intros []|]. intros [<-|H]; cbn [fst snd In]; [auto|].
  destruct (IH w H) as [[K|K] L]; auto.
Qed.
Lemma side_ends r e : In e (sides r) -> In (fst e) r /\ In (snd e) r.
Proof.
  destruct r as [|v r]; [intros []|]. unfold sides. intros H. destruct (path_ends _ _ _ H) as [[K|K] L]; split; auto.
  rewrite K. clear. revert v. induction r as [|x r IH]; intros v; [now left|]. right.
  change (In (last (x :: r) v) (x :: r)). 
  rewrite (last_default r x v x). apply IH.
Qed.
Theorem beyond_outside r q : beyond r q -> inside r q = false.
Proof.
  intros B.
  assert (Hh : forall q, (forall p, In p r -> snd q < snd p) \/ (forall p, In p r -> snd p < snd q) \/ (forall p, In p r -> fst q < fst p) -> inside r q = false).
  { clear. intros q H. rewrite inside_sum. apply sum_zero. intros e He. apply side_ends in He as [H1 H2]. unfold passes, below.
    destruct H as [H|[H|H]].
    - rewrite (proj2 (rltb_false _ _) (Rlt_le _ _ (H _ H1))), (proj2 (rltb_false _ _) (Rlt_le _ _ (H _ H2))). reflexivity.
    - rewrite (proj2 (rltb_spec _ _) (H _ H1)), (proj2 (rltb_spec _ _) (H _ H2)). reflexivity.
    - destruct (xorb _ _) eqn:X; [|reflexivity]. cbn [andb]. apply rltb_false. pose proof (H _ H1) as L1. pose proof (H _ H2) as L2.
      destruct e as [[ax ay] [bx by_]]. unfold x_at. cbn [fst snd] in *. destruct q as [x y]. cbn [fst snd] in *.
      set (t := (y - ay) / (by_ - ay)).
      assert (T : 0 <= t <= 1).
      { assert (Ne : ay <> by_) by (intros K; rewrite K, xorb_nilpotent in X; discriminate).
        assert (Et : t * (by_ - ay) = y - ay) by (unfold t; field; lra). clearbody t. unfold rltb in X.
        destruct (Rlt_dec ay y), (Rlt_dec by_ y); cbn in X; try discriminate; split; nra. }
      clearbody t. clear - T L1 L2. nra. }
  destruct B as [B|[B|[B|B]]]; [apply Hh; auto| |apply Hh; auto|apply Hh; auto].
  (* right of everything: go up, past all the points *)
  assert (M : exists m, forall p, In p r -> snd p < m).
  { clear. induction r as [|p r [m IH]]; [exists 0; intros ? []|]. exists (Rmax m (snd p + 1)). intros p' [<-|H]; [pose proof (Rmax_r m (snd p + 1)); lra|].
    pose proof (IH p' H). pose proof (Rmax_l m (snd p + 1)). lra. }
  destruct M as [m M]. transitivity (inside r (fst q, Rmax m (snd q))).
  - apply same_joined. apply (joined_step r q (fst q, Rmax m (snd q))); [|constructor]. intros t T (e & He & u & U & E).
    apply side_ends in He as [H1 H2]. apply B in H1, H2. pose proof (f_equal fst E) as X. unfold along in X. cbn [fst snd] in X.
    replace (fst q + t * (fst q - fst q)) with (fst q) in X by ring. clear - X U H1 H2. destruct (Rle_dec u (1 / 2)); nra.
  - apply Hh. right. left. intros p Hp. apply M in Hp. cbn [snd]. pose proof (Rmax_l m (snd q)). lra.
Qed.
