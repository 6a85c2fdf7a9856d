(** Proofs about segment intersection: shared end points, AreLinesColinear and
    counterexamples. *)
From Coq Require Import ZArith Bool List Lia Reals Lra.
From Flocq Require Import Core.Core.
From Verif Require Import Base_F64 Base_F64Arith Base_Geom M_Geom M_Cmp M_Intersect S_Intersect S_Winding
  P_F64 P_F64Flocq P_F64Round P_F64Grid P_F64X P_Strconv4 P_Intersect P_Intersect2 P_Intersect3.
Import ListNotations.
Open Scope Z_scope.

(** ** Shared end points *)
Lemma xof_small r k : -1000 <= k <= 1020 -> (Rabs r <= bpow radix2 k)%R ->
  xof r = XR (rnd r) /\ (Rabs (rnd r) <= bpow radix2 k)%R.
Proof.
  intros Hk Hr.
  assert (B : (Rabs (rnd r) <= bpow radix2 k)%R).
  { assert (G : rnd (bpow radix2 k) = bpow radix2 k).
    { pose proof (grid_rnd k 1 ltac:(lia) ltac:(vm_compute; discriminate)) as G. now rewrite Rmult_1_l in G. }
    apply Rabs_le. apply Rabs_le_inv in Hr. rewrite <- G. split; [rewrite <- P_GeojsonNum.rnd_opp|]; apply rnd_le; lra. }
  split; [|exact B]. unfold xof. rewrite Rlt_bool_true; [reflexivity|].
  apply Rle_lt_trans with (1 := B). unfold huge. apply bpow_lt. lia.
Qed.

Lemma xsub_small a b : (Rabs a <= bpow radix2 500 -> Rabs b <= bpow radix2 500 ->
  xsub (XR a) (XR b) = XR (rnd (a - b)) /\ Rabs (rnd (a - b)) <= bpow radix2 501)%R.
Proof.
  intros Ha Hb. apply (xof_small (a - b) 501); [lia|].
  change 501 with (500 + 1). rewrite bpow_plus. change (bpow radix2 1) with 2%R.
  unfold Rminus. pose proof (Rabs_triang a (- b)) as T. rewrite Rabs_Ropp in T. lra.
Qed.
Lemma xmul_small a b : (Rabs a <= bpow radix2 501 -> Rabs b <= bpow radix2 501 ->
  xmul (XR a) (XR b) = XR (rnd (a * b)) /\ Rabs (rnd (a * b)) <= bpow radix2 1002)%R.
Proof.
  intros Ha Hb. apply (xof_small (a * b) 1002); [lia|].
  change 1002 with (501 + 501). rewrite bpow_plus, Rabs_mult.
  apply Rmult_le_compat; auto using Rabs_pos.
Qed.
Lemma xsub_small2 a b : (Rabs a <= bpow radix2 1002 -> Rabs b <= bpow radix2 1002 ->
  xsub (XR a) (XR b) = XR (rnd (a - b)))%R.
Proof.
  intros Ha Hb. apply (xof_small (a - b) 1003); [lia|].
  change 1003 with (1002 + 1). rewrite bpow_plus. change (bpow radix2 1) with 2%R.
  unfold Rminus. pose proof (Rabs_triang a (- b)) as T. rewrite Rabs_Ropp in T. lra.
Qed.

Definition small500 (w : f64) : Prop := f64_wf w = true /\ f64_finite w = true /\ (Rabs (f64_R w) <= bpow radix2 500)%R.

Lemma small_det a b c d : (Rabs a <= bpow radix2 501 -> Rabs b <= bpow radix2 501 -> Rabs c <= bpow radix2 501 -> Rabs d <= bpow radix2 501 ->
  xsub (xmul (XR a) (XR b)) (xmul (XR c) (XR d)) = XR (rnd (rnd (a * b) - rnd (c * d))))%R.
Proof.
  intros Ha Hb Hc Hd. destruct (xmul_small a b Ha Hb) as [-> P], (xmul_small c d Hc Hd) as [-> Q].
  now apply xsub_small2.
Qed.

Lemma xr_eq a b : XR a = XR b -> a = b. Proof. congruence. Qed.

Section Shared.
  Variables (x1 y1 x2 y2 x3 y3 x4 y4 : f64).
  Hypothesis S1 : small500 x1.
  Hypothesis S2 : small500 y1.
  Hypothesis S3 : small500 x2.
  Hypothesis S4 : small500 y2.
  Hypothesis S5 : small500 x3.
  Hypothesis S6 : small500 y3.
  Hypothesis S7 : small500 x4.
  Hypothesis S8 : small500 y4.
  Let df a b := rnd (f64_R a - f64_R b).

  Lemma df_ok a b : small500 a -> small500 b ->
    f64_wf (f64_sub a b) = true /\ xval (f64_sub a b) = XR (df a b) /\ (Rabs (df a b) <= bpow radix2 501)%R.
  Proof.
    intros (Wa & Fa & Ba) (Wb & Fb & Bb). split; [apply sub_wf|].
    rewrite sub_xr, !xval_finite by assumption. now apply xsub_small.
  Qed.
  Lemma det_ok a b c d e f g h : small500 a -> small500 b -> small500 c -> small500 d -> small500 e -> small500 f -> small500 g -> small500 h ->
    f64_wf (f64_sub (f64_mul (f64_sub a b) (f64_sub c d)) (f64_mul (f64_sub e f) (f64_sub g h))) = true /\
    xval (f64_sub (f64_mul (f64_sub a b) (f64_sub c d)) (f64_mul (f64_sub e f) (f64_sub g h))) =
    XR (rnd (rnd (df a b * df c d) - rnd (df e f * df g h))).
  Proof.
    intros A B C D E F G H. split; [apply sub_wf|].
    destruct (df_ok a b A B) as (W1 & V1 & B1), (df_ok c d C D) as (W2 & V2 & B2),
             (df_ok e f E F) as (W3 & V3 & B3), (df_ok g h G H) as (W4 & V4 & B4).
    rewrite sub_xr, !mul_xr by (apply mul_wf || assumption). rewrite V1, V2, V3, V4. now apply small_det.
  Qed.
End Shared.

Lemma quot_01 n d (r : R) : f64_wf n = true -> f64_wf d = true -> xzero (xval d) = false ->
  xval d = XR r -> xval n = XR 0 \/ xval n = XR r ->
  f64_ge (f64_div n d) f64_zero = true /\ f64_le (f64_div n d) f64_one = true.
Proof.
  intros Wn Wd Nz Ed En. unfold f64_ge. rewrite !le_xr by (reflexivity || apply div_wf).
  rewrite div_xr by assumption. rewrite Ed in *. rewrite xval_zero, xval_one. cbn in Nz. unfold zero_R in Nz.
  assert (Hr : r <> 0%R) by (intros ->; rewrite Req_bool_true in Nz by reflexivity; discriminate).
  assert (G0 : xof 0 = XR 0).
  { destruct (xof_small 0 0) as [K _]; [lia | rewrite Rabs_R0; cbn; lra |]. now rewrite rnd_0 in K. }
  assert (G1 : xof 1 = XR 1).
  { destruct (xof_small 1 0) as [K _]; [lia | rewrite Rabs_R1; cbn; lra |]. now rewrite rnd_1 in K. }
  destruct En as [-> | ->]; cbn.
  - replace (0 / r)%R with 0%R by (field; exact Hr). rewrite G0. split; apply Rle_bool_true; lra.
  - replace (r / r)%R with 1%R by (field; exact Hr). rewrite G1. split; apply Rle_bool_true; lra.
Qed.

Lemma rnd_same x : rnd (x - x) = 0%R.
Proof. replace (x - x)%R with 0%R by ring. apply rnd_0. Qed.

Lemma den_def x1 y1 x2 y2 x3 y3 x4 y4 : denominator ((x1, y1), (x2, y2)) ((x3, y3), (x4, y4)) =
  f64_sub (f64_mul (f64_sub x1 x2) (f64_sub y3 y4)) (f64_mul (f64_sub y1 y2) (f64_sub x3 x4)).
Proof. reflexivity. Qed.
Definition in01 (w : f64) : bool := f64_ge w f64_zero && f64_le w f64_one.
Lemma seg_snd x1 y1 x2 y2 x3 y3 x4 y4 :
  snd (segment_intersect ((x1, y1), (x2, y2)) ((x3, y3), (x4, y4))) =
  (if f64_eq (denominator ((x1, y1), (x2, y2)) ((x3, y3), (x4, y4))) f64_zero then false
   else in01 (f64_div (f64_neg (f64_sub (f64_mul (f64_sub x1 x2) (f64_sub y1 y3)) (f64_mul (f64_sub y1 y2) (f64_sub x1 x3))))
                      (denominator ((x1, y1), (x2, y2)) ((x3, y3), (x4, y4)))) &&
        in01 (f64_div (f64_sub (f64_mul (f64_sub x1 x3) (f64_sub y3 y4)) (f64_mul (f64_sub y1 y3) (f64_sub x3 x4)))
                      (denominator ((x1, y1), (x2, y2)) ((x3, y3), (x4, y4))))).
Proof.
  unfold segment_intersect, in01. generalize (denominator ((x1, y1), (x2, y2)) ((x3, y3), (x4, y4))). intros d.
  destruct (f64_eq d f64_zero); [reflexivity|]. cbn [snd]. now rewrite !andb_assoc.
Qed.
Lemma line_snd l1 l2 : snd (line_intersect l1 l2) = negb (f64_eq (denominator l1 l2) f64_zero).
Proof. unfold line_intersect. now destruct (f64_eq _ _). Qed.

Lemma quot_in01 n d (r : R) : f64_wf n = true -> f64_wf d = true -> xzero (xval d) = false ->
  xval d = XR r -> xval n = XR 0 \/ xval n = XR r -> in01 (f64_div n d) = true.
Proof. intros A B C D E. destruct (quot_01 n d r A B C D E) as [P Q]. unfold in01. now rewrite P, Q. Qed.

(** The shared point is (first, first) or (last, first). *)
Lemma shared_words x1 y1 x2 y2 x3 y3 x4 y4 :
  small500 x1 -> small500 y1 -> small500 x2 -> small500 y2 -> small500 x3 -> small500 y3 -> small500 x4 -> small500 y4 ->
  (f64_R x1 = f64_R x3 /\ f64_R y1 = f64_R y3) \/ (f64_R x2 = f64_R x3 /\ f64_R y2 = f64_R y3) ->
  snd (line_intersect ((x1, y1), (x2, y2)) ((x3, y3), (x4, y4))) = true ->
  snd (segment_intersect ((x1, y1), (x2, y2)) ((x3, y3), (x4, y4))) = true.
Proof.
  intros A1 B1 A2 B2 A3 B3 A4 B4 Sh L. rewrite line_snd in L. rewrite seg_snd. apply negb_true_iff in L. rewrite L.
  pose proof (det_ok x1 x2 y3 y4 y1 y2 x3 x4 A1 A2 B3 B4 B1 B2 A3 A4) as [Wd Vd].
  pose proof (det_ok x1 x3 y3 y4 y1 y3 x3 x4 A1 A3 B3 B4 B1 B3 A3 A4) as [Wt Vt].
  pose proof (det_ok x1 x2 y1 y3 y1 y2 x1 x3 A1 A2 B1 B3 B1 B2 A1 A3) as [Wu Vu].
  rewrite <- den_def in Wd, Vd.
  rewrite eq_zero_xr in L by exact Wd.
  assert (T : xval (f64_sub (f64_mul (f64_sub x1 x3) (f64_sub y3 y4)) (f64_mul (f64_sub y1 y3) (f64_sub x3 x4))) = XR 0 \/
              xval (f64_sub (f64_mul (f64_sub x1 x3) (f64_sub y3 y4)) (f64_mul (f64_sub y1 y3) (f64_sub x3 x4))) =
              XR (rnd (rnd (rnd (f64_R x1 - f64_R x2) * rnd (f64_R y3 - f64_R y4)) - rnd (rnd (f64_R y1 - f64_R y2) * rnd (f64_R x3 - f64_R x4))))).
  { rewrite Vt. destruct Sh as [[E F]|[E F]].
    - left. f_equal. rewrite E, F, !rnd_same, !Rmult_0_l, rnd_0, Rminus_0_r. apply rnd_0.
    - right. now rewrite E, F. }
  assert (U : xval (f64_neg (f64_sub (f64_mul (f64_sub x1 x2) (f64_sub y1 y3)) (f64_mul (f64_sub y1 y2) (f64_sub x1 x3)))) = XR 0).
  { rewrite neg_xr, Vu by exact Wu. cbn. f_equal. destruct Sh as [[E F]|[E F]].
    - rewrite E, F, !rnd_same, !Rmult_0_r, rnd_0, Rminus_0_r, rnd_0. ring.
    - rewrite E, F.
      replace (rnd (f64_R y1 - f64_R y3) * rnd (f64_R x1 - f64_R x3))%R with (rnd (f64_R x1 - f64_R x3) * rnd (f64_R y1 - f64_R y3))%R by ring.
      rewrite rnd_same. ring. }
  rewrite (quot_in01 _ _ _ Wt Wd L Vd T).
  now rewrite (quot_in01 _ _ _ (proj1 (neg_word _ Wu)) Wd L Vd (or_introl U)).
Qed.

Lemma moderate_words l : moderate l ->
  small500 (fst (fst l)) /\ small500 (snd (fst l)) /\ small500 (fst (snd l)) /\ small500 (snd (snd l)).
Proof.
  intros [W H]. destruct (W (fst l)) as [W1 W2]; [now left|]. destruct (W (snd l)) as [W3 W4]; [right; now left|].
  destruct (H (fst l)) as [[? ?] [? ?]]; [now left|]. destruct (H (snd l)) as [[? ?] [? ?]]; [right; now left|].
  unfold small500. auto 8.
Qed.

Theorem shared_start l1 l2 : moderate l1 -> moderate l2 ->
  rpt (fst l1) = rpt (fst l2) \/ rpt (snd l1) = rpt (fst l2) \/ rpt (fst l1) = rpt (snd l2) ->
  snd (line_intersect l1 l2) = true -> snd (segment_intersect l1 l2) = true.
Proof.
  intros M1 M2 Sh L. pose proof (moderate_words _ M1) as (A1 & B1 & A2 & B2). pose proof (moderate_words _ M2) as (A3 & B3 & A4 & B4).
  assert (Sh' : rpt (fst l1) = rpt (fst l2) \/ rpt (snd l1) = rpt (fst l2) \/ rpt (snd l2) = rpt (fst l1)) by (destruct Sh as [?|[?|?]]; auto).
  clear Sh. rename Sh' into Sh.
  destruct M1 as [W1 _], M2 as [W2 _].
  destruct Sh as [Sh|[Sh|Sh]].
  - destruct l1 as [[x1 y1] [x2 y2]], l2 as [[x3 y3] [x4 y4]]. unfold rpt in Sh. cbn [fst snd] in *.
    injection Sh as E F. apply shared_words; auto.
  - destruct l1 as [[x1 y1] [x2 y2]], l2 as [[x3 y3] [x4 y4]]. unfold rpt in Sh. cbn [fst snd] in *.
    injection Sh as E F. apply shared_words; auto.
  - destruct (segment_symmetric l1 l2 W1 W2) as [Es _]. destruct (line_symmetric l1 l2 W1 W2) as [El _].
    rewrite Es. rewrite El in L.
    destruct l1 as [[x1 y1] [x2 y2]], l2 as [[x3 y3] [x4 y4]]. unfold rpt in Sh. cbn [fst snd] in *.
    injection Sh as E F. apply shared_words; auto.
Qed.

(** ** AreLinesColinear *)
Lemma order_between (a b c : f64) : f64_wf a = true -> f64_finite a = true -> f64_wf b = true -> f64_finite b = true ->
  f64_wf c = true -> f64_finite c = true ->
  let '(lo, hi) := if f64_gt a b then (b, a) else (a, b) in
  (f64_le lo c && f64_le c hi = true <-> between a b c).
Proof.
  intros Wa Fa Wb Fb Wc Fc. unfold between, f64_gt. destruct (f64_lt b a) eqn:E.
  - apply lt_R in E; try assumption. rewrite andb_true_iff, !le_R by assumption. split; [intros [? ?]; right; auto|].
    intros [[H1 H2]|H]; [lra | exact H].
  - assert (G : (f64_R a <= f64_R b)%R).
    { apply Rnot_lt_le. intros K. apply lt_R in K; try assumption. congruence. }
    rewrite andb_true_iff, !le_R by assumption. split; [intros [? ?]; left; auto|].
    intros [H|[H1 H2]]; [exact H | lra].
Qed.

Lemma box_test x1 y1 x2 y2 p q : 
  (f64_wf x1 = true /\ f64_finite x1 = true) -> (f64_wf y1 = true /\ f64_finite y1 = true) ->
  (f64_wf x2 = true /\ f64_finite x2 = true) -> (f64_wf y2 = true /\ f64_finite y2 = true) ->
  (f64_wf p = true /\ f64_finite p = true) -> (f64_wf q = true /\ f64_finite q = true) ->
  let '(xmin, xmax) := if f64_gt x1 x2 then (x2, x1) else (x1, x2) in
  let '(ymin, ymax) := if f64_gt y1 y2 then (y2, y1) else (y1, y2) in
  (f64_le xmin p && f64_le p xmax && f64_le ymin q && f64_le q ymax = true <-> in_box ((x1, y1), (x2, y2)) (p, q)).
Proof.
  intros [? ?] [? ?] [? ?] [? ?] [? ?] [? ?].
  pose proof (order_between x1 x2 p) as X. pose proof (order_between y1 y2 q) as Y.
  destruct (if f64_gt x1 x2 then (x2, x1) else (x1, x2)) as [xmin xmax].
  destruct (if f64_gt y1 y2 then (y2, y1) else (y1, y2)) as [ymin ymax].
  unfold in_box. cbn [fst snd]. rewrite <- X, <- Y by assumption. rewrite !andb_true_iff. tauto.
Qed.

Lemma colinear_words x1 y1 x2 y2 x3 y3 x4 y4 :
  (f64_wf x1 = true /\ f64_finite x1 = true) -> (f64_wf y1 = true /\ f64_finite y1 = true) ->
  (f64_wf x2 = true /\ f64_finite x2 = true) -> (f64_wf y2 = true /\ f64_finite y2 = true) ->
  (f64_wf x3 = true /\ f64_finite x3 = true) -> (f64_wf y3 = true /\ f64_finite y3 = true) ->
  (f64_wf x4 = true /\ f64_finite x4 = true) -> (f64_wf y4 = true /\ f64_finite y4 = true) ->
  are_lines_colinear ((x1, y1), (x2, y2)) ((x3, y3), (x4, y4)) = true <->
  f64_eq (denominator ((x1, y1), (x2, y2)) ((x3, y3), (x4, y4))) f64_zero = true /\
  (in_box ((x1, y1), (x2, y2)) (x3, y3) \/ in_box ((x1, y1), (x2, y2)) (x4, y4)).
Proof.
  intros A1 B1 A2 B2 A3 B3 A4 B4. unfold are_lines_colinear, f64_ne.
  generalize (denominator ((x1, y1), (x2, y2)) ((x3, y3), (x4, y4))). intros d.
  pose proof (box_test x1 y1 x2 y2 x3 y3 A1 B1 A2 B2 A3 B3) as P. pose proof (box_test x1 y1 x2 y2 x4 y4 A1 B1 A2 B2 A4 B4) as Q.
  destruct (if f64_gt x1 x2 then (x2, x1) else (x1, x2)) as [xmin xmax].
  destruct (if f64_gt y1 y2 then (y2, y1) else (y1, y2)) as [ymin ymax].
  rewrite <- P, <- Q. destruct (f64_eq d f64_zero); cbn [negb]; rewrite ?orb_true_iff; intuition congruence.
Qed.

Theorem colinear_exact l1 l2 : near_grid l1 l2 ->
  are_lines_colinear l1 l2 = true <-> parallel l1 l2 /\ exists p, In p (ends l2) /\ in_box l1 p.
Proof.
  intros Hn. pose proof (proj2 (segment_exact l1 l2 Hn)) as L. rewrite line_snd in L.
  assert (L' : f64_eq (denominator l1 l2) f64_zero = true <-> parallel l1 l2).
  { destruct (f64_eq (denominator l1 l2) f64_zero); cbn [negb] in L; split; intros H; try reflexivity.
    - destruct (Req_dec
        ((fst (rpt (snd l1)) - fst (rpt (fst l1))) * (snd (rpt (snd l2)) - snd (rpt (fst l2))))
        ((snd (rpt (snd l1)) - snd (rpt (fst l1))) * (fst (rpt (snd l2)) - fst (rpt (fst l2))))) as [E|E]; [exact E|].
      apply L in E. discriminate.
    - discriminate.
    - exfalso. apply L; [reflexivity | exact H]. }
  rewrite <- L'. clear L L'.
  destruct Hn as (e & ns & He & Hg & _). destruct l1 as [[x1 y1] [x2 y2]], l2 as [[x3 y3] [x4 y4]]. unfold ends in Hg. cbn [fst snd app] in Hg.
  apply on_grid4 in Hg as ([a1 b1] & [a2 b2] & [a3 b3] & [a4 b4] & -> & [G1 G2] & [G3 G4] & [G5 G6] & [G7 G8]). cbn [fst snd] in *.
  destruct G1 as (? & ? & _), G2 as (? & ? & _), G3 as (? & ? & _), G4 as (? & ? & _),
           G5 as (? & ? & _), G6 as (? & ? & _), G7 as (? & ? & _), G8 as (? & ? & _).
  rewrite colinear_words by auto. apply and_iff_compat_l. unfold ends. cbn [fst snd In]. split.
  - intros [Hb|Hb]; eauto.
  - intros (p & [<-|[<-|[]]] & Hb); auto.
Qed.

Lemma between_R a b c : f64_wf a = true -> f64_finite a = true -> f64_wf b = true -> f64_finite b = true ->
  f64_wf c = true -> f64_finite c = true ->
  between a b c <-> exists t, (0 <= t <= 1)%R /\ f64_R c = (f64_R a + t * (f64_R b - f64_R a))%R.
Proof.
  intros. unfold between. rewrite !le_R by assumption. split.
  - intros K. destruct (Req_dec (f64_R a) (f64_R b)) as [E|E].
    + exists 0%R. split; [lra|]. lra.
    + exists ((f64_R c - f64_R a) / (f64_R b - f64_R a))%R. split; [|field; lra].
      assert (P : (0 < f64_R b - f64_R a \/ 0 < f64_R a - f64_R b)%R) by lra. destruct P as [P|P].
      * pose proof (Rinv_0_lt_compat _ P) as I. unfold Rdiv. split; [nra|].
        apply Rmult_le_reg_r with (f64_R b - f64_R a)%R; [lra|]. rewrite Rmult_assoc, Rinv_l by lra. lra.
      * pose proof (Rinv_0_lt_compat _ P) as I.
        replace ((f64_R c - f64_R a) / (f64_R b - f64_R a))%R with ((f64_R a - f64_R c) * / (f64_R a - f64_R b))%R by (field; lra).
        split; [nra|].
        apply Rmult_le_reg_r with (f64_R a - f64_R b)%R; [lra|]. rewrite Rmult_assoc, Rinv_l by lra. lra.
  - intros (t & T & E). destruct (Rle_or_lt (f64_R a) (f64_R b)); [left | right]; nra.
Qed.

(** With a horizontal or vertical first line the box is the segment. *)
Theorem colinear_axis l1 l2 : near_grid l1 l2 ->
  f64_R (fst (fst l1)) = f64_R (fst (snd l1)) \/ f64_R (snd (fst l1)) = f64_R (snd (snd l1)) ->
  are_lines_colinear l1 l2 = true <-> parallel l1 l2 /\ exists p, In p (ends l2) /\ on_segment l1 (rpt p).
Proof.
  intros Hn Ax. rewrite (colinear_exact _ _ Hn). apply and_iff_compat_l.
  destruct Hn as (e & ns & He & Hg & _). destruct l1 as [[x1 y1] [x2 y2]], l2 as [[x3 y3] [x4 y4]]. unfold ends in Hg. cbn [fst snd app] in Hg.
  apply on_grid4 in Hg as ([a1 b1] & [a2 b2] & [a3 b3] & [a4 b4] & -> & [G1 G2] & [G3 G4] & [G5 G6] & [G7 G8]). cbn [fst snd] in *.
  destruct G1 as (? & ? & _), G2 as (? & ? & _), G3 as (? & ? & _), G4 as (? & ? & _),
           G5 as (? & ? & _), G6 as (? & ? & _), G7 as (? & ? & _), G8 as (? & ? & _).
  assert (K : forall p q, f64_wf p = true -> f64_finite p = true -> f64_wf q = true -> f64_finite q = true ->
    in_box ((x1, y1), (x2, y2)) (p, q) <-> on_segment ((x1, y1), (x2, y2)) (rpt (p, q))).
  { intros p q Wp Fp Wq Fq. unfold in_box, on_segment, along, rpt. cbn [fst snd]. rewrite !between_R by assumption. split.
    - intros [(t & T & E) (u & U & F)]. destruct Ax as [Ax|Ax].
      + exists u. split; [exact U|]. f_equal; [rewrite E, Ax; ring | exact F].
      + exists t. split; [exact T|]. f_equal; [exact E | rewrite F, Ax; ring].
    - intros (t & T & E). injection E as E F. split; exists t; auto. }
  unfold ends. cbn [fst snd In]. split; intros (p & [<-|[<-|[]]] & B); [exists (x3, y3) | exists (x4, y4) | exists (x3, y3) | exists (x4, y4)];
    (split; [tauto|]); apply K; auto.
Qed.

(** ** Counterexamples *)
Definition zpt (p : Z * Z) : point f64 := (f64_ofZ (fst p), f64_ofZ (snd p)).
Definition zline (l : (Z * Z) * (Z * Z)) : line := (zpt (fst l), zpt (snd l)).

Lemma zpt_grid p : Z.abs (fst p) <= two53 -> Z.abs (snd p) <= two53 ->
  repr 0 (fst p) (fst (zpt p)) /\ repr 0 (snd p) (snd (zpt p)).
Proof. intros. split; now apply repr_ofZ. Qed.
Lemma zline_near l1 l2 :
  (forall p, In p [fst l1; snd l1; fst l2; snd l2] -> Z.abs (fst p) <= two53 /\ Z.abs (snd p) <= two53) ->
  (forall p q, In p [fst l1; snd l1; fst l2; snd l2] -> In q [fst l1; snd l1; fst l2; snd l2] ->
    Z.abs (fst p - fst q) <= 2 ^ 25 /\ Z.abs (snd p - snd q) <= 2 ^ 25) ->
  near_grid (zline l1) (zline l2).
Proof.
  intros B D. exists 0, [fst l1; snd l1; fst l2; snd l2]. split; [split; intros H; discriminate|].
  split; [|exact D]. unfold ends, zline. cbn [fst snd app].
  repeat (constructor; [apply zpt_grid; apply B; cbn [In]; tauto|]). constructor.
Qed.
Lemma zline_small l1 l2 :
  (forall p, In p [fst l1; snd l1; fst l2; snd l2] -> Z.abs (fst p) <= 2 ^ 16 /\ Z.abs (snd p) <= 2 ^ 16) ->
  small_grid (zline l1) (zline l2).
Proof.
  intros B. exists 0, [fst l1; snd l1; fst l2; snd l2]. split; [lia|].
  split; [|exact B]. unfold ends, zline. cbn [fst snd app].
  assert (B' : forall p, In p [fst l1; snd l1; fst l2; snd l2] -> Z.abs (fst p) <= two53 /\ Z.abs (snd p) <= two53).
  { intros p Hp. apply B in Hp. unfold two53. lia. }
  repeat (constructor; [apply zpt_grid; apply B'; cbn [In]; tauto|]). constructor.
Qed.

Lemma far_point : exists l1 l2 q,
  near_grid l1 l2 /\ segment_intersect l1 l2 = (q, true) /\ ~ in_box l1 q /\ ~ in_box l2 q.
Proof.
  exists (zline ((268435459, 268435459), (268435460, 268435460))), (zline ((268435459, 268435460), (268435460, 268435459))).
  exists (zpt (268435456, 268435456)). split; [|split; [vm_compute; reflexivity|]].
  - apply zline_near; cbn [fst snd In].
    + intros p [<-|[<-|[<-|[<-|[]]]]]; split; vm_compute; discriminate.
    + intros p q [<-|[<-|[<-|[<-|[]]]]] [<-|[<-|[<-|[<-|[]]]]]; split; vm_compute; discriminate.
  - split; intros [[[H _]|[H _]] _]; vm_compute in H; discriminate.
Qed.

Lemma moderate_word w : f64_wf w = true -> f64_le w (0x41cdcd6500000000) = true -> f64_le (0xc1cdcd6500000000) w = true ->
  f64_finite w = true -> f64_finite w = true /\ (Rabs (f64_R w) <= bpow radix2 500)%R.
Proof.
  intros W L G F. split; [exact F|]. apply le_R in L; try (reflexivity || assumption). apply le_R in G; try (reflexivity || assumption).
  assert (E1 : f64_R 0x41cdcd6500000000 = IZR 1000000000).
  { destruct (repr_ofZ 1000000000) as (_ & _ & E); [vm_compute; discriminate|].
    change (f64_ofZ 1000000000) with 0x41cdcd6500000000 in E. rewrite E. cbn. lra. }
  assert (E2 : f64_R 0xc1cdcd6500000000 = IZR (-1000000000)).
  { destruct (repr_ofZ (-1000000000)) as (_ & _ & E); [vm_compute; discriminate|].
    change (f64_ofZ (-1000000000)) with 0xc1cdcd6500000000 in E. rewrite E. cbn. lra. }
  rewrite E1 in L. rewrite E2 in G. apply Rabs_le.
  assert (B : (IZR 1000000000 <= bpow radix2 500)%R).
  { apply Rle_trans with (bpow radix2 30); [cbn; lra | apply bpow_le; lia]. }
  lra.
Qed.

Lemma moderate_line (l : line) : (forall p, In p (ends l) -> forall w, w = fst p \/ w = snd p ->
     f64_wf w = true /\ f64_le w 0x41cdcd6500000000 = true /\ f64_le 0xc1cdcd6500000000 w = true /\ f64_finite w = true) -> moderate l.
Proof.
  intros H. split.
  - intros p Hp. split; apply (H p Hp); auto.
  - intros p Hp. destruct (H p Hp (fst p) (or_introl eq_refl)) as (? & ? & ? & ?), (H p Hp (snd p) (or_intror eq_refl)) as (? & ? & ? & ?).
    split; now apply moderate_word.
Qed.
Definition line_a : line := ((0x3ff199999999999a, 0x3fe999999999999a), (0xbfd999999999999a, 0xbff4cccccccccccd)).
Definition line_b : line := ((0x3ff0000000000000, 0x3fd999999999999a), (0xbfd999999999999a, 0xbff4cccccccccccd)).
Definition line_b' : line := (snd line_b, fst line_b).
Lemma moderate_ab : moderate line_a /\ moderate line_b /\ moderate line_b'.
Proof.
  split; [|split]; apply moderate_line; cbn [line_a line_b line_b' ends fst snd In];
  intros p [<-|[<-|[]]] w [->| ->]; vm_compute; auto.
Qed.
Lemma missed_end : exists l1 l2,
  moderate l1 /\ moderate l2 /\ snd l1 = snd l2 /\
  snd (line_intersect l1 l2) = true /\ snd (segment_intersect l1 l2) = false.
Proof.
  exists line_a, line_b. destruct moderate_ab as (? & ? & ?). split; [assumption|]. split; [assumption|].
  vm_compute. auto.
Qed.
(** Turning one of the segments round, it is found. *)
Lemma found_end : moderate line_a /\ moderate line_b' /\ snd line_a = fst line_b' /\
  snd (line_intersect line_a line_b') = true /\ snd (segment_intersect line_a line_b') = true.
Proof.
  destruct moderate_ab as (? & ? & ?). split; [assumption|]. split; [assumption|].
  vm_compute. auto.
Qed.

(** Parallel lines with no common point. *)
Lemma colinear_apart : exists l1 l2,
  near_grid l1 l2 /\ are_lines_colinear l1 l2 = true /\ forall p, ~ (on_line l1 p /\ on_line l2 p).
Proof.
  exists (zline ((0, 0), (10, 10))), (zline ((1, 2), (2, 3))). split; [|split; [vm_compute; reflexivity|]].
  - apply zline_near; cbn [fst snd In].
    + intros p [<-|[<-|[<-|[<-|[]]]]]; split; vm_compute; discriminate.
    + intros p q [<-|[<-|[<-|[<-|[]]]]] [<-|[<-|[<-|[<-|[]]]]]; split; vm_compute; discriminate.
  - intros p [(t & ->) (u & E)]. revert E. unfold along, rpt, zline, zpt. cbn [fst snd].
    assert (V : forall z, Z.abs z <= 100 -> f64_R (f64_ofZ z) = IZR z).
    { intros z Hz. destruct (repr_ofZ z) as (_ & _ & ->); [unfold two53; lia|]. cbn. lra. }
    rewrite !V by lia. intros E. injection E as E F. lra.
Qed.
(** One segment contains the other, and the answer depends on the order. *)
Lemma colinear_inside : exists l1 l2,
  near_grid l1 l2 /\ (forall p, on_segment l1 p -> on_segment l2 p) /\
  are_lines_colinear l1 l2 = false /\ are_lines_colinear l2 l1 = true.
Proof.
  exists (zline ((1, 1), (2, 2))), (zline ((0, 0), (3, 3))). split; [|split; [|vm_compute; auto]].
  - apply zline_near; cbn [fst snd In].
    + intros p [<-|[<-|[<-|[<-|[]]]]]; split; vm_compute; discriminate.
    + intros p q [<-|[<-|[<-|[<-|[]]]]] [<-|[<-|[<-|[<-|[]]]]]; split; vm_compute; discriminate.
  - intros p (t & T & ->). unfold on_segment, along, rpt, zline, zpt. cbn [fst snd].
    assert (V : forall z, Z.abs z <= 100 -> f64_R (f64_ofZ z) = IZR z).
    { intros z Hz. destruct (repr_ofZ z) as (_ & _ & ->); [unfold two53; lia|]. cbn. lra. }
    rewrite !V by lia. exists ((1 + t) / 3)%R. split; [lra|]. f_equal; field.
Qed.

(** A crossing in the middle, at a shared point, and no crossing. *)
Lemma intersect_examples :
  let x := zline ((0, 0), (4, 4)) in
  small_grid x (zline ((0, 3), (6, 0))) /\ segment_intersect x (zline ((0, 3), (6, 0))) = (zpt (2, 2), true) /\
  segment_intersect x (zline ((0, 9), (9, 0))) = ((f64_div (f64_ofZ 9) (f64_ofZ 2), f64_div (f64_ofZ 9) (f64_ofZ 2)), false) /\
  segment_intersect x (zline ((4, 4), (5, 0))) = (zpt (4, 4), true) /\
  are_lines_colinear (zline ((0, 1), (7, 1))) (zline ((5, 1), (9, 1))) = true.
Proof.
  split; [|vm_compute; auto].
  apply zline_small. cbn [fst snd In]. intros p [<-|[<-|[<-|[<-|[]]]]]; split; vm_compute; discriminate.
Qed.
