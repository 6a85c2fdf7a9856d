(** Proofs about segment intersection: symmetry. *)
From Coq Require Import ZArith Bool List Lia Reals Lra.
From Verif Require Import Base_F64 Base_F64Arith Base_Geom M_Geom M_Cmp M_Intersect S_Intersect
  P_F64 P_F64Flocq P_F64X.
Import ListNotations.
Open Scope Z_scope.

Ltac wfs := auto using sub_wf, mul_wf, div_wf.

Lemma xval_same a b : f64_wf a = true -> f64_wf b = true -> xval a = xval b ->
  same_float (no_negative_zero a) (no_negative_zero b).
Proof.
  intros Wa Wb E. unfold no_negative_zero. rewrite !eq_zero_xr by assumption. rewrite <- E.
  destruct (xzero (xval a)) eqn:Z; [now left|].
  destruct (f64_isnan a) eqn:N.
  - right. split; [exact N|]. apply xval_nan; [exact Wb|]. rewrite <- E. now apply xval_nan.
  - left. apply xval_inj; auto. intros Q. apply xval_nan in Q; congruence.
Qed.

Section Sym.
  Variables x1 y1 x2 y2 x3 y3 x4 y4 : f64.
  Hypothesis W1 : f64_wf x1 = true.
  Hypothesis W2 : f64_wf y1 = true.
  Hypothesis W3 : f64_wf x2 = true.
  Hypothesis W4 : f64_wf y2 = true.
  Hypothesis W5 : f64_wf x3 = true.
  Hypothesis W6 : f64_wf y3 = true.
  Hypothesis W7 : f64_wf x4 = true.
  Hypothesis W8 : f64_wf y4 = true.
  Let l1 : line := ((x1, y1), (x2, y2)).
  Let l2 : line := ((x3, y3), (x4, y4)).

  Lemma den_wf a b c d e f g h : f64_wf (denominator ((a, b), (c, d)) ((e, f), (g, h))) = true.
  Proof. apply sub_wf. Qed.
  Lemma den_sym : xval (denominator l2 l1) = xopp (xval (denominator l1 l2)).
  Proof.
    unfold denominator, l1, l2. rewrite !sub_xr, !mul_xr, !sub_xr by wfs.
    rewrite (xmul_comm (xsub (xval x3) (xval x4))), (xmul_comm (xsub (xval y3) (xval y4))). apply xsub_anti.
  Qed.

  Lemma cross_sym : xzero (xval (denominator l1 l2)) = false -> same_point (crossing l1 l2) (crossing l2 l1).
  Proof.
    intros Z. pose proof den_sym as D.
    assert (Z2 : xzero (xval (denominator l2 l1)) = false) by (rewrite D, xzero_opp; exact Z).
    pose proof (den_wf x1 y1 x2 y2 x3 y3 x4 y4) as Wd1. pose proof (den_wf x3 y3 x4 y4 x1 y1 x2 y2) as Wd2.
    fold l1 l2 in Wd1, Wd2.
    unfold crossing. unfold l1 at 1 3, l2 at 1 3. fold l1 l2.
    generalize dependent (denominator l2 l1). generalize dependent (denominator l1 l2). intros d1 Z Wd1 d2 D Z2 Wd2.
    split; cbn [fst snd]; apply xval_same; wfs; rewrite !div_xr by (wfs || assumption); rewrite D, xdiv_opp_r by exact Z;
      (rewrite <- xdiv_opp_l by exact Z); f_equal;
      rewrite !sub_xr, !mul_xr, !sub_xr, !mul_xr by wfs.
    all: rewrite <- xsub_anti; f_equal; apply xmul_comm.
  Qed.

  Lemma seg_sym :
    snd (segment_intersect l1 l2) = snd (segment_intersect l2 l1) /\
    same_point (fst (segment_intersect l1 l2)) (fst (segment_intersect l2 l1)).
  Proof.
    pose proof den_sym as D. pose proof cross_sym as C. unfold segment_intersect. unfold l1, l2. fold l1 l2.
    assert (Wd1 : f64_wf (denominator l1 l2) = true) by apply den_wf.
    assert (Wd2 : f64_wf (denominator l2 l1) = true) by apply den_wf.
    rewrite !(eq_zero_xr (denominator _ _)) by assumption. rewrite D, xzero_opp.
    destruct (xzero (xval (denominator l1 l2))) eqn:Z; cbn [fst snd].
    - split; [reflexivity|]. split; now left.
    - split; [|now apply C].
      assert (Z2 : xzero (xval (denominator l2 l1)) = false) by (rewrite D, xzero_opp; exact Z).
      assert (Wn : forall a b, f64_wf (f64_neg (f64_sub a b)) = true) by (intros; apply P_Strconv4.neg_word, sub_wf).
      clear C. generalize dependent (denominator l2 l1). generalize dependent (denominator l1 l2). intros d1 Z Wd1 d2 D Wd2 Z2.
      unfold f64_ge. rewrite !le_xr by (wfs || reflexivity).
      rewrite !div_xr by (wfs || assumption). rewrite !neg_xr by wfs. rewrite !sub_xr, !mul_xr, !sub_xr by wfs.
      rewrite D, !xdiv_opp_r, !xdiv_opp_l by exact Z. rewrite !xopp_opp.
      rewrite (xsub_anti (xval x1) (xval x3)), (xsub_anti (xval y1) (xval y3)).
      rewrite !xmul_opp_l, !xmul_opp_r, !xsub_opp.
      rewrite !xdiv_opp_l by exact Z. rewrite ?xopp_opp.
      set (X := xsub (xval x1) (xval x3)). set (Y := xsub (xval y1) (xval y3)).
      set (dx := xsub (xval x1) (xval x2)). set (dy := xsub (xval y1) (xval y2)).
      set (ex := xsub (xval x3) (xval x4)). set (ey := xsub (xval y3) (xval y4)).
      rewrite <- !xdiv_opp_l by exact Z. rewrite <- !xsub_anti.
      rewrite (xmul_comm X dy), (xmul_comm Y dx), (xmul_comm X ey), (xmul_comm Y ex).
      match goal with |- ?a && ?b && ?c && ?d = _ => generalize a, b, c, d end.
      intros [] [] [] []; reflexivity.
  Qed.

  Lemma line_sym :
    snd (line_intersect l1 l2) = snd (line_intersect l2 l1) /\
    same_point (fst (line_intersect l1 l2)) (fst (line_intersect l2 l1)).
  Proof.
    pose proof den_sym as D. pose proof cross_sym as C. unfold line_intersect.
    assert (Wd1 : f64_wf (denominator l1 l2) = true) by apply den_wf.
    assert (Wd2 : f64_wf (denominator l2 l1) = true) by apply den_wf.
    rewrite !(eq_zero_xr (denominator _ _)) by assumption. rewrite D, xzero_opp.
    destruct (xzero (xval (denominator l1 l2))) eqn:Z; cbn [fst snd]; split; auto; split; now left.
  Qed.
End Sym.

Lemma wf_line_words l : wf_line l ->
  f64_wf (fst (fst l)) = true /\ f64_wf (snd (fst l)) = true /\ f64_wf (fst (snd l)) = true /\ f64_wf (snd (snd l)) = true.
Proof. intros H. destruct (H (fst l)), (H (snd l)); cbn; auto. Qed.

Theorem segment_symmetric l1 l2 : wf_line l1 -> wf_line l2 ->
  snd (segment_intersect l1 l2) = snd (segment_intersect l2 l1) /\
  same_point (fst (segment_intersect l1 l2)) (fst (segment_intersect l2 l1)).
Proof.
  intros H1 H2. apply wf_line_words in H1 as (?&?&?&?), H2 as (?&?&?&?).
  destruct l1 as [[x1 y1] [x2 y2]], l2 as [[x3 y3] [x4 y4]]. now apply seg_sym.
Qed.
Theorem line_symmetric l1 l2 : wf_line l1 -> wf_line l2 ->
  snd (line_intersect l1 l2) = snd (line_intersect l2 l1) /\
  same_point (fst (line_intersect l1 l2)) (fst (line_intersect l2 l1)).
Proof.
  intros H1 H2. apply wf_line_words in H1 as (?&?&?&?), H2 as (?&?&?&?).
  destruct l1 as [[x1 y1] [x2 y2]], l2 as [[x3 y3] [x4 y4]]. now apply line_sym.
Qed.

(** A point of the segments is the point of the lines. *)
Lemma segment_line l1 l2 : snd (segment_intersect l1 l2) = true ->
  line_intersect l1 l2 = (fst (segment_intersect l1 l2), true).
Proof.
  destruct l1 as [[x1 y1] [x2 y2]], l2 as [[x3 y3] [x4 y4]]. unfold segment_intersect, line_intersect.
  destruct (f64_eq _ _); [discriminate | reflexivity].
Qed.

