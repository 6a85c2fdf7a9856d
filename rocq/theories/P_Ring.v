(** * What one side does in Ring.ContainsPoint *)
From Coq Require Import ZArith Bool List Lia Reals Lra.
From Flocq Require Import Core.Core.
From Verif Require Import Base_Res Base_F64 Base_F64Arith Base_Geom M_Geom M_Extent M_Cmp M_Intersect M_Planar M_Ring
  S_Cmp S_Winding S_Intersect S_Ring
  P_F64 P_F64Flocq P_F64Round P_F64Grid P_F64Err P_Cmp P_CmpR P_Cmp2 P_Cmp3 P_Intersect P_Intersect3 P_Intersect4 P_PlanarLine P_RingMath.
Import ListNotations.
Local Open Scope R_scope.

(** ** Comparing within the tolerance *)
Lemma abs_R w : f64_wf w = true -> f64_finite w = true ->
  f64_wf (f64_abs w) = true /\ f64_finite (f64_abs w) = true /\ f64_R (f64_abs w) = Rabs (f64_R w).
Proof.
  intros W F. unfold f64_abs.
  assert (M : (0 <= f64_mag w < two63)%Z) by (unfold f64_mag; apply Z.mod_pos_bound; reflexivity).
  assert (MM : f64_mag (f64_mag w) = f64_mag w) by (unfold f64_mag at 1; apply Z.mod_small; exact M).
  assert (W' : f64_wf (f64_mag w) = true).
  { unfold f64_wf. apply andb_true_iff. split; [apply Z.leb_le; lia|]. apply Z.ltb_lt. unfold two63, two64 in *. lia. }
  assert (F' : f64_finite (f64_mag w) = true) by (unfold f64_finite in *; now rewrite MM).
  split; [exact W'|]. split; [exact F'|]. rewrite !R_val by assumption. rewrite MM.
  assert (S : f64_sign (f64_mag w) = false) by (unfold f64_sign; apply Z.leb_gt; lia). rewrite S.
  assert (T : 0 < tiny) by apply bpow_gt_0. assert (V : (0 <= val (f64_mag w))%Z) by (apply val_nonneg; lia).
  rewrite abs_val by assumption. ring.
Qed.
Lemma micro_R : f64_R micro < / 100000.
Proof. vm_compute. lra. Qed.
Lemma zero_R w : f64_wf w = true -> f64_finite w = true -> f64_eq w f64_zero = true <-> f64_R w = 0.
Proof. intros W F. rewrite eq_R by auto. reflexivity. Qed.

Lemma cmp_gap u v : f64_wf u = true -> f64_finite u = true -> f64_wf v = true -> f64_finite v = true ->
  Rabs (f64_R u) <= 520 -> Rabs (f64_R v) <= 520 -> cmp_float default_compare u v = true -> Rabs (f64_R u - f64_R v) < 6 / 10000.
Proof.
  intros Wu Fu Wv Fv Bu Bv E.
  destruct (f64_eq u f64_zero || f64_eq v f64_zero) eqn:Z0.
  - unfold cmp_float in E. rewrite !finite_not_inf in E by assumption. cbn [orb] in E. rewrite Z0 in E.
    pose proof (sub_round v u Wv Wu Fv Fu) as S.
    assert (X : f64_R v - f64_R u = f64_R v \/ f64_R v - f64_R u = - f64_R u).
    { apply orb_true_iff in Z0 as [K|K]; apply zero_R in K; auto; rewrite K; [left|right]; ring. }
    destruct S as [Ws [(Fs & Rs & _)|S]].
    + destruct (abs_R _ Ws Fs) as (Wa & Fa & Ra). change (tol default_compare) with micro in E.
      apply lt_R in E; [|assumption|reflexivity|assumption|reflexivity]. rewrite Ra, Rs in E. pose proof micro_R.
      assert (Q : rnd (f64_R v - f64_R u) = f64_R v - f64_R u).
      { destruct X as [X|X]; rewrite X; [now apply rnd_id|]. 
        unfold rnd. rewrite round_NE_opp. f_equal. now apply rnd_id. }
      rewrite Q, Rabs_minus_sym in E. lra.
    + exfalso. assert (Hb : Rabs (rnd (f64_R v - f64_R u)) <= bpow radix2 11).
      { apply rnd_bound; [lia|]. change (bpow radix2 11) with 2048. destruct X as [X|X]; rewrite X, ?Rabs_Ropp; lra. }
      assert (Hh : huge > 4096). { unfold huge. change 4096 with (bpow radix2 12). apply bpow_lt. reflexivity. }
      change (bpow radix2 11) with 2048 in Hb. apply Rabs_le_inv in Hb. destruct S as [(_ & S)|(_ & S)]; lra.
  - apply orb_false_iff in Z0 as [Zu Zv].
    assert (Nu : finite_nonzero u) by (repeat split; auto; [now apply finite_nn|now apply finite_not_inf]).
    assert (Nv : finite_nonzero v) by (repeat split; auto; [now apply finite_nn|now apply finite_not_inf]).
    assert (Eb : bit_tol default_compare = 4503599627%Z) by (vm_compute; reflexivity).
    destruct (float_equal_close default_compare u v) as [H|H]; try assumption.
    + rewrite Eb. lia.
    + rewrite Eb in H. assert (M : Rmax (Rabs (f64_R u)) (Rabs (f64_R v)) <= 520) by (apply Rmax_lub; assumption).
      assert (M0 : 0 <= Rmax (Rabs (f64_R u)) (Rabs (f64_R v))) by (apply Rle_trans with (Rabs (f64_R u)); [apply Rabs_pos|apply Rmax_l]).
      assert (K : IZR 4503599627 * / 2 ^ 52 <= / 900000) by lra.
      assert (IZR 4503599627 * / 2 ^ 52 * Rmax (Rabs (f64_R u)) (Rabs (f64_R v)) <= / 900000 * 520).
      { apply Rmult_le_compat; try assumption. lra. }
      lra.
    + rewrite Eb in H. assert (K : / 2 ^ 1074 <= / 2 ^ 52).
      { apply Rinv_le_contravar; [apply pow_lt; lra|]. apply Rle_pow; [lra|]. apply Nat.leb_le. reflexivity. }
      assert (L : IZR 4503599627 * / 2 ^ 1074 <= IZR 4503599627 * / 2 ^ 52) by (apply Rmult_le_compat_l; lra).
      lra.
Qed.

Lemma cmp_same u v : f64_wf u = true -> f64_finite u = true -> f64_wf v = true -> f64_finite v = true -> f64_R u = f64_R v ->
  cmp_float default_compare u v = true.
Proof.
  intros Wu Fu Wv Fv E. destruct default_positive as (T & B1 & B2).
  apply float_same; try assumption. apply eq_R; assumption.
Qed.

(** ** Integers *)
Lemma repr_int n w : repr 0 n w -> f64_wf w = true /\ f64_finite w = true /\ f64_R w = IZR n.
Proof. intros (A & B & C). split; [exact A|]. split; [exact B|]. rewrite C. cbn [bpow]. ring. Qed.
Lemma cmp_int n m u v : repr 0 n u -> repr 0 m v -> (Z.abs n <= 513)%Z -> (Z.abs m <= 513)%Z ->
  cmp_float default_compare u v = true <-> n = m.
Proof.
  intros U V Bn Bm. destruct (repr_int _ _ U) as (Wu & Fu & Ru), (repr_int _ _ V) as (Wv & Fv & Rv). split.
  - intros E. apply cmp_gap in E; try assumption.
    + rewrite Ru, Rv, <- minus_IZR, <- abs_IZR in E. destruct (Z.eq_dec n m) as [H|H]; [exact H|exfalso].
      assert (K : (1 <= Z.abs (n - m))%Z) by lia. apply IZR_le in K. lra.
    + rewrite Ru, <- abs_IZR. apply IZR_le. lia.
    + rewrite Rv, <- abs_IZR. apply IZR_le. lia.
  - intros ->. apply cmp_same; try assumption. now rewrite Ru, Rv.
Qed.
(** A rounded value is told from an integer if they are a thousandth apart. *)
Lemma cmp_round x w m v : f64_wf w = true -> f64_finite w = true -> f64_R w = rnd x -> repr 0 m v -> (Z.abs m <= 513)%Z -> Rabs x <= 513 ->
  (x = IZR m \/ / 1024 <= Rabs (x - IZR m)) -> cmp_float default_compare w v = true <-> x = IZR m.
Proof.
  intros Ww Fw Rw V Bm Bx G. destruct (repr_int _ _ V) as (Wv & Fv & Rv).
  assert (Er : Rabs (rnd x - x) <= bpow radix2 (10 - 53)) by (apply rnd_err; [lia|change (bpow radix2 10) with 1024; lra]).
  assert (Et : bpow radix2 (10 - 53) <= / 100000).
  { apply Rle_trans with (bpow radix2 (-20)); [apply bpow_le; lia|]. change (bpow radix2 (-20)) with (/ 1048576). lra. }
  split.
  - intros E. apply cmp_gap in E; try assumption.
    + destruct G as [G|G]; [exact G|exfalso]. rewrite Rw, Rv in E.
      assert (K : Rabs (x - IZR m) <= Rabs (rnd x - IZR m) + Rabs (rnd x - x)).
      { replace (x - IZR m) with ((rnd x - IZR m) - (rnd x - x)) by ring. apply Rabs_triang_minus || (eapply Rle_trans; [apply Rabs_triang|rewrite Rabs_Ropp; lra]). }
      lra.
    + rewrite Rw. replace (rnd x) with ((rnd x - x) + x) by ring. eapply Rle_trans; [apply Rabs_triang|]. lra.
    + rewrite Rv, <- abs_IZR. apply IZR_le. lia.
  - intros ->. apply cmp_same; try assumption. rewrite Rw, Rv.
    rewrite <- Rv. rewrite rnd_id by assumption. reflexivity.
Qed.

(** ** One side *)
Section Side.
  Variables (lx px py ax ay bx by_ : f64) (kl kx ky ka la kb lb : Z).
  Hypothesis (Rl : repr 0 kl lx) (Rx : repr 0 kx px) (Ry : repr 0 ky py)
    (Ra : repr 0 ka ax) (Sa : repr 0 la ay) (Rb : repr 0 kb bx) (Sb : repr 0 lb by_).
  Hypothesis (Bl : (Z.abs kl <= 513)%Z) (Bx : (Z.abs kx <= 512)%Z) (By : (Z.abs ky <= 512)%Z)
    (Ba : (Z.abs ka <= 512)%Z) (Bla : (Z.abs la <= 512)%Z) (Bb : (Z.abs kb <= 512)%Z) (Blb : (Z.abs lb <= 512)%Z).
  Hypothesis (Lx : (kl < kx)%Z) (La : (kl < ka)%Z) (Lb : (kl < kb)%Z).
  Let l : line := ((lx, py), (px, py)).
  Let seg : line := ((ax, ay), (bx, by_)).
  Let P : R * R := (IZR kx, IZR ky).
  Let E : (R * R) * (R * R) := ((IZR ka, IZR la), (IZR kb, IZR lb)).

  Let Vl : f64_R lx = IZR kl.
  Proof. exact (proj2 (proj2 (repr_int _ _ Rl))). Qed.
  Let Vx : f64_R px = IZR kx.
  Proof. exact (proj2 (proj2 (repr_int _ _ Rx))). Qed.
  Let Vy : f64_R py = IZR ky.
  Proof. exact (proj2 (proj2 (repr_int _ _ Ry))). Qed.
  Let Va : f64_R ax = IZR ka.
  Proof. exact (proj2 (proj2 (repr_int _ _ Ra))). Qed.
  Let Ua : f64_R ay = IZR la.
  Proof. exact (proj2 (proj2 (repr_int _ _ Sa))). Qed.
  Let Vb : f64_R bx = IZR kb.
  Proof. exact (proj2 (proj2 (repr_int _ _ Rb))). Qed.
  Let Ub : f64_R by_ = IZR lb.
  Proof. exact (proj2 (proj2 (repr_int _ _ Sb))). Qed.

  Lemma side_grid : small_grid l seg.
  Proof.
    exists 0%Z, [(kl, ky); (kx, ky); (ka, la); (kb, lb)]. split; [lia|]. split.
    - repeat (constructor; [split; assumption|]). constructor.
    - clear - Bl Bx By Ba Bla Bb Blb. intros p [<-|[<-|[<-|[<-|[]]]]]; cbn [fst snd]; lia.
  Qed.
  Lemma side_parallel : parallel l seg <-> la = lb.
  Proof.
    unfold parallel, rpt, l, seg. cbn [fst snd]. rewrite Vl, Vx, Vy, Ua, Ub, Va, Vb. split.
    - intros H. replace ((IZR ky - IZR ky) * (IZR kb - IZR ka)) with 0 in H by ring. apply Rmult_integral in H as [H|H].
      + apply IZR_lt in Lx. lra.
      + apply eq_IZR. lra.
    - intros ->. ring.
  Qed.
  Lemma on_ray (q : R * R) : on_segment l q <-> snd q = IZR ky /\ IZR kl <= fst q <= IZR kx.
  Proof.
    unfold on_segment, rpt, l, along. cbn [fst snd]. rewrite Vl, Vx, Vy. apply IZR_lt in Lx. split.
    - intros (t & T & ->). cbn [fst snd]. split; [ring|]. clear - T Lx. split; nra.
    - destruct q as [x y]. cbn [fst snd]. intros [-> H]. destruct (between_along (IZR kl) (IZR kx) x) as (t & T & Et); [left; lra|].
      exists t. split; [exact T|]. f_equal; [exact Et|ring].
  Qed.
  Lemma on_seg (q : R * R) : on_segment seg q <-> on_side E q.
  Proof. unfold on_segment, on_side, seg, E, rpt. cbn [fst snd]. rewrite Va, Ua, Vb, Ub. reflexivity. Qed.

  Lemma flat_side : la = lb -> on_side E P <-> la = ky /\ ((ka <= kx <= kb)%Z \/ (kb <= kx <= ka)%Z).
  Proof.
    intros El. unfold on_side, E, P, along. cbn [fst snd]. subst lb. split.
    - intros (t & T & H). pose proof (f_equal fst H) as X. pose proof (f_equal snd H) as Y. cbn [fst snd] in X, Y.
      split; [apply eq_IZR; lra|]. destruct (Z.le_ge_cases ka kb) as [L|L]; [left|right]; apply IZR_le in L; split; apply le_IZR; nra.
    - intros [-> H]. destruct (between_along (IZR ka) (IZR kb) (IZR kx)) as (t & T & Et).
      { destruct H as [[H1 H2]|[H1 H2]]; apply IZR_le in H1, H2; auto. }
      exists t. split; [exact T|]. f_equal; [exact Et|ring].
  Qed.
  Lemma flat_passes : la = lb -> passes P E = false.
  Proof. intros ->. unfold passes, E, below. cbn [fst snd]. now rewrite xorb_nilpotent. Qed.

  Lemma side_colinear : are_lines_colinear l seg = true <-> la = lb /\ la = ky /\ ((ka <= kx)%Z \/ (kb <= kx)%Z).
  Proof.
    rewrite (colinear_axis l seg (small_near _ _ side_grid)) by (right; reflexivity). rewrite side_parallel.
    assert (K : forall n m u v, repr 0 n u -> repr 0 m v -> (kl < n)%Z -> on_segment l (rpt (u, v)) <-> m = ky /\ (n <= kx)%Z).
    { intros n m u v U V L. rewrite on_ray. unfold rpt. cbn [fst snd]. rewrite (proj2 (proj2 (repr_int _ _ U))), (proj2 (proj2 (repr_int _ _ V))).
      split; [intros [H1 [H2 H3]]; split; [now apply eq_IZR|now apply le_IZR]|]. intros [-> H]. apply IZR_le in H. apply IZR_lt in L. lra. }
    unfold ends, seg. cbn [fst snd In]. split.
    - intros [-> (q & [<-|[<-|[]]] & H)]; [apply (K ka lb) in H|apply (K kb lb) in H]; auto; tauto.
    - intros (-> & H & [L|L]); (split; [reflexivity|]); [exists (ax, ay)|exists (bx, by_)]; (split; [auto|]); [apply (K ka lb)|apply (K kb lb)]; auto.
  Qed.
  Lemma side_contains : la = lb -> line_contains_point seg (px, py) = true <-> on_side E P.
  Proof.
    intros El. rewrite flat_side by exact El. rewrite contains_box. unfold in_box, between, seg. cbn [fst snd].
    destruct (repr_int _ _ Rx) as (? & ? & _), (repr_int _ _ Ry) as (? & ? & _), (repr_int _ _ Ra) as (? & ? & _), (repr_int _ _ Sa) as (? & ? & _),
      (repr_int _ _ Rb) as (? & ? & _), (repr_int _ _ Sb) as (? & ? & _).
    rewrite !le_R by assumption. rewrite Vx, Vy, Va, Vb, Ua, Ub. subst lb.
    assert (Q : forall n m, IZR n <= IZR m <-> (n <= m)%Z) by (intros; split; [apply le_IZR|apply IZR_le]). rewrite !Q. clear. split; [intros [K1 K2]|intros [K1 K2]]; lia.
  Qed.

  (** Not horizontal *)
  Section Slanted.
    Hypothesis Ne : la <> lb.
    Let x := x_at E (IZR ky).
    Lemma slant : (IZR lb - IZR la) <> 0.
    Proof. intros H. apply Ne. apply eq_IZR. lra. Qed.
    Definition within := ((la <= ky <= lb)%Z \/ (lb <= ky <= la)%Z).
    Lemma in_height (y : R) : (IZR la <= y <= IZR lb \/ IZR lb <= y <= IZR la) -> on_side E (x_at E y, y).
    Proof.
      intros H. destruct (between_along (IZR la) (IZR lb) y) as (t & T & Et); [lra|]. exists t. split; [exact T|].
      unfold along, x_at, E. cbn [fst snd]. assert (Q : (y - IZR la) / (IZR lb - IZR la) = t) by (rewrite Et; field; exact slant). rewrite Q. f_equal. exact Et.
    Qed.
    Lemma on_height q : on_side E q -> fst q = x_at E (snd q) /\ (IZR la <= snd q <= IZR lb \/ IZR lb <= snd q <= IZR la).
    Proof.
      intros (t & T & ->). unfold along, x_at, E. cbn [fst snd]. split.
      - f_equal. f_equal. field. exact slant.
      - clear - T. destruct (Rle_dec (IZR la) (IZR lb)); [left|right]; split; nra.
    Qed.
    Lemma within_R : within <-> (IZR la <= IZR ky <= IZR lb \/ IZR lb <= IZR ky <= IZR la).
    Proof.
      assert (Q : forall n m, IZR n <= IZR m <-> (n <= m)%Z) by (intros; split; [apply le_IZR|apply IZR_le]). rewrite !Q. reflexivity.
    Qed.
    Lemma x_range : within -> (IZR ka <= x <= IZR kb \/ IZR kb <= x <= IZR ka).
    Proof.
      intros H. apply within_R in H. destruct (between_along (IZR la) (IZR lb) (IZR ky)) as (t & T & Et); [lra|].
      unfold x, x_at, E. cbn [fst snd]. assert (Q : (IZR ky - IZR la) / (IZR lb - IZR la) = t) by (rewrite Et; field; exact slant). rewrite Q.
      clear - T. destruct (Rle_dec (IZR ka) (IZR kb)); [left|right]; split; nra.
    Qed.
    Lemma x_gap : within -> x = IZR kx \/ / 1024 <= Rabs (x - IZR kx).
    Proof.
      intros _. set (N := ((ka - kx) * (lb - la) + (ky - la) * (kb - ka))%Z).
      assert (Q : (x - IZR kx) * (IZR lb - IZR la) = IZR N).
      { unfold x, x_at, E, N. cbn [fst snd]. rewrite plus_IZR, !mult_IZR, !minus_IZR. field. exact slant. }
      destruct (Z.eq_dec N 0) as [Z|Z].
      - left. rewrite Z in Q. apply Rmult_integral in Q as [Q|Q]; [lra|]. now apply slant in Q.
      - right. assert (K : (1 <= Z.abs N)%Z) by lia. apply IZR_le in K. rewrite abs_IZR, <- Q, Rabs_mult in K.
        assert (D : Rabs (IZR lb - IZR la) <= 1024). { rewrite <- minus_IZR, <- abs_IZR. apply IZR_le. lia. }
        pose proof (Rabs_pos (x - IZR kx)). clear - K D H. nra.
    Qed.
    Lemma meets : (exists q, on_segment l q /\ on_segment seg q) <-> within /\ x <= IZR kx.
    Proof.
      split.
      - intros (q & H1 & H2). apply on_ray in H1 as [Y X]. apply on_seg, on_height in H2 as [Ex W]. rewrite Y in Ex, W.
        split; [apply within_R; exact W|]. unfold x. lra.
      - intros [W L]. exists (x, IZR ky). rewrite on_ray, on_seg. split; [|apply in_height, within_R, W].
        cbn [fst snd]. split; [reflexivity|]. apply x_range in W. apply IZR_lt in La, Lb. lra.
    Qed.
    Lemma slant_side : on_side E P <-> within /\ x = IZR kx.
    Proof.
      split.
      - intros H. apply on_height in H as [X W]. unfold P in X, W. cbn [fst snd] in X, W. split; [now apply within_R|symmetry; exact X].
      - intros [W X]. apply within_R, in_height in W. unfold P. fold x in W. now rewrite X in W.
    Qed.
    Lemma x_ends : (la = ky -> x = IZR ka) /\ (lb = ky -> x = IZR kb).
    Proof. unfold x, x_at, E. cbn [fst snd]. split; intros <-; [unfold Rminus at 1; rewrite Rplus_opp_r; unfold Rdiv; ring|field; exact slant]. Qed.

    Lemma slant_passes : passes P E = true <-> ((la < ky <= lb)%Z \/ (lb < ky <= la)%Z) /\ x < IZR kx.
    Proof.
      unfold passes, below, P, E. cbn [fst snd]. fold E. fold x. rewrite andb_true_iff, rltb_spec. apply and_iff_compat_r. unfold rltb.
      assert (Q : forall n m, IZR n < IZR m <-> (n < m)%Z) by (intros; split; [apply lt_IZR|apply IZR_lt]).
      destruct (Rlt_dec (IZR la) (IZR ky)) as [A|A], (Rlt_dec (IZR lb) (IZR ky)) as [B|B]; rewrite Q in A, B; cbn [xorb]; split; intros; try discriminate; try reflexivity; lia.
    Qed.

    Theorem slanted_spec :
      look default_compare l (px, py) seg = Border /\ on_side E P \/
      look default_compare l (px, py) seg = (if passes P E then Count else Skip) /\ ~ on_side E P.
    Proof.
      assert (C : are_lines_colinear l seg = false).
      { destruct (are_lines_colinear l seg) eqn:C; [|reflexivity]. apply side_colinear in C as [C _]. contradiction. }
      assert (Np : ~ parallel l seg) by (rewrite side_parallel; exact Ne).
      assert (Ok : snd (segment_intersect l seg) = true <-> within /\ x <= IZR kx).
      { rewrite (proj1 (segment_exact l seg (small_near _ _ side_grid))), meets. tauto. }
      unfold look. rewrite C. destruct (segment_intersect l seg) as [q ok] eqn:SI. cbn [snd] in Ok. destruct ok; cbn [negb].
      2: { right. assert (N : ~ (within /\ x <= IZR kx)) by (intros K; apply Ok in K; discriminate). split.
           - destruct (passes P E) eqn:Ps; [|reflexivity]. exfalso. apply slant_passes in Ps as [W L]. apply N. split; [unfold within; lia|lra].
           - intros H. apply slant_side in H as [W X]. apply N. split; [exact W|lra]. }
      destruct (proj1 Ok eq_refl) as [W L].
      (* the point found *)
      assert (Wq : f64_wf (fst q) = true /\ f64_wf (snd q) = true).
      { assert (K : line_intersect l seg = (q, true)) by (pose proof (segment_line l seg) as K; rewrite SI in K; exact (K eq_refl)).
        apply line_res in K. subst q. apply crossing_wf. }
      destruct (segment_point l seg q side_grid SI) as [(c & C1 & C2 & F1 & F2 & R1 & R2) _].
      apply on_ray in C1 as [Cy _]. apply on_seg, on_height in C2 as [Cx _]. rewrite Cy in Cx. fold x in Cx. rewrite Cx in R1. rewrite Cy in R2.
      assert (Bx' : Rabs x <= 513).
      { pose proof (x_range W) as XR.
        assert (Ka : Rabs (IZR ka) <= 512) by (rewrite <- abs_IZR; now apply IZR_le). assert (Kb : Rabs (IZR kb) <= 512) by (rewrite <- abs_IZR; now apply IZR_le).
        apply Rabs_le_inv in Ka, Kb. apply Rabs_le. lra. }
      assert (Bky : Rabs (IZR ky) <= 513) by (rewrite <- abs_IZR; apply IZR_le; lia).
      assert (Q1 : cmp_float default_compare (fst q) px = true <-> x = IZR kx).
      { apply (cmp_round x (fst q) kx px); auto; try tauto; try lia. now apply x_gap. }
      assert (Qy : forall m v, repr 0 m v -> (Z.abs m <= 512)%Z -> cmp_float default_compare (snd q) v = true <-> ky = m).
      { intros m v Hv Hm. rewrite (cmp_round (IZR ky) (snd q) m v); auto; try tauto; try lia.
        - split; [apply eq_IZR|now intros ->].
        - destruct (Z.eq_dec ky m) as [->|D]; [now left|right]. rewrite <- minus_IZR, <- abs_IZR. assert (K : (1 <= Z.abs (ky - m))%Z) by lia. apply IZR_le in K. lra. }
      assert (B1 : point_equal default_compare q (px, py) = true <-> x = IZR kx).
      { unfold point_equal. cbn [fst snd]. rewrite andb_true_iff, Q1, (Qy ky py Ry By). tauto. }
      destruct (point_equal default_compare q (px, py)) eqn:PE.
      { left. split; [reflexivity|]. apply slant_side. split; [exact W|]. now apply B1. }
      assert (Xl : x < IZR kx). { destruct L as [L|L]; [exact L|]. apply B1 in L. discriminate. }
      right. split; [|intros H; apply slant_side in H as [_ X]; lra].
      assert (Sym : forall u v, point_equal default_compare u v = point_equal default_compare v u) by (apply point_equal_sym, default_positive).
      assert (Ends : forall n m u v, repr 0 n u -> repr 0 m v -> (Z.abs n <= 512)%Z -> (Z.abs m <= 512)%Z -> (m = ky -> x = IZR n) ->
        point_equal default_compare (u, v) q = true <-> m = ky).
      { intros n m u v Hu Hv Bn Bm K. rewrite Sym. unfold point_equal. cbn [fst snd]. rewrite andb_true_iff, (Qy m v Hv Bm). split; [intros [_ H]; auto|].
        intros H. split; [|auto]. apply (cmp_round x (fst q) n u); auto; try tauto; try lia. }
      assert (Gt : forall m v, repr 0 m v -> f64_gt v py = true <-> (ky < m)%Z).
      { intros m v Hv. unfold f64_gt. destruct (repr_int _ _ Hv) as (? & ? & Ev), (repr_int _ _ Ry) as (? & ? & _). rewrite lt_R by assumption. rewrite Vy, Ev.
        split; [apply lt_IZR|apply IZR_lt]. }
      pose proof (Ends ka la ax ay Ra Sa Ba Bla (proj1 x_ends)) as EA. pose proof (Ends kb lb bx by_ Rb Sb Bb Blb (proj2 x_ends)) as EB.
      pose proof (Gt la ay Sa) as GA. pose proof (Gt lb by_ Sb) as GB. pose proof slant_passes as SP. unfold seg. cbn [fst snd].
      assert (Ps : passes P E = true <-> ((la < ky <= lb)%Z \/ (lb < ky <= la)%Z)).
      { clear - SP Xl. split; [intros K; apply SP in K as [K _]; exact K|intros K; apply SP; split; [exact K|exact Xl]]. }
      unfold within in W. clear - EA EB GA GB Ps W Ne.
      destruct (point_equal default_compare (ax, ay) q).
      - assert (la = ky) by tauto. destruct (f64_gt by_ py).
        + assert (ky < lb)%Z by tauto. destruct (passes P E); [exfalso|reflexivity]. assert (Ps' := proj1 Ps eq_refl). lia.
        + assert (~ (ky < lb)%Z) by (intros K; apply GB in K; discriminate). rewrite (proj2 Ps); [reflexivity|lia].
      - assert (la <> ky) by (intros K; apply EA in K; discriminate). destruct (point_equal default_compare (bx, by_) q).
        + assert (lb = ky) by tauto. destruct (f64_gt ay py).
          * assert (ky < la)%Z by tauto. destruct (passes P E); [exfalso|reflexivity]. assert (Ps' := proj1 Ps eq_refl). lia.
          * assert (~ (ky < la)%Z) by (intros K; apply GA in K; discriminate). rewrite (proj2 Ps); [reflexivity|lia].
        + assert (lb <> ky) by (intros K; apply EB in K; discriminate). rewrite (proj2 Ps); [reflexivity|lia].
    Qed.
  End Slanted.

  Theorem look_spec :
    look default_compare l (px, py) seg = Border /\ on_side E P \/
    look default_compare l (px, py) seg = (if passes P E then Count else Skip) /\ ~ on_side E P.
  Proof.
    destruct (Z.eq_dec la lb) as [El|Ne]; [|now apply slanted_spec].
    rewrite (flat_passes El). unfold look. destruct (are_lines_colinear l seg) eqn:C.
    - pose proof (side_contains El) as K. destruct (line_contains_point seg (px, py)); [left|right]; split; try reflexivity; [tauto|].
      intros H. apply K in H. discriminate.
    - right. assert (Off : ~ on_side E P).
      { intros H. apply flat_side in H as [Hy H]; [|exact El]. assert (K : are_lines_colinear l seg = true) by (apply side_colinear; lia). congruence. }
      split; [|exact Off]. pose proof (proj1 (segment_exact l seg (small_near _ _ side_grid))) as S.
      destruct (segment_intersect l seg) as [q [|]]; cbn [snd negb] in *; [exfalso|reflexivity].
      apply (proj1 S eq_refl). now apply side_parallel.
  Qed.

  (** A segment which is not skipped has a point in common with the ray. *)
  Lemma look_shared : look default_compare l (px, py) seg <> Skip -> share_point l seg.
  Proof.
    intros N. unfold share_point.
    assert (On : on_side E P -> exists q, on_segment l q /\ on_segment seg q).
    { intros H. exists P. rewrite on_ray, on_seg. split; [|exact H]. unfold P. cbn [fst snd]. apply IZR_lt in Lx. split; [reflexivity|lra]. }
    destruct look_spec as [[_ H]|[Q H]]; [auto|]. rewrite Q in N. destruct (Z.eq_dec la lb) as [El|Ne].
    - rewrite (flat_passes El) in N. congruence.
    - destruct (passes P E) eqn:Ps; [|congruence]. apply slant_passes in Ps as [W X]. apply (meets Ne). unfold within. split; [|lra]. clear - W. lia.
  Qed.
End Side.
