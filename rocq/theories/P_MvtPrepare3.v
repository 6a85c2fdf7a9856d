(** Proofs about encoding/mvt/prepare.go: thinned lines, rings, integer tiles *)
From Coq Require Import ZArith Bool List Lia Reals Lra.
From Flocq Require Import Core.Core.
From Verif Require Import Base_Res Base_F64 Base_F64Arith Base_Geom M_Extent M_Cmp M_Winding M_Triangle M_Walker M_MvtPrepare
  S_Winding S_MvtPrepare P_F64 P_F64Flocq P_F64Round P_F64Grid P_CmpR P_Cmp3 P_Ring P_Winding P_Winding2 P_Walker4 P_MvtPrepare P_MvtPrepare2.
From Verif Require Import S_Cmp P_Cmp P_F64Err P_F64Sqrt P_Intersect.
From Verif Require P_Cmp2 P_Intersect3 P_Intersect4 S_Cmp M_Mvt S_Mvt P_Mvt.
Import ListNotations.
Local Open Scope nat_scope.

(** ** Lines *)
Section Lines.
  Variables (tile : option extent) (pixels : f64).
  Let f := prepare_pt tile pixels.
  Let same := point_equal hi_cmp.

  Lemma thin_spec l : forall k, thinned_after same k (map f l) (thin tile pixels k l).
  Proof.
    induction l as [|p l IH]; intros k; cbn [map thin]; [constructor|].
    destruct (point_equal hi_cmp k (prepare_pt tile pixels p)) eqn:E; [apply thin_drop|apply thin_keep]; [exact E|apply IH|exact E|apply IH].
  Qed.
  Lemma thinned_steps k l out : thinned_after same k l out -> steps same (k :: out).
  Proof. induction 1 as [k|k p l out E H IH|k p l out E H IH]; [exact I|exact IH|]. cbn [steps]. split; [exact E|exact IH]. Qed.
  Lemma thinned_nil k l out : thinned_after same k l out -> (out = [] <-> Forall (fun q => same k q = true) l).
  Proof.
    induction 1 as [k|k p l out E H IH|k p l out E H IH]; [split; auto| |].
    - rewrite IH. split; intros F; [constructor; assumption|now inversion F].
    - split; [discriminate|]. intros F. inversion F. congruence.
  Qed.

  Lemma prepare_line_spec l :
    (prepare_line tile pixels l = [] /\ (length l < 2 \/ one_place same (map f l))) \/
    (2 <= length (prepare_line tile pixels l) /\ 2 <= length l /\ ~ one_place same (map f l) /\
     thinned same (map f l) (prepare_line tile pixels l) /\ steps same (prepare_line tile pixels l)).
  Proof.
    unfold prepare_line. destruct (Nat.ltb_spec (length l) 2) as [L|L]; [left; auto|].
    destruct l as [|p tl]; [cbn in L; lia|]. cbn zeta. pose proof (thin_spec tl (prepare_pt tile pixels p)) as T.
    pose proof (thinned_nil _ _ _ T) as N. pose proof (thinned_steps _ _ _ T) as St.
    set (out := thin tile pixels (prepare_pt tile pixels p) tl) in *.
    destruct (Nat.ltb_spec (length (prepare_pt tile pixels p :: out)) 2) as [K|K].
    - left. split; [reflexivity|right]. cbn [map one_place]. apply N. destruct out; [reflexivity|cbn in K; lia].
    - right. repeat split; try assumption. cbn [map one_place]. intros Q. apply N in Q. rewrite Q in K. cbn in K. lia.
  Qed.

  Lemma prepare_line_empty l : prepare_line tile pixels l = [] <-> length l < 2 \/ one_place same (map f l).
  Proof.
    destruct (prepare_line_spec l) as [[-> H]|(A & B & C & _)]; [tauto|]. split; [intros E; rewrite E in A; cbn in A; lia|].
    intros [H|H]; [lia|contradiction].
  Qed.
  Lemma prepare_line_thinned l : prepare_line tile pixels l <> [] ->
    2 <= length (prepare_line tile pixels l) /\ thinned same (map f l) (prepare_line tile pixels l) /\ steps same (prepare_line tile pixels l).
  Proof. destruct (prepare_line_spec l) as [[-> H]|(A & B & C & D & E)]; [congruence|auto]. Qed.

  (** ** Rings *)
  Lemma steps_last p q tl : steps same (p :: q :: tl) -> same p (last (p :: q :: tl) p) = true -> 2 <= length tl + 1.
  Proof. destruct tl; [|cbn; lia]. cbn. intros [A _] B. congruence. Qed.

  Lemma prepare_ring_spec r : 2 <= length r ->
    (prepare_ring tile pixels r = Panic /\ one_place same (map f r)) \/
    (exists t o, prepare_ring tile pixels r = Ok o /\ ~ one_place same (map f r) /\ thinned same (map f r) t /\ opened same t o /\ 2 <= length o).
  Proof.
    intros L. unfold prepare_ring. destruct (prepare_line_spec r) as [[-> H]|(A & B & C & D & E)].
    - left. split; [reflexivity|]. destruct H as [H|H]; [lia|exact H].
    - right. exists (prepare_line tile pixels r). destruct (prepare_line tile pixels r) as [|p ln] eqn:Q; [cbn in A; lia|].
      exists (if same p (last (p :: ln) p) then removelast (p :: ln) else p :: ln).
      split; [reflexivity|]. split; [exact C|]. split; [exact D|]. split; [reflexivity|].
      destruct (same p (last (p :: ln) p)) eqn:X; [|exact A].
      destruct ln as [|q ln]; [cbn in A; lia|]. pose proof (steps_last p q ln E X) as Y.
      assert (Z := app_removelast_last p (l := p :: q :: ln) ltac:(discriminate)). apply (f_equal (@length _)) in Z.
      rewrite app_length in Z. cbn [length] in Z. lia.
  Qed.

  Local Notation prepared_ring := (prepared_ring same f).
  Lemma prepare_rings_spec rs :
    let long := filter (fun r => 2 <=? length r) rs in
    (prepare_rings tile pixels rs = Panic /\ Exists (fun r => one_place same (map f r)) long) \/
    (exists out, prepare_rings tile pixels rs = Ok out /\ Forall (fun r => ~ one_place same (map f r)) long /\ Forall2 prepared_ring long out).
  Proof.
    cbn zeta. induction rs as [|r rs IH]; cbn [prepare_rings filter].
    - right. exists []. repeat split; constructor.
    - assert (Q : (2 <=? length r) = negb (length r <? 2)) by (destruct (Nat.ltb_spec (length r) 2), (Nat.leb_spec 2 (length r)); auto; lia).
      rewrite Q. destruct (Nat.ltb_spec (length r) 2) as [L|L]; cbn [negb]; [exact IH|].
      destruct (prepare_ring_spec r L) as [[-> H]|(t & o & -> & N & T & O & Lo)]; cbn [bind].
      + left. split; [reflexivity|constructor; exact H].
      + destruct IH as [[-> H]|(out & -> & F & G)]; cbn [bind].
        * left. split; [reflexivity|now constructor 2].
        * right. exists (o :: out). destruct (Nat.ltb_spec (length o) 2) as [K|K]; [lia|]. split; [reflexivity|].
          split; constructor; auto. now exists t.
  Qed.

  Lemma prepare_polygon_panics rs : prepare_polygon tile pixels rs = Panic <->
    exists r, In r rs /\ 2 <= length r /\ one_place same (map f r).
  Proof.
    assert (E : forall r, In r (filter (fun r : list pt => 2 <=? length r) rs) <-> In r rs /\ 2 <= length r).
    { intros r. rewrite filter_In, Nat.leb_le. reflexivity. }
    unfold prepare_polygon. destruct rs as [|r0 rs0] eqn:R.
    - split; [discriminate|]. intros (r & [] & _).
    - rewrite <- R in *. clear R. destruct (prepare_rings_spec rs) as [[-> H]|(out & -> & F & _)]; cbn [bind].
      + split; [|reflexivity]. intros _. apply Exists_exists in H as (r & I & H). exists r. apply E in I. tauto.
      + split; [discriminate|]. intros (r & I & L & O). exfalso. apply (proj1 (Forall_forall _ _) F r); [apply E; auto|exact O].
  Qed.

  Lemma prepare_polygon_ok rs out : prepare_polygon tile pixels rs = Ok out ->
    exists rings, Forall2 prepared_ring (filter (fun r => 2 <=? length r) rs) rings /\
      match rings with
      | [] => out = []
      | outer :: inner =>
          (orientation false outer = wColinear /\ out = []) \/
          (orientation false outer <> wColinear /\
           same_or_reversed (outer :: filter (fun r => negb (orientation false r =? wColinear)%Z) inner) out)
      end.
  Proof.
    unfold prepare_polygon. destruct rs as [|r0 rs0] eqn:R.
    - intros H. injection H as <-. exists []. split; [constructor|reflexivity].
    - rewrite <- R in *. clear R. destruct (prepare_rings_spec rs) as [[-> _]|(rings & -> & _ & F)]; cbn [bind]; [discriminate|].
      intros H. injection H as <-. exists rings. split; [exact F|].
      rewrite rectify_polygon_exact. destruct rings as [|outer inner]; [reflexivity|].
      destruct (Z.eqb_spec (orientation false outer) wColinear) as [Q|Q]; cbn [fst]; [left; auto|right].
      split; [exact Q|]. unfold same_or_reversed. constructor.
      + unfold fix_ring. destruct (_ =? _)%Z; auto.
      + induction (filter _ inner) as [|r l IH]; cbn [map]; constructor; auto. unfold fix_ring. destruct (_ =? _)%Z; auto.
  Qed.
End Lines.

(** ** Integer tiles *)
Local Open Scope Z_scope.
Lemma hi_gap_big u v : f64_wf u = true -> f64_finite u = true -> f64_wf v = true -> f64_finite v = true ->
  (Rabs (f64_R u) <= 1048576 -> Rabs (f64_R v) <= 1048576 -> cmp_float hi_cmp u v = true -> Rabs (f64_R u - f64_R v) < / 2)%R.
Proof.
  Local Open Scope R_scope.
  intros Wu Fu Wv Fv Bu Bv E. 
  destruct (f64_eq u f64_zero || f64_eq v f64_zero) eqn:Z0.
  - unfold cmp_float in E. rewrite !finite_not_inf in E by assumption. cbn [orb] in E. rewrite Z0 in E.
    pose proof (sub_round v u Wv Wu Fv Fu) as S.
    assert (X : f64_R v - f64_R u = f64_R v \/ f64_R v - f64_R u = - f64_R u).
    { apply orb_true_iff in Z0 as [K|K]; apply zero_R in K; auto; rewrite K; [left|right]; ring. }
    destruct S as [Ws [(Fs & Rs & _)|S]].
    + destruct (abs_R _ Ws Fs) as (Wa & Fa & Ra). rewrite hi_tol in E.
      apply lt_R in E; [|assumption|reflexivity|assumption|reflexivity]. rewrite Ra, Rs in E. pose proof nano_R.
      assert (Q : rnd (f64_R v - f64_R u) = f64_R v - f64_R u).
      { destruct X as [X|X]; rewrite X; [now apply rnd_id|]. rewrite rnd_opp. f_equal. now apply rnd_id. }
      rewrite Q, Rabs_minus_sym in E. clear - E H. lra.
    + exfalso. assert (Hb : Rabs (rnd (f64_R v - f64_R u)) <= bpow radix2 40).
      { apply rnd_bound; [lia|]. change (bpow radix2 40) with 1099511627776. destruct X as [X|X]; rewrite X, ?Rabs_Ropp; lra. }
      assert (Hh : huge > bpow radix2 40) by (apply bpow_lt; reflexivity).
      apply Rabs_le_inv in Hb. clear - Hb Hh S. destruct S as [(_ & S)|(_ & S)]; lra.
  - apply orb_false_iff in Z0 as [Zu Zv].
    assert (Nu : finite_nonzero u) by (repeat split; auto; [now apply finite_nn|now apply finite_not_inf]).
    assert (Nv : finite_nonzero v) by (repeat split; auto; [now apply finite_nn|now apply finite_not_inf]).
    destruct (float_equal_close hi_cmp u v) as [H|H]; try assumption.
    + rewrite hi_bits. lia.
    + rewrite hi_bits in H. assert (K : 0 <= IZR 4503600 * / 2 ^ 52 <= / 900000000) by lra.
      revert H K. generalize (IZR 4503600 * / 2 ^ 52). intros d H K.
      assert (M : 0 <= Rmax (Rabs (f64_R u)) (Rabs (f64_R v)) <= 1048576).
      { split; [eapply Rle_trans; [apply Rabs_pos|apply Rmax_l]|]. apply Rmax_lub; assumption. }
      revert H M. generalize (Rmax (Rabs (f64_R u)) (Rabs (f64_R v))). intros b H M. clear - H M K.
      assert (d * b <= / 900000000 * 1048576) by (apply Rmult_le_compat; lra). lra.
    + rewrite hi_bits in H. assert (K : / 2 ^ 1074 <= / 2 ^ 52).
      { apply Rinv_le_contravar; [apply pow_lt; lra|]. apply Rle_pow; [lra|]. apply Nat.leb_le. reflexivity. }
      assert (L : IZR 4503600 * / 2 ^ 1074 <= IZR 4503600 * / 2 ^ 52) by (apply Rmult_le_compat_l; lra).
      clear K. revert H L. generalize (/ 2 ^ 1074). intros t H L. lra.
Qed.
Local Open Scope Z_scope.

Lemma hi_int_big n m : Z.abs n <= 2 ^ 20 -> Z.abs m <= 2 ^ 20 -> cmp_float hi_cmp (f64_ofZ n) (f64_ofZ m) = (n =? m).
Proof.
  intros Bn Bm. assert (U : repr 0 n (f64_ofZ n)) by (apply repr_ofZ; unfold two53; lia).
  assert (V : repr 0 m (f64_ofZ m)) by (apply repr_ofZ; unfold two53; lia).
  destruct (repr_int _ _ U) as (Wu & Fu & Ru), (repr_int _ _ V) as (Wv & Fv & Rv).
  destruct (Z.eqb_spec n m) as [->|N].
  - apply P_Cmp.float_reflexive; vm_compute; reflexivity.
  - destruct (cmp_float hi_cmp (f64_ofZ n) (f64_ofZ m)) eqn:E; [exfalso|reflexivity].
    apply hi_gap_big in E; try assumption.
    + rewrite Ru, Rv, <- minus_IZR, <- abs_IZR in E. assert (K : (1 <= Z.abs (n - m))%Z) by lia. apply IZR_le in K. lra.
    + rewrite Ru, <- abs_IZR. apply IZR_le. exact Bn.
    + rewrite Rv, <- abs_IZR. apply IZR_le. exact Bm.
Qed.
Lemma same_int p q : pixel_range p -> pixel_range q -> point_equal hi_cmp (fpt p) (fpt q) = same_zpt p q.
Proof. intros [A B] [C D]. unfold point_equal, same_zpt. cbn [fpt fst snd]. now rewrite !hi_int_big. Qed.
