(** * Proofs about locate *)
From Coq Require Import Bool List Arith ZArith Lia.
From Verif Require Import Base_F64 Base_F64Arith Base_Res Base_Geom M_Cmp M_Walker M_Winding M_Quadedge S_Quadedge P_MvtPrepare3 P_Quadedge P_Quadedge2 P_Quadedge3 P_Quadedge4 P_QuadedgeTop M_Subdivision S_Subdivision
  P_Subdivision P_Subdivision2 P_Subdivision3 P_Subdivision5 S_Winding S_MvtPrepare M_ResolveEdge S_ResolveEdge P_ResolveEdge P_ResolveEdge2 P_ResolveEdge3 P_ResolveEdge5
  M_Insert S_Insert P_Insert P_Insert2 P_Insert3 P_Insert4 P_Insert5 P_Insert6 P_Insert7 P_Insert8 P_Insert9.
Import ListNotations.

Theorem locate_correct ypd m se x limit : triangulation m se -> integral m se -> moderate x ->
  match locate ypd m se (fpt x) limit with
  | Ok None => True
  | Ok (Some e) => connected m se e
      /\ (orig m e = Some (fpt x) \/ dest m e = Some (fpt x)
          \/ exists p q r, corners m e (fpt p, fpt q, fpt r)
             /\ (0 <= cross (vec ypd p q) (vec ypd p x) /\ 0 < cross (vec ypd q r) (vec ypd q x) /\ 0 < cross (vec ypd r p) (vec ypd r x))%Z)
  | Err _ | Panic => False
  end.
Proof.
  intros (H & Sp & Lb & Lf & At) Ig Mx. destruct (mesh_of m se H Sp Lb Lf At) as [M T]. set (D := connected m se) in *.
  assert (L : labels D good m).
  { intros a Da. destruct (orig m a) as [p|] eqn:Q; [|exfalso; exact (me_lab m D M a Da Q)]. exists p. split; [reflexivity|]. apply Ig. exists a. auto. }
  assert (Ds : D se) by apply c_refl. pose proof (history_wf m H) as W.
  destruct (locate_ok m D M ypd (fpt x) se limit Ds) as (r & -> & Fr). destruct r as [e|]; [|exact I].
  destruct (Fr e eq_refl) as [De Fd]. split; [exact De|].
  assert (K : forall b, D b -> pt_is (fpt x) (orig m b) = true -> orig m b = Some (fpt x)).
  { intros b Db Q. destruct (L b Db) as (p & Op & Gp). rewrite Op in *. f_equal. apply pt_is_int; assumption. }
  destruct Fd as [[Q|Q]|(R1 & R2 & R3)]; [left; apply K; assumption|right; left; apply (K (sym e)); [apply (me_sym m D M), De|exact Q]|]. right; right.
  pose proof (me_lnext m D M e De) as Du. pose proof (me_lnext m D M _ Du) as Dw. set (u := lnext m e) in *. set (w := lnext m u) in *.
  assert (Lw : lnext m w = e) by apply (T e De).
  destruct (L e De) as (p & Op & (zp & Mp & ->)). destruct (L u Du) as (q & Oq & (zq & Mq & ->)). destruct (L w Dw) as (r & Or & (zr & Mr & ->)).
  assert (Dq : dest m e = Some (fpt zq)) by (rewrite <- (me_face m D M e De); exact Oq).
  assert (Dr : dest m u = Some (fpt zr)) by (rewrite <- (me_face m D M u Du); exact Or).
  assert (Dp : dest m w = Some (fpt zp)) by (rewrite <- (me_face m D M w Dw), Lw; exact Op).
  assert (Pw : lprev m e = w) by (apply lprev_of; [exact W|apply (me_ex m D M w Dw)|exact Lw]).
  assert (Ow : onext m e = sym w) by (apply onext_of_lnext; [exact W|apply (me_ex m D M w Dw)|exact Lw]).
  exists zp, zq, zr. split; [unfold corners; rewrite Pw; auto|]. split; [|split].
  - apply Z.nlt_ge. intros C. apply (right_exact ypd m e zp zq x Mp Mq Mx Op Dq) in C. congruence.
  - rewrite (dprev_lnext m D M e De) in R3. fold u in R3. apply (right_exact ypd m (sym u) zr zq x Mr Mq Mx Dr) in R3.
    + rewrite <- cross_cyc in R3 |- *. rewrite cross_anti. lia.
    + unfold dest. rewrite (me_ss m D M u Du). exact Oq.
  - rewrite Ow in R2. apply (right_exact ypd m (sym w) zp zr x Mp Mr Mx Dp) in R2.
    + rewrite <- cross_cyc in R2 |- *. rewrite cross_anti. lia.
    + unfold dest. rewrite (me_ss m D M w Dw). exact Or.
Qed.
