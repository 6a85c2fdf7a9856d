(** * Triangles: area, colinearity, the third point, the enclosing triangle *)
From Coq Require Import ZArith Bool List Lia Reals Lra Psatz Permutation.
From Flocq Require Import Core.Core.
From Verif Require Import Base_Res Base_F64 Base_F64Arith Base_Geom M_Geom M_Extent M_Cmp M_Triangle
  S_Cmp S_Extent S_Intersect S_Winding S_Triangle
  P_F64 P_F64Flocq P_F64Round P_F64Grid P_F64Err P_Cmp2 P_Extent P_Intersect4.
Import ListNotations.
Open Scope Z_scope.

(** ** Area and colinearity *)
Lemma prod_bound x y : Z.abs x <= 2 ^ 25 -> Z.abs y <= 2 ^ 25 -> Z.abs (x * y) <= 2 ^ 50.
Proof. intros A B. rewrite Z.abs_mul. change (2 ^ 50) with (2 ^ 25 * 2 ^ 25). apply Z.mul_le_mono_nonneg; lia. Qed.

Lemma grid3_inv e a b c p q r : on_grid e [a; b; c] [p; q; r] ->
  (repr e (fst a) (fst p) /\ repr e (snd a) (snd p)) /\ (repr e (fst b) (fst q) /\ repr e (snd b) (snd q)) /\
  (repr e (fst c) (fst r) /\ repr e (snd c) (snd r)).
Proof. intros H. inversion H as [|? ? ? ? H1 H2]; subst. inversion H2 as [|? ? ? ? H3 H4]; subst. inversion H4; subst. auto. Qed.

Lemma det_repr e x1 x2 y1 y2 wx1 wx2 wy1 wy2 : grid_exp e ->
  Z.abs x1 <= 2 ^ 25 -> Z.abs x2 <= 2 ^ 25 -> Z.abs y1 <= 2 ^ 25 -> Z.abs y2 <= 2 ^ 25 ->
  repr e x1 wx1 -> repr e x2 wx2 -> repr e y1 wy1 -> repr e y2 wy2 ->
  repr (e + e) (x1 * y2) (f64_mul wx1 wy2) /\ repr (e + e) (y1 * x2) (f64_mul wy1 wx2) /\
  repr (e + e) (x1 * y2 - y1 * x2) (f64_sub (f64_mul wx1 wy2) (f64_mul wy1 wx2)).
Proof.
  intros [E1 E2] B1 B2 B3 B4 R1 R2 R3 R4.
  pose proof (prod_bound _ _ B1 B4) as P1. pose proof (prod_bound _ _ B3 B2) as P2.
  assert (T : two53 = 8 * 2 ^ 50) by reflexivity.
  assert (M1 : repr (e + e) (x1 * y2) (f64_mul wx1 wy2)) by (apply repr_mul; try assumption; lia).
  assert (M2 : repr (e + e) (y1 * x2) (f64_mul wy1 wx2)) by (apply repr_mul; try assumption; lia).
  split; [exact M1|]. split; [exact M2|]. apply repr_sub; try assumption; lia.
Qed.

Lemma repr_sub25 e a b x y : grid_exp e -> Z.abs (a - b) <= 2 ^ 25 -> repr e a x -> repr e b y -> repr e (a - b) (f64_sub x y).
Proof. intros [E1 E2] B. apply repr_sub; [lia|]. assert (2 ^ 25 <= two53) by (now apply Z.leb_le). lia. Qed.

(** Twice the area, exactly. *)
Theorem area_exact e a b c t : near3 e a b c t -> repr (e + e) (area2 [a; b; c]) (tri_area t).
Proof.
  destruct t as [[p q] r]. intros (He & G & B). apply grid3_inv in G as ((Ga & Ga') & (Gb & Gb') & (Gc & Gc')).
  assert (Iab := B b a ltac:(cbn; tauto) ltac:(cbn; tauto)). assert (Ica := B c a ltac:(cbn; tauto) ltac:(cbn; tauto)).
  destruct Iab, Ica. unfold tri_area.
  replace (area2 [a; b; c]) with ((fst b - fst a) * (snd c - snd a) - (snd b - snd a) * (fst c - fst a)).
  - apply det_repr; try assumption; apply repr_sub25; assumption.
  - cbn. unfold cross. ring.
Qed.

Lemma eq_repr e a b x y : repr e a x -> repr e b y -> f64_eq x y = (a =? b).
Proof.
  intros (Wx & Fx & Rx) (Wy & Fy & Ry).
  destruct (f64_eq x y) eqn:E; symmetry.
  - apply Z.eqb_eq. apply eq_R in E; try assumption. rewrite Rx, Ry in E.
    apply Rmult_eq_reg_r in E; [now apply eq_IZR|]. apply Rgt_not_eq, bpow_gt_0.
  - apply Z.eqb_neq. intros ->. rewrite <- Ry in Rx. apply eq_R in Rx; try assumption. congruence.
Qed.

Theorem colinear3_exact e a b c p q r : near3 e a b c (p, q, r) ->
  (is_colinear p q r = true <-> area2 [a; b; c] = 0).
Proof.
  intros (He & G & B). cbn [vertices3] in G. apply grid3_inv in G as ((Ga & Ga') & (Gb & Gb') & (Gc & Gc')).
  assert (Iab := B b a ltac:(cbn; tauto) ltac:(cbn; tauto)). assert (Icb := B c b ltac:(cbn; tauto) ltac:(cbn; tauto)).
  destruct Iab as [I1 I2], Icb as [I3 I4].
  assert (D2 : repr (e + e) ((snd b - snd a) * (fst c - fst b)) (f64_mul (f64_sub (snd q) (snd p)) (f64_sub (fst r) (fst q)))).
  { apply repr_mul; [destruct He; lia| |now apply repr_sub25|now apply repr_sub25].
    eapply Z.le_trans; [now apply prod_bound|]. now apply Z.leb_le. }
  unfold is_colinear, colinear_of. 
  assert (M3 : repr (e + e) ((snd c - snd b) * (fst b - fst a)) (f64_mul (f64_sub (snd r) (snd q)) (f64_sub (fst q) (fst p)))).
  { apply repr_mul; [destruct He; lia| |now apply repr_sub25|now apply repr_sub25].
    rewrite Z.mul_comm. eapply Z.le_trans; [now apply prod_bound|]. now apply Z.leb_le. }
  rewrite (eq_repr _ _ _ _ _ D2 M3), Z.eqb_eq. cbn. unfold cross. split; intros; nia.
Qed.

(** ** The third point *)
Lemma nano_positive : positive nano_compare.
Proof. split; [reflexivity|]. split; reflexivity. Qed.

Theorem third_point_spec t p q r :
  (forall a b, In (a, b) [(p, q); (q, r); (p, r)] -> point_equal nano_compare a b = false) ->
  Permutation (vertices3 t) [p; q; r] -> third_point t p q = r.
Proof.
  intros D P. pose proof (point_equal_refl _ nano_positive) as Rf. pose proof (point_equal_sym _ nano_positive) as Sy.
  assert (Dpq := D p q ltac:(cbn; tauto)). assert (Dqr := D q r ltac:(cbn; tauto)). assert (Dpr := D p r ltac:(cbn; tauto)).
  assert (Dqp : point_equal nano_compare q p = false) by now rewrite Sy.
  assert (Drq : point_equal nano_compare r q = false) by now rewrite Sy.
  assert (Drp : point_equal nano_compare r p = false) by now rewrite Sy.
  assert (Epp := Rf p). assert (Eqq := Rf q). assert (Err := Rf r).
  destruct t as [[x y] z]. cbn [vertices3] in P. unfold third_point.
  assert (Npq : p <> q) by (intros ->; congruence). assert (Nqr : q <> r) by (intros ->; congruence).
  assert (Npr : p <> r) by (intros ->; congruence).
  assert (Ix : In x [p; q; r]) by (eapply Permutation_in; [exact P|cbn; tauto]).
  assert (Iy : In y [p; q; r]) by (eapply Permutation_in; [exact P|cbn; tauto]).
  assert (Iz : In z [p; q; r]) by (eapply Permutation_in; [exact P|cbn; tauto]).
  assert (ND : NoDup [x; y; z]).
  { eapply Permutation_NoDup; [symmetry; exact P|]. repeat constructor; cbn; intuition congruence. }
  inversion ND as [|? ? N1 N2]; subst. inversion N2 as [|? ? N3 N4]; subst.
  cbn in Ix, Iy, Iz, N1, N3.
  destruct Ix as [<-|[<-|[<-|[]]]], Iy as [<-|[<-|[<-|[]]]], Iz as [<-|[<-|[<-|[]]]]; try tauto;
    rewrite ?Epp, ?Eqq, ?Err, ?Dpq, ?Dqp, ?Dpr, ?Drp, ?Dqr, ?Drq; reflexivity.
Qed.

(** ** The enclosing triangle *)
Lemma R_of_ten : f64_wf buff = true /\ f64_finite buff = true /\ f64_R buff = 10%R.
Proof.
  assert (E : buff = f64_ofZ 10) by (vm_compute; reflexivity). rewrite E.
  destruct (repr_ofZ 10 ltac:(now apply Z.leb_le)) as (A & B & C). split; [exact A|]. split; [exact B|].
  rewrite C. cbn. lra.
Qed.
Lemma R_of_two : f64_wf f64_two = true /\ f64_finite f64_two = true /\ f64_R f64_two = 2%R.
Proof.
  assert (E : f64_two = f64_ofZ 2) by (vm_compute; reflexivity). rewrite E.
  destruct (repr_ofZ 2 ltac:(now apply Z.leb_le)) as (A & B & C). split; [exact A|]. split; [exact B|].
  rewrite C. cbn. lra.
Qed.

Lemma inside_by_sides (ax ay bx by_ cx x y : R) :
  (ax < cx)%R -> (ay < y)%R -> (ay < by_)%R ->
  ((bx - ax) * (y - ay) < (by_ - ay) * (x - ax))%R ->
  ((cx - bx) * (y - ay) < (by_ - ay) * (cx - x))%R ->
  inside3 (ax, ay) (bx, by_) (cx, ay) (x, y).
Proof.
  intros Hw Hy Hb H1 H2.
  set (D := ((cx - ax) * (by_ - ay))%R).
  assert (HD : (0 < D)%R) by (unfold D; nra).
  exists (((by_ - ay) * (cx - x) - (cx - bx) * (y - ay)) / D)%R,
         (((cx - ax) * (y - ay)) / D)%R,
         (((by_ - ay) * (x - ax) - (bx - ax) * (y - ay)) / D)%R.
  split; [apply Rdiv_lt_0_compat; lra|]. split; [apply Rdiv_lt_0_compat; [nra|lra]|].
  split; [apply Rdiv_lt_0_compat; lra|]. cbn [fst snd].
  assert (N : D <> 0%R) by lra. unfold D in *.
  assert (N1 : (cx - ax)%R <> 0%R) by (intros K; rewrite K in HD; lra).
  assert (N2 : (by_ - ay)%R <> 0%R) by (intros K; rewrite K in HD; lra).
  repeat split; field; auto.
Qed.

Lemma k42 : -1021 <= 42 <= 1023. Proof. lia. Qed.
Lemma k43 : -1021 <= 43 <= 1023. Proof. lia. Qed.
Lemma k46 : -1021 <= 46 <= 1023. Proof. lia. Qed.

Lemma ap_ten : ap 10 0 buff.
Proof. destruct R_of_ten as (A & B & C). rewrite <- C. now apply ap_exact. Qed.

(** The steps of the computation, for words which stand for [a <= b]. *)
Lemma len_ap a b x y : ap a 0 x -> ap b 0 y -> (-1099511627776 <= a)%R -> (a <= b)%R -> (b <= 1099511627776)%R ->
  ap (b - a) (/ 2048) (f64_sub y x).
Proof. intros A B L1 L2 L3. apply (ap_sub_l 42 _ _ k42 b42 u42) with (2 := A) (1 := B); lra. Qed.
Lemma half_ap l x : ap l (/ 2048) x -> (0 <= l <= 2199023255552)%R -> ap (l / 2) (/ 1024) (f64_div x f64_two).
Proof.
  intros A L. destruct R_of_two as (W & F & V).
  apply (ap_div_l 42 _ _ k42 b42 u42) with (1 := A) (2 := W) (3 := F) (4 := V); lra.
Qed.
Lemma ten_ap d l x : ap l d x -> (0 <= d <= / 512)%R -> (0 <= l <= 4398046511104)%R -> ap (l * 10) (/ 32) (f64_mul x buff).
Proof.
  intros A D L. destruct R_of_ten as (W & F & V).
  apply (ap_mul_l 46 _ _ k46 b46 u46) with (1 := A) (2 := W) (3 := F) (4 := V); lra.
Qed.
Lemma double_ap l x : ap l (/ 2048) x -> (0 <= l <= 2199023255552)%R -> ap (2 * l) (/ 512) (f64_mul f64_two x).
Proof.
  intros A L. destruct R_of_two as (W & F & V).
  apply (ap_lmul_l 43 _ _ k43 b43 u43) with (1 := A) (2 := W) (3 := F) (4 := V); lra.
Qed.
Lemma below_ap a l x y : ap a 0 x -> ap l (/ 32) y -> (-1099511627776 <= a <= 1099511627776)%R -> (0 <= l <= 43980465111040)%R ->
  ap (a - l - 10) (/ 16) (f64_sub (f64_sub x y) buff).
Proof.
  intros A B L1 L2.
  assert (S : ap (a - l) (/ 24) (f64_sub x y)) by (apply (ap_sub_l 46 _ _ k46 b46 u46) with (1 := A) (2 := B); lra).
  apply (ap_sub_l 46 _ _ k46 b46 u46) with (1 := S) (2 := ap_ten); lra.
Qed.
Lemma above_ap a l x y : ap a 0 x -> ap l (/ 32) y -> (-1099511627776 <= a <= 1099511627776)%R -> (0 <= l <= 43980465111040)%R ->
  ap (a + l + 10) (/ 16) (f64_add (f64_add x y) buff).
Proof.
  intros A B L1 L2.
  assert (S : ap (a + l) (/ 24) (f64_add x y)) by (apply (ap_add_l 46 _ _ k46 b46 u46) with (1 := A) (2 := B); lra).
  apply (ap_add_l 46 _ _ k46 b46 u46) with (1 := S) (2 := ap_ten); lra.
Qed.
Lemma mid_ap a l x y : ap a 0 x -> ap l (/ 1024) y -> (-1099511627776 <= a <= 1099511627776)%R -> (0 <= l <= 1099511627776)%R ->
  ap (a + l) (/ 16) (f64_add x y).
Proof. intros A B L1 L2. apply (ap_add_l 42 _ _ k42 b42 u42) with (1 := A) (2 := B); lra. Qed.

Lemma ap_R r d w : ap r d w -> (r - d <= f64_R w <= r + d)%R.
Proof. intros (_ & _ & H). apply Rabs_le_inv in H. lra. Qed.

Lemma enclosed_real (x0 x2 y0 y2 nx cx xx ny xy x y : R) :
  (x0 <= x <= x2)%R -> (y0 <= y <= y2)%R ->
  (x0 - (x2 - x0) / 2 * 10 - 10 - / 16 <= nx <= x0 - (x2 - x0) / 2 * 10 - 10 + / 16)%R ->
  (x0 + (x2 - x0) / 2 - / 16 <= cx <= x0 + (x2 - x0) / 2 + / 16)%R ->
  (x2 + (x2 - x0) / 2 * 10 + 10 - / 16 <= xx <= x2 + (x2 - x0) / 2 * 10 + 10 + / 16)%R ->
  (y0 - (y2 - y0) * 10 - 10 - / 16 <= ny <= y0 - (y2 - y0) * 10 - 10 + / 16)%R ->
  (y2 + 2 * (y2 - y0) * 10 + 10 - / 16 <= xy <= y2 + 2 * (y2 - y0) * 10 + 10 + / 16)%R ->
  inside3 (nx, ny) (cx, xy) (xx, ny) (x, y) /\ ~ colinearR (nx, ny) (cx, xy) (xx, ny).
Proof.
  intros Hx Hy Hnx Hcx Hxx Hny Hxy.
  set (w := (x2 - x0)%R) in *. set (h := (y2 - y0)%R) in *.
  assert (Hw : (0 <= w)%R) by (unfold w; lra). assert (Hh : (0 <= h)%R) by (unfold h; lra).
  assert (A1 : (0 <= cx - nx <= 5.5 * w + 10.2)%R) by (unfold w in *; lra).
  assert (A2 : (0 <= xx - cx <= 5.5 * w + 10.2)%R) by (unfold w in *; lra).
  assert (A3 : (0 < y - ny <= 11 * h + 10.1)%R) by (unfold h in *; lra).
  assert (A4 : (31 * h + 19.8 <= xy - ny)%R) by (unfold h in *; lra).
  assert (A5 : (5 * w + 9.9 <= x - nx)%R) by (unfold w in *; lra).
  assert (A6 : (5 * w + 9.9 <= xx - x)%R) by (unfold w in *; lra).
  clear - Hw Hh A1 A2 A3 A4 A5 A6.
  assert (M : ((5.5 * w + 10.2) * (11 * h + 10.1) < (31 * h + 19.8) * (5 * w + 9.9))%R) by nra.
  split; [|unfold colinearR; cbn [fst snd]; intros K; nra].
  apply inside_by_sides; try lra.
  - eapply Rle_lt_trans; [apply Rmult_le_compat; [lra|lra|apply A1|apply A3]|].
    eapply Rlt_le_trans; [exact M|]. apply Rmult_le_compat; nra.
  - eapply Rle_lt_trans; [apply Rmult_le_compat; [lra|lra|apply A2|apply A3]|].
    eapply Rlt_le_trans; [exact M|]. apply Rmult_le_compat; nra.
Qed.

Theorem triangle_encloses_box w0 w1 w2 w3 :
  point_upto 40 (w0, w1) -> point_upto 40 (w2, w3) -> (f64_R w0 <= f64_R w2)%R -> (f64_R w1 <= f64_R w3)%R ->
  exists a b c, triangle_for_extent (Some (Ext w0 w1 w2 w3)) buff = Ok (a, b, c) /\
    finite_pt a /\ finite_pt b /\ finite_pt c /\
    ~ colinearR (rpt a) (rpt b) (rpt c) /\
    forall x y, (f64_R w0 <= x <= f64_R w2)%R -> (f64_R w1 <= y <= f64_R w3)%R -> inside3 (rpt a) (rpt b) (rpt c) (x, y).
Proof.
  intros (W0 & W1 & F0 & F1 & B0 & B1) (W2 & W3 & F2 & F3 & B2 & B3) Ox Oy. cbn [fst snd] in *.
  change (bpow radix2 40) with 1099511627776%R in B0, B1, B2, B3.
  apply Rabs_le_inv in B0, B1, B2, B3.
  pose proof (ap_exact w0 W0 F0) as A0. pose proof (ap_exact w1 W1 F1) as A1.
  pose proof (ap_exact w2 W2 F2) as A2. pose proof (ap_exact w3 W3 F3) as A3.
  pose proof (len_ap _ _ _ _ A0 A2 ltac:(lra) Ox ltac:(lra)) as Lx.
  pose proof (len_ap _ _ _ _ A1 A3 ltac:(lra) Oy ltac:(lra)) as Ly.
  pose proof (half_ap _ _ Lx ltac:(lra)) as Hx.
  pose proof (ten_ap _ _ _ Hx ltac:(lra) ltac:(lra)) as Tx.
  pose proof (ten_ap _ _ _ Ly ltac:(lra) ltac:(lra)) as Ty.
  pose proof (double_ap _ _ Ly ltac:(lra)) as Dy.
  pose proof (ten_ap _ _ _ Dy ltac:(lra) ltac:(lra)) as Ty2.
  pose proof (below_ap _ _ _ _ A0 Tx ltac:(lra) ltac:(lra)) as NX.
  pose proof (mid_ap _ _ _ _ A0 Hx ltac:(lra) ltac:(lra)) as CX.
  pose proof (above_ap _ _ _ _ A2 Tx ltac:(lra) ltac:(lra)) as XX.
  pose proof (below_ap _ _ _ _ A1 Ty ltac:(lra) ltac:(lra)) as NY.
  pose proof (above_ap _ _ _ _ A3 Ty2 ltac:(lra) ltac:(lra)) as XY.
  cbn [triangle_for_extent e0 e1 e2 e3].
  eexists _, _, _. split; [reflexivity|].
  split; [destruct NX as (? & ? & _), NY as (? & ? & _); repeat split; assumption|].
  split; [destruct CX as (? & ? & _), XY as (? & ? & _); repeat split; assumption|].
  split; [destruct XX as (? & ? & _), NY as (? & ? & _); repeat split; assumption|].
  unfold rpt. cbn [fst snd].
  split; [apply (enclosed_real (f64_R w0) (f64_R w2) (f64_R w1) (f64_R w3) _ _ _ _ _ (f64_R w0) (f64_R w1));
    [lra|lra|exact (ap_R _ _ _ NX)|exact (ap_R _ _ _ CX)|exact (ap_R _ _ _ XX)|exact (ap_R _ _ _ NY)|exact (ap_R _ _ _ XY)]|].
  intros x y Ix Iy.
  apply (enclosed_real (f64_R w0) (f64_R w2) (f64_R w1) (f64_R w3));
    [exact Ix|exact Iy|exact (ap_R _ _ _ NX)|exact (ap_R _ _ _ CX)|exact (ap_R _ _ _ XX)|exact (ap_R _ _ _ NY)|exact (ap_R _ _ _ XY)].
Qed.

Lemma upto_finite k p : point_upto k p -> finite_pt p.
Proof. intros (A & B & C & D & _). repeat split; assumption. Qed.
Lemma upto_num k p : point_upto k p -> num_pt p.
Proof. intros (A & B & C & D & _). split; split; try assumption; now apply finite_nn. Qed.

Theorem triangle_encloses pts : pts <> [] -> Forall (point_upto 40) pts ->
  exists a b c, triangle_containing pts = Ok (a, b, c) /\ finite_pt a /\ finite_pt b /\ finite_pt c /\
    ~ colinearR (rpt a) (rpt b) (rpt c) /\ forall p, In p pts -> inside3 (rpt a) (rpt b) (rpt c) (rpt p).
Proof.
  intros N H.
  destruct (new_extent_least pts) as (e & E & I & (p1 & p2 & p3 & p4 & I1 & I2 & I3 & I4 & Ee) & _); [|exact N|].
  { eapply Forall_impl; [|exact H]. apply upto_num. }
  rewrite Forall_forall in H.
  pose proof (H _ I1) as (V1 & _ & G1 & _ & Q1 & _). pose proof (H _ I2) as (_ & V2 & _ & G2 & _ & Q2).
  pose proof (H _ I3) as (V3 & _ & G3 & _ & Q3 & _). pose proof (H _ I4) as (_ & V4 & _ & G4 & _ & Q4).
  assert (U1 : point_upto 40 (fst p1, snd p2)) by (repeat split; assumption).
  assert (U2 : point_upto 40 (fst p3, snd p4)) by (repeat split; assumption).
  assert (L : forall p, In p pts -> (f64_R (fst p1) <= f64_R (fst p) <= f64_R (fst p3))%R /\
                                    (f64_R (snd p2) <= f64_R (snd p) <= f64_R (snd p4))%R).
  { intros p Ip. pose proof (H _ Ip) as (Va & Vb & Ga & Gb & _). destruct (I p Ip) as (J1 & J2 & J3 & J4).
    rewrite Ee in J1, J2, J3, J4. cbn [e0 e1 e2 e3] in *.
    apply le_R in J1, J2, J3, J4; try assumption. auto. }
  destruct (triangle_encloses_box _ _ _ _ U1 U2) as (a & b & c & T & Fa & Fb & Fc & NC & IN).
  - destruct (L p1 I1). lra.
  - destruct (L p2 I2). lra.
  - exists a, b, c. unfold triangle_containing. rewrite E, Ee, T. repeat (split; [assumption || reflexivity|]).
    intros p Ip. destruct (L p Ip). unfold rpt at 4. now apply IN.
Qed.

Lemma triangle_panics pts : triangle_containing pts = Panic <-> pts = [].
Proof.
  unfold triangle_containing. destruct pts as [|p tl]; [cbn; tauto|].
  split; [|discriminate]. cbn [new_extent triangle_for_extent]. discriminate.
Qed.

(** Far from the origin the triangle has no area. *)
Definition far : pt := (f64_ofZ (2 ^ 60), f64_zero).
Lemma triangle_flat : exists a b c, finite_pt far /\ triangle_containing [far] = Ok (a, b, c) /\ colinearR (rpt a) (rpt b) (rpt c).
Proof.
  exists (f64_ofZ (2 ^ 60), f64_ofZ (-10)), (f64_ofZ (2 ^ 60), f64_ofZ 10), (f64_ofZ (2 ^ 60), f64_ofZ (-10)).
  split; [repeat split; vm_compute; reflexivity|]. split; [vm_compute; reflexivity|].
  unfold colinearR, rpt. cbn [fst snd]. ring.
Qed.

Lemma ofZ_upto k n m : Z.abs n <= 2 ^ k -> Z.abs m <= 2 ^ k -> 0 <= k <= 53 -> point_upto k (zpt (n, m)).
Proof.
  intros A B C. assert (two53 >= 2 ^ k) by (unfold two53; apply Z.le_ge; apply Z.pow_le_mono_r; lia).
  destruct (repr_ofZ n ltac:(lia)) as (W & F & V). destruct (repr_ofZ m ltac:(lia)) as (W' & F' & V').
  unfold point_upto, zpt. cbn [fst snd]. repeat split; try assumption.
  - rewrite V. cbn [bpow]. rewrite Rmult_1_r, <- abs_IZR, <- IZR_Zpower by lia. now apply IZR_le.
  - rewrite V'. cbn [bpow]. rewrite Rmult_1_r, <- abs_IZR, <- IZR_Zpower by lia. now apply IZR_le.
Qed.

(** ** The centre *)
Lemma R_of_three : f64_wf f64_three = true /\ f64_finite f64_three = true /\ f64_R f64_three = 3%R.
Proof.
  assert (E : f64_three = f64_ofZ 3) by (vm_compute; reflexivity). rewrite E.
  destruct (repr_ofZ 3 ltac:(now apply Z.leb_le)) as (A & B & C). split; [exact A|]. split; [exact B|].
  rewrite C. cbn. lra.
Qed.
Lemma third_exact e a b c x y z : -1000 <= e <= 960 -> Z.abs a <= 2 ^ 50 -> Z.abs b <= 2 ^ 50 -> Z.abs c <= 2 ^ 50 ->
  repr e a x -> repr e b y -> repr e c z ->
  f64_finite (f64_div (f64_add (f64_add x y) z) f64_three) = true /\
  f64_R (f64_div (f64_add (f64_add x y) z) f64_three) = rnd ((f64_R x + f64_R y + f64_R z) / 3).
Proof.
  intros He A B C X Y Z. assert (T : two53 = 8 * 2 ^ 50) by reflexivity.
  assert (S1 : repr e (a + b) (f64_add x y)) by (apply repr_add; try assumption; lia).
  assert (S2 : repr e (a + b + c) (f64_add (f64_add x y) z)) by (apply repr_add; try assumption; lia).
  destruct R_of_three as (W3 & F3 & V3). destruct S2 as (Ws & Fs & Vs).
  destruct (div_round _ _ Ws W3 Fs F3 ltac:(rewrite V3; lra)) as [Wd Hd]. rewrite V3 in Hd.
  assert (E : (f64_R (f64_add (f64_add x y) z) = f64_R x + f64_R y + f64_R z)%R).
  { destruct X as (_ & _ & ->), Y as (_ & _ & ->), Z as (_ & _ & ->). rewrite Vs, !plus_IZR. ring. }
  rewrite E in Hd.
  assert (Bd : (Rabs ((f64_R x + f64_R y + f64_R z) / 3) <= bpow radix2 1020)%R).
  { rewrite <- E, Vs. unfold Rdiv. rewrite Rabs_mult, (Rabs_pos_eq (/ 3)) by lra.
    apply Rle_trans with (Rabs (IZR (a + b + c) * bpow radix2 e)); [pose proof (Rabs_pos (IZR (a + b + c) * bpow radix2 e)); lra|].
    rewrite Rabs_mult, (Rabs_pos_eq (bpow radix2 e)) by apply bpow_ge_0.
    replace 1020 with ((1020 - e) + e) by lia. rewrite bpow_plus. apply Rmult_le_compat_r; [apply bpow_ge_0|].
    rewrite <- abs_IZR. apply Rle_trans with (bpow radix2 53); [|apply bpow_le; lia].
    change (bpow radix2 53) with (IZR (2 ^ 53)). apply IZR_le. change (2 ^ 53) with (8 * 2 ^ 50). lia. }
  apply (rnd_bound 1020 _ ltac:(lia)) in Bd. apply Rabs_le_inv in Bd.
  assert (Hb : (bpow radix2 1020 < huge)%R) by (apply bpow_lt; lia).
  destruct Hd as [(F & V & _)|[(_ & V)|(_ & V)]]; [|lra|lra]. split; assumption.
Qed.

Theorem center_exact e a b c t : -1000 <= e <= 960 -> on_grid e [a; b; c] (vertices3 t) ->
  Forall (fun n => Z.abs (fst n) <= 2 ^ 50 /\ Z.abs (snd n) <= 2 ^ 50) [a; b; c] ->
  let sum (f : pt -> f64) := fold_right (fun p s => (f64_R (f p) + s)%R) 0%R (vertices3 t) in
  f64_finite (fst (center t)) = true /\ f64_finite (snd (center t)) = true /\
  f64_R (fst (center t)) = rnd (sum fst / 3) /\ f64_R (snd (center t)) = rnd (sum snd / 3).
Proof.
  destruct t as [[p q] r]. intros He G B sum. cbn [vertices3] in G, sum. unfold sum. cbn [vertices3 fold_right].
  apply grid3_inv in G as ((Ga & Ga') & (Gb & Gb') & (Gc & Gc')).
  inversion B as [|? ? [B1 B1'] B']; subst. inversion B' as [|? ? [B2 B2'] B'']; subst. inversion B'' as [|? ? [B3 B3'] _]; subst.
  destruct (third_exact e _ _ _ _ _ _ He B1 B2 B3 Ga Gb Gc) as [F1 V1].
  destruct (third_exact e _ _ _ _ _ _ He B1' B2' B3' Ga' Gb' Gc') as [F2 V2].
  cbn [center fst snd]. split; [exact F1|]. split; [exact F2|]. rewrite V1, V2. split; f_equal; lra.
Qed.

Definition tri345 : triangle := (zpt (0, 0), zpt (4, 0), zpt (0, 3)).
Lemma near345 : near3 0 (0, 0) (4, 0) (0, 3) tri345.
Proof.
  split; [unfold grid_exp; lia|]. split.
  - repeat constructor; apply repr_ofZ; cbn; unfold two53; lia.
  - intros p q Ip Iq. cbn in Ip, Iq. destruct Ip as [<-|[<-|[<-|[]]]], Iq as [<-|[<-|[<-|[]]]]; cbn; lia.
Qed.
