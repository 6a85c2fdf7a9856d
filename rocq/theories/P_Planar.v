(** * Centroid, points on lines, distances *)
From Coq Require Import ZArith Bool List Lia Reals Lra Psatz.
From Flocq Require Import Core.Core.
From Verif Require Import Base_Res Base_F64 Base_F64Arith Base_Geom M_Geom M_Extent M_Cmp M_Planar
  S_Cmp S_Winding S_Intersect S_Planar
  P_F64 P_F64Flocq P_F64Round P_F64Grid P_F64Err P_F64X P_Cmp2 P_Cmp3 P_Intersect4 P_Triangle.
Import ListNotations.
Open Scope Z_scope.

(** ** Centroid *)
Definition gpt (e : Z) (n : Z * Z) (p : pt) : Prop := repr e (fst n) (fst p) /\ repr e (snd n) (snd p).
Definition wcross (p q : pt) : f64 := f64_sub (f64_mul (fst p) (snd q)) (f64_mul (fst q) (snd p)).

Lemma mul_le a b x y : Z.abs a <= x -> Z.abs b <= y -> Z.abs (a * b) <= x * y.
Proof. intros. rewrite Z.abs_mul. apply Z.mul_le_mono_nonneg; lia. Qed.
Lemma cross_le D p q : inD D p -> inD D q -> Z.abs (cross p q) <= 2 * (D * D).
Proof.
  intros [A B] [C E]. unfold cross. pose proof (mul_le _ _ _ _ A E). pose proof (mul_le _ _ _ _ C B). lia.
Qed.
Lemma cross_repr e D n m p q : -300 <= e <= 300 -> inD D n -> inD D m -> 2 * (D * D) <= two53 -> gpt e n p -> gpt e m q ->
  repr (e + e) (cross n m) (wcross p q).
Proof.
  intros He [A1 A2] [B1 B2] H [G1 G2] [H1 H2]. unfold wcross, cross.
  pose proof (mul_le _ _ _ _ A1 B2) as P1. pose proof (mul_le _ _ _ _ B1 A2) as P2.
  apply repr_sub; [lia|lia| |]; apply repr_mul; try assumption; lia.
Qed.
Lemma moment_repr e D a b c x y z : -300 <= e <= 300 -> Z.abs a <= D -> Z.abs b <= D -> Z.abs c <= 2 * (D * D) ->
  2 * D <= two53 -> 4 * (D * D * D) <= two53 ->
  repr e a x -> repr e b y -> repr (e + e) c z ->
  repr (e + (e + e)) ((a + b) * c) (f64_mul (f64_add x y) z) /\ Z.abs ((a + b) * c) <= 4 * (D * D * D).
Proof.
  intros He A B C H1 H2 X Y W. assert (S : Z.abs (a + b) <= 2 * D) by lia.
  pose proof (mul_le _ _ _ _ S C) as P.
  assert (P' : Z.abs ((a + b) * c) <= 4 * (D * D * D)) by (eapply Z.le_trans; [exact P|]; apply Z.eq_le_incl; ring).
  split; [|exact P']. apply repr_mul; [lia|lia| |exact W]. apply repr_add; [lia|lia|exact X|exact Y].
Qed.

Lemma cube_nonneg D : 0 <= D -> 0 <= D * D * D. Proof. intros. apply Z.mul_nonneg_nonneg; [apply Z.mul_nonneg_nonneg|]; assumption. Qed.
Lemma budget (k t u D3 B mx my : Z) : 0 <= k -> 0 <= D3 -> Z.abs t <= 4 * D3 -> Z.abs u <= 4 * D3 ->
  Z.abs mx + Z.abs my + (k + 1) * (8 * D3) <= B ->
  Z.abs (mx + t) + Z.abs (my + u) + k * (8 * D3) <= B /\ Z.abs (mx + t) <= B /\ Z.abs (my + u) <= B.
Proof. intros. assert (0 <= k * (8 * D3)) by (apply Z.mul_nonneg_nonneg; lia). assert ((k + 1) * (8 * D3) = k * (8 * D3) + 8 * D3) by ring. lia. Qed.

Lemma loop_step p q tl a aa cx cy : centroid_loop p (q :: tl) a aa cx cy =
  centroid_loop q tl (f64_add a (wcross p q)) (wcross p q)
    (f64_add cx (f64_mul (f64_add (fst p) (fst q)) (wcross p q)))
    (f64_add cy (f64_mul (f64_add (snd p) (snd q)) (wcross p q))).
Proof. reflexivity. Qed.

Lemma centroid_loop_exact e D : -300 <= e <= 300 -> 0 <= D -> 2 * (D * D) <= two53 -> 2 * D <= two53 -> 4 * (D * D * D) <= two53 ->
  forall ns ps n p c mx my aw a x y,
  Forall2 (gpt e) ns ps -> gpt e n p -> Forall (inD D) (n :: ns) ->
  Z.abs mx + Z.abs my + Z.of_nat (length ns) * (8 * (D * D * D)) <= two53 ->
  repr (e + e) c a -> repr (e + (e + e)) mx x -> repr (e + (e + e)) my y ->
  let '(aa, cx, cy) := centroid_loop p ps aw a x y in
  repr (e + e) (last_cross n c ns) aa /\
  repr (e + (e + e)) (mx + path_moment fst (n :: ns)) cx /\ repr (e + (e + e)) (my + path_moment snd (n :: ns)) cy.
Proof.
  intros He HD Hq Hd Hc.
  induction ns as [|m ns IH]; intros ps n p c mx my aw a x y F2 G B Hs Ra Rx Ry; inversion F2 as [|? q ? tl Gq F2']; subst.
  - cbn [centroid_loop last_cross path_moment]. rewrite !Z.add_0_r. auto.
  - inversion B as [|? ? Bn B']; subst. inversion B' as [|? ? Bm B'']; subst.
    rewrite loop_step.
    pose proof (cross_repr e D n m p q He Bn Bm Hq G Gq) as C.
    pose proof (cross_le D n m Bn Bm) as Cb.
    destruct (moment_repr e D (fst n) (fst m) (cross n m) (fst p) (fst q) (wcross p q) He (proj1 Bn) (proj1 Bm) Cb Hd Hc (proj1 G) (proj1 Gq) C) as [X1 M1].
    destruct (moment_repr e D (snd n) (snd m) (cross n m) (snd p) (snd q) (wcross p q) He (proj2 Bn) (proj2 Bm) Cb Hd Hc (proj2 G) (proj2 Gq) C) as [X2 M2].
    assert (Hl : Z.of_nat (length (m :: ns)) = Z.of_nat (length ns) + 1) by (clear; cbn [length]; lia).
    rewrite Hl in Hs.
    destruct (budget (Z.of_nat (length ns)) ((fst n + fst m) * cross n m) ((snd n + snd m) * cross n m) (D * D * D) two53 mx my
      ltac:(clear; lia) (cube_nonneg D HD) M1 M2 Hs) as (Hs' & Bx & By).
    assert (Y1 := repr_add (e + (e + e)) _ _ _ _ ltac:(clear - He; lia) Bx Rx X1).
    assert (Y2 := repr_add (e + (e + e)) _ _ _ _ ltac:(clear - He; lia) By Ry X2).
    specialize (IH tl m q (cross n m) _ _ (f64_add aw (wcross p q)) _ _ _ F2' Gq B' Hs' C Y1 Y2).
    destruct (centroid_loop q tl _ _ _ _) as [[aa cx] cy].
    cbn [last_cross]. destruct IH as (I1 & I2 & I3). split; [exact I1|].
    change (path_moment fst (n :: m :: ns)) with ((fst n + fst m) * cross n m + path_moment fst (m :: ns)).
    change (path_moment snd (n :: m :: ns)) with ((snd n + snd m) * cross n m + path_moment snd (m :: ns)).
    rewrite (Z.add_assoc mx), (Z.add_assoc my). auto.
Qed.

Lemma path_moment_le D f : 0 <= D -> (forall p, inD D p -> Z.abs (f p) <= D) -> forall l, Forall (inD D) l ->
  Z.abs (path_moment f l) <= Z.of_nat (length l) * (4 * (D * D * D)).
Proof.
  intros HD Hf. induction l as [|p [|q l] IH]; intros H.
  - cbn. lia.
  - cbn [path_moment length]. pose proof (cube_nonneg D HD). change (Z.of_nat 1) with 1. rewrite Z.mul_1_l. cbn [Z.abs]. lia.
  - inversion H as [|? ? Bp H']; subst. specialize (IH H'). inversion H' as [|? ? Bq _]; subst.
    change (path_moment f (p :: q :: l)) with ((f p + f q) * cross p q + path_moment f (q :: l)).
    assert (S : Z.abs (f p + f q) <= 2 * D) by (pose proof (Hf p Bp); pose proof (Hf q Bq); lia).
    pose proof (mul_le _ _ _ _ S (cross_le D p q Bp Bq)) as P.
    replace (Z.of_nat (length (p :: q :: l))) with (Z.of_nat (length (q :: l)) + 1) by (cbn [length]; lia).
    replace ((Z.of_nat (length (q :: l)) + 1) * (4 * (D * D * D))) with (Z.of_nat (length (q :: l)) * (4 * (D * D * D)) + 2 * D * (2 * (D * D))) by ring.
    eapply Z.le_trans; [apply Z.abs_triangle|]. rewrite Z.add_comm. exact (Z.add_le_mono _ _ _ _ IH P).
Qed.

Lemma quot_exact e m k x y : -300 <= e <= 300 -> Z.abs m <= two53 -> k <> 0 -> repr (e + (e + e)) m x -> repr (0 + (e + e)) k y ->
  f64_finite (f64_div x y) = true /\ f64_R (f64_div x y) = rnd (IZR m / IZR k * bpow radix2 e).
Proof.
  intros He Hm Hk (Wx & Fx & Vx) (Wy & Fy & Vy).
  assert (Nk : IZR k <> 0%R) by (intros K; apply Hk; now apply eq_IZR).
  pose proof (bpow_gt_0 radix2 (e + e)) as P1. pose proof (bpow_gt_0 radix2 e) as P2.
  assert (Ny : f64_R y <> 0%R).
  { rewrite Vy. intros K. apply Rmult_integral in K. cbn [Z.add] in K. destruct K; [contradiction|lra]. }
  destruct (div_round x y Wx Wy Fx Fy Ny) as [Wd Hd].
  assert (Q : (f64_R x / f64_R y = IZR m / IZR k * bpow radix2 e)%R).
  { rewrite Vx, Vy. cbn [Z.add]. rewrite (bpow_plus radix2 e). field. repeat split; try exact Nk; lra. }
  rewrite Q in Hd.
  assert (K1 : (1 <= Rabs (IZR k))%R) by (rewrite <- abs_IZR; apply IZR_le; lia).
  assert (Bd : (Rabs (IZR m / IZR k * bpow radix2 e) <= bpow radix2 400)%R).
  { rewrite Rabs_mult, (Rabs_pos_eq (bpow radix2 e)) by lra.
    replace 400 with ((400 - e) + e) by lia. rewrite bpow_plus. apply Rmult_le_compat_r; [lra|].
    apply Rle_trans with (Rabs (IZR m)).
    - unfold Rdiv. rewrite Rabs_mult. rewrite <- (Rmult_1_r (Rabs (IZR m))) at 2. apply Rmult_le_compat_l; [apply Rabs_pos|].
      rewrite Rabs_inv. rewrite <- Rinv_1. apply Rinv_le_contravar; lra.
    - rewrite <- abs_IZR. apply Rle_trans with (bpow radix2 53); [|apply bpow_le; lia].
      change (bpow radix2 53) with (IZR two53). now apply IZR_le. }
  apply (rnd_bound 400 _ ltac:(lia)) in Bd. apply Rabs_le_inv in Bd.
  assert (Hb : (bpow radix2 400 < huge)%R) by (apply bpow_lt; lia).
  destruct Hd as [(F & V & _)|[(_ & V)|(_ & V)]]; [|lra|lra]. split; assumption.
Qed.

Lemma R3 : repr 0 3 f64_three.
Proof. replace f64_three with (f64_ofZ 3) by (vm_compute; reflexivity). apply repr_ofZ. now apply Z.leb_le. Qed.

Lemma last_cross_le D : 0 <= D -> forall ns n c, Forall (inD D) (n :: ns) -> Z.abs c <= 2 * (D * D) -> Z.abs (last_cross n c ns) <= 2 * (D * D).
Proof.
  intros HD. induction ns as [|m ns IH]; intros n c H Hc; [exact Hc|].
  inversion H as [|? ? B H']; subst. cbn [last_cross]. apply IH; [exact H'|]. inversion H'; subst. now apply cross_le.
Qed.

(** The moments of the open path, divided by three times its last cross product. *)
Theorem centroid_formula e n m ns ps : -300 <= e <= 300 -> small_points (n :: m :: ns) ->
  on_grid e (n :: m :: ns) ps -> last_cross n 0 (m :: ns) <> 0 ->
  let k := IZR (3 * last_cross n 0 (m :: ns)) in
  let cent := points_centroid ps in
  f64_finite (fst cent) = true /\ f64_finite (snd cent) = true /\
  f64_R (fst cent) = rnd (IZR (path_moment fst (n :: m :: ns)) / k * bpow radix2 e) /\
  f64_R (snd cent) = rnd (IZR (path_moment snd (n :: m :: ns)) / k * bpow radix2 e).
Proof.
  intros He (D & BD & H1 & H2) G Hk. cbv zeta.
  assert (HD : 0 <= D) by (inversion BD as [|? ? [B _] _]; subst; clear - B; lia).
  inversion G as [|? p ? tl Gp G']; subst. inversion G' as [|? q ? tl' Gq G'']; subst.
  assert (C3 := cube_nonneg D HD).
  assert (HL : Z.of_nat (length (n :: m :: ns)) = Z.of_nat (length ns) + 2) by (clear; cbn [length]; lia).
  rewrite HL in H1. change (2 ^ 53) with two53 in *.
  assert (N0 : 0 <= Z.of_nat (length ns) * (D * D * D)) by (apply Z.mul_nonneg_nonneg; [clear; lia|exact C3]).
  assert (H1' : 8 * (Z.of_nat (length ns) * (D * D * D)) + 16 * (D * D * D) <= two53).
  { eapply Z.le_trans; [|exact H1]. apply Z.eq_le_incl. ring. }
  assert (HD2 : 2 * D <= two53).
  { destruct (Z.eq_dec D 0) as [->|ND]; [now apply Z.leb_le|]. clear - HD ND H2. nia. }
  pose proof (centroid_loop_exact e D He HD ltac:(clear - H2 HD; nia) HD2 ltac:(clear - H1' N0 C3; lia)
    (m :: ns) (q :: tl') n p 0 0 0 f64_zero f64_zero f64_zero f64_zero G' Gp BD
    ltac:(replace (Z.of_nat (length (m :: ns))) with (Z.of_nat (length ns) + 1) by (clear; cbn [length]; lia); clear - H1' N0 C3;
          replace ((Z.of_nat (length ns) + 1) * (8 * (D * D * D))) with (8 * (Z.of_nat (length ns) * (D * D * D)) + 8 * (D * D * D)) by ring; cbn [Z.abs]; lia)
    (repr_zero _) (repr_zero _) (repr_zero _)) as L.
  cbn [points_centroid]. destruct (centroid_loop p (q :: tl') _ _ _ _) as [[aa cx] cy]. cbn [fst snd].
  destruct L as (La & Lx & Ly). cbn [Z.add] in Lx, Ly. 
  pose proof (last_cross_le D HD (m :: ns) n 0 BD ltac:(clear -HD; nia)) as Kb.
  assert (K3 : repr (0 + (e + e)) (3 * last_cross n 0 (m :: ns)) (f64_mul f64_three aa)).
  { apply repr_mul; [clear - He; lia|rewrite Z.abs_mul; cbn [Z.abs]; clear - Kb H2; lia|exact R3|exact La]. }
  assert (Bm : forall f, (forall p, inD D p -> Z.abs (f p) <= D) -> Z.abs (path_moment f (n :: m :: ns)) <= two53).
  { intros f Hf. eapply Z.le_trans; [apply (path_moment_le D f HD Hf _ BD)|]. rewrite HL.
    replace ((Z.of_nat (length ns) + 2) * (4 * (D * D * D))) with (4 * (Z.of_nat (length ns) * (D * D * D)) + 8 * (D * D * D)) by ring.
    clear - H1' N0 C3. lia. }
  assert (Nk : 3 * last_cross n 0 (m :: ns) <> 0) by (clear - Hk; lia).
  destruct (quot_exact e _ _ _ _ He (Bm fst (fun p H => proj1 H)) Nk Lx K3) as [F1 V1].
  destruct (quot_exact e _ _ _ _ He (Bm snd (fun p H => proj2 H)) Nk Ly K3) as [F2 V2].
  split; [exact F1|]. split; [exact F2|]. split; [exact V1|exact V2].
Qed.

Lemma path_moment_app f x : forall l p, path_moment f ((p :: l) ++ [x]) = path_moment f (p :: l) + (f (last l p) + f x) * cross (last l p) x.
Proof.
  induction l as [|q l IH]; intros p; [cbn [app path_moment last]; ring|].
  change (path_moment f ((p :: q :: l) ++ [x])) with ((f p + f q) * cross p q + path_moment f ((q :: l) ++ [x])).
  change (path_moment f (p :: q :: l)) with ((f p + f q) * cross p q + path_moment f (q :: l)).
  rewrite IH. replace (last (q :: l) p) with (last l q); [ring|].
  destruct l as [|y l]; [reflexivity|]. change (last (q :: y :: l) p) with (last (y :: l) p).
  clear. revert y. induction l as [|z l IH]; intros y; [reflexivity|]. exact (IH z).
Qed.

(** If the sides from the last point to the first and those before the last
    side have no area, it is the centre of mass. *)
Theorem centroid_right e n m ns ps : -300 <= e <= 300 -> small_points (n :: m :: ns) ->
  on_grid e (n :: m :: ns) ps -> area2 (n :: m :: ns) <> 0 ->
  cross (last (m :: ns) n) n = 0 -> last_cross n 0 (m :: ns) = area2 (n :: m :: ns) ->
  let cent := points_centroid ps in
  f64_finite (fst cent) = true /\ f64_finite (snd cent) = true /\
  f64_R (fst cent) = rnd (fst (centre_of_mass e (n :: m :: ns))) /\
  f64_R (snd cent) = rnd (snd (centre_of_mass e (n :: m :: ns))).
Proof.
  intros He S G N C L. rewrite <- L in N.
  destruct (centroid_formula e n m ns ps He S G N) as (F1 & F2 & V1 & V2).
  cbv zeta. split; [exact F1|]. split; [exact F2|]. rewrite V1, V2. unfold centre_of_mass. cbn [fst snd].
  assert (M : forall f, moment f (n :: m :: ns) = path_moment f (n :: m :: ns)).
  { intros f. unfold moment. rewrite path_moment_app, C. ring. }
  rewrite !M, L. split; reflexivity.
Qed.

Corollary centroid_origin e p q w ps : -300 <= e <= 300 -> small_points [(0, 0); p; q] ->
  on_grid e [(0, 0); p; q] ps -> cross p q <> 0 -> w = points_centroid ps ->
  f64_finite (fst w) = true /\ f64_finite (snd w) = true /\
  f64_R (fst w) = rnd (fst (centre_of_mass e [(0, 0); p; q])) /\
  f64_R (snd w) = rnd (snd (centre_of_mass e [(0, 0); p; q])).
Proof.
  intros He S G N ->. assert (A : area2 [(0, 0); p; q] = cross p q) by (cbn; unfold cross; cbn [fst snd]; ring).
  apply centroid_right; try assumption.
  - now rewrite A.
  - cbn [last]. unfold cross. cbn [fst snd]. ring.
  - now rewrite A.
Qed.

(** The point is not even in the bounding box. *)
Definition tri_away : list (Z * Z) := [(10, 10); (14, 10); (10, 13)].
Lemma centroid_away : f64_lt (fst (points_centroid (map zpt tri_away))) (f64_ofZ 10) = true.
Proof. vm_compute. reflexivity. Qed.
(** A ring which ends where it starts, at the origin. *)
Definition tri_closed : list (Z * Z) := [(0, 0); (4, 0); (0, 3); (0, 0)].
Lemma centroid_closed : points_centroid (map zpt tri_closed) = (f64_pinf, f64_pinf).
Proof. vm_compute. reflexivity. Qed.
Lemma centroid_345 : points_centroid (map zpt [(0, 0); (6, 0); (0, 3)]) = zpt (2, 1) /\
  centre_of_mass 0 [(0, 0); (6, 0); (0, 3)] = (2%R, 1%R).
Proof.
  split; [vm_compute; reflexivity|]. unfold centre_of_mass. cbn. f_equal; field.
Qed.
