From Coq Require Import ZArith Bool List Lia Reals Permutation.
From Coq Require Import ZifyBool ZifyNat.
From Flocq Require Import Core.Core.
From Verif Require Import Base_F64 Base_F64Arith Base_Geom P_F64Flocq P_F64Round P_F64Grid P_List M_Winding S_Winding.
Import ListNotations.
Open Scope Z_scope.

(** ** The surveyor's formula *)

Lemma path_sum_snoc l p q : path_sum (l ++ [p; q]) = path_sum (l ++ [p]) + cross p q.
Proof.
  induction l as [|a l IH].
  - cbn. lia.
  - destruct l as [|b l].
    + cbn. lia.
    + change (cross a b + path_sum ((b :: l) ++ [p; q]) =
              cross a b + path_sum ((b :: l) ++ [p]) + cross p q). rewrite IH. lia.
Qed.

Lemma path_sum_join l p m : path_sum (l ++ p :: m) = path_sum (l ++ [p]) + path_sum (p :: m).
Proof.
  revert p. induction m as [|q m IH] using rev_ind; intros p.
  - cbn [path_sum]. lia.
  - destruct m as [|a m] using rev_ind.
    + cbn [app]. rewrite path_sum_snoc. cbn. lia.
    + clear IHm. rewrite <- app_assoc. cbn [app].
      change (l ++ p :: m ++ [a; q]) with (l ++ (p :: m) ++ [a; q]). rewrite app_assoc.
      rewrite path_sum_snoc. rewrite <- app_assoc. cbn [app].
      rewrite IH. change (p :: m ++ [a; q]) with ((p :: m) ++ [a; q]). rewrite path_sum_snoc.
      cbn [app]. lia.
Qed.

Lemma cross_anti p q : cross q p = - cross p q.
Proof. unfold cross. lia. Qed.

Lemma path_sum_rev l : path_sum (rev l) = - path_sum l.
Proof.
  induction l as [|a l IH]; [reflexivity|].
  destruct l as [|b l]; [reflexivity|].
  cbn [rev] in *. rewrite <- app_assoc. cbn [app]. rewrite path_sum_snoc, IH.
  change (path_sum (a :: b :: l)) with (cross a b + path_sum (b :: l)).
  rewrite (cross_anti a b). lia.
Qed.

(** Area as the loop of the program computes it. *)
Fixpoint zxprod_from (prev : Z * Z) (rest : list (Z * Z)) : Z :=
  match rest with
  | [] => 0
  | p :: tl => cross prev p + zxprod_from p tl
  end.

Lemma zxprod_path prev l : zxprod_from prev l = path_sum (prev :: l).
Proof.
  revert prev. induction l as [|a l IH]; intros prev; [reflexivity|].
  cbn [zxprod_from]. rewrite IH. reflexivity.
Qed.

Lemma area2_loop r : area2 r = zxprod_from (last r (0, 0)) r.
Proof.
  destruct r as [|p r]; [reflexivity|].
  rewrite zxprod_path. unfold area2.
  rewrite last_cons. destruct r as [|a r] using rev_ind.
  - cbn. lia.
  - clear IHr. rewrite last_last.
    change ((p :: r ++ [a]) ++ [p]) with (p :: (r ++ [a]) ++ [p]). rewrite <- app_assoc. cbn [app].
    change (p :: r ++ [a; p]) with ((p :: r) ++ [a; p]). rewrite path_sum_snoc. cbn [app].
    cbn [path_sum]. lia.
Qed.

Lemma rot1_path p l : path_sum (l ++ [p] ++ match l with [] => [p] | a :: _ => [a] end) = area2 (p :: l).
Proof.
  destruct l as [|a l]; unfold area2; [reflexivity|].
  cbn [app]. change (a :: l ++ [p; a]) with ((a :: l) ++ [p; a]). rewrite path_sum_snoc.
  cbn [app path_sum]. lia.
Qed.

Lemma area2_rot1 p l : area2 (l ++ [p]) = area2 (p :: l).
Proof.
  rewrite <- rot1_path. destruct l as [|a l]; [reflexivity|].
  unfold area2. cbn [app]. rewrite <- app_assoc. reflexivity.
Qed.

Lemma rotate_S {A} k (l : list A) : (k < length l)%nat ->
  exists p t, l = p :: t /\ rotate (S k) l = rotate k (t ++ [p]).
Proof.
  intros H. destruct l as [|p t]; [cbn in H; lia|].
  exists p, t. split; [reflexivity|]. unfold rotate. cbn [skipn firstn].
  cbn in H. rewrite skipn_app, firstn_app.
  replace (k - length t)%nat with 0%nat by lia. cbn [skipn firstn].
  rewrite app_nil_r, <- app_assoc. reflexivity.
Qed.

Lemma rotate_over {A} k (l : list A) : (length l <= k)%nat -> rotate k l = l.
Proof. intros H. unfold rotate. rewrite skipn_all2, firstn_all2 by exact H. reflexivity. Qed.

Lemma area2_rotate k r : area2 (rotate k r) = area2 r.
Proof.
  revert r. induction k as [|k IH]; intros r.
  - unfold rotate. cbn. now rewrite app_nil_r.
  - destruct (Nat.ltb_spec k (length r)) as [H|H].
    + destruct (rotate_S k r H) as (p & t & -> & ->). rewrite IH. apply area2_rot1.
    + rewrite rotate_over by lia. reflexivity.
Qed.

Lemma area2_rev r : area2 (rev r) = - area2 r.
Proof.
  destruct r as [|p l]; [reflexivity|].
  cbn [rev]. rewrite area2_rot1.
  unfold area2. cbn [app]. rewrite <- path_sum_rev. cbn [rev]. rewrite rev_app_distr. reflexivity.
Qed.

Lemma path_sum_translate v l : 
  path_sum (map (translate v) l) =
  path_sum l + match l with
               | [] => 0
               | p :: t => fst v * (snd (last t p) - snd p) - snd v * (fst (last t p) - fst p)
               end.
Proof.
  induction l as [|p l IH]; [reflexivity|].
  destruct l as [|q l]; [cbn; lia|].
  cbn [map] in *. 
  change (path_sum (translate v p :: translate v q :: map (translate v) l))
    with (cross (translate v p) (translate v q) + path_sum (translate v q :: map (translate v) l)).
  rewrite IH. change (path_sum (p :: q :: l)) with (cross p q + path_sum (q :: l)).
  rewrite !last_cons. unfold cross, translate. cbn [fst snd]. lia.
Qed.

Lemma area2_translate v r : area2 (map (translate v) r) = area2 r.
Proof.
  destruct r as [|p r]; [reflexivity|].
  unfold area2. cbn [map]. change (translate v p :: map (translate v) r) with (map (translate v) (p :: r)).
  change [translate v p] with (map (translate v) [p]). rewrite <- map_app.
  rewrite path_sum_translate. cbn [app]. rewrite last_last. lia.
Qed.

Lemma path_sum_flip l : path_sum (map flip_y l) = - path_sum l.
Proof.
  induction l as [|p l IH]; [reflexivity|]. destruct l as [|q l]; [reflexivity|].
  cbn [map] in *. change (path_sum (p :: q :: l)) with (cross p q + path_sum (q :: l)).
  change (path_sum (flip_y p :: flip_y q :: map flip_y l))
    with (cross (flip_y p) (flip_y q) + path_sum (flip_y q :: map flip_y l)).
  rewrite IH. unfold cross, flip_y. cbn [fst snd]. lia.
Qed.

Lemma area2_flip r : area2 (map flip_y r) = - area2 r.
Proof.
  destruct r as [|p r]; [reflexivity|]. unfold area2. cbn [map].
  change (flip_y p :: map flip_y r) with (map flip_y (p :: r)).
  change [flip_y p] with (map flip_y [p]). rewrite <- map_app. apply path_sum_flip.
Qed.

Lemma area2_short r : (length r < 3)%nat -> area2 r = 0.
Proof.
  destruct r as [|a [|b [|c r]]]; cbn [length]; intros H; try lia; cbn; unfold cross; lia.
Qed.

(** ** Exactness of the float64 loop *)

Definition in_box (D : Z) (p : Z * Z) : Prop := Z.abs (fst p) <= D /\ Z.abs (snd p) <= D.

Definition pgrid (e : Z) (n : Z * Z) (p : point f64) : Prop :=
  repr e (fst n) (fst p) /\ repr e (snd n) (snd p).

Lemma mul_le_sq D a b : Z.abs a <= D -> Z.abs b <= D -> Z.abs (a * b) <= D * D.
Proof. intros. rewrite Z.abs_mul. apply Z.mul_le_mono_nonneg; lia. Qed.

Lemma cross_bound D p q : in_box D p -> in_box D q -> Z.abs (cross p q) <= 2 * (D * D).
Proof.
  intros [H1 H2] [H3 H4]. unfold cross.
  pose proof (mul_le_sq D _ _ H1 H4). pose proof (mul_le_sq D _ _ H3 H2). lia.
Qed.

Lemma dop_repr e D p q x y : grid_exp e -> 2 * (D * D) <= two53 ->
  in_box D p -> in_box D q -> pgrid e p x -> pgrid e q y ->
  repr (e + e) (cross p q) (f64_sub (f64_mul (fst x) (snd y)) (f64_mul (fst y) (snd x))).
Proof.
  intros He HD Bp Bq [X1 X2] [Y1 Y2]. unfold grid_exp in He.
  pose proof (cross_bound D p q Bp Bq) as C. destruct Bp as [B1 B2], Bq as [B3 B4].
  pose proof (mul_le_sq D _ _ B1 B4). pose proof (mul_le_sq D _ _ B3 B2).
  apply repr_sub; [lia | unfold cross in C; lia | apply repr_mul; auto; lia | apply repr_mul; auto; lia].
Qed.

Lemma xprod_from_repr e D : grid_exp e -> forall rest prests prev pprev s sum,
  Forall2 (pgrid e) rest prests -> pgrid e prev pprev ->
  in_box D prev -> Forall (in_box D) rest ->
  repr (e + e) s sum -> Z.abs s + 2 * Z.of_nat (length rest) * (D * D) <= two53 ->
  repr (e + e) (s + zxprod_from prev rest) (xprod_from pprev sum prests).
Proof.
  intros He. induction rest as [|p rest IH]; intros prests prev pprev s sum F Gp Bp B Rs Hs.
  - inversion F; subst. cbn. now rewrite Z.add_0_r.
  - inversion F as [|? x ? prests' Gx F']; subst. inversion B as [|? ? B1 B']; subst.
    cbn [zxprod_from xprod_from]. rewrite Z.add_assoc.
    assert (0 <= D * D) by nia.
    replace (Z.of_nat (length (p :: rest))) with (1 + Z.of_nat (length rest)) in Hs by (cbn [length]; lia).
    assert (HL : 0 <= 2 * Z.of_nat (length rest) * (D * D)) by nia.
    assert (HD : Z.abs s + 2 * (D * D) + 2 * Z.of_nat (length rest) * (D * D) <= two53) by lia.
    pose proof (cross_bound D prev p Bp B1) as C.
    apply IH; auto.
    + apply repr_add; [unfold grid_exp in He; lia | lia | exact Rs |].
      apply (dop_repr e D); auto. lia.
    + lia.
Qed.

Lemma Forall2_last {A B} (R : A -> B -> Prop) l l' d d' : Forall2 R l l' -> R d d' -> R (last l d) (last l' d').
Proof.
  intros F. revert d d'. induction F as [|a b l l' H F IH]; intros d d' Hd; [exact Hd|].
  rewrite !last_cons. now apply IH.
Qed.

Lemma last_in {A} (P : A -> Prop) l d : Forall P l -> P d -> P (last l d).
Proof.
  intros F. revert d. induction F as [|a l H F IH]; intros d Hd; [exact Hd|]. rewrite last_cons. now apply IH.
Qed.

Lemma xprod_repr e D r pts : grid_exp e -> Forall2 (pgrid e) r pts -> Forall (in_box D) r ->
  0 <= D -> 2 * Z.of_nat (length r) * (D * D) <= two53 ->
  repr (e + e) (area2 r) (xprod pts).
Proof.
  intros He F B HD H. rewrite area2_loop. unfold xprod.
  replace (zxprod_from (last r (0, 0)) r) with (0 + zxprod_from (last r (0, 0)) r) by lia.
  apply (xprod_from_repr e D); auto.
  - apply Forall2_last; [exact F|]. split; apply repr_zero.
  - apply last_in; [exact B|]. unfold in_box. cbn. lia.
  - apply repr_zero.
Qed.

Lemma orient_repr e D r pts : grid_exp e -> Forall2 (pgrid e) r pts -> Forall (in_box D) r ->
  0 <= D -> 2 * Z.of_nat (length r) * (D * D) <= two53 ->
  orient pts = Z.sgn (area2 r).
Proof.
  intros He F B HD H. unfold orient. rewrite <- (Forall2_len _ _ _ F).
  destruct (Nat.ltb_spec (length r) 3) as [L|L].
  - now rewrite area2_short.
  - pose proof (xprod_repr e D r pts He F B HD H) as R.
    rewrite (repr_eq_zero _ _ _ R).
    destruct (Z.eqb_spec (area2 r) 0) as [->|N]; [reflexivity|].
    rewrite (repr_sign _ _ _ R N). destruct (Z.ltb_spec (area2 r) 0); lia.
Qed.

Theorem orientation_exact e r pts ypd : grid_exp e -> on_grid e r pts -> small_ring r ->
  orientation ypd pts = (if ypd then -1 else 1) * Z.sgn (area2 r).
Proof.
  intros He F (D & HB & HD). unfold orientation.
  destruct F as [|n p r pts [G1 G2] F]; [now destruct ypd|].
  assert (D0 : 0 <= D) by (pose proof (HB n n (or_introl eq_refl) (or_introl eq_refl)); lia).
  assert (Hlen : length (p :: pts) = length (n :: r)) by (cbn; now rewrite (Forall2_len _ _ _ F)).
  unfold point. cbv iota beta zeta. rewrite Hlen.
  destruct (Nat.ltb_spec (length (n :: r)) 3) as [L|L].
  - rewrite area2_short by exact L. now destruct ypd.
  - f_equal.
    set (v := (- fst n, - snd n)).
    rewrite <- (area2_translate v (n :: r)).
    assert (B : Forall (in_box D) (map (translate v) (n :: r))).
    { apply Forall_map. apply Forall_forall. intros q Hq. unfold translate, in_box, v. cbn [fst snd].
      destruct (HB q n Hq (or_introl eq_refl)) as [? ?]. lia. }
    assert (Hl2 : 2 * Z.of_nat (length (map (translate v) (n :: r))) * (D * D) <= two53)
      by (rewrite map_length; exact HD).
    assert (D53 : D <= two53).
    { unfold two53. replace (Z.of_nat (length (n :: r))) with (Z.of_nat (length r) + 1) in HD by (cbn [length]; lia).
      destruct (Z.eq_dec D 0); [subst; lia|]. nia. }
    apply (orient_repr e D); auto.
    assert (Hsub : forall q x, In q (n :: r) -> pgrid e q x ->
              pgrid e (translate v q) (f64_sub (fst x) (fst p), f64_sub (snd x) (snd p))).
    { intros q x Hq [X1 X2]. destruct (HB q n Hq (or_introl eq_refl)) as [? ?].
      unfold grid_exp in He. split; cbn [fst snd translate v].
      - rewrite Z.add_opp_r. apply repr_sub; auto; lia.
      - rewrite Z.add_opp_r. apply repr_sub; auto; lia. }
    assert (F0 : Forall2 (pgrid e) (n :: r) (p :: pts)) by (constructor; [now split | exact F]).
    revert Hsub F0. generalize (p :: pts) as xs, (n :: r) as ns. clear.
    intros xs ns Hsub F0. induction F0 as [|a b l l' H F IH]; [constructor|].
    cbn [map]. constructor.
    + apply Hsub; [now left | exact H].
    + apply IH. intros q x Hq. apply Hsub. now right.
Qed.

(** Grid rings are closed under the operations of the laws. *)
Lemma on_grid_rev e r pts : on_grid e r pts -> on_grid e (rev r) (rev pts).
Proof.
  unfold on_grid. induction 1 as [|a b l l' H F IH]; [constructor|].
  cbn [rev]. apply Forall2_app; [exact IH|]. constructor; [exact H | constructor].
Qed.

Lemma small_sub r r' : (forall p, In p r' -> In p r) -> length r' = length r -> small_ring r -> small_ring r'.
Proof.
  intros Hi Hl (D & HB & HD). exists D. split; [|now rewrite Hl].
  intros p q Hp Hq. apply HB; now apply Hi.
Qed.

Lemma small_rev r : small_ring r -> small_ring (rev r).
Proof. apply small_sub; [intros p; rewrite <- in_rev; auto | apply rev_length]. Qed.

Lemma rotate_in {A} k (l : list A) p : In p (rotate k l) -> In p l.
Proof.
  unfold rotate. rewrite in_app_iff. rewrite <- (firstn_skipn k l) at 3. rewrite in_app_iff. tauto.
Qed.
Lemma rotate_length {A} k (l : list A) : length (rotate k l) = length l.
Proof. unfold rotate. rewrite app_length, skipn_length, firstn_length. lia. Qed.
Lemma small_rotate k r : small_ring r -> small_ring (rotate k r).
Proof. apply small_sub; [intros p; apply rotate_in | apply rotate_length]. Qed.

Lemma Forall2_skipn {A B} (R : A -> B -> Prop) k l l' : Forall2 R l l' -> Forall2 R (skipn k l) (skipn k l').
Proof.
  revert l l'. induction k; intros l l' F; [exact F|]. destruct F; [constructor|]. cbn. now apply IHk.
Qed.
Lemma Forall2_firstn {A B} (R : A -> B -> Prop) k l l' : Forall2 R l l' -> Forall2 R (firstn k l) (firstn k l').
Proof.
  revert l l'. induction k; intros l l' F; [constructor|]. destruct F; [constructor|]. cbn. constructor; auto.
Qed.
Lemma on_grid_rotate e k r pts : on_grid e r pts -> on_grid e (rotate k r) (rotate k pts).
Proof. intros F. apply Forall2_app; [now apply Forall2_skipn | now apply Forall2_firstn]. Qed.

Lemma small_map (f : Z * Z -> Z * Z) r :
  (forall p q, Z.abs (fst (f p) - fst (f q)) <= Z.abs (fst p - fst q) /\
               Z.abs (snd (f p) - snd (f q)) <= Z.abs (snd p - snd q)) ->
  small_ring r -> small_ring (map f r).
Proof.
  intros Hf (D & HB & HD). exists D. split; [|now rewrite map_length].
  intros p q Hp Hq. apply in_map_iff in Hp, Hq. destruct Hp as (p' & <- & Hp), Hq as (q' & <- & Hq).
  specialize (HB p' q' Hp Hq). specialize (Hf p' q'). lia.
Qed.

Lemma orientation_reverse e r pts ypd : grid_exp e -> on_grid e r pts -> small_ring r ->
  orientation ypd (rev pts) = - orientation ypd pts.
Proof.
  intros He F S. rewrite (orientation_exact e r pts ypd He F S).
  rewrite (orientation_exact e (rev r) (rev pts) ypd He (on_grid_rev _ _ _ F) (small_rev _ S)).
  rewrite area2_rev, Z.sgn_opp. lia.
Qed.

Lemma orientation_rotate e r pts ypd k : grid_exp e -> on_grid e r pts -> small_ring r ->
  orientation ypd (rotate k pts) = orientation ypd pts.
Proof.
  intros He F S. rewrite (orientation_exact e r pts ypd He F S).
  rewrite (orientation_exact e (rotate k r) (rotate k pts) ypd He (on_grid_rotate _ _ _ _ F) (small_rotate _ _ S)).
  now rewrite area2_rotate.
Qed.

Lemma orientation_translate e r pts pts' v ypd : grid_exp e -> on_grid e r pts -> small_ring r ->
  on_grid e (map (translate v) r) pts' -> orientation ypd pts' = orientation ypd pts.
Proof.
  intros He F S F'. rewrite (orientation_exact e r pts ypd He F S).
  rewrite (orientation_exact e _ pts' ypd He F').
  - now rewrite area2_translate.
  - apply small_map; [|exact S]. intros p q. unfold translate. cbn. lia.
Qed.

Lemma orientation_flip e r pts pts' ypd : grid_exp e -> on_grid e r pts -> small_ring r ->
  on_grid e (map flip_y r) pts' -> orientation ypd pts' = - orientation ypd pts.
Proof.
  intros He F S F'. rewrite (orientation_exact e r pts ypd He F S).
  rewrite (orientation_exact e _ pts' ypd He F').
  - rewrite area2_flip, Z.sgn_opp. lia.
  - apply small_map; [|exact S]. intros p q. unfold flip_y. cbn. lia.
Qed.

Lemma orientation_axis ypd pts : orientation (negb ypd) pts = - orientation ypd pts.
Proof.
  unfold orientation. destruct pts as [|p pts]; [reflexivity|].
  destruct (length (p :: pts) <? 3)%nat; [reflexivity|]. destruct ypd; cbn [negb]; lia.
Qed.

Lemma orientation_short ypd pts : (length pts < 3)%nat -> orientation ypd pts = wColinear.
Proof.
  intros H. unfold orientation. destruct pts; [reflexivity|].
  destruct (Nat.ltb_spec (length (p :: pts)) 3); [reflexivity | lia].
Qed.

Lemma orient_cases pts : orient pts = -1 \/ orient pts = 0 \/ orient pts = 1.
Proof.
  unfold orient. destruct (_ <? _)%nat; [auto|]. destruct (f64_eq _ _); [auto|]. destruct (f64_sign _); auto.
Qed.
Lemma orientation_cases ypd pts :
  orientation ypd pts = wClockwise \/ orientation ypd pts = wColinear \/ orientation ypd pts = wCounterClockwise.
Proof.
  unfold orientation, wClockwise, wColinear, wCounterClockwise. destruct pts as [|p pts]; [auto|].
  destruct (_ <? _)%nat; [auto|].
  destruct (orient_cases (map (fun p0 => (f64_sub (fst p0) (fst p), f64_sub (snd p0) (snd p))) (p :: pts))) as [E|[E|E]];
    rewrite E; destruct ypd; auto.
Qed.

(** ** Reversal by swapping *)

Lemma upd_length {A} (l : list A) i v : length (upd l i v) = length l.
Proof. revert i. induction l as [|x l IH]; intros [|i]; cbn; auto. Qed.
Lemma upd_nth {A} (l : list A) i v k : (i < length l)%nat ->
  nth_error (upd l i v) k = if (k =? i)%nat then Some v else nth_error l k.
Proof.
  revert i k. induction l as [|x l IH]; intros [|i] [|k] H; cbn in *; try lia; auto.
  rewrite IH by lia. reflexivity.
Qed.
Lemma swap_length {A} (l : list A) i j : length (swap l i j) = length l.
Proof. unfold swap. destruct (nth_error l i), (nth_error l j); auto. now rewrite !upd_length. Qed.
Lemma swap_nth {A} (l : list A) i j k : (i < length l)%nat -> (j < length l)%nat ->
  nth_error (swap l i j) k =
  if (k =? j)%nat then nth_error l i else if (k =? i)%nat then nth_error l j else nth_error l k.
Proof.
  intros Hi Hj. unfold swap.
  destruct (nth_error l i) as [a|] eqn:Ei; [|apply nth_error_None in Ei; lia].
  destruct (nth_error l j) as [b|] eqn:Ej; [|apply nth_error_None in Ej; lia].
  rewrite upd_nth by (now rewrite upd_length). rewrite upd_nth by exact Hi. reflexivity.
Qed.

Lemma reverse_loop_nth {A} n : forall (l : list A) k, (2 * n <= length l)%nat -> (k < length l)%nat ->
  nth_error (reverse_loop n l) k =
  nth_error l (if (k <? n)%nat || (length l - 1 - k <? n)%nat then length l - 1 - k else k)%nat.
Proof.
  induction n as [|i IH]; intros l k Hn Hk.
  - cbn [reverse_loop]. reflexivity.
  - cbn [reverse_loop]. rewrite IH by (rewrite swap_length; lia). rewrite swap_length.
    rewrite swap_nth by lia.
    destruct (Nat.ltb_spec k i), (Nat.ltb_spec (length l - 1 - k) i),
      (Nat.ltb_spec k (S i)), (Nat.ltb_spec (length l - 1 - k) (S i)); cbn [orb]; try lia;
      repeat match goal with |- context [(?a =? ?b)%nat] => destruct (Nat.eqb_spec a b) end;
      try lia; f_equal; lia.
Qed.
Lemma reverse_loop_length {A} n : forall (l : list A), length (reverse_loop n l) = length l.
Proof. induction n; intros l; cbn; [reflexivity|]. now rewrite IHn, swap_length. Qed.

Lemma nth_error_ext' {A} (l l' : list A) : length l = length l' ->
  (forall k, (k < length l)%nat -> nth_error l k = nth_error l' k) -> l = l'.
Proof.
  revert l'. induction l as [|a l IH]; intros [|b l'] HL H; cbn in HL; try lia; [reflexivity|].
  pose proof (H 0%nat ltac:(cbn; lia)) as E0. cbn in E0. injection E0 as ->. f_equal. apply IH; [lia|].
  intros k Hk. apply (H (S k)). cbn. lia.
Qed.

Lemma nth_error_rev {A} (l : list A) k : (k < length l)%nat -> nth_error (rev l) k = nth_error l (length l - 1 - k).
Proof.
  intros H. destruct l as [|d l0]; [cbn in H; lia|]. set (l := d :: l0) in *.
  rewrite (nth_error_nth' (rev l) d) by now rewrite rev_length.
  rewrite (nth_error_nth' l d) by lia. f_equal. rewrite rev_nth by exact H. f_equal. lia.
Qed.

Lemma reverse_in_place_rev {A} (l : list A) : reverse_in_place l = rev l.
Proof.
  apply nth_error_ext'.
  - unfold reverse_in_place. now rewrite reverse_loop_length, rev_length.
  - unfold reverse_in_place. rewrite reverse_loop_length. intros k Hk.
    pose proof (Nat.div2_odd (length l)) as Ho. destruct (Nat.odd (length l)); cbn [Nat.b2n] in Ho.
    all: rewrite reverse_loop_nth by lia; rewrite nth_error_rev by exact Hk.
    all: f_equal; destruct (Nat.ltb_spec k (Nat.div2 (length l))), (Nat.ltb_spec (length l - 1 - k) (Nat.div2 (length l))); cbn [orb]; lia.
Qed.

(** ** RectifyPolygon *)

(** What RectifyPolygon should do with one ring of the given index. *)
Definition fix_ring (ypd : bool) (want : Z) (r : list (point f64)) : list (point f64) :=
  if orientation ypd r =? want then r else rev r.

Lemma rectify_rings_tail ypd i rs :
  let keep := filter (fun r => negb (orientation ypd r =? wColinear)) rs in
  rectify_rings ypd (S i) rs =
  (Some (map (fix_ring ypd wCounterClockwise) keep),
   map (fun r => if orientation ypd r =? wColinear then r else fix_ring ypd wCounterClockwise r) rs).
Proof.
  cbn zeta. revert i. induction rs as [|r rs IH]; intros i; [reflexivity|].
  cbn [rectify_rings filter map]. rewrite IH. unfold fix_ring, wColinear, wClockwise, wCounterClockwise.
  cbn [Nat.eqb andb orb negb].
  destruct (orientation_cases ypd r) as [E|[E|E]]; unfold wColinear, wClockwise, wCounterClockwise in E; rewrite E; cbn.
  - rewrite E. cbn. now rewrite reverse_in_place_rev.
  - reflexivity.
  - rewrite E. reflexivity.
Qed.

Theorem rectify_polygon_exact ypd rs :
  rectify_polygon ypd rs =
  match rs with
  | [] => (Some [], [])
  | r :: tl =>
      if orientation ypd r =? wColinear then (None, rs)
      else (Some (fix_ring ypd wClockwise r ::
                  map (fix_ring ypd wCounterClockwise)
                      (filter (fun r => negb (orientation ypd r =? wColinear)) tl)),
            fix_ring ypd wClockwise r ::
            map (fun r => if orientation ypd r =? wColinear then r else fix_ring ypd wCounterClockwise r) tl)
  end.
Proof.
  unfold rectify_polygon. destruct rs as [|r tl]; [reflexivity|].
  cbn [rectify_rings]. rewrite rectify_rings_tail.
  destruct (orientation_cases ypd r) as [E|[E|E]]; unfold wColinear, wClockwise, wCounterClockwise in *; rewrite E; cbn.
  - unfold fix_ring. now rewrite E.
  - reflexivity.
  - unfold fix_ring. rewrite E. cbn. now rewrite reverse_in_place_rev.
Qed.
