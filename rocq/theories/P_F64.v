(** Order lemmas for float64 words. *)
From Coq Require Import ZArith Bool List Lia.
From Coq Require Import ZifyBool.
From Verif Require Import Base_F64.
Import ListNotations.
Open Scope Z_scope.

Definition nn (w : f64) : Prop := f64_isnan w = false.

Ltac unf := unfold nn, f64_gt, f64_ge, f64_ne, f64_lt, f64_le, f64_eq in *.

(** On non-NaN words the operators compare keys. *)
Lemma lt_key a b : nn a -> nn b -> f64_lt a b = (f64_key a <? f64_key b).
Proof. unf. intros -> ->. reflexivity. Qed.
Lemma le_key a b : nn a -> nn b -> f64_le a b = (f64_key a <=? f64_key b).
Proof. unf. intros -> ->. reflexivity. Qed.
Lemma eq_key a b : nn a -> nn b -> f64_eq a b = (f64_key a =? f64_key b).
Proof. unf. intros -> ->. reflexivity. Qed.

Lemma lt_inv a b : f64_lt a b = true -> nn a /\ nn b /\ f64_key a < f64_key b.
Proof. unf. destruct (f64_isnan a), (f64_isnan b); cbn; try discriminate. lia. Qed.
Lemma le_inv a b : f64_le a b = true -> nn a /\ nn b /\ f64_key a <= f64_key b.
Proof. unf. destruct (f64_isnan a), (f64_isnan b); cbn; try discriminate. lia. Qed.
Lemma eq_inv a b : f64_eq a b = true -> nn a /\ nn b /\ f64_key a = f64_key b.
Proof. unf. destruct (f64_isnan a), (f64_isnan b); cbn; try discriminate. lia. Qed.

Lemma f64_le_refl a : nn a -> f64_le a a = true.
Proof. intros H. rewrite le_key by auto. lia. Qed.
Lemma f64_le_trans a b c : f64_le a b = true -> f64_le b c = true -> f64_le a c = true.
Proof.
  intros H1 H2. apply le_inv in H1 as (?&?&?), H2 as (?&?&?). rewrite le_key by auto. lia.
Qed.
Lemma f64_lt_le a b : f64_lt a b = true -> f64_le a b = true.
Proof. intros H. apply lt_inv in H as (?&?&?). rewrite le_key by auto. lia. Qed.
Lemma f64_lt_le_trans a b c : f64_lt a b = true -> f64_le b c = true -> f64_lt a c = true.
Proof.
  intros H1 H2. apply lt_inv in H1 as (?&?&?). apply le_inv in H2 as (?&?&?).
  rewrite lt_key by auto. lia.
Qed.
Lemma f64_le_lt_trans a b c : f64_le a b = true -> f64_lt b c = true -> f64_lt a c = true.
Proof.
  intros H1 H2. apply le_inv in H1 as (?&?&?). apply lt_inv in H2 as (?&?&?).
  rewrite lt_key by auto. lia.
Qed.
Lemma f64_not_lt_le a b : nn a -> nn b -> f64_lt a b = false -> f64_le b a = true.
Proof. intros Ha Hb. rewrite lt_key, le_key by auto. lia. Qed.
Lemma f64_not_le_lt a b : nn a -> nn b -> f64_le a b = false -> f64_lt b a = true.
Proof. intros Ha Hb. rewrite lt_key, le_key by auto. lia. Qed.
Lemma f64_lt_irrefl a : f64_lt a a = false.
Proof. unf. lia. Qed.
Lemma f64_lt_not_le a b : nn a -> nn b -> f64_lt a b = negb (f64_le b a).
Proof. intros Ha Hb. rewrite lt_key, le_key by auto. lia. Qed.
Lemma f64_le_antisym a b : f64_le a b = true -> f64_le b a = true -> f64_eq a b = true.
Proof.
  intros H1 H2. apply le_inv in H1 as (?&?&?), H2 as (?&?&?). rewrite eq_key by auto. lia.
Qed.
Lemma f64_eq_sym a b : f64_eq a b = f64_eq b a.
Proof. unf. rewrite (andb_comm (negb (f64_isnan a))). f_equal. lia. Qed.

(** ** The total order refining [<=] by putting -0 before +0 *)
Definition tkey (w : f64) : Z := 2 * f64_key w + (if f64_sign w then 0 else 1).

Lemma mag_bounds w : 0 <= f64_mag w < two63.
Proof. unfold f64_mag. apply Z.mod_pos_bound. reflexivity. Qed.

Lemma wf_word w : f64_wf w = true -> w = (if f64_sign w then two63 else 0) + f64_mag w.
Proof.
  unfold f64_wf, f64_sign, f64_mag. change two64 with (2 * two63). intros H.
  assert (0 < two63) by reflexivity.
  destruct (two63 <=? w) eqn:E.
  - replace (w mod two63) with (w - two63); [lia|].
    apply Z.mod_unique_pos with 1; lia.
  - rewrite Z.mod_small; lia.
Qed.

Lemma key_sign w : f64_key w = (if f64_sign w then - f64_mag w else f64_mag w).
Proof. reflexivity. Qed.

Lemma tkey_inj a b : f64_wf a = true -> f64_wf b = true -> tkey a = tkey b -> a = b.
Proof.
  intros Ha Hb. pose proof (wf_word a Ha) as Wa. pose proof (wf_word b Hb) as Wb.
  pose proof (mag_bounds a). pose proof (mag_bounds b). unfold tkey, f64_key.
  destruct (f64_sign a), (f64_sign b); lia.
Qed.

Lemma tkey_le_key a b : nn a -> nn b -> tkey a <= tkey b -> f64_le a b = true.
Proof.
  intros Ha Hb. rewrite le_key by auto. unfold tkey.
  destruct (f64_sign a), (f64_sign b); lia.
Qed.

Lemma key_lt_tkey a b : f64_key a < f64_key b -> tkey a < tkey b.
Proof. unfold tkey. destruct (f64_sign a), (f64_sign b); lia. Qed.

Lemma ninf_least w : nn w -> f64_key f64_ninf <= f64_key w.
Proof.
  unfold nn, f64_isnan, f64_key. intros H.
  change (f64_sign f64_ninf) with true. change (f64_mag f64_ninf) with f64_pinf.
  pose proof (mag_bounds w). destruct (f64_sign w); lia.
Qed.
Lemma pinf_greatest w : nn w -> f64_key w <= f64_key f64_pinf.
Proof.
  unfold nn, f64_isnan, f64_key. intros H.
  change (f64_sign f64_pinf) with false. change (f64_mag f64_pinf) with f64_pinf.
  pose proof (mag_bounds w). destruct (f64_sign w); lia.
Qed.

Lemma tkey_ninf w : nn w -> tkey f64_ninf <= tkey w.
Proof.
  intros H. apply ninf_least in H. unfold tkey. change (f64_sign f64_ninf) with true.
  destruct (f64_sign w); lia.
Qed.
Lemma tkey_pinf w : nn w -> tkey w <= tkey f64_pinf.
Proof.
  intros H. apply pinf_greatest in H. unfold tkey. change (f64_sign f64_pinf) with false.
  destruct (f64_sign w); lia.
Qed.

Lemma eq_tkey a b :
  f64_wf a = true -> f64_wf b = true -> f64_key a = f64_key b -> f64_key a <> 0 -> a = b.
Proof.
  intros Ha Hb Hk Hz. apply tkey_inj; auto. unfold tkey. rewrite Hk in *.
  pose proof (mag_bounds a). pose proof (mag_bounds b).
  unfold f64_key in *. destruct (f64_sign a), (f64_sign b); lia.
Qed.

(** math.Min and math.Max on non-NaN words pick the smaller/larger word of the
    refined order. *)
Lemma min_tkey x y :
  f64_wf x = true -> f64_wf y = true -> nn x -> nn y ->
  f64_min x y = if tkey x <=? tkey y then x else y.
Proof.
  intros Wx Wy Nx Ny. unfold f64_min.
  destruct (f64_isninf x) eqn:Ex; cbn [orb].
  { unfold f64_isninf in Ex. apply Z.eqb_eq in Ex. subst x.
    pose proof (tkey_ninf y Ny). replace (tkey f64_ninf <=? tkey y) with true by lia. reflexivity. }
  destruct (f64_isninf y) eqn:Ey.
  { unfold f64_isninf in Ey. apply Z.eqb_eq in Ey. subst y.
    pose proof (tkey_ninf x Nx). destruct (tkey x <=? tkey f64_ninf) eqn:E; [|reflexivity].
    symmetry. apply tkey_inj; auto. lia. }
  rewrite Nx, Ny. cbn [orb].
  assert (Nz : nn f64_zero) by reflexivity.
  rewrite !eq_key, lt_key by auto. change (f64_key f64_zero) with 0.
  destruct ((f64_key x =? 0) && (f64_key x =? f64_key y)) eqn:E.
  - assert (f64_key x = 0 /\ f64_key y = 0) as [Kx Ky] by lia.
    unfold tkey. rewrite Kx, Ky. destruct (f64_sign x) eqn:Sx, (f64_sign y) eqn:Sy; cbn; auto.
    apply tkey_inj; auto. unfold tkey. rewrite Kx, Ky, Sx, Sy. reflexivity.
  - destruct (f64_key x <? f64_key y) eqn:L.
    + pose proof (key_lt_tkey x y ltac:(lia)). replace (tkey x <=? tkey y) with true by lia. reflexivity.
    + destruct (tkey x <=? tkey y) eqn:T; [|reflexivity].
      apply Z.leb_le, tkey_le_key in T; auto. rewrite le_key in T by auto.
      assert (f64_key x = f64_key y) by lia. symmetry. apply eq_tkey; auto. lia.
Qed.

Lemma max_tkey x y :
  f64_wf x = true -> f64_wf y = true -> nn x -> nn y ->
  f64_maxf x y = if tkey y <=? tkey x then x else y.
Proof.
  intros Wx Wy Nx Ny. unfold f64_maxf.
  destruct (f64_ispinf x) eqn:Ex; cbn [orb].
  { unfold f64_ispinf in Ex. apply Z.eqb_eq in Ex. subst x.
    pose proof (tkey_pinf y Ny). replace (tkey y <=? tkey f64_pinf) with true by lia. reflexivity. }
  destruct (f64_ispinf y) eqn:Ey.
  { unfold f64_ispinf in Ey. apply Z.eqb_eq in Ey. subst y.
    pose proof (tkey_pinf x Nx). destruct (tkey f64_pinf <=? tkey x) eqn:E; [|reflexivity].
    symmetry. apply tkey_inj; auto. lia. }
  rewrite Nx, Ny. cbn [orb].
  assert (Nz : nn f64_zero) by reflexivity.
  rewrite !eq_key, lt_key by auto. change (f64_key f64_zero) with 0.
  destruct ((f64_key x =? 0) && (f64_key x =? f64_key y)) eqn:E.
  - assert (f64_key x = 0 /\ f64_key y = 0) as [Kx Ky] by lia.
    unfold tkey. rewrite Kx, Ky. destruct (f64_sign x) eqn:Sx, (f64_sign y) eqn:Sy; cbn; auto.
    apply tkey_inj; auto. unfold tkey. rewrite Kx, Ky, Sx, Sy. reflexivity.
  - destruct (f64_key y <? f64_key x) eqn:L.
    + pose proof (key_lt_tkey y x ltac:(lia)). replace (tkey y <=? tkey x) with true by lia. reflexivity.
    + destruct (tkey y <=? tkey x) eqn:T; [|reflexivity].
      apply Z.leb_le, tkey_le_key in T; auto. rewrite le_key in T by auto.
      assert (f64_key x = f64_key y) by lia. symmetry. apply eq_tkey; auto. lia.
Qed.

(** Derived facts: closure, bounds, and the semilattice laws, bit for bit. *)
Definition num (w : f64) : Prop := f64_wf w = true /\ nn w.

Lemma min_num x y : num x -> num y -> num (f64_min x y).
Proof. intros [? ?] [? ?]. rewrite min_tkey by auto. destruct (_ <=? _); split; auto. Qed.
Lemma max_num x y : num x -> num y -> num (f64_maxf x y).
Proof. intros [? ?] [? ?]. rewrite max_tkey by auto. destruct (_ <=? _); split; auto. Qed.

Lemma min_case x y : num x -> num y -> f64_min x y = x \/ f64_min x y = y.
Proof. intros [? ?] [? ?]. rewrite min_tkey by auto. destruct (_ <=? _); auto. Qed.
Lemma max_case x y : num x -> num y -> f64_maxf x y = x \/ f64_maxf x y = y.
Proof. intros [? ?] [? ?]. rewrite max_tkey by auto. destruct (_ <=? _); auto. Qed.

Lemma min_le_l x y : num x -> num y -> f64_le (f64_min x y) x = true.
Proof.
  intros [? ?] [? ?]. rewrite min_tkey by auto. destruct (tkey x <=? tkey y) eqn:E.
  - now apply f64_le_refl. - apply tkey_le_key; auto. lia.
Qed.
Lemma min_le_r x y : num x -> num y -> f64_le (f64_min x y) y = true.
Proof.
  intros [? ?] [? ?]. rewrite min_tkey by auto. destruct (tkey x <=? tkey y) eqn:E.
  - apply tkey_le_key; auto. lia. - now apply f64_le_refl.
Qed.
Lemma max_ge_l x y : num x -> num y -> f64_le x (f64_maxf x y) = true.
Proof.
  intros [? ?] [? ?]. rewrite max_tkey by auto. destruct (tkey y <=? tkey x) eqn:E.
  - now apply f64_le_refl. - apply tkey_le_key; auto. lia.
Qed.
Lemma max_ge_r x y : num x -> num y -> f64_le y (f64_maxf x y) = true.
Proof.
  intros [? ?] [? ?]. rewrite max_tkey by auto. destruct (tkey y <=? tkey x) eqn:E.
  - apply tkey_le_key; auto. lia. - now apply f64_le_refl.
Qed.

Lemma min_tkey_val x y : num x -> num y -> tkey (f64_min x y) = Z.min (tkey x) (tkey y).
Proof. intros [? ?] [? ?]. rewrite min_tkey by auto. destruct (tkey x <=? tkey y) eqn:E; lia. Qed.
Lemma max_tkey_val x y : num x -> num y -> tkey (f64_maxf x y) = Z.max (tkey x) (tkey y).
Proof. intros [? ?] [? ?]. rewrite max_tkey by auto. destruct (tkey y <=? tkey x) eqn:E; lia. Qed.

Lemma num_tkey_inj a b : num a -> num b -> tkey a = tkey b -> a = b.
Proof. intros [? ?] [? ?]. now apply tkey_inj. Qed.

Lemma min_comm x y : num x -> num y -> f64_min x y = f64_min y x.
Proof.
  intros Hx Hy. apply num_tkey_inj; [now apply min_num | now apply min_num |].
  rewrite !min_tkey_val by auto. lia.
Qed.
Lemma max_comm x y : num x -> num y -> f64_maxf x y = f64_maxf y x.
Proof.
  intros Hx Hy. apply num_tkey_inj; [now apply max_num | now apply max_num |].
  rewrite !max_tkey_val by auto. lia.
Qed.
Lemma min_assoc x y z : num x -> num y -> num z ->
  f64_min x (f64_min y z) = f64_min (f64_min x y) z.
Proof.
  intros Hx Hy Hz. apply num_tkey_inj; [auto using min_num | auto using min_num |].
  rewrite !min_tkey_val by auto using min_num. lia.
Qed.
Lemma max_assoc x y z : num x -> num y -> num z ->
  f64_maxf x (f64_maxf y z) = f64_maxf (f64_maxf x y) z.
Proof.
  intros Hx Hy Hz. apply num_tkey_inj; [auto using max_num | auto using max_num |].
  rewrite !max_tkey_val by auto using max_num. lia.
Qed.
Lemma min_idem x : num x -> f64_min x x = x.
Proof. intros Hx. destruct (min_case x x Hx Hx); auto. Qed.
Lemma max_idem x : num x -> f64_maxf x x = x.
Proof. intros Hx. destruct (max_case x x Hx Hx); auto. Qed.
