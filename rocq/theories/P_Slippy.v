(** Proofs about slippy tiles: integers *)
From Coq Require Import ZArith Bool List Lia.
From Coq Require Import ZifyBool FinFun.
From Verif Require Import Base_Bytes Base_F64 Base_F64Arith Base_Res Base_Geom M_Extent M_Slippy S_Slippy P_F64Grid.
Import ListNotations.
Open Scope Z_scope.

Lemma in_range lo hi x : In x (range lo hi) <-> lo <= x < hi.
Proof.
  unfold range. rewrite in_map_iff. split.
  - intros (i & <- & H). apply in_seq in H. lia.
  - intros H. exists (Z.to_nat (x - lo)). split; [lia|]. apply in_seq. lia.
Qed.

Lemma nodup_range lo hi : NoDup (range lo hi).
Proof.
  unfold range. apply Injective_map_NoDup; [|apply seq_NoDup].
  intros a b H. lia.
Qed.

Lemma length_range lo hi : length (range lo hi) = Z.to_nat (hi - lo).
Proof. unfold range. now rewrite map_length, seq_length. Qed.

Lemma nodup_app {A} (l l' : list A) :
  NoDup l -> NoDup l' -> (forall x, In x l -> In x l' -> False) -> NoDup (l ++ l').
Proof.
  induction l as [|a l IH]; intros H1 H2 H; [exact H2|].
  inversion H1; subst. cbn [app]. constructor.
  - intros C. apply in_app_or in C as [C|C]; [contradiction|]. apply (H a); [now left | exact C].
  - apply IH; auto. intros x Hx. apply H. now right.
Qed.
Lemma flat_map_ext_in {A B} (f g : A -> list B) l :
  (forall x, In x l -> f x = g x) -> flat_map f l = flat_map g l.
Proof.
  induction l as [|a l IH]; intros H; [reflexivity|]. cbn [flat_map].
  rewrite (H a) by now left. rewrite IH; [reflexivity|]. intros. apply H. now right.
Qed.

Section Prod.
  Variable f : Z -> Z -> tile.
  Hypothesis inj : forall a b c d, f a b = f c d -> a = c /\ b = d.
  Variables (xs ys : list Z).
  Definition prod_tiles (xs ys : list Z) := flat_map (fun x => map (fun y => f x y) ys) xs.

  Lemma in_prod t : In t (prod_tiles xs ys) <-> exists x y, In x xs /\ In y ys /\ t = f x y.
  Proof.
    unfold prod_tiles. rewrite in_flat_map. split.
    - intros (x & Hx & H). apply in_map_iff in H as (y & <- & Hy). eauto.
    - intros (x & y & Hx & Hy & ->). exists x. split; [exact Hx|]. now apply in_map.
  Qed.
  Lemma nodup_prod : NoDup xs -> NoDup ys -> NoDup (prod_tiles xs ys).
  Proof.
    intros Hx Hy. unfold prod_tiles. induction Hx as [|x xs' N Hx IH]; [constructor|].
    cbn [flat_map]. apply nodup_app.
    - apply Injective_map_NoDup; [|exact Hy]. intros a b E. now apply inj in E.
    - exact IH.
    - intros t H1 H2. apply in_map_iff in H1 as (y & <- & _).
      apply in_flat_map in H2 as (x' & Hx' & H2). apply in_map_iff in H2 as (y' & E & _).
      apply inj in E as [-> _]. contradiction.
  Qed.
  Lemma length_prod : length (prod_tiles xs ys) = (length xs * length ys)%nat.
  Proof.
    unfold prod_tiles. induction xs as [|x l IH]; [reflexivity|].
    cbn [flat_map]. rewrite app_length, map_length, IH. reflexivity.
  Qed.
End Prod.

Lemma visit_feeds {S} (yield : S -> tile -> S * bool) ts : forall s, feeds yield s ts (fst (visit yield s ts)).
Proof.
  induction ts as [|t ts IH]; intros s; cbn [visit]; [constructor|].
  destruct (yield s t) as [s1 go] eqn:E. destruct go.
  - eapply feeds_go; eauto.
  - now apply feeds_stop.
Qed.

Lemma i64_id z : - 2 ^ 63 <= z < 2 ^ 63 -> i64 z = z.
Proof.
  intros H. unfold i64. destruct (Z_lt_dec z 0).
  - replace (z mod 2 ^ 64) with (z + 2 ^ 64).
    + destruct (_ <? _) eqn:E; lia.
    + rewrite <- (Z.mod_add z 1) by lia. rewrite Z.mod_small; lia.
  - rewrite Z.mod_small by lia. destruct (_ <? _) eqn:E; lia.
Qed.
Lemma u64_id z : 0 <= z < 2 ^ 64 -> u64 z = z.
Proof. intros H. unfold u64. now apply Z.mod_small. Qed.

Lemma zoom_n_int m : 0 <= m <= 62 -> f64_to_i64 (zoom_n m) = 2 ^ m.
Proof.
  intros H.
  assert (A : forallb (fun i => f64_to_i64 (zoom_n (Z.of_nat i)) =? 2 ^ Z.of_nat i) (seq 0 63) = true)
    by (vm_compute; reflexivity).
  rewrite forallb_forall in A. specialize (A (Z.to_nat m)).
  rewrite Z2Nat.id in A by lia. apply Z.eqb_eq. apply A. apply in_seq. lia.
Qed.

Lemma pow_lt63 a m : 0 <= a -> 0 <= m -> (a + 1) * 2 ^ m < 2 ^ 63 -> m <= 62.
Proof.
  intros Ha Hm H. apply Z.nlt_ge. intros C.
  assert (2 ^ 63 <= 2 ^ m) by (apply Z.pow_le_mono_r; lia). nia.
Qed.

Definition descendants (t : tile) (zoom : Z) : list tile :=
  let d := 2 ^ (zoom - t_z t) in
  prod_tiles (Tile zoom) (range (t_x t * d) (t_x t * d + d)) (range (t_y t * d) (t_y t * d + d)).
Definition ancestor (t : tile) (zoom : Z) : tile :=
  let d := 2 ^ (t_z t - zoom) in Tile zoom (t_x t / d) (t_y t / d).
Definition family (t : tile) (zoom : Z) : list tile :=
  if zoom <=? t_z t then [ancestor t zoom] else descendants t zoom.

Lemma family_at_spec {S} (yield : S -> tile -> S * bool) t zoom s : room t zoom ->
  exists s', family_at yield t zoom s = Ok s' /\ feeds yield s (family t zoom) s'.
Proof.
  intros (Hz & Ht & Hx & Hy & Hr). unfold family_at, family, ancestor.
  destruct (Z.leb_spec zoom (t_z t)) as [L|L].
  - rewrite !Z.shiftr_div_pow2 by lia. eexists. split; [reflexivity|].
    destruct (yield s _) as [s1 go] eqn:E. cbn [fst]. destruct go.
    + eapply feeds_go; [exact E|constructor].
    + apply feeds_stop. exact E.
  - destruct (Hr L) as [Rx Ry].
    rewrite (i64_id zoom), (i64_id (t_z t)) by lia. rewrite (i64_id (zoom - t_z t)) by lia.
    assert (M : zoom - t_z t <= 62) by (apply (pow_lt63 (t_x t)); lia).
    rewrite zoom_n_int by lia.
    destruct (Z.ltb_spec (zoom - t_z t) 0); [lia|].
    rewrite !Z.shiftl_mul_pow2 by lia.
    set (d := 2 ^ (zoom - t_z t)) in *.
    assert (Hd : 0 < d) by (apply Z.pow_pos_nonneg; lia).
    assert (t_x t < 2 ^ 63) by nia. assert (t_y t < 2 ^ 63) by nia.
    rewrite (i64_id (t_x t)), (i64_id (t_y t)) by lia.
    rewrite (i64_id (t_x t * d)), (i64_id (t_y t * d)) by nia.
    rewrite (i64_id (t_x t * d + d)), (i64_id (t_y t * d + d)) by nia.
    eexists. split; [reflexivity|].
    match goal with |- feeds _ _ _ (fst (visit _ _ ?l)) => assert (E : l = descendants t zoom) end.
    { unfold descendants. fold d. unfold prod_tiles.
      apply flat_map_ext_in. intros x Hxi. apply in_range in Hxi.
      apply map_ext_in. intros y Hyi. apply in_range in Hyi.
      rewrite !u64_id by nia. reflexivity. }
    rewrite E. apply visit_feeds.
Qed.

Lemma overlap_down a b m : 0 <= m -> 0 <= a -> (a * 2 ^ m < b + 1 /\ b < (a + 1) * 2 ^ m) <-> a * 2 ^ m <= b < a * 2 ^ m + 2 ^ m.
Proof. intros. nia. Qed.

Lemma overlap_up a b d : 0 < d -> (a < (b + 1) * d /\ b * d < a + 1) <-> b = a / d.
Proof.
  intros Hd. split.
  - intros [H1 H2]. apply (Z.div_unique a d b (a - d * b)); nia.
  - intros ->. pose proof (Z.div_mod a d ltac:(lia)). pose proof (Z.mod_pos_bound a d Hd). nia.
Qed.

Lemma overlap_iff t u : 0 <= t_z t -> 0 <= t_z u -> 0 <= t_x t -> 0 <= t_y t ->
  overlap t u <->
  (if t_z u <=? t_z t then t_x u = t_x t / 2 ^ (t_z t - t_z u) /\ t_y u = t_y t / 2 ^ (t_z t - t_z u)
   else t_x t * 2 ^ (t_z u - t_z t) <= t_x u < t_x t * 2 ^ (t_z u - t_z t) + 2 ^ (t_z u - t_z t) /\
        t_y t * 2 ^ (t_z u - t_z t) <= t_y u < t_y t * 2 ^ (t_z u - t_z t) + 2 ^ (t_z u - t_z t)).
Proof.
  intros Ht Hu Hx Hy. unfold overlap.
  destruct (Z.leb_spec (t_z u) (t_z t)) as [L|L].
  - assert (E : 2 ^ t_z t = 2 ^ (t_z t - t_z u) * 2 ^ t_z u) by (rewrite <- Z.pow_add_r by lia; f_equal; lia).
    rewrite E. set (d := 2 ^ (t_z t - t_z u)). set (p := 2 ^ t_z u).
    assert (Hd : 0 < d) by (apply Z.pow_pos_nonneg; lia). assert (Hp : 0 < p) by (apply Z.pow_pos_nonneg; lia).
    rewrite <- (overlap_up (t_x t) (t_x u) d Hd), <- (overlap_up (t_y t) (t_y u) d Hd).
    rewrite !Z.mul_assoc, <- !Z.mul_lt_mono_pos_r by lia. tauto.
  - assert (E : 2 ^ t_z u = 2 ^ (t_z u - t_z t) * 2 ^ t_z t) by (rewrite <- Z.pow_add_r by lia; f_equal; lia).
    rewrite E. set (d := 2 ^ (t_z u - t_z t)). set (p := 2 ^ t_z t).
    assert (Hd : 0 < d) by (apply Z.pow_pos_nonneg; lia). assert (Hp : 0 < p) by (apply Z.pow_pos_nonneg; lia).
    rewrite !Z.mul_assoc, <- !Z.mul_lt_mono_pos_r by lia. nia.
Qed.

Lemma family_in t zoom u : 0 <= t_z t -> 0 <= zoom -> 0 <= t_x t -> 0 <= t_y t ->
  In u (family t zoom) <-> t_z u = zoom /\ overlap t u.
Proof.
  intros Ht Hz Hx Hy. unfold family. split.
  - intros H. assert (E : t_z u = zoom).
    { destruct (_ <=? _); [destruct H as [<-|[]]; reflexivity|].
      apply in_prod in H as (x & y & _ & _ & ->). reflexivity. }
    split; [exact E|]. apply overlap_iff; try lia. rewrite E.
    destruct (zoom <=? t_z t).
    + destruct H as [<-|[]]. now split.
    + apply in_prod in H as (x & y & H1 & H2 & ->). apply in_range in H1. apply in_range in H2.
      cbn [t_x t_y t_z] in *. lia.
  - intros [E H]. apply overlap_iff in H; try lia. rewrite E in H. destruct u as [uz ux uy]. cbn [t_x t_y t_z] in *. subst uz.
    destruct (zoom <=? t_z t).
    + left. destruct H as [-> ->]. reflexivity.
    + apply in_prod. exists ux, uy. rewrite !in_range. split; [lia|]. split; [lia|reflexivity].
Qed.

Lemma family_nodup t zoom : NoDup (family t zoom).
Proof.
  unfold family. destruct (_ <=? _); [constructor; [easy|constructor]|].
  apply nodup_prod; [|apply nodup_range|apply nodup_range]. intros. inversion H. auto.
Qed.

Lemma family_length t zoom : 0 <= t_z t -> 0 <= zoom ->
  length (family t zoom) = if zoom <=? t_z t then 1%nat else Z.to_nat (4 ^ (zoom - t_z t)).
Proof.
  intros. unfold family. destruct (Z.leb_spec zoom (t_z t)); [reflexivity|].
  unfold descendants. rewrite length_prod, !length_range.
  replace (4 ^ (zoom - t_z t)) with (2 ^ (zoom - t_z t) * 2 ^ (zoom - t_z t)).
  - assert (0 < 2 ^ (zoom - t_z t)) by (apply Z.pow_pos_nonneg; lia). nia.
  - rewrite <- Z.pow_mul_l. reflexivity.
Qed.

Lemma family_in_grid t zoom u : in_grid t -> 0 <= zoom -> In u (family t zoom) -> in_grid u.
Proof.
  intros (Hz & Hx & Hy) H0 H. apply family_in in H; try lia. destruct H as [E H].
  apply overlap_iff in H; try lia. unfold in_grid. rewrite E in *. split; [exact H0|].
  destruct (Z.leb_spec zoom (t_z t)) as [L|L].
  - assert (Ep : 2 ^ t_z t = 2 ^ (t_z t - zoom) * 2 ^ zoom) by (rewrite <- Z.pow_add_r by lia; f_equal; lia).
    assert (0 < 2 ^ (t_z t - zoom)) by (apply Z.pow_pos_nonneg; lia).
    destruct H as [-> ->]. repeat split; try (apply Z.div_pos; lia); apply Z.div_lt_upper_bound; lia.
  - assert (Ep : 2 ^ zoom = 2 ^ (zoom - t_z t) * 2 ^ t_z t) by (rewrite <- Z.pow_add_r by lia; f_equal; lia).
    assert (0 < 2 ^ (zoom - t_z t)) by (apply Z.pow_pos_nonneg; lia). nia.
Qed.

Theorem family_all t zoom : room t zoom ->
  exists ts, NoDup ts /\ (forall u, In u ts <-> t_z u = zoom /\ overlap t u) /\
    length ts = (if zoom <=? t_z t then 1%nat else Z.to_nat (4 ^ (zoom - t_z t))) /\
    forall S (yield : S -> tile -> S * bool) s,
      exists s', family_at yield t zoom s = Ok s' /\ feeds yield s ts s'.
Proof.
  intros H. pose proof H as (Hz & Ht & Hx & Hy & _). exists (family t zoom).
  split; [apply family_nodup|]. split; [intros; apply family_in; lia|].
  split; [apply family_length; lia|]. intros. now apply family_at_spec.
Qed.

(** FromBounds *)
Theorem from_bounds_spec g mn mx z p1 p2 :
  from_native g z mn = Ok p1 -> from_native g z mx = Ok p2 ->
  0 <= t_x p1 < 2 ^ 64 - 1 -> 0 <= t_x p2 < 2 ^ 64 - 1 -> 0 <= t_y p1 < 2 ^ 64 - 1 -> 0 <= t_y p2 < 2 ^ 64 - 1 ->
  24 * ((Z.abs (t_x p1 - t_x p2) + 1) * (Z.abs (t_y p1 - t_y p2) + 1)) <= 2 ^ 48 ->
  exists ts, from_bounds g (Some (mn, mx)) z = Ok ts /\ NoDup ts /\
    forall t, In t ts <-> t_z t = z /\
      (t_x p1 <= t_x t <= t_x p2 \/ t_x p2 <= t_x t <= t_x p1) /\
      (t_y p1 <= t_y t <= t_y p2 \/ t_y p2 <= t_y t <= t_y p1).
Proof.
  intros H1 H2 X1 X2 Y1 Y2 Hs. unfold from_bounds. rewrite H1, H2. cbn [bind].
  set (qx := if t_x p2 <? t_x p1 then _ else _).
  assert (Ex : exists a b, qx = (a, b) /\ a <= b /\ 0 <= a /\ b < 2 ^ 64 - 1 /\ b - a = Z.abs (t_x p1 - t_x p2) /\
     forall x, a <= x <= b <-> (t_x p1 <= x <= t_x p2 \/ t_x p2 <= x <= t_x p1)).
  { unfold qx. destruct (Z.ltb_spec (t_x p2) (t_x p1)); do 2 eexists; (split; [reflexivity|]); do 4 (split; [lia|]); intros; lia. }
  destruct Ex as (a & b & -> & Lab & A0 & B0 & Dab & Rx).
  set (qy := if t_y p2 <? t_y p1 then _ else _).
  assert (Ey : exists c d, qy = (c, d) /\ c <= d /\ 0 <= c /\ d < 2 ^ 64 - 1 /\ d - c = Z.abs (t_y p1 - t_y p2) /\
     forall y, c <= y <= d <-> (t_y p1 <= y <= t_y p2 \/ t_y p2 <= y <= t_y p1)).
  { unfold qy. destruct (Z.ltb_spec (t_y p2) (t_y p1)); do 2 eexists; (split; [reflexivity|]); do 4 (split; [lia|]); intros; lia. }
  destruct Ey as (c & d & -> & Lcd & C0 & D0 & Dcd & Ry).
  rewrite <- Dab, <- Dcd in Hs. rewrite !u64_id by lia. unfold make_tiles.
  rewrite u64_id by nia.
  destruct (Z.ltb_spec (2 ^ 48) ((b - a + 1) * (d - c + 1) * 24)); [lia|]. cbn [bind app].
  destruct (Z.eqb_spec b (2 ^ 64 - 1)); [lia|]. destruct (Z.eqb_spec d (2 ^ 64 - 1)); [lia|]. cbn [orb].
  eexists. split; [reflexivity|].
  change (flat_map _ _) with (prod_tiles (Tile z) (urange a b) (urange c d)). split.
  - apply nodup_prod; [|apply nodup_range|apply nodup_range]. intros ? ? ? ? E. inversion E. auto.
  - intros t. rewrite in_prod. unfold urange. split.
    + intros (x & y & Hx & Hy & ->). apply in_range in Hx. apply in_range in Hy. cbn [t_x t_y t_z].
      rewrite <- Rx, <- Ry. lia.
    + intros (E & Hx & Hy). rewrite <- Rx in Hx. rewrite <- Ry in Hy. exists (t_x t), (t_y t). rewrite !in_range.
      split; [lia|]. split; [lia|]. destruct t; cbn in *. now subst.
Qed.

(** Less *)
Lemma less_irrefl t : t_less t t = false.
Proof. unfold t_less. rewrite !Z.eqb_refl. cbn [negb]. lia. Qed.
Lemma less_trans a b c : t_less a b = true -> t_less b c = true -> t_less a c = true.
Proof.
  unfold t_less.
  destruct (Z.eqb_spec (t_z a) (t_z b)), (Z.eqb_spec (t_z b) (t_z c)), (Z.eqb_spec (t_z a) (t_z c)),
    (Z.eqb_spec (t_x a) (t_x b)), (Z.eqb_spec (t_x b) (t_x c)), (Z.eqb_spec (t_x a) (t_x c)); cbn [negb]; lia.
Qed.
Lemma less_total a b : a <> b -> t_less a b = true \/ t_less b a = true.
Proof.
  destruct a as [z x y], b as [z' x' y']. intros N. unfold t_less. cbn [t_x t_y t_z].
  assert (z <> z' \/ x <> x' \/ y <> y').
  { destruct (Z.eq_dec z z'); [|now left]. destruct (Z.eq_dec x x'); [|now (right; left)].
    destruct (Z.eq_dec y y'); [|now (right; right)]. subst. congruence. }
  destruct (Z.eqb_spec z z'), (Z.eqb_spec z' z), (Z.eqb_spec x x'), (Z.eqb_spec x' x); cbn [negb]; lia.
Qed.
Lemma less_lex a b : t_less a b = true <->
  t_z a < t_z b \/ t_z a = t_z b /\ (t_x a < t_x b \/ t_x a = t_x b /\ t_y a < t_y b).
Proof.
  unfold t_less. destruct (Z.eqb_spec (t_z a) (t_z b)), (Z.eqb_spec (t_x a) (t_x b)); cbn [negb]; lia.
Qed.
Lemma equal_iff a b : t_equal a b = true <-> a = b.
Proof.
  unfold t_equal. destruct a as [z x y], b as [z' x' y']. cbn [t_x t_y t_z]. split.
  - intros H. f_equal; lia.
  - intros E. inversion E. lia.
Qed.
