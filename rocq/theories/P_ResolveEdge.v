(** * Proofs about directions around a vertex *)
From Coq Require Import Bool List ZArith Lia.
From Verif Require Import S_Winding S_ResolveEdge.
Import ListNotations.
Open Scope Z_scope.

Definition nz (v : Z * Z) : Prop := v <> (0, 0).
Lemma nz_cases v : nz v -> fst v <> 0 \/ snd v <> 0.
Proof. destruct v as [x y]. unfold nz. cbn. intros N. destruct (Z.eq_dec x 0), (Z.eq_dec y 0); subst; tauto. Qed.

Definition upperb (v : Z * Z) : bool := (0 <? snd v) || ((snd v =? 0) && (0 <? fst v)).
Lemma upperb_spec v : upperb v = true <-> upper v.
Proof. unfold upperb, upper. rewrite orb_true_iff, andb_true_iff, !Z.ltb_lt, Z.eqb_eq. reflexivity. Qed.
Definition beforeb (u v : Z * Z) : bool := upperb u && negb (upperb v) || Bool.eqb (upperb u) (upperb v) && (0 <? cross u v).
Lemma beforeb_spec u v : beforeb u v = true <-> before u v.
Proof.
  unfold beforeb, before. rewrite orb_true_iff, !andb_true_iff, negb_true_iff, Z.ltb_lt, <- !upperb_spec.
  destruct (upperb u), (upperb v); cbn; intuition congruence.
Qed.
Lemma plucker a b d : cross a b * snd d = cross a d * snd b + cross d b * snd a /\ cross a b * fst d = cross a d * fst b + cross d b * fst a.
Proof. unfold cross. split; ring. Qed.
Lemma cross_anti a b : cross a b = - cross b a. Proof. unfold cross. ring. Qed.

Lemma upper_trans u v w : upper u -> upper v -> upper w -> 0 < cross u v -> 0 < cross v w -> 0 < cross u w.
Proof.
  destruct u as [ux uy], v as [vx vy], w as [wx wy]. unfold upper, cross. cbn. intros U V W A B.
  assert (I : (ux * wy - wx * uy) * vy = (ux * vy - vx * uy) * wy + (vx * wy - wx * vy) * uy) by ring.
  destruct V as [V|[V V']]; [|subst vy; nia].
  destruct U as [U|[U U']], W as [W|[W W']]; nia.
Qed.
Lemma lower_up v : nz v -> ~ upper v -> upper (- fst v, - snd v).
Proof. intros N. apply nz_cases in N. unfold upper. cbn. lia. Qed.
Lemma before_trans u v w : nz u -> nz v -> nz w -> before u v -> before v w -> before u w.
Proof.
  intros U V W [[A B]|[A B]] [[C D]|[C D]]; unfold before.
  - tauto.
  - left. tauto.
  - left. tauto.
  - right. split; [tauto|]. rewrite <- !upperb_spec in *.
    destruct (upperb v) eqn:E.
    + apply (upper_trans u v w); try apply upperb_spec; try assumption; tauto.
    + assert (upperb u = false) by (destruct (upperb u); [destruct A as [A _]; specialize (A eq_refl); congruence|reflexivity]).
      assert (upperb w = false) by (destruct (upperb w); [destruct C as [_ C]; specialize (C eq_refl); congruence|reflexivity]).
      assert (K : forall z, nz z -> upperb z = false -> upper (- fst z, - snd z)).
      { intros z Z0 Z1. apply lower_up; [exact Z0|]. rewrite <- upperb_spec, Z1. discriminate. }
      pose proof (upper_trans (- fst u, - snd u) (- fst v, - snd v) (- fst w, - snd w) (K u U H) (K v V E) (K w W H0)) as T.
      unfold cross in *. cbn [fst snd] in *. lia.
Qed.
Lemma before_irrefl u : ~ before u u.
Proof. unfold before, cross. intros [[A B]|[_ A]]; [tauto|lia]. Qed.
Lemma before_total u v : nz u -> nz v -> before u v \/ before v u \/ same_dir u v.
Proof.
  intros U V. unfold before, same_dir. rewrite <- !upperb_spec. destruct (upperb u) eqn:E, (upperb v) eqn:F.
  2, 3: intuition congruence.
  all: rewrite (cross_anti v u); destruct (Z.lt_trichotomy (cross u v) 0) as [L|[L|L]]; [right; left; right; split; [tauto|lia]| |left; right; split; [tauto|lia]].
  all: right; right; split; [exact L|].
  - apply upperb_spec in E. apply upperb_spec in F. clear U V. destruct u as [ux uy], v as [vx vy]. unfold upper, cross, dot in *. cbn in *. nia.
  - assert (~ upper u) by (rewrite <- upperb_spec, E; discriminate). assert (~ upper v) by (rewrite <- upperb_spec, F; discriminate).
    apply nz_cases in U. apply nz_cases in V. clear E F. destruct u as [ux uy], v as [vx vy]. unfold upper, cross, dot in *. cbn in *. nia.
Qed.
Lemma same_dir_sym u v : same_dir u v -> same_dir v u.
Proof. unfold same_dir. rewrite (cross_anti v u). unfold dot. lia. Qed.
Lemma same_upper u v : same_dir u v -> upper u -> upper v.
Proof. destruct u as [ux uy], v as [vx vy]. unfold same_dir, upper, cross, dot. cbn. intros [A B] [C|[C C']].
  - left. assert (I : (ux * vx + uy * vy) * uy = vy * (ux * ux + uy * uy)) by (replace ((ux * vx + uy * vy) * uy) with (ux * (vx * uy) + uy * uy * vy) by ring; replace (vx * uy) with (ux * vy) by lia; ring).
    assert (0 < (ux * vx + uy * vy) * uy) by nia. assert (0 < ux * ux + uy * uy) by nia. nia.
  - subst uy. assert (ux * vy = 0) by lia. assert (vy = 0) by nia. right. subst vy. split; [reflexivity|]. nia.
Qed.
Lemma same_before u v w : same_dir u v -> before w u -> before w v.
Proof.
  intros S. pose proof (same_upper u v S). pose proof (same_upper v u (same_dir_sym _ _ S)). unfold before. intros [A|[A B]]; [left; tauto|right].
  split; [tauto|]. clear H H0 A. destruct u as [ux uy], v as [vx vy], w as [wx wy]. unfold same_dir, cross, dot in *. cbn in *. destruct S as [S1 S2].
  assert (0 < (wx * vy - vx * wy) * (ux * ux + uy * uy)); [|nia].
  replace ((wx * vy - vx * wy) * (ux * ux + uy * uy)) with ((wx * uy - ux * wy) * (ux * vx + uy * vy) + (wx * ux + wy * uy) * (ux * vy - vx * uy)) by ring.
  rewrite S1. rewrite Z.mul_0_r, Z.add_0_r. apply Z.mul_pos_pos; assumption.
Qed.
Lemma same_irrefl u v : same_dir u v -> ~ before u v.
Proof. intros [A B] [[C D]|[_ C]]; [|lia]. apply D, (same_upper u v); [split; assumption|exact C]. Qed.

(** Ranks. *)
Definition rk (l : list (Z * Z)) (v : Z * Z) : Z := Z.of_nat (length (filter (fun u => beforeb u v) l)).
Lemma filter_le {A} (f g : A -> bool) l : (forall x, In x l -> f x = true -> g x = true) -> (length (filter f l) <= length (filter g l))%nat.
Proof.
  induction l as [|a l IH]; [reflexivity|]. intros H. cbn [filter]. specialize (IH (fun x X => H x (or_intror X))).
  destruct (f a) eqn:F; [rewrite (H a (or_introl eq_refl) F); cbn; lia|]. destruct (g a); cbn; lia.
Qed.
Lemma filter_lt {A} (f g : A -> bool) l x : In x l -> f x = false -> g x = true ->
  (forall x, In x l -> f x = true -> g x = true) -> (length (filter f l) < length (filter g l))%nat.
Proof.
  induction l as [|a l IH]; intros I F G H; [destruct I|]. cbn [filter]. destruct I as [<-|I].
  - rewrite F, G. cbn. apply Nat.lt_succ_r, filter_le. intros y Y. apply H. right. exact Y.
  - specialize (IH I F G (fun y Y => H y (or_intror Y))). destruct (f a) eqn:Fa; [rewrite (H a (or_introl eq_refl) Fa); cbn; lia|]. destruct (g a); cbn; lia.
Qed.
Lemma rk_lt l u v : (forall x, In x l -> nz x) -> In u l -> In v l -> (before u v <-> rk l u < rk l v).
Proof.
  intros N U V. assert (K : forall u v, In u l -> In v l -> before u v -> rk l u < rk l v).
  { clear u v U V. intros u v U V B. unfold rk. apply Nat2Z.inj_lt. apply (filter_lt _ _ l u U).
    - apply not_true_iff_false. rewrite beforeb_spec. apply before_irrefl.
    - apply beforeb_spec, B.
    - intros x X. rewrite !beforeb_spec. intros Q. apply (before_trans x u v); auto. }
  split; [apply K; assumption|]. intros L. destruct (before_total u v (N u U) (N v V)) as [B|[B|B]]; [exact B| |].
  - specialize (K v u V U B). lia.
  - exfalso. assert (rk l v <= rk l u); [|lia]. unfold rk. apply Nat2Z.inj_le, filter_le. intros x _. rewrite !beforeb_spec. apply same_before, same_dir_sym, B.
Qed.
Lemma rk_eq l u v : (forall x, In x l -> nz x) -> In u l -> In v l -> (same_dir u v <-> rk l u = rk l v).
Proof.
  intros N U V. split.
  - intros S. assert (rk l u <= rk l v /\ rk l v <= rk l u); [|lia]. split; unfold rk; apply Nat2Z.inj_le, filter_le; intros x _; rewrite !beforeb_spec; apply same_before;
      [exact S|apply same_dir_sym, S].
  - intros E. destruct (before_total u v (N u U) (N v V)) as [B|[B|B]]; [| |exact B]; apply (rk_lt l) in B; try assumption; lia.
Qed.
Definition cyc (a d b : Z) : Prop := a < d < b \/ d < b <= a \/ b <= a < d.
Lemma between_rk l a d b : (forall x, In x l -> nz x) -> In a l -> In d l -> In b l -> (between a d b <-> cyc (rk l a) (rk l d) (rk l b)).
Proof.
  intros N A D B. unfold between, cyc. rewrite !(rk_lt l) by assumption. lia.
Qed.

(** Cross products decide. *)
Lemma halves v : nz v -> (upper v /\ (0 < snd v \/ snd v = 0 /\ 0 < fst v)) \/ (~ upper v /\ (snd v < 0 \/ snd v = 0 /\ fst v < 0)).
Proof. intros N. apply nz_cases in N. unfold upper. lia. Qed.
Lemma zero_cross u v : nz u -> nz v -> cross u v = 0 -> same_dir u v \/ opposite u v.
Proof.
  intros U V C. assert (N : dot u v <> 0).
  { intros D. apply nz_cases in U. apply nz_cases in V. destruct u as [ux uy], v as [vx vy]. unfold cross, dot in *. cbn in *.
    assert ((ux * ux + uy * uy) * (vx * vx + vy * vy) = 0).
    { replace ((ux * ux + uy * uy) * (vx * vx + vy * vy)) with ((ux * vy - vx * uy) * (ux * vy - vx * uy) + (ux * vx + uy * vy) * (ux * vx + uy * vy)) by ring. rewrite C, D. reflexivity. }
    apply Z.mul_eq_0 in H. destruct H; nia. }
  unfold same_dir, opposite. lia.
Qed.
Definition signs (a d b : Z * Z) : Prop :=
  (0 < cross a b /\ 0 < cross a d /\ 0 < cross d b) \/ (cross a b < 0 /\ (0 < cross a d \/ 0 < cross d b))
   \/ (opposite a b /\ 0 < cross a d) \/ same_dir a b.
Ltac sgn x := let H := fresh in destruct (Z.lt_trichotomy x 0) as [H|[H|H]].
Lemma opposite_halves u v : nz u -> nz v -> opposite u v -> (upper u <-> ~ upper v).
Proof.
  intros U V [A B]. destruct (halves u U) as [[H H']|[H H']], (halves v V) as [[G G']|[G G']]; try tauto; exfalso; clear U V H G;
    destruct u as [ux uy], v as [vx vy]; unfold cross, dot in *; cbn in *; destruct H' as [H|[H H']], G' as [G|[G G']]; subst; try nia.
Qed.
Lemma arith (ua ud ub : bool) ax ay dx dy bx by_ ab ad db :
  (if ua then 0 < ay \/ ay = 0 /\ 0 < ax else ay < 0 \/ ay = 0 /\ ax < 0) ->
  (if ud then 0 < dy \/ dy = 0 /\ 0 < dx else dy < 0 \/ dy = 0 /\ dx < 0) ->
  (if ub then 0 < by_ \/ by_ = 0 /\ 0 < bx else by_ < 0 \/ by_ = 0 /\ bx < 0) ->
  ab * dy = ad * by_ + db * ay -> ab * dx = ad * bx + db * ax ->
  (ua = ud -> ad <> 0) -> (ud = ub -> db <> 0) ->
  (let lad := ua && negb ud || Bool.eqb ua ud && (0 <? ad) in
   let ldb := ud && negb ub || Bool.eqb ud ub && (0 <? db) in
   let lab := ua && negb ub || Bool.eqb ua ub && (0 <? ab) in
   lad && ldb || ldb && negb lab || negb lab && lad)
  = ((0 <? ab) && (0 <? ad) && (0 <? db) || (ab <? 0) && ((0 <? ad) || (0 <? db)) || (ab =? 0) && xorb ua ub && (0 <? ad) || (ab =? 0) && Bool.eqb ua ub).
Proof.
  intros A D B P1 P2 Nda Ndb. cbv zeta.
  destruct (Z.ltb_spec 0 ab) as [K1|K1], (Z.ltb_spec ab 0) as [K1'|K1'], (Z.eqb_spec ab 0) as [K1''|K1'']; try (exfalso; clear - K1 K1' K1''; lia);
  destruct (Z.ltb_spec 0 ad) as [K2|K2], (Z.ltb_spec 0 db) as [K3|K3]; destruct ua, ud, ub; cbn [andb orb negb xorb Bool.eqb]; try reflexivity; exfalso;
  try specialize (Nda eq_refl); try specialize (Ndb eq_refl);
  (assert (E2 : 0 < ad \/ ad = 0 \/ ad < 0) by lia); (assert (E3 : 0 < db \/ db = 0 \/ db < 0) by lia);
  destruct E2 as [E2|[E2|E2]]; try (clear - K2 E2 Nda; lia); try (clear - K2 E2; lia);
  destruct E3 as [E3|[E3|E3]]; try (clear - K3 E3 Ndb; lia); try (clear - K3 E3; lia); clear Nda Ndb K2 K3;
  destruct A as [A|[A A']], D as [D|[D D']], B as [B|[B B']]; try (exfalso; clear - K1 K1' K1'' E2 E3 P1 P2 A D B; lia); subst; try nia.
Qed.
Lemma half_if v : nz v -> if upperb v then 0 < snd v \/ snd v = 0 /\ 0 < fst v else snd v < 0 \/ snd v = 0 /\ fst v < 0.
Proof.
  intros N. destruct (halves v N) as [[H H']|[H H']].
  - apply upperb_spec in H. rewrite H. exact H'.
  - rewrite <- upperb_spec in H. apply not_true_iff_false in H. rewrite H. exact H'.
Qed.
Lemma upper_eq u v : (upper u <-> upper v) <-> upperb u = upperb v.
Proof. rewrite <- !upperb_spec. destruct (upperb u), (upperb v); intuition congruence. Qed.
Lemma between_cross a d b : nz a -> nz d -> nz b -> ~ same_dir d a -> ~ same_dir d b -> (between a d b <-> signs a d b).
Proof.
  intros A D B SA SB. destruct (plucker a b d) as [P1 P2].
  pose proof (arith (upperb a) (upperb d) (upperb b) _ _ _ _ _ _ _ _ _ (half_if a A) (half_if d D) (half_if b B) P1 P2) as K.
  cbv zeta in K. fold (beforeb a d) (beforeb d b) (beforeb a b) in K.
  assert (E : between a d b <-> beforeb a d && beforeb d b || beforeb d b && negb (beforeb a b) || negb (beforeb a b) && beforeb a d = true).
  { unfold between. rewrite <- !beforeb_spec. destruct (beforeb a d), (beforeb d b), (beforeb a b); cbn; intuition congruence. }
  rewrite E, K; clear E K.
  - unfold signs. rewrite !orb_true_iff, !andb_true_iff, orb_true_iff, !Z.ltb_lt, Z.eqb_eq.
    assert (O : opposite a b <-> cross a b = 0 /\ xorb (upperb a) (upperb b) = true).
    { split.
      - intros O. split; [apply O|]. apply opposite_halves in O; try assumption. rewrite <- !upperb_spec in O. destruct (upperb a), (upperb b); cbn; intuition congruence.
      - intros [C X]. destruct (zero_cross a b A B C) as [S|S]; [|exact S]. exfalso.
        pose proof (same_upper a b S). pose proof (same_upper b a (same_dir_sym _ _ S)). rewrite <- !upperb_spec in *. destruct (upperb a), (upperb b); cbn in X; intuition congruence. }
    assert (S : same_dir a b <-> cross a b = 0 /\ Bool.eqb (upperb a) (upperb b) = true).
    { split.
      - intros S. split; [apply S|]. apply eqb_true_iff, upper_eq. split; apply same_upper; [exact S|apply same_dir_sym, S].
      - intros [C X]. apply eqb_true_iff, upper_eq in X. destruct (zero_cross a b A B C) as [S|S]; [exact S|]. apply opposite_halves in S; tauto. }
    rewrite O, S. tauto.
  - intros H C. apply upper_eq in H. destruct (zero_cross d a D A) as [S|S]; [rewrite cross_anti; lia|apply SA, S|]. apply opposite_halves in S; tauto.
  - intros H C. apply upper_eq in H. destruct (zero_cross d b D B C) as [S|S]; [apply SB, S|]. apply opposite_halves in S; tauto.
Qed.
