(** * Proofs about InsertSite: directions *)
From Coq Require Import Bool List ZArith Lia.
From Verif Require Import Base_F64 Base_Geom S_Winding M_Quadedge S_Quadedge S_Subdivision S_ResolveEdge S_Insert P_ResolveEdge P_ResolveEdge2 P_ResolveEdge3 P_Insert6.
Import ListNotations.
Open Scope Z_scope.

Lemma cross_cyc ypd x p q : cross (vec ypd x p) (vec ypd x q) = cross (vec ypd p q) (vec ypd p x).
Proof. unfold cross, vec. destruct ypd; cbn [fst snd]; ring. Qed.
Lemma cross_nz ypd x p q : cross (vec ypd x p) (vec ypd x q) <> 0 -> p <> x /\ q <> x.
Proof. intros H. split; intros ->; apply H; unfold cross, vec; destruct ypd; cbn [fst snd]; ring. Qed.
Lemma same_cross u v w : nz u -> same_dir u v -> Z.sgn (cross w v) = Z.sgn (cross w u).
Proof. intros U [C D]. rewrite (sgn_cross w u v U C). replace (Z.sgn (dot u v)) with 1; [ring|]. symmetry. apply Z.sgn_pos_iff, D. Qed.
Lemma pos_apart u v : 0 < cross u v -> ~ same_dir u v /\ ~ same_dir v u.
Proof. intros C. split; intros [Q _]; [|rewrite cross_anti in Q]; lia. Qed.
Lemma same_refl u : nz u -> same_dir u u.
Proof. intros U. split; [unfold cross; ring|]. unfold dot. destruct (nz_cases u U); nia. Qed.
Lemma full_turn a d : nz a -> nz d -> ~ same_dir a d -> between a d a.
Proof.
  intros A D N. apply between_cross; try assumption; [intros S; apply N, same_dir_sym, S..|]. do 3 right. apply same_refl, A.
Qed.
(** [d] is less than half a turn after [a] and less than half a turn before [b]. *)
Lemma half_turns a d b : nz a -> nz d -> nz b -> 0 < cross a d -> 0 < cross d b -> between a d b.
Proof.
  intros A D B P Q. apply between_cross; try assumption; [apply (pos_apart a d P)|apply (pos_apart d b Q)|]. unfold signs.
  destruct (Z.lt_trichotomy (cross a b) 0) as [H|[H|H]]; [right; left; auto| |left; auto].
  destruct (zero_cross a b A B H) as [S|S]; [do 3 right; exact S|right; right; left; auto].
Qed.

Section Turns.
  Variables (ypd : bool) (x : Z * Z).
  Let d (p : Z * Z) := vec ypd x p.
  Hypothesis Mx : moderate x.

  Lemma triangle_turns p q r : p <> x -> q <> x -> moderate q -> moderate r ->
    0 <= cross (d p) (d q) -> 0 < cross (d q) (d r) -> 0 < cross (d r) (d p) -> turns ypd x p p [p] [q; r].
  Proof.
    intros Np Nq Mq Mr C1 C2 C3. assert (Nr : r <> x) by (apply (cross_nz ypd x r p); unfold d in C3; lia).
    assert (Zp : nz (d p)) by (apply vec_nz, Np). assert (Zq : nz (d q)) by (apply vec_nz, Nq). assert (Zr : nz (d r)) by (apply vec_nz, Nr).
    assert (N : ~ same_dir (d p) (d q)).
    { intros S. pose proof (same_cross (d p) (d q) (d r) Zp S) as G. rewrite (cross_anti (d r) (d q)) in G.
      apply Z.sgn_pos in C2, C3. rewrite Z.sgn_opp, C2, C3 in G. lia. }
    cbn [turns]. fold (d p) (d q) (d r). split; [apply full_turn; assumption|]. split; [exact Mq|]. split; [exact Nq|].
    split; [intros s [<-|[]]; exact N|]. split; [apply half_turns; assumption|]. split; [exact Mr|]. split; [exact Nr|].
    split; [|exact I]. intros s [<-|[<-|[]]]; [apply (pos_apart (d q) (d r) C2)|apply (pos_apart (d r) (d p) C3)].
  Qed.
  Lemma quad_turns p s q r : moderate s -> moderate q -> moderate r ->
    0 < cross (d p) (d s) -> 0 < cross (d s) (d q) -> 0 < cross (d q) (d r) -> 0 < cross (d r) (d p) -> turns ypd x p p [p] [s; q; r].
  Proof.
    intros Ms Mq Mr C1 C2 C3 C4. destruct (cross_nz ypd x p s) as [Np Ns]; [unfold d in C1; lia|]. destruct (cross_nz ypd x q r) as [Nq Nr]; [unfold d in C3; lia|].
    assert (Zp : nz (d p)) by (apply vec_nz, Np). assert (Zq : nz (d q)) by (apply vec_nz, Nq).
    assert (Zr : nz (d r)) by (apply vec_nz, Nr). assert (Zs : nz (d s)) by (apply vec_nz, Ns).
    assert (Npq : ~ same_dir (d p) (d q)).
    { intros S. pose proof (same_cross (d p) (d q) (d s) Zp S) as G. rewrite (cross_anti (d s) (d p)) in G.
      apply Z.sgn_pos in C1, C2. rewrite Z.sgn_opp, C1, C2 in G. lia. }
    assert (Nsr : ~ same_dir (d s) (d r)).
    { intros S. pose proof (same_cross (d s) (d r) (d q) Zs S) as G. rewrite (cross_anti (d q) (d s)) in G.
      apply Z.sgn_pos in C2, C3. rewrite Z.sgn_opp, C2, C3 in G. lia. }
    assert (Bsqp : between (d s) (d q) (d p)).
    { apply between_cross; try assumption; [apply (pos_apart _ _ C2)|intros S; apply Npq, same_dir_sym, S|]. right; left. rewrite (cross_anti (d s) (d p)). lia. }
    cbn [turns]. fold (d p) (d q) (d r) (d s). split; [apply full_turn; [assumption..|apply (pos_apart _ _ C1)]|]. split; [exact Ms|]. split; [exact Ns|].
    split; [intros t [<-|[]]; apply (pos_apart _ _ C1)|]. split; [exact Bsqp|]. split; [exact Mq|]. split; [exact Nq|].
    split; [intros t [<-|[<-|[]]]; [apply (pos_apart _ _ C2)|exact Npq]|].
    split; [apply half_turns; assumption|]. split; [exact Mr|]. split; [exact Nr|].
    split; [|exact I]. intros t [<-|[<-|[<-|[]]]]; [apply (pos_apart _ _ C3)|exact Nsr|apply (pos_apart _ _ C4)].
  Qed.
End Turns.

Lemma lin n ypd x p s : n * cross (vec ypd x p) (vec ypd x s) =
  (if ypd then -1 else 1) * (n * (fst p * snd s - fst s * snd p) + (n * fst x) * (snd p - snd s) + (n * snd x) * (fst s - fst p)).
Proof. unfold cross, vec. destruct ypd; cbn [fst snd]; ring. Qed.
(** Two triangles on both sides of a segment, seen from a point within it. *)
Lemma segment_around ypd x p q r s : inside_segment x p q -> ccw_triangle ypd p q r -> ccw_triangle ypd q p s ->
  0 < cross (vec ypd x p) (vec ypd x s) /\ 0 < cross (vec ypd x s) (vec ypd x q)
  /\ 0 < cross (vec ypd x q) (vec ypd x r) /\ 0 < cross (vec ypd x r) (vec ypd x p).
Proof.
  intros (k & n & K & X & Y) T1 T2. unfold ccw_triangle in *.
  assert (E : n * cross (vec ypd x p) (vec ypd x s) = k * cross (vec ypd q p) (vec ypd q s)
    /\ n * cross (vec ypd x s) (vec ypd x q) = (n - k) * cross (vec ypd q p) (vec ypd q s)
    /\ n * cross (vec ypd x q) (vec ypd x r) = (n - k) * cross (vec ypd p q) (vec ypd p r)
    /\ n * cross (vec ypd x r) (vec ypd x p) = k * cross (vec ypd p q) (vec ypd p r)).
  { clear T1 T2. rewrite !lin, X, Y. destruct p as [px py], q as [qx qy], r as [rx ry], s as [sx sy]. unfold cross, vec. cbn [fst snd].
    destruct ypd; repeat split; ring. }
  destruct E as (E1 & E2 & E3 & E4). repeat split; nia.
Qed.
