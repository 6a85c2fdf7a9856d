(** * Proofs about resolving an edge: float64 signs, the tables *)
From Coq Require Import Bool List Arith ZArith Lia.
From Verif Require Import Base_F64 Base_F64Arith Base_Res Base_Geom P_F64Grid M_Planar M_Cmp M_Walker M_Winding M_Quadedge M_ResolveEdge
  S_Winding S_Quadedge S_ResolveEdge P_Winding P_ResolveEdge.
Import ListNotations.
Open Scope Z_scope.

Lemma flip_cross ypd o p q : cross (vec ypd o p) (vec ypd o q) = (if ypd then -1 else 1) * cross (vec false o p) (vec false o q).
Proof. unfold cross, vec. cbn [fst snd]. destruct ypd; ring. Qed.
Lemma flip_dot ypd o p q : dot (vec ypd o p) (vec ypd o q) = dot (vec false o p) (vec false o q).
Proof. unfold dot, vec. cbn [fst snd]. destruct ypd; ring. Qed.
Lemma vec_nz ypd o p : p <> o -> nz (vec ypd o p).
Proof. destruct o as [ox oy], p as [px py]. unfold nz, vec. cbn [fst snd]. intros N E. apply N. injection E as E1 E2. destruct ypd; f_equal; lia. Qed.
Lemma vec_same ypd o p q : vec ypd o p = vec ypd o q -> p = q.
Proof. destruct o as [ox oy], p as [px py], q as [qx qy]. unfold vec. cbn [fst snd]. intros E. injection E as E1 E2. destruct ypd; f_equal; lia. Qed.

Lemma sub_repr o p : moderate o -> moderate p ->
  repr 0 (fst p - fst o) (fst (sub_pt (fpt p) (fpt o))) /\ repr 0 (snd p - snd o) (snd (sub_pt (fpt p) (fpt o))).
Proof.
  intros [A B] [C D]. unfold sub_pt, fpt. cbn [fst snd].
  split; (apply repr_sub; [lia|unfold two53; lia| |]; apply repr_ofZ; unfold two53; lia).
Qed.
Lemma cross_exact ypd o p q : moderate o -> moderate p -> moderate q ->
  orientation ypd [sub_pt (fpt p) (fpt o); sub_pt (fpt q) (fpt o); (f64_zero, f64_zero)] = Z.sgn (cross (vec ypd o p) (vec ypd o q)).
Proof.
  intros O P Q. rewrite (orientation_exact 0 [vec false o p; vec false o q; (0, 0)]).
  - rewrite flip_cross. replace (area2 _) with (cross (vec false o p) (vec false o q)) by (unfold area2; cbn [app path_sum]; unfold cross; cbn [fst snd]; ring).
    destruct ypd; rewrite Z.sgn_mul; reflexivity.
  - unfold grid_exp. lia.
  - constructor; [apply sub_repr; assumption|]. constructor; [apply sub_repr; assumption|]. constructor; [split; apply repr_zero|constructor].
  - exists (2 ^ 22). destruct O as [O1 O2], P as [P1 P2], Q as [Q1 Q2]. split; [|cbn [length]; lia].
    intros u v [<-|[<-|[<-|[]]]] [<-|[<-|[<-|[]]]]; unfold vec; cbn [fst snd]; lia.
Qed.

(** The signs of a turn. *)
Lemma signs_cases x : Z.sgn x = -1 /\ x < 0 \/ Z.sgn x = 0 /\ x = 0 \/ Z.sgn x = 1 /\ 0 < x.
Proof. lia. Qed.
Definition table (ypd : bool) := if ypd then table_down else table_up.
Ltac by_signs a b d :=
  destruct (signs_cases (cross a b)) as [[E1 L1]|[[E1 L1]|[E1 L1]]];
  destruct (signs_cases (cross d a)) as [[E2 L2]|[[E2 L2]|[E2 L2]]];
  destruct (signs_cases (cross d b)) as [[E3 L3]|[[E3 L3]|[E3 L3]]];
  rewrite E1, E2, E3; clear E1 E2 E3.

Lemma sgn_cross w u v : nz u -> cross u v = 0 -> Z.sgn (cross w v) = Z.sgn (cross w u) * Z.sgn (dot u v).
Proof.
  intros U C. apply nz_cases in U.
  assert (I : cross w v * dot u u = cross w u * dot u v + dot w u * cross u v) by (unfold cross, dot; ring). rewrite C, Z.mul_0_r, Z.add_0_r in I.
  rewrite <- Z.sgn_mul, <- I, Z.sgn_mul. assert (0 < dot u u) by (unfold dot; nia). rewrite (Z.sgn_pos (dot u u)) by assumption. ring.
Qed.
Lemma table_between ypd a d b c : nz a -> nz d -> nz b -> ~ same_dir d a -> ~ same_dir d b ->
  match table ypd (Z.sgn (cross a b)) (Z.sgn (cross d a)) (Z.sgn (cross d b)) c with
  | Next | Nothing => ~ between a d b
  | TakeA => between a d b
  | ErrA | ErrB => between a d b /\ same_dir a b /\ opposite a d
  | ErrEdge => False
  end.
Proof.
  intros A D B SA SB. pose proof (between_cross a d b A D B SA SB) as BC. destruct (plucker a b d) as [P1 P2].
  assert (Z0 : cross d a = 0 -> opposite a d /\ Z.sgn (cross d b) = - Z.sgn (cross a b)).
  { intros C. assert (O : opposite a d).
    { destruct (zero_cross d a D A C) as [S|[S S']]; [contradiction|]. split; [rewrite cross_anti; lia|]. unfold dot in *. lia. }
    split; [exact O|]. destruct O as [O1 O2]. pose proof (sgn_cross b a d A O1) as Q. rewrite (cross_anti d b), (cross_anti a b). lia. }
  assert (Z1 : cross d b = 0 -> Z.sgn (cross d a) = Z.sgn (cross a b)).
  { intros C. destruct (zero_cross d b D B C) as [S|[S S']]; [contradiction|].
    assert (C' : cross b d = 0) by (rewrite cross_anti; lia). assert (S'' : dot b d < 0) by (unfold dot in *; lia).
    pose proof (sgn_cross a b d B C') as Q. rewrite (cross_anti d a). lia. }
  assert (Z2 : cross a b = 0 -> same_dir a b /\ Z.sgn (cross d b) = Z.sgn (cross d a) \/ opposite a b /\ Z.sgn (cross d b) = - Z.sgn (cross d a)).
  { intros C. pose proof (sgn_cross d a b A C) as Q. destruct (zero_cross a b A B C) as [S|S]; [left|right]; (split; [exact S|]); destruct S; lia. }
  assert (Y1 : same_dir a b -> cross a b = 0) by (intros S; apply S).
  assert (Y2 : opposite a b -> cross a b = 0) by (intros S; apply S).
  assert (Y3 : same_dir a b -> opposite a b -> False) by (intros [_ S] [_ S']; lia).
  assert (Y8 : opposite a b -> cross d a = 0 -> False).
  { intros [O1 O2] C. destruct (Z0 C) as [[O3 O4] S]. apply SB. split; [lia|]. clear - A O1 O2 O3 O4. apply nz_cases in A.
    assert (I : dot d b * dot a a = dot a d * dot a b + cross a d * cross a b) by (unfold dot, cross; ring). rewrite O1 in I.
    assert (0 < dot a a) by (unfold dot; nia). assert (0 < dot a d * dot a b) by (apply Z.mul_neg_neg; assumption). nia. }
  unfold signs in BC. rewrite (cross_anti a d) in *.
  assert (Y7 : cross a b <> 0 -> cross d a = 0 -> cross d b = 0 -> False).
  { intros Q1 Q2 Q3. apply nz_cases in D. rewrite Q2, Q3 in *. clear - Q1 P1 P2 D. nia. }
  clear P1 P2 A D B SA SB.
  remember (cross a b) as x eqn:R1. remember (cross d a) as da eqn:R2. remember (cross d b) as db eqn:R3.
  remember (between a d b) as BT eqn:R4. remember (same_dir a b) as SD eqn:R5. remember (opposite a b) as OP eqn:R6. remember (opposite a d) as O eqn:R7.
  clear R1 R2 R3 R4 R5 R6 R7.
  destruct (signs_cases x) as [[E1 L1]|[[E1 L1]|[E1 L1]]];
  destruct (signs_cases da) as [[E2 L2]|[[E2 L2]|[E2 L2]]];
  destruct (signs_cases db) as [[E3 L3]|[[E3 L3]|[E3 L3]]];
  rewrite E1, E2, E3 in *; destruct ypd; unfold table, table_up, table_down, ccw, cw, zero, wClockwise, wColinear, wCounterClockwise; cbn [Z.eqb Pos.eqb andb orb];
    try (destruct c); try (exfalso; clear - Y7 L1 L2 L3; lia).
  all: try (specialize (Z2 L1); destruct Z2 as [[Sd Q]|[Op Q]]; try discriminate Q).
  all: try (specialize (Z0 L2); destruct Z0 as [Od Q']; try discriminate Q').
  all: try (specialize (Z1 L3); try discriminate Z1).
  all: repeat match goal with
    | |- _ /\ _ => split
    | BC : ?B <-> _ |- ~ ?B => let q := fresh in intros q; apply BC in q; destruct q as [(? & ? & ?)|[(? & [?|?])|[[? ?]|?]]]
    | BC : ?B <-> _ |- ?B => apply BC
    end.
  all: try assumption.
  all: try (exfalso; lia).
  all: try (left; lia); try (right; left; lia); try (right; right; left; split; [assumption|lia]); try (right; right; right; assumption).
  all: try (exfalso; first [let h := fresh in assert (h := Y1 ltac:(assumption)); lia | let h := fresh in assert (h := Y2 ltac:(assumption)); lia]).
  all: try (exfalso; apply Y3; assumption).
  all: try (exfalso; apply Y8; assumption).
Qed.
