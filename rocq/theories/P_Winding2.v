From Coq Require Import ZArith Bool List Lia.
From Coq Require Import ZifyBool ZifyNat.
From Verif Require Import Base_F64 Base_F64Arith Base_Geom P_F64Flocq P_F64Grid P_List M_Winding S_Winding P_Winding.
Import ListNotations.
Open Scope Z_scope.

Lemma on_grid_int r : (forall p, In p r -> Z.abs (fst p) <= 2 ^ 53 /\ Z.abs (snd p) <= 2 ^ 53) ->
  on_grid 0 r (map fpt r).
Proof.
  induction r as [|p r IH]; intros H; [constructor|].
  cbn [map]. constructor.
  - destruct (H p (or_introl eq_refl)). split; cbn [fpt fst snd]; now apply repr_ofZ.
  - apply IH. intros q Hq. apply H. now right.
Qed.

Lemma grid_exp_0 : grid_exp 0. Proof. unfold grid_exp. lia. Qed.

Lemma orientation_int r ypd :
  (forall p, In p r -> Z.abs (fst p) <= 2 ^ 53 /\ Z.abs (snd p) <= 2 ^ 53) -> small_ring r ->
  orientation ypd (map fpt r) = (if ypd then -1 else 1) * Z.sgn (area2 r).
Proof. intros H S. apply (orientation_exact 0); auto using grid_exp_0, on_grid_int. Qed.

Definition ex_rot : list (point f64) := [(0x4340000000000000, 0x4340000000000000); (0xbfd0000000000000, 0x3fd8000000000000); (0x41a0000000400000, 0x41a0000001400000)].
Definition ex_rev : list (point f64) := [(0x0000000000000000, 0x4340000000000000); (0x3fec000000000000, 0x4340000000000000); (0x433fffffffffffff, 0xbfc0000000000000); (0x4340000000000000, 0xbfd8000000000000)].

Ltac all_in := intros p Hp; cbn in Hp;
  repeat match goal with H : _ \/ _ |- _ => destruct H as [H|H] end; subst; try contradiction; vm_compute; auto.

Lemma rotation_rounding : exists pts ypd k,
  (forall p, In p pts -> f64_wf (fst p) = true /\ f64_wf (snd p) = true /\
                         f64_finite (fst p) = true /\ f64_finite (snd p) = true) /\
  orientation ypd (rotate k pts) = wCounterClockwise /\ orientation ypd pts = wClockwise.
Proof. exists ex_rot, false, 1%nat. split; [all_in | vm_compute; auto]. Qed.

Lemma reversal_rounding : exists pts ypd,
  (forall p, In p pts -> f64_wf (fst p) = true /\ f64_wf (snd p) = true /\
                         f64_finite (fst p) = true /\ f64_finite (snd p) = true) /\
  orientation ypd (rev pts) = wCounterClockwise /\ orientation ypd pts = wCounterClockwise.
Proof. exists ex_rev, false. split; [all_in | vm_compute; auto]. Qed.

Lemma rectified_rounding : exists ypd rs outer inp,
  rectify_polygon ypd rs = (Some [outer], inp) /\ orientation ypd outer = wCounterClockwise.
Proof. exists false, [ex_rev], (rev ex_rev), [rev ex_rev]. vm_compute. auto. Qed.

Lemma fix_ring_wound ypd want r e n : grid_exp e -> on_grid e n r -> small_ring n ->
  orientation ypd r <> wColinear -> want = wClockwise \/ want = wCounterClockwise ->
  orientation ypd (fix_ring ypd want r) = want.
Proof.
  intros He F S N W. unfold fix_ring. destruct (Z.eqb_spec (orientation ypd r) want) as [E|E]; [exact E|].
  rewrite (orientation_reverse e n r ypd He F S).
  destruct (orientation_cases ypd r) as [C|[C|C]]; rewrite C in *; unfold wColinear, wClockwise, wCounterClockwise in *; lia.
Qed.

Lemma rectified_windings ypd rs out inp :
  (forall r, In r rs -> exists e n, grid_exp e /\ on_grid e n r /\ small_ring n) ->
  rectify_polygon ypd rs = (Some out, inp) ->
  match out with
  | [] => rs = []
  | outer :: inner =>
      orientation ypd outer = wClockwise /\
      Forall (fun r => orientation ypd r = wCounterClockwise) inner
  end.
Proof.
  intros G. rewrite rectify_polygon_exact. destruct rs as [|r tl].
  - intros H. injection H as <- _. reflexivity.
  - destruct (Z.eqb_spec (orientation ypd r) wColinear) as [E|N]; [discriminate|].
    intros H. injection H as <- _. split.
    + destruct (G r (or_introl eq_refl)) as (e & n & He & F & S).
      apply (fix_ring_wound ypd wClockwise r e n); auto.
    + apply Forall_map, Forall_forall. intros q Hq. apply filter_In in Hq. destruct Hq as [Hq Nq].
      destruct (G q (or_intror Hq)) as (e & n & He & F & S).
      apply (fix_ring_wound ypd wCounterClockwise q e n); auto. lia.
Qed.

Lemma fix_ring_or ypd w r : fix_ring ypd w r = r \/ fix_ring ypd w r = rev r.
Proof. unfold fix_ring. destruct (_ =? _); auto. Qed.

Lemma Forall2_map_r {A B} (R : A -> B -> Prop) f l : (forall x, In x l -> R x (f x)) -> Forall2 R l (map f l).
Proof. induction l; intros H; cbn; constructor; [apply H; now left | apply IHl; intros; apply H; now right]. Qed.

Lemma rectified_kept ypd rs out inp :
  rectify_polygon ypd rs = (Some out, inp) ->
  Forall2 (fun r o => o = r \/ o = rev r)
          (filter (fun r => negb (orientation ypd r =? wColinear)) rs) out.
Proof.
  rewrite rectify_polygon_exact. destruct rs as [|r tl].
  - intros H. injection H as <- _. constructor.
  - cbn [filter]. destruct (orientation ypd r =? wColinear) eqn:E; [discriminate|].
    intros H. injection H as <- _. cbn [negb]. constructor; [apply fix_ring_or|].
    apply Forall2_map_r. intros; apply fix_ring_or.
Qed.

Lemma rectified_nil ypd rs :
  fst (rectify_polygon ypd rs) = None <->
  exists r tl, rs = r :: tl /\ orientation ypd r = wColinear.
Proof.
  rewrite rectify_polygon_exact. destruct rs as [|r tl].
  - split; [discriminate | intros (r & tl & H & _); discriminate].
  - destruct (Z.eqb_spec (orientation ypd r) wColinear) as [E|N]; cbn [fst].
    + split; [intros _; eauto | auto].
    + split; [discriminate|]. intros (r' & tl' & H & E). injection H as -> ->. contradiction.
Qed.

Lemma rectified_argument ypd rs :
  Forall2 (fun r o => o = r \/ (o = rev r /\ orientation ypd r <> wColinear))
          rs (snd (rectify_polygon ypd rs)).
Proof.
  assert (Id : forall l : list (list (point f64)),
    Forall2 (fun r o => o = r \/ (o = rev r /\ orientation ypd r <> wColinear)) l l)
    by (induction l; constructor; auto).
  rewrite rectify_polygon_exact. destruct rs as [|r tl]; [constructor|].
  destruct (Z.eqb_spec (orientation ypd r) wColinear) as [E|N]; cbn [snd]; [apply Id|].
  constructor.
  - destruct (fix_ring_or ypd wClockwise r) as [-> | ->]; auto.
  - apply Forall2_map_r. intros q _. destruct (Z.eqb_spec (orientation ypd q) wColinear); auto.
    destruct (fix_ring_or ypd wCounterClockwise q) as [-> | ->]; auto.
Qed.
