(** * Proofs about resolving an edge: the theorems and examples *)
From Coq Require Import Bool List Arith ZArith Lia.
From Verif Require Import Base_F64 Base_F64Arith Base_Res Base_Geom M_Planar M_Cmp M_Walker M_Winding M_Quadedge M_ResolveEdge
  S_Winding S_Quadedge S_ResolveEdge S_MvtPrepare P_MvtPrepare3 P_Winding2 P_Quadedge P_Quadedge2 P_Quadedge3 P_ResolveEdge P_ResolveEdge2 P_ResolveEdge3 P_ResolveEdge4.
Import ListNotations.
Open Scope Z_scope.

Lemma resolve_sector ypd m gse l o at_ x : history m -> star ypd m (gse :: l) o at_ -> moderate x -> x <> o ->
  (forall e, In e (gse :: l) -> ~ same_dir (vec ypd o (at_ e)) (vec ypd o x)) ->
  exists r err, resolve_edge ypd m gse (fpt x) = Ok (r, err)
  /\ (err = None \/ err = Some EColinear /\ l = [] /\ opposite (vec ypd o (at_ gse)) (vec ypd o x))
  /\ match r with
     | Some e => exists l1 l2, gse :: l = l1 ++ e :: l2 /\ in_sector ypd m o at_ x e /\ forall f, In f l1 -> ~ in_sector ypd m o at_ x f
     | None => forall f, In f (gse :: l) -> ~ in_sector ypd m o at_ x f
     end.
Proof. intros H S X XO Off. exact (resolve_off ypd m o at_ x gse l H S X XO Off). Qed.

Lemma resolve_ordered ypd m gse l o at_ x : history m -> star ypd m (gse :: l) o at_ -> in_order ypd m (gse :: l) o at_ -> moderate x -> x <> o ->
  (forall e, In e (gse :: l) -> ~ same_dir (vec ypd o (at_ e)) (vec ypd o x)) ->
  exists e err, resolve_edge ypd m gse (fpt x) = Ok (Some e, err) /\ In e (gse :: l) /\ in_sector ypd m o at_ x e
  /\ forall f, In f (gse :: l) -> in_sector ypd m o at_ x f -> f = e.
Proof.
  intros H S Or X XO Off. destruct (one_sector ypd m o at_ x gse l S XO Or Off) as (e & E & Se & U).
  destruct (resolve_sector ypd m gse l o at_ x H S X XO Off) as (r & err & Q & _ & R). destruct r as [y|].
  - destruct R as (l1 & l2 & R & Sy & _). assert (Y : In y (gse :: l)) by (rewrite R; apply in_or_app; right; left; reflexivity).
    exists y, err. split; [exact Q|]. split; [exact Y|]. split; [exact Sy|]. intros f F Sf. rewrite (U f F Sf), (U y Y Sy). reflexivity.
  - exfalso. exact (R e E Se).
Qed.

Lemma resolve_ray ypd m gse l o at_ x e : history m -> star ypd m (gse :: l) o at_ -> in_order ypd m (gse :: l) o at_ -> moderate x -> x <> o ->
  In e (gse :: l) -> same_dir (vec ypd o (at_ e)) (vec ypd o x) ->
  (gse = e -> opposite (vec ypd o (at_ e)) (vec ypd o (at_ (onext m e))) -> dot (vec ypd o x) (vec ypd o x) <= dot (vec ypd o (at_ e)) (vec ypd o (at_ e))) ->
  resolve_edge ypd m gse (fpt x) = Ok (Some e, Some EColinear).
Proof. intros H S Or X XO E On Sh. exact (resolve_on ypd m o at_ x gse l H S X XO Or e E On Sh). Qed.

Lemma resolve_end ypd m gse l o at_ : star ypd m (gse :: l) o at_ -> resolve_edge ypd m gse (fpt o) = Ok (None, Some EInvalidEnd).
Proof.
  intros (_ & O & P & _). destruct (P gse (or_introl eq_refl)) as (_ & Q & _). unfold resolve_edge. rewrite Q, (same_int o o O O).
  unfold same_zpt. rewrite !Z.eqb_refl. reflexivity.
Qed.

Lemma right_exact ypd m e o p x : moderate o -> moderate p -> moderate x -> orig m e = Some (fpt o) -> dest m e = Some (fpt p) ->
  (right_of ypd m (fpt x) e = true <-> cross (vec ypd o p) (vec ypd o x) < 0).
Proof.
  intros O P X Q1 Q2. unfold right_of. rewrite Q1, Q2. change [fpt o; fpt p; fpt x] with (map fpt [o; p; x]). rewrite orientation_int.
  - rewrite flip_cross. replace (area2 [o; p; x]) with (cross (vec false o p) (vec false o x)).
    + unfold cw, wClockwise. rewrite Z.eqb_eq. destruct ypd; lia.
    + unfold area2. cbn [app path_sum]. unfold cross, vec. cbn [fst snd]. ring.
  - destruct O, P, X. intros q [<-|[<-|[<-|[]]]]; lia.
  - exists (2 ^ 21). destruct O, P, X. split; [|cbn [length]; lia]. intros u w [<-|[<-|[<-|[]]]] [<-|[<-|[<-|[]]]]; lia.
Qed.

(** Edges out of one point, one after the other. *)
Fixpoint fan (o : Z * Z) (ps : list (Z * Z)) (k : nat) : mem (point f64) :=
  match ps with
  | [] => empty
  | p :: ps =>
      let m := fan o ps (S k) in
      let '(m, e) := new m in
      let m := end_points m e (Some (fpt o)) (Some (fpt p)) in
      match ps with [] => m | _ => splice m (pred (fst e), 0)%nat e end
  end.
(** Destinations of the edges of a fan: the last point first. *)
Definition ends (ps : list (Z * Z)) (e : edge) : Z * Z := nth (fst e) (rev ps) (0, 0).

Definition three : list (Z * Z) := [(-1, -2); (-3, 1); (2, 0)].
Definition two : list (Z * Z) := [(-1, 0); (1, 0)].
Definition same2 : list (Z * Z) := [(2, 0); (1, 0)].
Definition single : list (Z * Z) := [(1, 0)].
Ltac ex := split; apply Nat.ltb_lt; reflexivity.
Lemma fan_history o ps k : history (fan o ps k) /\ count (fan o ps k) = length ps.
Proof.
  revert k. induction ps as [|p ps IH]; intros k; [split; [apply h_empty|reflexivity]|]. destruct (IH (S k)) as [Hs C]. cbn [fan].
  set (m := fan o ps (S k)) in *. clearbody m.
  assert (Hn : history (fst (new m))) by (apply h_new, Hs). assert (Cm : count (fst (new m)) = S (length ps)) by (rewrite <- C; reflexivity).
  assert (En : snd (new m) = (count m, 0%nat)) by reflexivity.
  destruct (new m) as [m' e]. cbn [fst snd] in *. subst e.
  assert (Ep : history (end_points m' (count m, 0%nat) (Some (fpt o)) (Some (fpt p)))) by (apply h_points; [exact Hn|split; cbn; lia]).
  destruct ps as [|q ps]; [split; [exact Ep|exact Cm]|]. split; [|exact Cm].
  apply h_splice; [exact Ep|split; [change (pred (count m) < count m')%nat; lia|cbn; lia]|split; [change (count m < count m')%nat; lia|cbn; lia]|reflexivity].
Qed.
Ltac cases := repeat match goal with H : In _ (_ :: _) |- _ => destruct H as [<-|H] | H : In _ [] |- _ => destruct H end.
Lemma before_dec u w b : beforeb u w = b -> if b then before u w else ~ before u w.
Proof. intros <-. destruct (beforeb u w) eqn:E; [apply beforeb_spec, E|]. rewrite <- beforeb_spec, E. discriminate. Qed.
Definition betweenb (a d b : Z * Z) : bool := beforeb a d && beforeb d b || beforeb d b && negb (beforeb a b) || negb (beforeb a b) && beforeb a d.
Lemma betweenb_spec a d b : betweenb a d b = true <-> between a d b.
Proof. unfold between, betweenb. rewrite <- !beforeb_spec. destruct (beforeb a d), (beforeb d b), (beforeb a b); cbn; intuition congruence. Qed.

Lemma three_star ypd : star ypd (fan (0, 0) three 0) [(0, 0); (1, 0); (2, 0)]%nat (0, 0) (ends three).
Proof.
  split; [|split; [split; cbn; lia|split]].
  - split; [repeat constructor; cbn; intuition discriminate|]. vm_compute. auto.
  - intros e E. cases; (split; [ex|]); (split; [vm_compute; reflexivity|]); (split; [vm_compute; reflexivity|]); (split; [split; vm_compute; discriminate|vm_compute; discriminate]).
  - intros e f E F. cases; intros [A B]; try reflexivity; exfalso; destruct ypd; vm_compute in A; vm_compute in B; discriminate.
Qed.
Lemma three_order : in_order false (fan (0, 0) three 0) [(0, 0); (1, 0); (2, 0)]%nat (0, 0) (ends three).
Proof. intros e f E F. rewrite <- betweenb_spec. cases; vm_compute; discriminate. Qed.
Lemma three_run :
  history (fan (0, 0) three 0)
  /\ star false (fan (0, 0) three 0) [(0, 0); (1, 0); (2, 0)]%nat (0, 0) (ends three)
  /\ in_order false (fan (0, 0) three 0) [(0, 0); (1, 0); (2, 0)]%nat (0, 0) (ends three)
  /\ map (ends three) [(0, 0); (1, 0); (2, 0)]%nat = [(2, 0); (-3, 1); (-1, -2)]
  /\ in_sector false (fan (0, 0) three 0) (0, 0) (ends three) (-2, -1) (1, 0)%nat
  /\ resolve_edge false (fan (0, 0) three 0) (0, 0)%nat (fpt (-2, -1)) = Ok (Some (1, 0)%nat, None)
  /\ resolve_edge false (fan (0, 0) three 0) (0, 0)%nat (fpt (-2, -4)) = Ok (Some (2, 0)%nat, Some EColinear).
Proof.
  split; [apply fan_history|]. split; [apply three_star|]. split; [apply three_order|]. split; [reflexivity|]. split; [apply betweenb_spec; reflexivity|].
  split; vm_compute; reflexivity.
Qed.

Lemma beyond : exists m gse f o at_ x,
  history m /\ star false m [gse; f] o at_ /\ in_order false m [gse; f] o at_ /\ moderate x
  /\ same_dir (vec false o (at_ gse)) (vec false o x) /\ opposite (vec false o (at_ f)) (vec false o x)
  /\ resolve_edge false m gse (fpt x) = Ok (Some f, Some EColinear).
Proof.
  exists (fan (0, 0) two 0), (0, 0)%nat, (1, 0)%nat, (0, 0), (ends two), (2, 0). split; [apply fan_history|]. split; [|split; [|split; [|split; [|split]]]].
  - split; [|split; [split; cbn; lia|split]].
    + split; [repeat constructor; cbn; intuition discriminate|]. vm_compute. auto.
    + intros e E. cases; (split; [ex|]); (split; [vm_compute; reflexivity|]); (split; [vm_compute; reflexivity|]); (split; [split; vm_compute; discriminate|vm_compute; discriminate]).
    + intros e f E F. cases; intros [A B]; try reflexivity; exfalso; vm_compute in A; vm_compute in B; discriminate.
  - intros e f E F. rewrite <- betweenb_spec. cases; vm_compute; discriminate.
  - split; cbn; lia.
  - split; reflexivity.
  - split; reflexivity.
  - vm_compute. reflexivity.
Qed.
Lemma spurious : exists m gse o at_ x,
  history m /\ star false m [gse] o at_ /\ moderate x /\ opposite (vec false o (at_ gse)) (vec false o x)
  /\ resolve_edge false m gse (fpt x) = Ok (Some gse, Some EColinear).
Proof.
  exists (fan (0, 0) single 0), (0, 0)%nat, (0, 0), (ends single), (-2, 0). split; [apply fan_history|]. split; [|split; [|split]].
  - split; [|split; [split; cbn; lia|split]].
    + split; [repeat constructor; cbn; intuition discriminate|]. vm_compute. auto.
    + intros e E. cases; (split; [ex|]); (split; [vm_compute; reflexivity|]); (split; [vm_compute; reflexivity|]); (split; [split; vm_compute; discriminate|vm_compute; discriminate]).
    + intros e f E F. cases; reflexivity.
  - split; cbn; lia.
  - split; reflexivity.
  - vm_compute. reflexivity.
Qed.
Lemma coincident : exists m gse f o p q x,
  history m /\ around_origin m [gse; f] /\ orig m gse = Some (fpt o) /\ orig m f = Some (fpt o) /\ dest m gse = Some (fpt p) /\ dest m f = Some (fpt q)
  /\ p <> q /\ same_dir (vec false o p) (vec false o q) /\ resolve_edge false m gse (fpt x) = Ok (Some gse, None).
Proof.
  exists (fan (0, 0) same2 0), (0, 0)%nat, (1, 0)%nat, (0, 0), (1, 0), (2, 0), (0, 1). split; [apply fan_history|].
  split; [split; [repeat constructor; cbn; intuition discriminate|vm_compute; auto]|].
  repeat (split; [vm_compute; reflexivity|]). split; [discriminate|]. split; [split; reflexivity|]. vm_compute. reflexivity.
Qed.
