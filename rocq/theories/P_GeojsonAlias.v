(** Proofs about closing the rings of the caller's polygon. *)
From Coq Require Import ZArith Bool List Lia.
From Verif Require Import Base_F64 Base_Geom M_Cmp M_Wkt M_GeojsonAlias S_Geojson P_F64 P_Extent2.
Import ListNotations.
Open Scope nat_scope.

Lemma set_length {A} i (x : A) l : length (set i x l) = length l.
Proof. revert i. induction l as [|y l IH]; intros [|i]; cbn; auto. Qed.
Lemma nth_set_same {A} i (x : A) l d : i < length l -> nth i (set i x l) d = x.
Proof. revert i. induction l as [|y l IH]; intros [|i] H; cbn in *; try lia; auto. apply IH. lia. Qed.
Lemma nth_set_other {A} i j (x : A) l d : i <> j -> nth j (set i x l) d = nth j l d.
Proof. revert i j. induction l as [|y l IH]; intros [|i] [|j] H; cbn; auto; try lia. Qed.

Definition dp : pt := (0, 0)%Z.
Lemma nth_firstn' (s : list pt) : forall n i, i < n -> nth i (firstn n s) dp = nth i s dp.
Proof. induction s as [|x s IH]; intros [|n] [|i] H; cbn; try lia; auto. apply IH. lia. Qed.
Lemma nth_skipn' n i : forall l : list pt, nth i (skipn n l) dp = nth (n + i) l dp.
Proof. induction n as [|n IH]; intros [|x l]; cbn; auto. destruct i; reflexivity. Qed.
Lemma read_nth m h i : i < h_len h -> nth i (read m h) dp = nth (h_off h + i) (array m (h_arr h)) dp.
Proof. intros H. unfold read. rewrite nth_firstn' by assumption. apply nth_skipn'. Qed.
Lemma read_length m h : valid m h -> length (read m h) = h_len h.
Proof. intros (_ & L & B). unfold read. rewrite firstn_length, skipn_length. lia. Qed.

(** Two slices with the same points. *)
Lemma read_ext m h m' h' : valid m h -> valid m' h' -> h_len h = h_len h' ->
  (forall i, i < h_len h -> nth (h_off h + i) (array m (h_arr h)) dp = nth (h_off h' + i) (array m' (h_arr h')) dp) ->
  read m h = read m' h'.
Proof.
  intros V V' L H. apply (nth_ext _ _ dp dp); [now rewrite !read_length|]. intros i Hi. rewrite read_length in Hi by assumption.
  rewrite !read_nth by (auto; lia). now apply H.
Qed.

Lemma array_set m a l a' : a < length m -> array (set a l m) a' = if Nat.eqb a a' then l else array m a'.
Proof.
  intros H. unfold array. destruct (Nat.eqb_spec a a') as [<-|N]; [now apply nth_set_same|now apply nth_set_other].
Qed.
Lemma array_app m x a : a < length m -> array (m ++ [x]) a = array m a.
Proof. intros H. unfold array. now apply app_nth1. Qed.
Lemma array_new m x : array (m ++ [x]) (length m) = x.
Proof. unfold array. rewrite app_nth2 by lia. now rewrite Nat.sub_diag. Qed.

(** A step which closes a ring and leaves the other slices alone. *)
Definition step_ok (m : memory) (h : header) (m' : memory) (h' : header) : Prop :=
  valid m' h' /\ read m' h' = closed_ring (read m h) /\
  forall h2, valid m h2 -> disjoint h h2 -> valid m' h2 /\ read m' h2 = read m h2 /\ disjoint h' h2.

Lemma append_ok m h x m' h' : valid m h -> append m h x = (m', h') ->
  valid m' h' /\ read m' h' = read m h ++ [x] /\
  forall h2, valid m h2 -> disjoint h h2 -> valid m' h2 /\ read m' h2 = read m h2 /\ disjoint h' h2.
Proof.
  intros V E. pose proof V as (Va & Vl & Vc). unfold append in E. destruct (Nat.ltb_spec (h_len h) (h_cap h)) as [L|L].
  - injection E as <- <-. set (A := set (h_off h + h_len h) x (array m (h_arr h))).
    assert (V' : valid (set (h_arr h) A m) (Hdr (h_arr h) (h_off h) (S (h_len h)) (h_cap h))).
    { unfold valid. cbn. rewrite set_length, array_set, Nat.eqb_refl by assumption. unfold A. rewrite set_length. lia. }
    split; [exact V'|]. split.
    + apply (nth_ext _ _ dp dp); [rewrite read_length by assumption; rewrite app_length, read_length by assumption; cbn; lia|].
      intros i Hi. rewrite read_length in Hi by assumption. cbn [h_len] in Hi.
      rewrite read_nth by (auto; cbn; lia). cbn [h_arr h_off]. rewrite array_set, Nat.eqb_refl by assumption. unfold A.
      destruct (Nat.eq_dec i (h_len h)) as [->|N].
      * rewrite nth_set_same by lia. rewrite app_nth2 by (rewrite read_length by assumption; lia).
        rewrite read_length, Nat.sub_diag by assumption. reflexivity.
      * rewrite nth_set_other by lia. rewrite app_nth1 by (rewrite read_length by assumption; lia).
        rewrite read_nth by (auto; lia). reflexivity.
    + intros h2 V2 D. pose proof V2 as (W1 & W2 & W3).
      assert (V2' : valid (set (h_arr h) A m) h2).
      { unfold valid. rewrite set_length, array_set by assumption. destruct (Nat.eqb_spec (h_arr h) (h_arr h2)) as [E|E]; [|auto].
        unfold A. rewrite set_length. rewrite E in *. auto. }
      split; [exact V2'|]. split; [|exact D].
      apply read_ext; auto. intros i Hi. rewrite array_set by assumption. destruct (Nat.eqb_spec (h_arr h) (h_arr h2)) as [E|E]; [|reflexivity].
      unfold A. rewrite nth_set_other; [now rewrite E|]. intros X.
      apply (D (h_arr h) (h_off h + h_len h)); unfold owns; [|rewrite X]; lia.
  - injection E as <- <-. assert (h_len h = h_cap h) as LC by lia.
    assert (V' : valid (m ++ [read m h ++ [x]]) (Hdr (length m) 0 (S (h_len h)) (S (h_len h)))).
    { unfold valid. cbn. rewrite array_new, !app_length, read_length by assumption. cbn. lia. }
    split; [exact V'|]. split.
    + unfold read at 1. cbn [h_arr h_off h_len skipn]. rewrite array_new. rewrite firstn_all2; [reflexivity|].
      rewrite app_length, read_length by assumption. cbn. lia.
    + intros h2 V2 D. pose proof V2 as (W1 & W2 & W3).
      assert (V2' : valid (m ++ [read m h ++ [x]]) h2).
      { unfold valid. rewrite app_length, array_app by assumption. cbn. lia. }
      split; [exact V2'|]. split.
      * apply read_ext; auto. intros i Hi. now rewrite array_app.
      * intros a i [E1 _] [E2 _]. cbn in E1. lia.
Qed.

Lemma close_header_ok m h m' h' : valid m h -> close_header m h = (m', h') -> step_ok m h m' h'.
Proof.
  intros V E. unfold close_header in E. unfold step_ok.
  destruct (read m h) as [|p r] eqn:R.
  - injection E as <- <-. cbn. auto.
  - cbn [closed_ring]. destruct (pt_eq p (last r p)).
    + injection E as <- <-. auto.
    + apply append_ok in E; [|assumption]. now rewrite R in E.
Qed.

(** Every ring is closed, every slice apart from the rings keeps its points. *)
Theorem close_headers_ok hs : forall m m' hs', Forall (valid m) hs -> ForallOrdPairs disjoint hs ->
  close_headers m hs = (m', hs') ->
  Forall (valid m') hs' /\ map (read m') hs' = map (fun h => closed_ring (read m h)) hs /\
  (forall h2, valid m h2 -> Forall (fun h => disjoint h h2) hs ->
     valid m' h2 /\ read m' h2 = read m h2 /\ Forall (fun h => disjoint h h2) hs').
Proof.
  induction hs as [|h hs IH]; intros m m' hs' V D E.
  - injection E as <- <-. split; [constructor|]. split; [reflexivity|]. intros h2 W _. auto.
  - cbn [close_headers] in E. destruct (close_header m h) as [m1 h1] eqn:E1.
    destruct (close_headers m1 hs) as [m2 hs2] eqn:E2. injection E as <- <-.
    inversion V as [|? ? V1 V2]; subst. inversion D as [|? ? D1 D2]; subst.
    destruct (close_header_ok m h m1 h1 V1 E1) as (A1 & A2 & A3).
    assert (V3 : Forall (valid m1) hs).
    { apply Forall_forall. intros x I. eapply Forall_forall in V2; [|exact I]. eapply Forall_forall in D1; [|exact I]. now apply A3. }
    destruct (IH m1 m2 hs2 V3 D2 E2) as (B1 & B2 & B3).
    assert (D3 : Forall (fun x => disjoint x h1) hs).
    { apply Forall_forall. intros x I. eapply Forall_forall in V2; [|exact I]. eapply Forall_forall in D1; [|exact I].
      destruct (A3 x V2 D1) as (_ & _ & X). intros a i P Q. exact (X a i Q P). }
    destruct (B3 h1 A1 D3) as (C1 & C2 & C3).
    split; [constructor; assumption|]. split.
    + cbn [map]. rewrite C2, A2, B2. f_equal. apply map_ext_in. intros x I.
      eapply Forall_forall in V2; [|exact I]. eapply Forall_forall in D1; [|exact I]. f_equal. now apply A3.
    + intros h2 W Dh. inversion Dh as [|? ? Dh1 Dh2]; subst. destruct (A3 h2 W Dh1) as (F1 & F2 & F3).
      destruct (B3 h2 F1 Dh2) as (G1 & G2 & G3). split; [assumption|]. split; [now rewrite G2|]. constructor; assumption.
Qed.

(** Rings which are closed or empty: nothing is written. *)
Theorem close_headers_closed hs m : Forall (fun h => closed_ring (read m h) = read m h) hs ->
  close_headers m hs = (m, hs).
Proof.
  induction hs as [|h hs IH]; intros H; [reflexivity|]. inversion H as [|? ? H1 H2]; subst. cbn [close_headers].
  assert (E : close_header m h = (m, h)).
  { unfold close_header. destruct (read m h) as [|p r] eqn:R; [reflexivity|]. cbn [closed_ring] in H1.
    destruct (pt_eq p (last r p)); [reflexivity|]. exfalso. apply (f_equal (@length _)) in H1.
    rewrite app_length in H1. cbn in H1. lia. }
  rewrite E, (IH H2). reflexivity.
Qed.

Lemma closed_ring_again (r : list pt) : Forall (fun p : pt => nn (fst p) /\ nn (snd p)) r -> closed_ring (closed_ring r) = closed_ring r.
Proof.
  destruct r as [|p r]; [reflexivity|]. intros N. inversion N as [|? ? [N1 N2] _]; subst.
  assert (C : forall (q : pt) (s : list pt), closed_ring (q :: s) = if pt_eq q (last s q) then q :: s else q :: s ++ [q]) by reflexivity.
  rewrite (C p r). destruct (pt_eq p (last r p)) eqn:E; rewrite C.
  - now rewrite E.
  - rewrite last_last. assert (E2 : pt_eq p p = true).
    { unfold pt_eq. rewrite !f64_eq_refl by assumption. reflexivity. }
    now rewrite E2.
Qed.

Theorem close_effect m hs m' hs' : Forall (valid m) hs -> ForallOrdPairs disjoint hs ->
  close_headers m hs = (m', hs') ->
  map (read m') hs' = map (fun h => closed_ring (read m h)) hs /\
  (forall h, valid m h -> Forall (fun r => disjoint r h) hs -> read m' h = read m h).
Proof.
  intros V D E. destruct (close_headers_ok hs m m' hs' V D E) as (_ & A & B). split; [exact A|].
  intros h W Dh. now apply B.
Qed.
Definition closed_untouched := fun m hs => close_headers_closed hs m.

Theorem close_twice m hs m' hs' : Forall (valid m) hs -> ForallOrdPairs disjoint hs ->
  Forall (fun h => Forall (fun p : pt => nn (fst p) /\ nn (snd p)) (read m h)) hs ->
  close_headers m hs = (m', hs') -> close_headers m' hs' = (m', hs').
Proof.
  intros V D N E. destruct (close_headers_ok hs m m' hs' V D E) as (_ & A & _).
  apply close_headers_closed. clear V D E. revert hs' A. induction hs as [|h hs IH]; intros [|h' hs'] A; try discriminate; [constructor|].
  inversion N as [|? ? N1 N2]; subst. cbn [map] in A. injection A as A1 A2. constructor; [|now apply IH].
  rewrite A1. now apply closed_ring_again.
Qed.

Definition pa : pt := (0, 0)%Z.
Definition pb : pt := (0x3FF0000000000000, 0)%Z.
Definition pc : pt := (0x3FF0000000000000, 0x3FF0000000000000)%Z.
Theorem open_ring_grows : exists m hs m' hs', Forall (valid m) hs /\ ForallOrdPairs disjoint hs /\
  close_headers m hs = (m', hs') /\ map (read m') hs' <> map (read m) hs.
Proof.
  exists [[pa; pb; pc]], [Hdr 0 0 3 3]. eexists. eexists. split; [constructor; [unfold valid; cbn; lia|constructor]|].
  split; [repeat constructor|]. split; [vm_compute; reflexivity|]. vm_compute. discriminate.
Qed.
Theorem shared_rings : exists m hs m' hs', Forall (valid m) hs /\
  (forall h h', In h hs -> In h' hs -> h <> h' -> forall i, ~ (h_off h <= i < h_off h + h_len h /\ h_off h' <= i < h_off h' + h_len h')%nat) /\
  close_headers m hs = (m', hs') /\ map (read m') hs' <> map (fun h => closed_ring (read m h)) hs.
Proof.
  exists [[pa; pb; pc; pc; pb; pa]], [Hdr 0 0 3 6; Hdr 0 3 3 3]. eexists. eexists.
  split; [constructor; [unfold valid; cbn; lia|constructor; [unfold valid; cbn; lia|constructor]]|].
  split; [|split; [vm_compute; reflexivity|vm_compute; discriminate]].
  intros h h' [<-|[<-|[]]] [<-|[<-|[]]] N i; cbn; (lia || easy).
Qed.
