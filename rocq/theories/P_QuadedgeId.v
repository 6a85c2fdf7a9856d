(** * Proofs about the ids of quad-edges *)
From Coq Require Import ZArith List Arith Lia.
From Verif Require Import M_QuadedgeId.
Import ListNotations.
Open Scope Z_scope.

(** [issued] is the list of the calls which have added, latest first. *)
Definition id_of (s : ids) (i : nat) : option Z :=
  match calls s i with Some (Write g _) => Some g | Some (Done g) => Some g | _ => None end.
Record inv (n : nat) (s : ids) (issued : list nat) : Prop := {
  i_nodup : NoDup issued;
  i_lt : forall i, In i issued -> (i < n)%nat;
  i_ctr : counter s = Z.of_nat (length issued) mod 2 ^ 64;
  i_id : forall i, id_of s i <> None <-> In i issued;
  i_val : forall l1 i l2, issued = l1 ++ i :: l2 -> id_of s i = Some (Z.of_nat (S (length l2)) mod 2 ^ 64);
  i_glb : forall i k, (k < 4)%nat -> match calls s i with
     | Some (Write g j) => (j < 4)%nat /\ ((k < j)%nat -> glb s i k = g) | Some (Done g) => glb s i k = g | _ => True end
}.

Lemma start_inv n : inv n start [].
Proof.
  split; try (constructor || reflexivity).
  - intros i [].
  - intros H. exfalso. apply H. reflexivity.
  - intros [].
  - intros l1 i l2 H. destruct l1; discriminate H.
Qed.

Lemma step_inv n s is i : (i < n)%nat -> inv n s is -> exists is', inv n (step s i) is'.
Proof.
  intros Hi [N L C D V G]. unfold step.
  destruct (calls s i) as [p|] eqn:E; [destruct p as [|g k|g]|].
  - (* add *)
    assert (NI : ~ In i is). { intros H. apply D in H. apply H. unfold id_of. rewrite E. reflexivity. }
    exists (i :: is). split.
    + constructor; assumption.
    + intros j [<-|J]; [exact Hi|apply L, J].
    + cbn [counter length]. rewrite C, Z.add_mod_idemp_l by discriminate. f_equal. lia.
    + intros j. unfold id_of, set_call. cbn [calls]. destruct (Nat.eqb_spec j i) as [->|Nj].
      * split; [left; reflexivity|discriminate].
      * cbn [In]. fold (id_of s j). rewrite D. split; [tauto|intros [->|H]; [contradiction|exact H]].
    + intros l1 j l2 Q. unfold id_of, set_call. cbn [calls]. destruct (Nat.eqb_spec j i) as [->|Nj].
      * destruct l1 as [|x l1]; [injection Q as <-|].
        -- rewrite C, Z.add_mod_idemp_l by discriminate. f_equal. f_equal. lia.
        -- injection Q as -> Q. exfalso. apply NI. rewrite Q, in_app_iff. right. left. reflexivity.
      * destruct l1 as [|x l1]; [injection Q as Q _; congruence|]. injection Q as _ Q. apply (V l1 j l2 Q).
    + intros j k Hk. unfold set_call. cbn [calls glb]. destruct (Nat.eqb_spec j i) as [->|Nj]; [split; lia|apply (G j k Hk)].
  - (* write *)
    pose proof (fun k' H => G i k' H) as Gi. rewrite E in Gi.
    assert (Hk4 : (k < 4)%nat) by apply (Gi 0%nat ltac:(lia)).
    exists is. split; try assumption.
    + intros j. rewrite <- D. unfold id_of, set_call. cbn [calls]. destruct (Nat.eqb_spec j i) as [->|Nj]; [|reflexivity].
      rewrite E. destruct (Nat.eqb k 3); split; discriminate.
    + intros l1 j l2 Q. rewrite <- (V l1 j l2 Q). unfold id_of, set_call. cbn [calls]. destruct (Nat.eqb_spec j i) as [->|Nj]; [|reflexivity].
      rewrite E. destruct (Nat.eqb k 3); reflexivity.
    + intros j k' Hk. unfold set_call, set_glb. cbn [calls glb]. destruct (Nat.eqb_spec j i) as [->|Nj].
      * destruct (Nat.eqb_spec k 3) as [->|N3].
        -- destruct (Nat.eqb_spec k' 3) as [->|N3']; [reflexivity|]. apply Gi; lia.
        -- split; [lia|]. intros H. destruct (Nat.eqb_spec k' k) as [->|Nk]; [reflexivity|]. apply Gi; lia.
      * apply (G j k' Hk).
  - exists is. split; assumption.
  - exists is. split; try assumption.
    + intros j. rewrite <- D. unfold id_of, set_call. cbn [calls]. destruct (Nat.eqb_spec j i) as [->|Nj]; [|reflexivity].
      rewrite E. split; intros H; exact H.
    + intros l1 j l2 Q. unfold id_of, set_call. cbn [calls]. destruct (Nat.eqb_spec j i) as [->|Nj].
      * exfalso. assert (H : id_of s i <> None) by (apply D; rewrite Q, in_app_iff; right; left; reflexivity).
        apply H. unfold id_of. rewrite E. reflexivity.
      * apply (V l1 j l2 Q).
    + intros j k Hk. unfold set_call. cbn [calls glb]. destruct (Nat.eqb_spec j i) as [->|Nj]; [exact I|apply (G j k Hk)].
Qed.

Lemma run_inv n sch : Forall (fun i => (i < n)%nat) sch -> exists is, inv n (run sch) is.
Proof.
  unfold run. intros F.
  assert (K : forall s is, inv n s is -> exists is', inv n (fold_left step sch s) is').
  { induction F as [|i sch Hi F IH]; intros s is I; [exists is; exact I|]. cbn [fold_left].
    destruct (step_inv n s is i Hi I) as [is' I']. apply (IH _ is' I'). }
  apply (K start []), start_inv.
Qed.

Lemma nodup_bound (l : list nat) n : NoDup l -> (forall i, In i l -> (i < n)%nat) -> (length l <= n)%nat.
Proof.
  intros N H. rewrite <- (seq_length n 0). apply NoDup_incl_length; [exact N|].
  intros i I. apply in_seq. specialize (H i I). lia.
Qed.

Lemma ids_distinct n sch : Forall (fun i => (i < n)%nat) sch -> Z.of_nat n < 2 ^ 64 ->
  forall i g, calls (run sch) i = Some (Done g) ->
    0 < g < 2 ^ 64 /\ (forall k, (k < 4)%nat -> glb (run sch) i k = g)
    /\ forall j h, calls (run sch) j = Some (Done h) -> g = h -> i = j.
Proof.
  intros F Hn i g E. destruct (run_inv n sch F) as [is [N L C D V G]].
  assert (Val : forall i g, calls (run sch) i = Some (Done g) -> exists l1 l2, is = l1 ++ i :: l2 /\ g = Z.of_nat (S (length l2))).
  { clear i g E. intros i g E. assert (I : In i is) by (apply D; unfold id_of; rewrite E; discriminate).
    apply in_split in I. destruct I as (l1 & l2 & Q). exists l1, l2. split; [exact Q|].
    specialize (V l1 i l2 Q). unfold id_of in V. rewrite E in V. injection V as ->.
    apply Z.mod_small. pose proof (nodup_bound is n N L) as B. rewrite Q, app_length in B. cbn [length] in B. lia. }
  destruct (Val i g E) as (l1 & l2 & Q & Hg).
  split; [|split].
  - pose proof (nodup_bound is n N L) as B. rewrite Q, app_length in B. cbn [length] in B. lia.
  - intros k Hk. specialize (G i k Hk). rewrite E in G. exact G.
  - intros j h Ej <-. destruct (Val j g Ej) as (k1 & k2 & Q' & Hh).
    assert (Le : length l2 = length k2) by lia.
    rewrite Q in Q'. clear - Q' Le. revert k1 Q'. induction l1 as [|x l1 IH]; intros k1 Q'; destruct k1 as [|y k1]; cbn [app] in Q'.
    + injection Q' as -> _. reflexivity.
    + injection Q' as _ Q'. apply (f_equal (@length nat)) in Q'. rewrite app_length in Q'. cbn [length] in Q'. lia.
    + injection Q' as _ Q'. apply (f_equal (@length nat)) in Q'. rewrite app_length in Q'. cbn [length] in Q'. lia.
    + injection Q' as _ Q'. apply (IH k1 Q').
Qed.
