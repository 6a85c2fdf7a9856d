(** * Proofs about quadedge.Validate: what it decides *)
From Coq Require Import Bool List Arith ZArith Lia Permutation.
From Verif Require Import Base_F64 Base_Res Base_Geom M_Sweep S_Sweep S_Winding M_Quadedge S_Quadedge P_Quadedge P_Quadedge2 S_ResolveEdge M_Validate S_Validate P_Validate P_Validate2.
Import ListNotations.
Local Open Scope Z_scope.

Lemma total_perm g l l' : Permutation l l' -> total g l = total g l'.
Proof.
  intros P. induction P as [|x l l' P IH|x y l|l l' l'' P1 IH1 P2 IH2]; [reflexivity| | |].
  - change (g x + total g l = g x + total g l'). rewrite IH. reflexivity.
  - change (g y + (g x + total g l) = g x + (g y + total g l)). ring.
  - rewrite IH1. exact IH2.
Qed.
Lemma total_map g h l : total (fun x => g (h x)) l = total g (map h l).
Proof. induction l as [|x l IH]; [reflexivity|]. change (g (h x) + total (fun x => g (h x)) l = g (h x) + total g (map h l)). rewrite IH. reflexivity. Qed.
Lemma total_ext g h l : (forall x, In x l -> g x = h x) -> total g l = total h l.
Proof.
  induction l as [|x l IH]; intros E; [reflexivity|]. change (g x + total g l = h x + total h l). rewrite (E x (or_introl eq_refl)), IH; [reflexivity|].
  intros y I. apply E. right. exact I.
Qed.
Lemma map_inj_nodup (h : edge -> edge) l : (forall x y, In x l -> In y l -> h x = h y -> x = y) -> NoDup l -> NoDup (map h l).
Proof.
  induction l as [|x l IH]; intros J N; [constructor|]. inversion N; subst. cbn [map]. constructor.
  - intros I. apply in_map_iff in I. destruct I as (y & Q & I). apply J in Q; [subst y; contradiction|right; exact I|left; reflexivity].
  - apply IH; [|assumption]. intros a b A B. apply J; right; assumption.
Qed.
Lemma prev_total ypd m e l o at_ : history m -> star ypd m (e :: l) o at_ -> total (g2 ypd m o at_) (e :: l) = total (g1 ypd m o at_) (e :: l).
Proof.
  intros H St. transitivity (total (fun x => g1 ypd m o at_ (oprev m x)) (e :: l)).
  - apply total_ext. intros x I. destruct (prev_next ypd m e l o at_ x H St I) as [_ Q]. unfold g1, g2. rewrite Q. reflexivity.
  - rewrite total_map. apply total_perm. assert (N : NoDup (e :: l)) by (apply (cycle_nodup (onext m)), St).
    apply NoDup_Permutation_bis; [|rewrite map_length; reflexivity|].
    + apply map_inj_nodup; [|exact N]. intros x y I J Q. destruct (prev_next ypd m e l o at_ x H St I) as [_ X], (prev_next ypd m e l o at_ y H St J) as [_ Y].
      rewrite <- X, <- Y, Q. reflexivity.
    + intros z I. apply in_map_iff in I. destruct I as (x & <- & I). apply (prev_next ypd m e l o at_ x H St I).
Qed.
Lemma total_turns ypd m o at_ l : total (g1 ypd m o at_) l = Z.of_nat (turns 1 ypd m l o at_) - Z.of_nat (turns (-1) ypd m l o at_).
Proof.
  induction l as [|x l IH]; [reflexivity|]. change (total (g1 ypd m o at_) (x :: l)) with (g1 ypd m o at_ x + total (g1 ypd m o at_) l). rewrite IH.
  unfold turns. cbn [filter]. fold (g1 ypd m o at_ x). assert (G : g1 ypd m o at_ x = -1 \/ g1 ypd m o at_ x = 0 \/ g1 ypd m o at_ x = 1) by (unfold g1; destruct (cross _ _); cbn; auto).
  destruct G as [G|[G|G]]; rewrite G; cbn [Z.eqb Pos.eqb]; cbn [length]; lia.
Qed.
Lemma validate_decides sort ypd m e l o at_ : sorts sort -> history m -> star ypd m (e :: l) o at_ ->
  exists b, validate sort ypd m e = Ok b /\ (b = true <-> (length (e :: l) <= 2)%nat \/ (turns (-1) ypd m (e :: l) o at_ < turns 1 ypd m (e :: l) o at_)%nat).
Proof.
  intros Hs H St. rewrite (validate_star sort ypd m e l o at_ Hs H St), (prev_total ypd m e l o at_ H St), total_turns.
  eexists. split; [reflexivity|]. rewrite orb_true_iff, andb_true_iff, Nat.leb_le, Z.ltb_lt. lia.
Qed.
