(** Lemmas about lists missing from the standard library. *)
From Coq Require Import List Lia Arith Permutation.
Import ListNotations.

Ltac inv H := inversion H; subst; clear H.

Lemma last_cons {A} (p : A) tl d : last (p :: tl) d = last tl p.
Proof.
  revert p d. induction tl as [|q tl IH]; intros p d; [reflexivity|].
  change (last (q :: tl) d = last (q :: tl) p). now rewrite !IH.
Qed.

Lemma nth_error_last_cons {A} (p : A) tl : nth_error (p :: tl) (length tl) = Some (last tl p).
Proof.
  revert p. induction tl as [|q tl IH]; intros p; [reflexivity|].
  cbn [length nth_error]. rewrite IH. now rewrite last_cons.
Qed.

Lemma Forall2_weaken {A B} (R R' : A -> B -> Prop) l l' :
  (forall a b, R a b -> R' a b) -> Forall2 R l l' -> Forall2 R' l l'.
Proof. intros HR H. induction H; constructor; auto. Qed.

Lemma Forall2_len {A B} (R : A -> B -> Prop) l l' : Forall2 R l l' -> length l = length l'.
Proof. intros H. induction H; cbn; auto. Qed.

Lemma concat_map_concat {A} (l : list (list (list A))) : concat (map (@concat A) l) = concat (concat l).
Proof. induction l as [|x l IH]; [reflexivity|]. cbn. now rewrite IH, concat_app. Qed.

Lemma flat_map_flat_map {A B} (f : A -> list B) (l : list (list A)) :
  flat_map (flat_map f) l = flat_map f (concat l).
Proof. induction l as [|x l IH]; [reflexivity|]. cbn. now rewrite IH, flat_map_app. Qed.

Lemma flat_map_ext' {A B} (f g : A -> list B) l :
  (forall x, In x l -> f x = g x) -> flat_map f l = flat_map g l.
Proof.
  induction l as [|x l IH]; intros H; [reflexivity|]. cbn.
  rewrite H by now left. f_equal. apply IH. intros; apply H; now right.
Qed.

Lemma flat_map_map' {A B C} (f : A -> B) (g : B -> list C) l :
  flat_map g (map f l) = flat_map (fun x => g (f x)) l.
Proof. induction l as [|x l IH]; [reflexivity|]. cbn. now rewrite IH. Qed.
