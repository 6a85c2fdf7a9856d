(** Lemmas about fixed-width integers as bytes. *)
From Coq Require Import ZArith Bool List Lia.
From Coq Require Import ZifyBool ZifyNat.
From Verif Require Import Base_Bytes.
Import ListNotations.
Open Scope Z_scope.

Lemma le_bytes_length n v : length (le_bytes n v) = n.
Proof. revert v; induction n as [|n IH]; intros v; cbn; [reflexivity | now rewrite IH]. Qed.

Lemma put_uint_length bo n v : length (put_uint bo n v) = n.
Proof. destruct bo; cbn; rewrite ?rev_length; apply le_bytes_length. Qed.

Lemma le_value_bytes n v :
  0 <= v < 256 ^ (Z.of_nat n) -> le_value (le_bytes n v) = v.
Proof.
  revert v; induction n as [|n IH]; intros v Hv.
  - cbn in *. lia.
  - cbn [le_bytes le_value].
    rewrite Nat2Z.inj_succ, Z.pow_succ_r in Hv by lia.
    rewrite IH.
    + pose proof (Z.div_mod v 256 ltac:(lia)). lia.
    + split.
      * apply Z.div_pos; lia.
      * apply Z.div_lt_upper_bound; lia.
Qed.

Lemma get_put bo n v :
  0 <= v < 256 ^ (Z.of_nat n) -> get_uint bo (put_uint bo n v) = v.
Proof.
  intros Hv. destruct bo; cbn.
  - now apply le_value_bytes.
  - rewrite rev_involutive. now apply le_value_bytes.
Qed.

Lemma le_bytes_ok n v : Forall (fun b => byte_ok b = true) (le_bytes n v).
Proof.
  revert v; induction n as [|n IH]; intros v; cbn; constructor; auto.
  unfold byte_ok. pose proof (Z.mod_pos_bound v 256 ltac:(lia)). lia.
Qed.

Lemma put_uint_ok bo n v : Forall (fun b => byte_ok b = true) (put_uint bo n v).
Proof.
  destruct bo; cbn; [apply le_bytes_ok | apply Forall_rev, le_bytes_ok].
Qed.

Lemma le_value_bound bs :
  Forall (fun b => byte_ok b = true) bs -> 0 <= le_value bs < 256 ^ (Z.of_nat (length bs)).
Proof.
  induction bs as [|b bs IH]; intros H; [cbn; lia|].
  inversion H as [|? ? Hb Hbs]; subst.
  specialize (IH Hbs). cbn [le_value length].
  rewrite Nat2Z.inj_succ, Z.pow_succ_r by lia.
  unfold byte_ok in Hb. lia.
Qed.

Lemma le_bytes_value bs :
  Forall (fun b => byte_ok b = true) bs -> le_bytes (length bs) (le_value bs) = bs.
Proof.
  induction bs as [|b bs IH]; intros H; [reflexivity|].
  inversion H as [|? ? Hb Hbs]; subst.
  cbn [length le_bytes le_value]. unfold byte_ok in Hb.
  replace ((b + 256 * le_value bs) mod 256) with b.
  - replace ((b + 256 * le_value bs) / 256) with (le_value bs).
    + now rewrite IH.
    + apply Z.div_unique with b; lia.
  - apply Z.mod_unique with (le_value bs); lia.
Qed.

Lemma put_get bo bs :
  Forall (fun b => byte_ok b = true) bs -> put_uint bo (length bs) (get_uint bo bs) = bs.
Proof.
  intros H. destruct bo; cbn.
  - now apply le_bytes_value.
  - rewrite <- (rev_length bs), le_bytes_value by now apply Forall_rev.
    apply rev_involutive.
Qed.

Lemma get_uint_bound bo bs :
  Forall (fun b => byte_ok b = true) bs -> 0 <= get_uint bo bs < 256 ^ (Z.of_nat (length bs)).
Proof.
  intros H. destruct bo; cbn.
  - now apply le_value_bound.
  - rewrite <- (rev_length bs). now apply le_value_bound, Forall_rev.
Qed.
