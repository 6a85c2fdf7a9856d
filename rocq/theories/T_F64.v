(** * The float64 words are IEEE-754 binary64

    Links the word-level comparisons and arithmetic used by the models to
    Flocq's formalisation of the standard. *)
From Coq Require Import ZArith Bool List Reals.
From Flocq Require Import Core.Core IEEE754.BinarySingleNaN IEEE754.Binary IEEE754.Bits.
From Verif Require Import Base_F64 Base_F64Arith P_F64 P_F64Flocq P_F64Round.
Import ListNotations.
Open Scope Z_scope.

Theorem F64_compare_is_IEEE : forall a b, f64_wf a = true -> f64_wf b = true ->
  b64_compare (b64_of_bits a) (b64_of_bits b) =
  if f64_isnan a || f64_isnan b then None else Some (f64_key a ?= f64_key b).
Proof. exact compare_word. Qed.
Print Assumptions F64_compare_is_IEEE.

Theorem F64_lt_is_real_lt : forall a b, f64_wf a = true -> f64_wf b = true ->
  f64_finite a = true -> f64_finite b = true ->
  f64_lt a b = true <-> (f64_R a < f64_R b)%R.
Proof. exact lt_R. Qed.
Print Assumptions F64_lt_is_real_lt.

Theorem F64_word_of_float : forall w, f64_wf w = true -> bits_of_b64 (b64_of_bits w) = w.
Proof. exact bits_of_bits. Qed.
Print Assumptions F64_word_of_float.

(** Rounded operations: [is_round r w] says that [w] is [r] rounded to nearest
    even, or the infinity of the right sign on overflow. *)
Theorem F64_add_rounds : forall a b, f64_wf a = true -> f64_wf b = true ->
  f64_finite a = true -> f64_finite b = true -> is_round (f64_R a + f64_R b) (f64_add a b).
Proof. exact add_round. Qed.
Print Assumptions F64_add_rounds.
Theorem F64_mul_rounds : forall a b, f64_wf a = true -> f64_wf b = true ->
  f64_finite a = true -> f64_finite b = true -> is_round (f64_R a * f64_R b) (f64_mul a b).
Proof. exact mul_round. Qed.
Print Assumptions F64_mul_rounds.
Example F64_nonvacuous : f64_add f64_one f64_two = f64_three /\ f64_finite f64_max = true /\
  f64_add f64_max f64_max = f64_pinf.
Proof. vm_compute. auto. Qed.
