(** Proofs about the decimal conversions: digits, texts and what they parse to. *)
From Coq Require Import String ZArith Bool List Lia.
From Coq Require Import ZifyBool ZifyNat.
From Verif Require Import Base_F64 Base_F64Arith M_Wkt M_Strconv S_Wkt P_Wkt.
Import ListNotations.
Open Scope Z_scope.

Definition digit (d : Z) : Prop := 0 <= d <= 9.

Lemma value_app a b : value (a ++ b) = value a * 10 ^ Z.of_nat (len b) + value b.
Proof.
  unfold value. rewrite fold_left_app. generalize (fold_left (fun v d : Z => 10 * v + d) a 0). intros v.
  assert (K : forall b v, fold_left (fun v d : Z => 10 * v + d) b v = v * 10 ^ Z.of_nat (len b) + fold_left (fun v d : Z => 10 * v + d) b 0).
  { clear. induction b as [|d b IH]; intros v; [cbn; lia|]. cbn [fold_left List.length].
    rewrite (IH (10 * v + d)), (IH (10 * 0 + d)). rewrite Nat2Z.inj_succ, Z.pow_succ_r by lia. lia. }
  apply K.
Qed.
Lemma value_zeros n : value (repeat 0 n) = 0.
Proof. unfold value. induction n as [|n IH]; [reflexivity|]. cbn. exact IH. Qed.
Lemma value_cons d b : value (d :: b) = d * 10 ^ Z.of_nat (len b) + value b.
Proof. change (d :: b) with ([d] ++ b). rewrite value_app. reflexivity. Qed.

Lemma digits_fuel_acc f : forall n acc, digits_fuel f n acc = digits_fuel f n [] ++ acc.
Proof.
  induction f as [|f IH]; intros n acc; [reflexivity|]. cbn [digits_fuel]. destruct (n <=? 0); [reflexivity|].
  rewrite IH, (IH _ [_]). rewrite <- app_assoc. reflexivity.
Qed.
Lemma digits_fuel_spec f : forall n, 0 < n < 2 ^ Z.of_nat f ->
  value (digits_fuel f n []) = n /\ Forall digit (digits_fuel f n []) /\
  10 ^ (Z.of_nat (len (digits_fuel f n [])) - 1) <= n < 10 ^ Z.of_nat (len (digits_fuel f n [])) /\
  (1 <= len (digits_fuel f n []))%nat.
Proof.
  induction f as [|f IH]; intros n H; [cbn in H; lia|].
  rewrite Nat2Z.inj_succ, Z.pow_succ_r in H by lia.
  cbn [digits_fuel]. destruct (Z.leb_spec n 0); [lia|]. rewrite digits_fuel_acc.
  pose proof (Z.div_mod n 10). pose proof (Z.mod_pos_bound n 10).
  destruct (Z.eq_dec (n / 10) 0) as [E|E].
  - rewrite E. replace (digits_fuel f 0 []) with (@nil Z) by (destruct f; reflexivity). cbn [app List.length].
    rewrite value_cons. cbn [value fold_left List.length].
    change (10 ^ (Z.of_nat 1 - 1)) with 1. change (10 ^ Z.of_nat 1) with 10. change (10 ^ Z.of_nat 0) with 1.
    split; [unfold value; cbn; lia|]. split; [constructor; [unfold digit; lia|constructor]|]. lia.
  - assert (P : 0 < n / 10 < 2 ^ Z.of_nat f).
    { split; [assert (0 <= n / 10) by (apply Z.div_pos; lia); lia|]. apply Z.div_lt_upper_bound; lia. }
    destruct (IH _ P) as (V & D & B & L). rewrite value_app, V, app_length. cbn [List.length].
    set (ds := digits_fuel f (n / 10) []) in *.
    split; [rewrite value_cons; unfold value; cbn; lia|]. split; [apply Forall_app; split; [assumption|constructor; [unfold digit; lia|constructor]]|].
    split; [|lia]. replace (Z.of_nat (len ds + 1) - 1) with (Z.succ (Z.of_nat (len ds) - 1)) by lia.
    replace (Z.of_nat (len ds + 1)) with (Z.succ (Z.of_nat (len ds))) by lia.
    rewrite !Z.pow_succ_r by lia. lia.
Qed.

Lemma digits_spec n : 0 < n ->
  value (digits n) = n /\ Forall digit (digits n) /\
  10 ^ (Z.of_nat (len (digits n)) - 1) <= n < 10 ^ Z.of_nat (len (digits n)) /\ (1 <= len (digits n))%nat.
Proof.
  intros H. unfold digits. apply digits_fuel_spec. split; [assumption|].
  pose proof (Z.log2_nonneg n). replace (Z.of_nat (Z.to_nat (Z.log2 n) + 1)) with (Z.succ (Z.log2 n)) by lia.
  now apply Z.log2_spec.
Qed.

Lemma trim_spec ds : ds = trim ds ++ repeat 0 (len ds - len (trim ds)) /\ (len (trim ds) <= len ds)%nat.
Proof.
  induction ds as [|d ds [IH L]]; [split; [reflexivity|cbn; lia]|]. cbn [trim]. destruct (trim ds) as [|t ts].
  - cbn [List.length app] in *. rewrite Nat.sub_0_r in IH. destruct (Z.eqb_spec d 0) as [->|N].
    + cbn. split; [now rewrite <- IH|lia].
    + cbn. rewrite Nat.sub_0_r. split; [now rewrite <- IH|lia].
  - split; [|cbn in *; lia]. cbn [app List.length Nat.sub]. cbn [app] in IH. f_equal. exact IH.
Qed.
Lemma trim_digits ds : Forall digit ds -> Forall digit (trim ds).
Proof. intros H. destruct (trim_spec ds) as [E _]. rewrite E in H. apply Forall_app in H. tauto. Qed.

(** ** Reading back *)

Lemma char_digit d : digit d -> is_digit (char d) = true /\ char d - 48 = d.
Proof. unfold digit, is_digit, char. lia. Qed.
Definition stops (s : list Z) : Prop := match s with [] => True | b :: _ => is_digit b = false end.
Lemma span_spec ds s : Forall digit ds -> stops s -> span_digits (map char ds ++ s) = (ds, s).
Proof.
  intros H St. induction H as [|d ds Hd H IH]; cbn [map app].
  - destruct s as [|b s]; [reflexivity|]. cbn in *. now rewrite St.
  - cbn [span_digits]. destruct (char_digit d Hd) as [-> E]. rewrite IH. now rewrite E.
Qed.
Lemma map_zeros n : repeat 48 n = map char (repeat 0 n).
Proof. induction n as [|n IH]; [reflexivity|]. cbn. now rewrite IH. Qed.
Lemma zeros_digits n : Forall digit (repeat 0 n).
Proof. apply Forall_forall. intros d H. apply repeat_spec in H. subst. unfold digit. lia. Qed.

(** The two parts of the text. *)
Definition text2 (ip fp : list Z) : list Z := map char ip ++ match fp with [] => [] | _ => 46 :: map char fp end.

Lemma parse_text2 neg ip fp : Forall digit ip -> Forall digit fp -> ip <> [] ->
  let w := nearest (value (ip ++ fp)) (- Z.of_nat (len fp)) in
  parse_float ((if neg : bool then [45] else []) ++ text2 ip fp) =
  if f64_isinf w then None else Some (if neg then f64_neg w else w).
Proof.
  intros Hi Hf N w. assert (T : exists c t, text2 ip fp = c :: t /\ c <> 43 /\ c <> 45).
  { destruct ip as [|d ip]; [easy|]. inversion Hi; subst. eexists. eexists. split; [reflexivity|]. unfold char, digit in *. lia. }
  assert (S : span_digits (text2 ip fp) = (ip, match fp with [] => [] | _ => 46 :: map char fp end)).
  { apply span_spec; [assumption|]. destruct fp; [exact I|reflexivity]. }
  assert (F : match match fp with [] => [] | _ => 46 :: map char fp end with
              | c :: s' => if c =? 46 then span_digits s' else ([], match fp with [] => [] | _ => 46 :: map char fp end)
              | [] => ([], [])
              end = (fp, [])).
  { destruct fp as [|d fp]; [reflexivity|]. cbn [Z.eqb Pos.eqb]. rewrite <- (app_nil_r (map char _)). now apply span_spec. }
  assert (L : (len (ip ++ fp) =? 0)%nat = false) by (destruct ip; easy).
  unfold parse_float. destruct T as (c & t & T & N43 & N45).
  replace (match (if neg then [45] else []) ++ text2 ip fp with
     | [] => (false, [])
     | c :: s' => if c =? 43 then (false, s') else if c =? 45 then (true, s') else (false, (if neg then [45] else []) ++ text2 ip fp)
     end) with (neg, text2 ip fp).
  2: { destruct neg; cbn [app]; [reflexivity|]. rewrite T. destruct (Z.eqb_spec c 43); [contradiction|]. destruct (Z.eqb_spec c 45); [contradiction|]. reflexivity. }
  rewrite S. rewrite F. rewrite L. cbn [parse_exp]. rewrite Z.sub_0_l. reflexivity.
Qed.

(** Fixed notation: its parts. *)
Lemma fmt_f_parts ds dp : Forall digit ds -> ds <> [] -> exists ip fp, Forall digit ip /\ Forall digit fp /\ ip <> [] /\
  fmt_f ds dp = text2 ip fp /\
  Z.of_nat (len fp) = Z.max 0 (Z.of_nat (len ds) - dp) /\
  value (ip ++ fp) = value ds * 10 ^ Z.max 0 (dp - Z.of_nat (len ds)).
Proof.
  intros D N. unfold fmt_f. set (nd := Z.of_nat (len ds)).
  assert (Hn : 0 < nd) by (destruct ds; [easy|unfold nd; cbn; lia]).
  destruct (Z.ltb_spec 0 dp) as [P|P].
  - destruct (Z.ltb_spec 0 (nd - dp)) as [Q|Q].
    + exists (firstn (Z.to_nat dp) ds), (skipn (Z.to_nat dp) ds).
      assert (L : len (skipn (Z.to_nat dp) ds) = (len ds - Z.to_nat dp)%nat) by apply skipn_length.
      assert (Forall digit (firstn (Z.to_nat dp) ds) /\ Forall digit (skipn (Z.to_nat dp) ds)) as [A B].
      { apply Forall_app. now rewrite firstn_skipn. }
      split; [assumption|]. split; [assumption|]. split.
      { intros E. apply (f_equal (@List.length _)) in E. rewrite firstn_length in E. cbn in E. unfold nd in *. lia. }
      replace (Z.to_nat (dp - nd)) with O by lia. replace (Z.to_nat (- dp)) with O by lia. cbn [repeat app].
      rewrite app_nil_r, firstn_skipn. replace (Z.max 0 (dp - nd)) with 0 by lia.
      split; [|split; [unfold nd in *; lia|change (10 ^ 0) with 1; lia]].
      unfold text2. destruct (skipn (Z.to_nat dp) ds); [cbn in L; unfold nd in *; lia|reflexivity].
    + exists (ds ++ repeat 0 (Z.to_nat (dp - nd))), [].
      split; [apply Forall_app; split; [assumption|apply zeros_digits]|]. split; [constructor|].
      split; [destruct ds; easy|]. rewrite firstn_all2 by (unfold nd in *; lia).
      split; [unfold text2; now rewrite map_app, map_zeros|]. split; [cbn; lia|].
      rewrite app_nil_r, value_app, value_zeros, repeat_length. replace (Z.of_nat (Z.to_nat (dp - nd))) with (Z.max 0 (dp - nd)) by lia. lia.
  - replace (0 <? nd - dp) with true by lia.
    exists [0], (repeat 0 (Z.to_nat (- dp)) ++ ds).
    split; [constructor; [unfold digit; lia|constructor]|].
    split; [apply Forall_app; split; [apply zeros_digits|assumption]|]. split; [discriminate|].
    replace (Z.to_nat dp) with O by lia. cbn [skipn]. rewrite map_zeros, <- map_app.
    split; [|split].
    + unfold text2. destruct (repeat 0 (Z.to_nat (- dp)) ++ ds) eqn:E; [apply app_eq_nil in E; easy|reflexivity].
    + rewrite app_length, repeat_length. unfold nd in *. lia.
    + cbn [app]. rewrite value_cons, value_app, value_zeros. replace (Z.max 0 (dp - nd)) with 0 by lia.
      change (10 ^ 0) with 1. lia.
Qed.

Lemma char_byte d : digit d -> number_byte (char d).
Proof.
  intros H. unfold number_byte, char. assert (E : d = 0 \/ d = 1 \/ d = 2 \/ d = 3 \/ d = 4 \/ d = 5 \/ d = 6 \/ d = 7 \/ d = 8 \/ d = 9) by (unfold digit in H; lia).
  repeat (destruct E as [->|E]; [cbn; tauto|]). subst. cbn. tauto.
Qed.
Lemma chars_bytes ds : Forall digit ds -> Forall number_byte (map char ds).
Proof. intros H. apply Forall_forall. intros b Hb. apply in_map_iff in Hb. destruct Hb as (d & <- & Hd). rewrite Forall_forall in H. now apply char_byte, H. Qed.
Lemma text2_bytes (neg : bool) ip fp : Forall digit ip -> Forall digit fp -> Forall number_byte ((if neg then [45] else []) ++ text2 ip fp).
Proof.
  intros A B. apply Forall_app. split; [destruct neg; repeat constructor; unfold number_byte; cbn; tauto|].
  apply Forall_app. split; [now apply chars_bytes|]. destruct fp; [constructor|].
  constructor; [unfold number_byte; cbn; tauto|]. now apply chars_bytes.
Qed.
