(** Proofs about well-known text: reading what was written. *)
From Coq Require Import String ZArith Bool List Lia.
From Coq Require Import ZifyBool ZifyNat.
From Verif Require Import Base_F64 Base_Geom Base_Res Base_Bytes M_Extent M_Cmp M_Gpkg M_Wkt S_Wkt S_Cmp P_F64 P_Cmp P_Wkt.
Import ListNotations.
Open Scope Z_scope.

Definition brack (ts : list (list Z)) : list Z :=
  match ts with [] => str "EMPTY" | _ => 40 :: join ts ++ [41] end.

Lemma brack_starts ts : starts (brack ts).
Proof.
  destruct ts; cbn; [exists 69, (str "MPTY")|exists 40; eexists]; (split; [reflexivity|split; [reflexivity|discriminate]]).
Qed.

Lemma brack_reads {A} (R : list Z -> dres A) ts os :
  Forall2 (fun t o => starts t /\ elem_reads R t o) ts os ->
  brk_reads (bracketed R) (brack ts) (match ts with [] => None | _ => sequence os end).
Proof.
  intros H. destruct ts as [|t ts]; [apply empty_fails|]. apply bracketed_reads; [assumption|discriminate].
Qed.

Lemma Forall2_snoc_l {A B} (P : A -> B -> Prop) a x ts :
  Forall2 P (a ++ [x]) ts <-> exists us u, ts = us ++ [u] /\ Forall2 P a us /\ P x u.
Proof.
  split.
  - intros H. apply Forall2_app_inv_l in H. destruct H as (us & vs & F & G & ->).
    inversion G as [|? u ? ? Pu N]; subst. inversion N; subst. now exists us, u.
  - intros (us & u & -> & F & Pu). apply Forall2_app; auto.
Qed.

Lemma last_firstn {A} (a : list A) x d :
  firstn (Z.to_nat (Z.of_nat (len (a ++ [x])) - 1)) (a ++ [x]) = a /\
  nth (Z.to_nat (Z.of_nat (len (a ++ [x])) - 1)) (a ++ [x]) d = x.
Proof.
  replace (Z.to_nat (Z.of_nat (len (a ++ [x])) - 1)) with (len a) by (rewrite app_length; cbn; lia).
  split.
  - rewrite firstn_app, Nat.sub_diag, firstn_all. cbn. apply app_nil_r.
  - rewrite app_nth2 by lia. now rewrite Nat.sub_diag.
Qed.

Section Lines.
  Variables (fmt : f64 -> list Z).
  Variable strict : bool.
  Notation pts_ok := (pts_ok fmt strict).
  Notation lines_allowed := (lines_allowed strict).

  Lemma middle_ok t a u tx : pts_ok t a u -> forall ls,
    (wr (str "(") >> lines_loop fmt strict t ls >> encode_points fmt strict a t >> wr (str ")")) = (tx, None) <->
    lines_allowed t ls /\ exists ts, Forall2 (pts_ok t) (sel_lines t ls) ts /\ tx = brack (ts ++ [u]).
  Proof.
    intros P ls. rewrite andthen_ok. split.
    - intros (t0 & tb & E0 & H & ->). injection E0 as <-. apply andthen_ok in H.
      destruct H as (t1 & t2 & E1 & H & ->). apply andthen_ok in H. destruct H as (t3 & t4 & E3 & E4 & ->).
      injection E4 as <-. apply lines_loop_ok in E1. destruct E1 as (L & ts & F & ->). split; [assumption|].
      exists ts. split; [assumption|]. unfold P_Wkt.pts_ok in P.
      assert (t3 = u) by congruence. subst t3.
      unfold brack. destruct (ts ++ [u]) eqn:N; [destruct ts; discriminate|]. rewrite <- N, join_snoc.
      cbn. now rewrite <- !app_assoc.
    - intros (L & ts & F & ->). exists [40], (concat (map (fun x => x ++ [44]) ts) ++ u ++ [41]).
      split; [reflexivity|]. split.
      + apply andthen_ok. exists (concat (map (fun x => x ++ [44]) ts)), (u ++ [41]).
        split; [apply lines_loop_ok; split; [assumption|]; exists ts; auto|]. split; [|reflexivity].
        apply andthen_ok. exists u, [41]. auto.
      + unfold brack. destruct (ts ++ [u]) eqn:N; [destruct ts; discriminate|]. rewrite <- N, join_snoc.
        cbn. now rewrite <- !app_assoc.
  Qed.

  Lemma lines_eta (b : list pt -> bool) : forall ls : list (list pt), forallb (fun l => negb (has_point l)) ls = true -> filter has_point ls = [].
  Proof.
    induction ls as [|x ls IH]; [reflexivity|]. cbn. rewrite andb_true_iff, negb_true_iff. intros [-> H]. auto.
  Qed.

  Lemma last_lines ls :
    (filter has_point ls = [] /\ last_idx_lines ls = -1) \/
    exists a x b, ls = a ++ x :: b /\ has_point x = true /\ filter has_point b = [] /\
      last_idx_lines ls = Z.of_nat (len a).
  Proof.
    assert (Q : forall b : list (list pt), forallb (fun l => last_idx_points l =? -1) b = true -> filter has_point b = []).
    { induction b as [|y b IH]; [reflexivity|]. cbn. rewrite andb_true_iff, no_point, negb_true_iff. intros [-> H]. auto. }
    unfold last_idx_lines. destruct (last_idx_spec (fun l => last_idx_points l =? -1) ls) as [[F E]|(a & x & b & -> & X & F & E)].
    - left. auto.
    - right. rewrite no_point, negb_false_iff in X. exists a, x, b. auto.
  Qed.

  Lemma filter_app' {A} (f : A -> bool) l1 l2 : filter f (l1 ++ l2) = filter f l1 ++ filter f l2.
  Proof. induction l1 as [|x l IH]; [reflexivity|]. cbn. rewrite IH. now destruct (f x). Qed.

  Lemma forallb_filter_nil {A} (f : A -> bool) l : forallb f l = true -> filter f l = [] -> l = [].
  Proof. destruct l as [|x l]; [reflexivity|]. cbn. intros H. apply andb_true_iff in H. destruct H as [-> _]. discriminate. Qed.

  Lemma lines_ok t ls tx : encode_lines fmt strict ls t = (tx, None) <->
    lines_allowed t ls /\ exists ts, Forall2 (pts_ok t) (sel_lines t ls) ts /\ tx = brack ts.
  Proof.
    unfold encode_lines. destruct (is_ml t) eqn:M; cbn [negb andb].
    - destruct ls as [|x0 ls0] using rev_ind.
      + change (Z.of_nat (len []) - 1 =? -1) with true. cbn match. unfold sel_lines. rewrite M. split.
        * intros H. apply (f_equal fst) in H. cbn in H. subst tx. split; [intros _ W; congruence|].
          exists []. split; [constructor|reflexivity].
        * intros (_ & ts & F & ->). inversion F. reflexivity.
      + clear IHls0. destruct (last_firstn ls0 x0 []) as [E1 E2]. rewrite E1, E2.
        destruct (Z.eqb_spec (Z.of_nat (len (ls0 ++ [x0])) - 1) (-1)) as [W|_]; [rewrite app_length in W; cbn in W; lia|].
        unfold sel_lines. rewrite M. split.
        * intros H. assert (Hp : exists u, pts_ok t x0 u).
          { apply andthen_ok in H. destruct H as (? & ? & _ & H & _). apply andthen_ok in H.
            destruct H as (? & ? & _ & H & _). apply andthen_ok in H. destruct H as (u & ? & H & _). now exists u. }
          destruct Hp as (u & Hp). apply (middle_ok t x0 u tx Hp) in H. destruct H as (_ & ts & F & ->).
          split; [intros _ W; congruence|]. exists (ts ++ [u]). unfold sel_lines in F. rewrite M in F.
          split; [|reflexivity]. apply Forall2_app; auto.
        * intros (_ & ts & F & ->). apply Forall2_snoc_l in F. destruct F as (us & u & -> & F & Hp).
          apply (middle_ok t x0 u _ Hp). split; [intros _ W; congruence|]. exists us. unfold sel_lines. rewrite M. auto.
    - destruct (last_lines ls) as [[F E]|(a & x & b & -> & X & F & E)]; rewrite E.
      + change (-1 =? -1) with true. cbn match.
        unfold sel_lines. rewrite M, F.
        destruct ls as [|y ls].
        * change (Z.of_nat (len []) - 1) with (-1). change (-1 =? -1) with true. cbn [negb andb]. split.
          -- intros H. apply (f_equal fst) in H. cbn in H. subst tx. split; [intros _ _; reflexivity|].
             exists []. split; [constructor|reflexivity].
          -- intros (_ & ts & G & ->). inversion G. reflexivity.
        * destruct (Z.eqb_spec (-1) (Z.of_nat (len (y :: ls)) - 1)) as [W|_]; [cbn [List.length] in W; lia|].
          cbn [negb andb]. destruct strict eqn:St.
          -- split; [discriminate|]. intros (L & _). specialize (L eq_refl M).
             apply (forallb_filter_nil _ _ L) in F. discriminate.
          -- split.
             ++ intros H. apply (f_equal fst) in H. cbn in H. subst tx. split; [discriminate|].
                exists []. split; [constructor|reflexivity].
             ++ intros (_ & ts & G & ->). inversion G. reflexivity.
      + assert (Ef : firstn (Z.to_nat (Z.of_nat (len a))) (a ++ x :: b) = a).
        { rewrite Nat2Z.id, firstn_app, Nat.sub_diag, firstn_all. cbn. apply app_nil_r. }
        assert (En : nth (Z.to_nat (Z.of_nat (len a))) (a ++ x :: b) [] = x).
        { rewrite Nat2Z.id, app_nth2 by lia. now rewrite Nat.sub_diag. }
        rewrite Ef, En.
        destruct (Z.eqb_spec (Z.of_nat (len a)) (-1)) as [W|_]; [lia|].
        assert (Sl : sel_lines t (a ++ x :: b) = sel_lines t a ++ [x]).
        { unfold sel_lines. rewrite M, filter_app'. cbn. now rewrite X, F. }
        rewrite Sl.
        destruct (negb (Z.of_nat (len a) =? Z.of_nat (len (a ++ x :: b)) - 1) && strict) eqn:C.
        * apply andb_true_iff in C. destruct C as [C St]. split; [discriminate|]. intros (L & _).
          specialize (L St M). rewrite forallb_app in L. cbn in L. apply andb_true_iff in L. destruct L as [_ L].
          apply andb_true_iff in L. destruct L as [_ L]. apply (forallb_filter_nil _ _ L) in F. subst b.
          rewrite app_length in C. cbn in C. lia.
        * assert (La : lines_allowed t (a ++ x :: b) <-> lines_allowed t a).
          { unfold P_Wkt.lines_allowed. split; intros L St Mt; specialize (L St Mt).
            - rewrite forallb_app in L. now apply andb_true_iff in L.
            - rewrite St, andb_true_r in C. rewrite app_length in C. cbn in C.
              assert (Lb : len b = 0%nat) by lia. destruct b; [|discriminate].
              rewrite forallb_app, L. cbn. now rewrite X. }
          split.
          -- intros H. assert (Hp : exists u, pts_ok t x u).
             { apply andthen_ok in H. destruct H as (? & ? & _ & H & _). apply andthen_ok in H.
               destruct H as (? & ? & _ & H & _). apply andthen_ok in H. destruct H as (u & ? & H & _). now exists u. }
             destruct Hp as (u & Hp). apply (middle_ok t x u tx Hp) in H. destruct H as (L & ts & G & ->).
             split; [now apply La|]. exists (ts ++ [u]). split; [|reflexivity]. apply Forall2_app; auto.
          -- intros (L & ts & G & ->). apply Forall2_snoc_l in G. destruct G as (us & u & -> & G & Hp).
             apply (middle_ok t x u _ Hp). split; [now apply La|]. exists us. auto.
  Qed.

  Definition lns_ok (t : gtype) (ls : list (list pt)) (tx : list Z) : Prop := encode_lines fmt strict ls t = (tx, None).

  Lemma polys_loop_ok pls tx : polys_loop fmt strict pls = (tx, None) <->
    exists ts, Forall2 (lns_ok mPolyType) pls ts /\ tx = concat (map (fun x => x ++ [44]) ts).
  Proof.
    revert tx. induction pls as [|v pls IH]; intros tx; cbn [polys_loop].
    - split; [intros H; injection H as <-; exists []; split; [constructor|reflexivity]|].
      intros (ts & F & ->). inversion F. reflexivity.
    - rewrite andthen_ok. split.
      + intros (ta & tb & Ea & H & ->). apply andthen_ok in H. destruct H as (tc & td & Ec & H & ->).
        injection Ec as <-. apply IH in H. destruct H as (ts & F & ->). exists (ta :: ts).
        split; [constructor; assumption|]. cbn. now rewrite <- app_assoc.
      + intros (ts & F & ->). inversion F as [|? t1 ? ts' F1 F2]; subst.
        exists t1, (44 :: concat (map (fun x => x ++ [44]) ts')). split; [assumption|].
        split; [|cbn; now rewrite <- app_assoc]. apply andthen_ok.
        exists [44], (concat (map (fun x => x ++ [44]) ts')). split; [reflexivity|]. split; [|reflexivity].
        apply IH. now exists ts'.
  Qed.

  Lemma polys_ok pls tx : encode_polys fmt strict pls = (tx, None) <->
    exists ts, Forall2 (lns_ok mPolyType) pls ts /\ tx = brack ts.
  Proof.
    destruct pls as [|x a] using rev_ind.
    - cbn. split.
      + intros H. apply (f_equal fst) in H. cbn in H. subst tx. exists []. split; [constructor|reflexivity].
      + intros (ts & F & ->). inversion F. reflexivity.
    - clear IHa. unfold encode_polys. destruct (a ++ [x]) as [|z l] eqn:Z; [destruct a; discriminate|].
      rewrite <- Z. clear z l Z. rewrite removelast_last, last_last, andthen_ok. split.
      + intros (t0 & tb & E0 & H & ->). injection E0 as <-. apply andthen_ok in H.
        destruct H as (t1 & t2 & E1 & H & ->). apply andthen_ok in H. destruct H as (u & t4 & E3 & E4 & ->).
        injection E4 as <-. apply polys_loop_ok in E1. destruct E1 as (ts & F & ->).
        exists (ts ++ [u]). split; [apply Forall2_app; auto|].
        unfold brack. destruct (ts ++ [u]) eqn:N; [destruct ts; discriminate|]. rewrite <- N, join_snoc.
        cbn. now rewrite <- !app_assoc.
      + intros (ts & F & ->). apply Forall2_snoc_l in F. destruct F as (us & u & -> & F & Hu).
        exists [40], (concat (map (fun x => x ++ [44]) us) ++ u ++ [41]). split; [reflexivity|]. split.
        * apply andthen_ok. exists (concat (map (fun x => x ++ [44]) us)), (u ++ [41]).
          split; [apply polys_loop_ok; now exists us|]. split; [|reflexivity].
          apply andthen_ok. exists u, [41]. auto.
        * unfold brack. destruct (us ++ [u]) eqn:N; [destruct us; discriminate|]. rewrite <- N, join_snoc.
          cbn. now rewrite <- !app_assoc.
  Qed.
End Lines.
