(** Proofs about planar/makevalid/walker: PolygonForRing *)
From Coq Require Import ZArith Bool List Lia Reals Lra Permutation.
From Flocq Require Import Core.Core.
From Verif Require Import Base_Res Base_F64 Base_F64Arith Base_Geom M_Geom M_Extent M_Cmp M_Planar M_Triangle M_Winding M_Walker
  P_F64 P_F64Flocq S_Intersect S_Walker S_Cmp P_Cmp P_Cmp2 P_Walker P_Walker2.
Import ListNotations.
Local Open Scope nat_scope.

Lemma live_prefix m idx i' (l1 x y : list pt) : live m idx (l1 ++ x) -> idx <= length l1 -> idx <= i' -> live m i' (l1 ++ y).
Proof.
  intros L H1 H2 q j I G. destruct (L q j I G) as [A B]. split; [lia|]. rewrite nth_error_app1 in * by lia. exact B.
Qed.
Lemma live_sub m m' i rng : (forall q j, In (q, j) m' -> In (q, j) m) -> live m i rng -> live m' i rng.
Proof. intros S L q j I. apply L. now apply S. Qed.
Lemma nowrap_to m m' i i' rng rng' : i < length rng -> nowrap m i rng -> (forall q j, In (q, j) m' -> In (q, j) m) ->
  (i' < length rng' -> forall q, In (q, 0) m' -> last rng' q = last rng q) -> nowrap m' i' rng'.
Proof. intros H N S L Hi q I G. rewrite (L Hi q I). apply N; auto. Qed.

Definition apart_ends (rng : list pt) : Prop := forall d, rng <> [] -> go_eq (hd d rng) (last rng d) = false.

Lemma deletes_sub ds m q j : In (q, j) (fold_left delete ds m) -> In (q, j) m.
Proof. intros H. apply deletes_in in H. tauto. Qed.

Lemma le_step (L L' i i' k : nat) : L * (L + 1) + (L - i) <= S k -> L' + 1 <= L -> L' * (L' + 1) + (L' - i') <= k.
Proof. intros. assert (L' * (L' + 1) + L' + L' + 2 <= L * (L + 1)) by nia. lia. Qed.

Ltac lens := repeat (rewrite app_length || cbn [length]); lia.

Ltac norm := repeat (rewrite <- app_assoc || (progress cbn [app])).

Section Loop.
  Variable ctx : nat -> bool.

  Definition ends_well (n : nat) (rng : list pt) (plyg : list (list pt)) (x : res unit (walked * nat)) : Prop :=
    exists w n', x = Ok (w, n') /\ shape rng plyg w /\ n <= n' /\ (w = WNil -> exists j, n <= j < n' /\ ctx j = true).

  Lemma ends_round n n1 rng plyg rng1 s plyg1 x : n <= n1 -> round rng rng1 s ->
    (exists dr, Permutation (s ++ concat plyg) (concat plyg1 ++ dr)) ->
    (exists ex, plyg1 = plyg ++ ex /\ Forall (fun s => 3 <= length s /\ leftmost_first s) ex) ->
    rings_area plyg1 = (ring_area s + rings_area plyg)%R ->
    ends_well n1 rng1 plyg1 x -> ends_well n rng plyg x.
  Proof.
    intros L R P E A (w & n' & -> & Sh & Ln & C). exists w, n'. split; [reflexivity|]. split; [|split; [lia|]].
    - exact (shape_round rng plyg rng1 s plyg1 w R P E A Sh).
    - intros W. destruct (C W) as (j & Hj & T). exists j. split; [lia|exact T].
  Qed.

  Lemma bubbles_spec k : forall n rng i m plyg,
    length rng * (length rng + 1) + (length rng - i) <= k ->
    live m i rng -> nowrap m i rng -> (i = 0 -> apart_ends rng) ->
    ends_well n rng plyg (bubbles ctx k n rng i m plyg).
  Proof.
    induction k as [|k IH]; intros n rng i m plyg Hk Lv Nw St.
    { assert (rng = []) by (destruct rng; [reflexivity|cbn in Hk; lia]). subst rng. cbn [bubbles].
      rewrite (proj2 (nth_error_None _ _)) by (cbn; lia). exists (WRing [] plyg), n. split; [reflexivity|]. split; [apply shape_refl|]. split; [lia|discriminate]. }
    cbn [bubbles]. destruct (nth_error rng i) as [p|] eqn:Ep.
    2:{ exists (WRing rng plyg), n. split; [reflexivity|]. split; [apply shape_refl|]. split; [lia|discriminate]. }
    assert (Hi : i < length rng) by (apply nth_error_Some; congruence).
    destruct (ctx n) eqn:Ec.
    { exists WNil, (S n). split; [reflexivity|]. split; [exact I|]. split; [lia|]. intros _. exists n. split; [lia|exact Ec]. }
    destruct (lookup m p) as [idx|] eqn:El.
    2:{ destruct (IH (S n) rng (i + 1) ((p, i) :: m) plyg) as (w & n' & E & Sh & Ln & C); [lia| | |lia|].
        - intros q j [H|H] G; [injection H as <- <-; split; [lia|exact Ep]|]. destruct (Lv q j H G). split; [lia|assumption].
        - intros H q [E|I] G; [|now apply Nw]. injection E as <- ->. assert (rng <> []) by (destruct rng; [cbn in Hi; lia|discriminate]).
          specialize (St eq_refl p H0). destruct rng; [congruence|]. injection Ep as <-. exact St.
        - exists w, n'. split; [exact E|]. split; [exact Sh|]. split; [lia|]. intros W. destruct (C W) as (j & Hj & T). exists j. split; [lia|exact T]. }
    apply lookup_in in El. destruct El as (b & Ib & Gb). assert (Gbb := go_eq_refl_l _ _ Gb).
    destruct (Lv b idx Ib Gbb) as [Hidx Eb].
    destruct (split_two rng idx i b p Eb Ep Hidx) as (l1 & mid & l2 & Er & E1 & E2).
    assert (NWr : idx = 0 -> l2 <> []).
    { intros -> ->. specialize (Nw Hi b Ib Gbb). rewrite Er in Nw. change (b :: mid ++ [p]) with ((b :: mid) ++ [p]) in Nw.
      rewrite app_assoc, last_last in Nw. congruence. }
    assert (Ln : length rng = length l1 + 1 + length mid + 1 + length l2).
    { rewrite Er, app_length. cbn [length]. rewrite app_length. cbn [length]. lia. }
    set (m1 := fold_left delete (firstn (i + 1 - idx) (skipn idx rng)) m).
    assert (Lv1 : live m1 idx rng) by (now apply live_cut).
    assert (Sub : forall q j, In (q, j) m1 -> In (q, j) m) by (intros q j; apply deletes_sub).
    clearbody m1. cbv zeta.
    destruct (nth_error rng (p_idx (length rng) idx)) as [a|] eqn:Ea.
    2:{ exfalso. apply nth_error_None in Ea. unfold p_idx in Ea. destruct (Nat.eqb_spec idx 0); lia. }
    destruct (nth_error rng (n_idx (length rng) i)) as [c|] eqn:Ecc.
    2:{ exfalso. apply nth_error_None in Ecc. unfold n_idx in Ecc. destruct (Nat.eqb_spec i (length rng - 1)); lia. }
    destruct (negb (n_idx (length rng) i =? p_idx (length rng) idx) && point_equal hi_cmp a c) eqn:Et.
    - (* ab...ba *)
      apply andb_prop in Et. destruct Et as [Et Pe]. apply negb_true_iff, Nat.eqb_neq in Et.
      assert (Dn : forall q j, In (q, j) (delete m1 a) -> In (q, j) m) by (intros q j H; apply delete_in in H; apply Sub; tauto).
      destruct l1 as [|a0 l1'] using rev_ind; [clear St|clear IHl1'].
      + (* idx = 0 *) cbn [length app] in *. subst idx. destruct l2 as [|a0 l2'] using rev_ind; [now elim (NWr eq_refl)|]. clear IHl2'.
        rewrite app_length in Ln. cbn [length] in Ln.
        unfold p_idx, n_idx in *. cbn [Nat.eqb] in *. rewrite (proj2 (Nat.eqb_neq i (length rng - 1))) in * by lia.
        destruct l2' as [|c0 l2'']; [cbn [length] in Ln; lia|]. cbn [length] in Ln.
        assert (Er2 : rng = (b :: mid ++ [p]) ++ (c0 :: l2'') ++ [a0]) by (rewrite Er; cbn [app]; rewrite <- app_assoc; reflexivity).
        assert (a0 = a).
        { assert (E' : nth_error (((b :: mid ++ [p]) ++ c0 :: l2'') ++ [a0]) (length rng - 1) = Some a) by (rewrite <- app_assoc, <- Er2; exact Ea).
          rewrite nth_error_app2 in E' by lens. match type of E' with nth_error _ ?k = _ => replace k with 0 in E' by lens end. now injection E'. }
        assert (c0 = c).
        { assert (E' : nth_error ((b :: mid ++ [p]) ++ (c0 :: l2'') ++ [a0]) (i + 1) = Some c) by (rewrite <- Er2; exact Ecc).
          rewrite nth_error_app2 in E' by lens. match type of E' with nth_error _ ?k = _ => replace k with 0 in E' by lens end. now injection E'. }
        subst a0 c0.
        assert (Ecut : cut rng (length rng - 1) (i + 1) = Ok (a :: b :: mid ++ [p], c :: l2'')).
        { pose proof (cut_around (b :: mid ++ [p]) (c :: l2'') [a] ltac:(discriminate) ltac:(discriminate)) as Q. rewrite <- Er2 in Q.
          replace (length (b :: mid ++ [p]) + length (c :: l2'')) with (length rng - 1) in Q by (cbn [length]; rewrite app_length; cbn [length]; lia).
          replace (length (b :: mid ++ [p])) with (i + 1) in Q by (cbn [length]; rewrite app_length; cbn [length]; lia). exact Q. }
        rewrite Ecut. cbn [bind]. change (length (a :: b :: mid ++ [p]) <? 2) with false. change (skipn 2 (a :: b :: mid ++ [p])) with (mid ++ [p]). cbv iota zeta.
        destruct (append_sliver (mid ++ [p]) plyg) as (plyg1 & Ep1 & P1 & X1 & A1). rewrite Ep1. cbn [bind].
        apply ends_round with (S n) (c :: l2'') (mid ++ [p]) plyg1; [lia| |exact P1|exact X1|exact A1|].
        * apply round_bubble with a b c l2''; [exact Gb|exact Pe| | |apply Permutation_refl|reflexivity].
          -- rewrite Er2. change (a :: b :: mid ++ p :: c :: l2'') with ([a] ++ b :: mid ++ p :: c :: l2'').
             rewrite Permutation_app_comm. norm. apply Permutation_refl.
          -- unfold ring_area. rewrite Er2, (app_assoc _ (c :: l2'') [a]), map_app, area_rot, <- map_app. norm. reflexivity.
        * apply IH; [apply (le_step (length rng) (length (c :: l2'')) i); [exact Hk|cbn [length]; lia]| | |lia].
          -- intros q j H G. apply delete_in in H. destruct H as [H _]. destruct (Lv1 q j H G). lia.
          -- intros _ q H G. apply delete_in in H. destruct H as [H _]. destruct (Lv1 q 0 H G). lia.
      + (* l1 = l1' ++ [a] *)
        rewrite app_length in E1, Ln. cbn [length] in E1, Ln. assert (Hz : idx <> 0) by lia.
        assert (a0 = a).
        { unfold p_idx in Ea. rewrite (proj2 (Nat.eqb_neq idx 0)) in Ea by lia. rewrite Er, <- app_assoc, nth_error_app2 in Ea by lia.
          replace (idx - 1 - length l1') with 0 in Ea by lia. now injection Ea. }
        subst a0. unfold p_idx, n_idx in *. rewrite (proj2 (Nat.eqb_neq idx 0)) in * by lia.
        assert (Dl : live (delete m1 a) (length l1') rng).
        { intros q j H G. apply delete_in in H. destruct H as [H D]. destruct (Lv1 q j H G) as [J N]. split; [|exact N].
          destruct (Nat.eq_dec j (length l1')) as [->|]; [|lia]. rewrite Er, <- app_assoc, nth_error_app2, Nat.sub_diag in N by lia.
          cbn in N. injection N as <-. congruence. }
        destruct l2 as [|c0 l2'].
        * (* i = len - 1 *)
          cbn [length] in Ln. rewrite (proj2 (Nat.eqb_eq i (length rng - 1))) in * by lia.
          destruct l1' as [|c0 l1''] eqn:El1; [cbn [length] in *; lia|]. rewrite <- El1 in *.
          assert (c0 = c) by (rewrite Er, El1 in Ecc; cbn in Ecc; now injection Ecc). subst c0.
          assert (Er2 : rng = [] ++ l1' ++ (a :: b :: mid ++ [p])) by (rewrite Er; cbn [app]; rewrite <- app_assoc; reflexivity).
          assert (Ecut : cut rng (idx - 1) 0 = Ok (a :: b :: mid ++ [p], l1')).
          { pose proof (cut_around [] l1' (a :: b :: mid ++ [p]) ltac:(rewrite El1; discriminate) ltac:(discriminate)) as Q. rewrite <- Er2, app_nil_r in Q.
            cbn [length Nat.add] in Q. replace (length l1') with (idx - 1) in Q by lia. exact Q. }
          rewrite Ecut. cbn [bind]. change (length (a :: b :: mid ++ [p]) <? 2) with false. change (skipn 2 (a :: b :: mid ++ [p])) with (mid ++ [p]). cbv iota zeta.
          destruct (append_sliver (mid ++ [p]) plyg) as (plyg1 & Ep1 & P1 & X1 & A1). rewrite Ep1. cbn [bind].
          apply ends_round with (S n) l1' (mid ++ [p]) plyg1; [lia| |exact P1|exact X1|exact A1|].
          -- apply round_bubble with a b c l1''; [exact Gb|exact Pe| | |rewrite El1; apply Permutation_refl|rewrite El1; reflexivity].
             ++ rewrite Er2. cbn [app]. rewrite (Permutation_app_comm l1'). rewrite El1. norm. apply Permutation_refl.
             ++ unfold ring_area. rewrite Er2. cbn [app]. rewrite map_app, area_rot, <- map_app, El1. norm. reflexivity.
          -- replace (idx - 1 + 1) with idx by lia. 
             apply IH; [apply (le_step (length rng) (length l1') i); [exact Hk|lia]| | |lia].
             ++ intros q j H0 G. destruct (Dl q j H0 G) as [J N]. split; [lia|]. rewrite Er2 in N. cbn [app] in N. now rewrite nth_error_app1 in N by lia.
             ++ intros H1. exfalso. lia.
        * cbn [length] in Ln. rewrite (proj2 (Nat.eqb_neq i (length rng - 1))) in * by lia.
          assert (c0 = c).
          { rewrite Er, <- app_assoc in Ecc. cbn [app] in Ecc. rewrite nth_error_app2 in Ecc by lia.
            match type of Ecc with nth_error _ ?k = _ => replace k with (S (S (length mid + 1))) in Ecc by lia end. cbn [nth_error] in Ecc.
            rewrite nth_error_app2 in Ecc by lia. replace (length mid + 1 - length mid) with 1 in Ecc by lia. now injection Ecc. }
          subst c0.
          assert (Er2 : rng = l1' ++ (a :: b :: mid ++ [p]) ++ c :: l2') by (rewrite Er, <- !app_assoc; cbn [app]; rewrite <- app_assoc; reflexivity).
          assert (Ecut : cut rng (idx - 1) (i + 1) = Ok (a :: b :: mid ++ [p], l1' ++ c :: l2')).
          { pose proof (cut_middle l1' (a :: b :: mid ++ [p]) (c :: l2') ltac:(discriminate)) as Q. rewrite <- Er2 in Q.
            cbn [length] in Q. rewrite app_length in Q. cbn [length] in Q.
            replace (length l1' + S (S (length mid + 1))) with (i + 1) in Q by lia. replace (length l1') with (idx - 1) in Q by lia. exact Q. }
          rewrite Ecut. cbn [bind]. change (length (a :: b :: mid ++ [p]) <? 2) with false. change (skipn 2 (a :: b :: mid ++ [p])) with (mid ++ [p]). cbv iota zeta.
          destruct (append_sliver (mid ++ [p]) plyg) as (plyg1 & Ep1 & P1 & X1 & A1). rewrite Ep1. cbn [bind].
          apply ends_round with (S n) (l1' ++ c :: l2') (mid ++ [p]) plyg1; [lia| |exact P1|exact X1|exact A1|].
          -- apply round_bubble with a b c (l2' ++ l1'); [exact Gb|exact Pe| | |rewrite (Permutation_app_comm l1'); apply Permutation_refl|].
             ++ rewrite Er2. rewrite (Permutation_app_comm l1'). norm. apply Permutation_refl.
             ++ unfold ring_area. rewrite Er2. rewrite map_app, area_rot, <- map_app. norm. reflexivity.
             ++ unfold ring_area. rewrite map_app, area_rot, <- map_app. reflexivity.
          -- apply IH; [apply (le_step (length rng) (length (l1' ++ c :: l2')) i); [exact Hk|rewrite app_length; cbn [length]; lia]| | |lia].
             ++ rewrite Er2 in Dl. apply live_prefix with (length l1') ((a :: b :: mid ++ [p]) ++ c :: l2'); [exact Dl|lia|lia].
             ++ apply nowrap_to with m i rng; [exact Hi|exact Nw|exact Dn|]. intros _ q _. rewrite Er2, app_assoc, !last_app_ne by discriminate. reflexivity.
    - (* ab...bc *) clear Et.
      assert (Ecut : cut rng idx i = Ok (b :: mid, l1 ++ p :: l2)).
      { pose proof (cut_middle l1 (b :: mid) (p :: l2) ltac:(discriminate)) as Q. cbn [app] in Q. rewrite <- Er in Q.
        cbn [length] in Q. rewrite E1 in Q. replace (idx + S (length mid)) with i in Q by lia. exact Q. }
      rewrite Ecut. cbn [bind].
      destruct (remove_bridge_spec (b :: mid) ltac:(discriminate)) as (s & Es & Ps & As). rewrite Es. cbn [bind].
      destruct (append_sliver s plyg) as (plyg1 & Ep1 & P1 & X1 & A1). rewrite Ep1. cbn [bind].
      destruct (is_point_on_line hi_cmp p a c) eqn:Ol.
      + assert (Nb : l2 ++ l1 <> [] -> a = last (l2 ++ l1) a /\ c = hd c (l2 ++ l1)).
        { intros _. split.
          - destruct l1 as [|a0 l1'] using rev_ind; [|clear IHl1'].
            + cbn [length] in E1. subst idx. destruct l2 as [|a0 l2'] using rev_ind; [now elim (NWr eq_refl)|]. rewrite app_nil_r, last_last.
              unfold p_idx in Ea. cbn [Nat.eqb] in Ea. rewrite Er in Ea at 1. cbn [app] in Ea.
              change (b :: mid ++ p :: l2' ++ [a0]) with ((b :: mid) ++ (p :: l2') ++ [a0]) in Ea. rewrite app_assoc, nth_error_app2 in Ea by (rewrite Ln, !app_length; cbn [length]; lia).
              rewrite Ln, !app_length in Ea. cbn [length] in Ea. match type of Ea with nth_error _ ?k = _ => replace k with 0 in Ea by lia end. now injection Ea.
            + rewrite app_assoc, last_last. rewrite app_length in E1. cbn [length] in E1. unfold p_idx in Ea. rewrite (proj2 (Nat.eqb_neq idx 0)) in Ea by lia.
              rewrite Er, <- app_assoc, nth_error_app2 in Ea by lia. replace (idx - 1 - length l1') with 0 in Ea by lia. now injection Ea.
          - destruct l2 as [|c0 l2'].
            + cbn [length app] in *. destruct l1 as [|c0 l1']; [cbn in E1; now elim (NWr (eq_sym E1))|]. unfold n_idx in Ecc.
              rewrite (proj2 (Nat.eqb_eq i (length rng - 1))) in Ecc by lia. rewrite Er in Ecc. cbn in Ecc. now injection Ecc.
            + cbn [app hd length] in *. unfold n_idx in Ecc. rewrite (proj2 (Nat.eqb_neq i (length rng - 1))) in Ecc by lia.
              rewrite Er, nth_error_app2 in Ecc by lia. match type of Ecc with nth_error _ ?k = _ => replace k with (S (length mid + 1)) in Ecc by lia end.
              cbn [nth_error] in Ecc. rewrite nth_error_app2 in Ecc by lia. replace (length mid + 1 - length mid) with 1 in Ecc by lia. now injection Ecc. }
        assert (Rd : round rng (l1 ++ l2) s) by (rewrite Er; now apply round_drop with a c).
        assert (Ec2 : cut (l1 ++ p :: l2) idx (idx + 1) = Ok ([p], l1 ++ l2)).
        { pose proof (cut_middle l1 [p] l2 ltac:(discriminate)) as Q. cbn [app length] in Q. rewrite E1 in Q. exact Q. }
        rewrite Ec2. cbn [bind]. destruct (Nat.eqb_spec idx 0) as [Z0|Z0].
        * apply ends_round with (S n) (l1 ++ l2) s plyg1; [lia|exact Rd|exact P1|exact X1|exact A1|].
          exists (WRing (l1 ++ l2) plyg1), (S n). split; [reflexivity|]. split; [apply shape_refl|]. split; [lia|discriminate].
        * replace (idx - 1 + 1) with idx by lia.
          apply ends_round with (S n) (l1 ++ l2) s plyg1; [lia|exact Rd|exact P1|exact X1|exact A1|].
          apply IH; [apply (le_step (length rng) (length (l1 ++ l2)) i); [exact Hk|rewrite app_length; lia]| | |lia].
          -- rewrite Er in Lv1. apply live_prefix with idx (b :: mid ++ p :: l2); [exact Lv1|lia|lia].
          -- apply nowrap_to with m i rng; [exact Hi|exact Nw|exact Sub|]. intros Hl q _.
             assert (l2 <> []) by (intros ->; rewrite app_nil_r in Hl; lia).
             rewrite Er. change (b :: mid ++ p :: l2) with ((b :: mid) ++ [p] ++ l2). rewrite !last_app_ne; [reflexivity|..]; try assumption; cbn; discriminate.
      + assert (Rd : round rng (l1 ++ p :: l2) s) by (rewrite Er; now apply round_keep).
        apply ends_round with (S n) (l1 ++ p :: l2) s plyg1; [lia|exact Rd|exact P1|exact X1|exact A1|].
        apply IH; [apply (le_step (length rng) (length (l1 ++ p :: l2)) i); [exact Hk|rewrite app_length; cbn [length]; lia]| | |lia].
        * rewrite Er in Lv1. apply live_prefix with idx (b :: mid ++ p :: l2); [exact Lv1|lia|lia].
        * apply nowrap_to with m i rng; [exact Hi|exact Nw|exact Sub|]. intros Hl q _.
          rewrite Er. change (b :: mid ++ p :: l2) with ((b :: mid) ++ p :: l2). rewrite !last_app_ne; [reflexivity|..]; cbn; discriminate.
  Qed.
End Loop.
