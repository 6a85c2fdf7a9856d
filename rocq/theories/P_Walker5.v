(** Proofs about planar/makevalid/walker: PolygonForRing *)
From Coq Require Import ZArith Bool List Lia Reals Lra Permutation.
From Flocq Require Import Core.Core.
From Verif Require Import Base_Res Base_F64 Base_F64Arith Base_Geom M_Geom M_Extent M_Cmp M_Planar M_Triangle M_Winding M_Walker
  P_F64 P_F64Flocq S_Intersect S_Walker S_Cmp P_Cmp P_Cmp2 P_Walker P_Walker2 P_Walker3 P_Walker4.
Import ListNotations.
Local Open Scope nat_scope.

Lemma rotated_ends r : no_repeat go_eq r -> apart_ends (rotated (find_min_idx r) r).
Proof.
  intros H d N. assert (Nr : r <> []) by (intros ->; now elim N).
  pose proof (find_min_lt r Nr) as L. set (k := find_min_idx r) in *. clearbody k. unfold rotated in *.
  destruct (nth_error r k) as [p|] eqn:E; [|apply nth_error_None in E; lia]. rewrite (skipn_nth _ _ _ E) in *. cbn [app hd].
  rewrite go_eq_sym. destruct k as [|k].
  - cbn [firstn]. rewrite app_nil_r. destruct r as [|x r]; [now elim Nr|]. cbn in E. injection E as ->. change (skipn 1 (p :: r)) with r.
    destruct r as [|q r] using rev_ind.
    + cbn. apply (H [] p p []). reflexivity.
    + clear IHr. rewrite app_comm_cons, last_last. apply (H (p :: r) q p []). cbn. rewrite <- app_assoc. reflexivity.
  - destruct (nth_error r k) as [q|] eqn:Eq; [|apply nth_error_None in Eq; lia].
    assert (Ef : firstn (S k) r = firstn k r ++ [q]).
    { clear - Eq. revert r Eq. induction k as [|k IH]; intros [|x r] E; try discriminate; [cbn in E; now injection E as ->|].
      cbn [firstn app]. f_equal. now apply IH. }
    rewrite Ef, app_comm_cons, app_assoc, last_last.
    apply (H (firstn k r) q p (skipn (S (S k)) r ++ firstn 1 r)).
    rewrite <- (firstn_skipn k r) at 1. rewrite (skipn_nth _ _ _ Eq), (skipn_nth _ _ _ E). rewrite <- app_assoc. reflexivity.
Qed.


Theorem polygon_for_ring_spec ctx n rng : no_repeat go_eq rng ->
  exists out n', polygon_for_ring ctx n rng = Ok (out, n') /\ n <= n' /\
  match out with
  | None => True
  | Some rs => rs <> [] /\ Forall good_ring rs /\
      (exists dr, Permutation rng (concat rs ++ dr)) /\
      (Forall finite_pt rng -> exact_on hi_cmp rng -> rings_area rs = ring_area rng)
  end.
Proof.
  intros H. unfold polygon_for_ring. destruct (Nat.leb_spec (length rng) 2) as [L|L].
  { exists None, n. split; [reflexivity|]. split; [lia|exact I]. }
  rewrite rotate_leftmost_ok. cbn [bind]. set (r := rotated (find_min_idx rng) rng).
  assert (Pr : Permutation rng r) by apply rotated_perm.
  destruct (bubbles_spec ctx ((length r + 1) * (length r + 1)) n r 0 [] []) as (w & n' & E & Sh & Ln & _).
  - rewrite Nat.sub_0_r. nia.
  - intros q j [].
  - intros _ q [].
  - intros _. now apply rotated_ends.
  - rewrite E. cbn [bind]. destruct w as [|rng' sl].
    { exists None, n'. split; [reflexivity|]. split; [lia|exact I]. }
    destruct (Nat.leb_spec (length rng') 2) as [L'|L'].
    { exists None, n'. split; [reflexivity|]. split; [lia|exact I]. }
    rewrite rotate_leftmost_ok. cbn [bind]. eexists (Some _), n'. split; [reflexivity|]. split; [lia|].
    destruct Sh as ([dr P] & (ex & -> & F) & A). cbn [app concat] in *. rewrite app_nil_r in P.
    split; [discriminate|]. split; [|split].
    + constructor; [|exact F]. split; [now rewrite <- (Permutation_length (rotated_perm _ rng'))|].
      apply rotated_leftmost. intros ->. cbn in L'. lia.
    + exists dr. cbn [concat]. rewrite Pr, P, <- app_assoc. apply Permutation_app_tail, rotated_perm.
    + intros Ff Ex. cbn [rings_area fold_right]. rewrite rotated_area.
      specialize (A rng). change (rings_area []) with 0%R in A. rewrite Rplus_0_r in A. 
      change (fold_right (fun r s => (ring_area r + s)%R) 0%R ex) with (rings_area ex).
      rewrite A; [unfold r; apply rotated_area| |exact Ff|exact Ex].
      intros x Hx. now rewrite Pr.
Qed.

(** ** Rings that pass each vertex once *)

Lemma bubbles_distinct ctx : (forall n, ctx n = false) -> forall k n pre post m plyg,
  (forall q j, In (q, j) m -> In q pre) -> distinct (pre ++ post) -> length post <= k ->
  bubbles ctx k n (pre ++ post) (length pre) m plyg = Ok (WRing (pre ++ post) plyg, n + length post).
Proof.
  intros C. induction k as [|k IH]; intros n pre post m plyg I D L.
  - destruct post; [|cbn in L; lia]. cbn [bubbles]. rewrite (proj2 (nth_error_None _ _)) by (rewrite app_length; cbn; lia).
    cbn [length]. now rewrite Nat.add_0_r.
  - cbn [bubbles]. destruct post as [|p post].
    + rewrite (proj2 (nth_error_None _ _)) by (rewrite app_length; cbn; lia). cbn [length]. now rewrite Nat.add_0_r.
    + rewrite nth_error_app2, Nat.sub_diag by lia. cbn [nth_error]. rewrite C.
      destruct (lookup m p) as [idx|] eqn:El.
      { exfalso. apply lookup_in in El. destruct El as (q & Iq & G). apply I in Iq. apply In_nth_error in Iq. destruct Iq as [j Ej].
        assert (Lj : j < length pre) by (apply nth_error_Some; congruence).
        rewrite (D j (length pre) q p) in G; [discriminate|exact Lj| |].
        - now rewrite nth_error_app1.
        - now rewrite nth_error_app2, Nat.sub_diag by lia. }
      replace (pre ++ p :: post) with ((pre ++ [p]) ++ post) in * by (rewrite <- app_assoc; reflexivity).
      replace (length pre + 1) with (length (pre ++ [p])) by (rewrite app_length; cbn; lia).
      rewrite IH; [|..].
      * f_equal. f_equal. cbn [length]. lia.
      * intros q j [E|H]; apply in_or_app; [injection E as <- _; right; now left|left; now apply (I q j)].
      * exact D.
      * cbn [length] in L. lia.
Qed.

Lemma distinct_cyc a b : distinct (a ++ b) -> distinct (b ++ a).
Proof.
  intros D i j p q L Ei Ej.
  destruct (Nat.lt_ge_cases j (length b)) as [Lj|Lj].
  - rewrite nth_error_app1 in Ei, Ej by lia. apply (D (length a + i) (length a + j)); [lia| |]; rewrite nth_error_app2 by lia;
      [replace (length a + i - length a) with i by lia|replace (length a + j - length a) with j by lia]; assumption.
  - rewrite nth_error_app2 in Ej by lia. assert (J : j - length b < length a) by (apply nth_error_Some; congruence).
    destruct (Nat.lt_ge_cases i (length b)) as [Li|Li].
    + rewrite nth_error_app1 in Ei by lia. rewrite go_eq_sym. apply (D (j - length b) (length a + i)); [lia| |].
      * now rewrite nth_error_app1.
      * rewrite nth_error_app2 by lia. now replace (length a + i - length a) with i by lia.
    + rewrite nth_error_app2 in Ei by lia. apply (D (i - length b) (j - length b)); [lia| |]; rewrite nth_error_app1 by lia; assumption.
Qed.
Lemma distinct_rotated k r : distinct r -> distinct (rotated k r).
Proof. intros D. unfold rotated. apply distinct_cyc. now rewrite firstn_skipn. Qed.

Theorem polygon_distinct ctx n r : (forall n, ctx n = false) -> 3 <= length r -> distinct r ->
  polygon_for_ring ctx n r = Ok (Some [rotated (find_min_idx (rotated (find_min_idx r) r)) (rotated (find_min_idx r) r)], n + length r).
Proof.
  intros C L D. unfold polygon_for_ring. rewrite (proj2 (Nat.leb_gt _ _)) by lia. rewrite rotate_leftmost_ok. cbn [bind].
  set (s := rotated (find_min_idx r) r). assert (Ls : length s = length r) by (symmetry; apply Permutation_length, rotated_perm).
  pose proof (bubbles_distinct ctx C ((length s + 1) * (length s + 1)) n [] s [] []) as B. cbn [app length] in B.
  rewrite B; [|intros q j []|now apply distinct_rotated|nia]. cbn [bind]. rewrite (proj2 (Nat.leb_gt _ _)) by lia.
  rewrite rotate_leftmost_ok. cbn [bind]. now rewrite Ls.
Qed.

(** ** Closed rings *)
Lemma bubbles_closed ctx : (forall n, ctx n = false) -> forall post k n pre m plyg b b',
  (exists m0, m = m0 ++ [(b, 0)] /\ forall q j, In (q, j) m0 -> In q pre) ->
  distinct (b :: pre ++ post) -> (forall q, In q (pre ++ post) -> go_eq q b' = false) ->
  go_eq b b' = true -> point_equal hi_cmp b' b = true ->
  length post + 1 <= k ->
  bubbles ctx k n (b :: pre ++ post ++ [b']) (S (length pre)) m plyg = Panic.
Proof.
  intros C. induction post as [|p post IH]; intros k n pre m plyg b b' (m0 & -> & I) D Nb G Pe L; (destruct k as [|k]; [cbn in L; lia|]).
  - cbn [app bubbles]. 
    assert (En : nth_error (b :: pre ++ [b']) (S (length pre)) = Some b') by (cbn [nth_error]; now rewrite nth_error_app2, Nat.sub_diag by lia).
    rewrite En, C.
    assert (El : lookup (m0 ++ [(b, 0)]) b' = Some 0).
    { clear - I G Nb. induction m0 as [|[q j] m0 IH]; cbn; [now rewrite G|]. rewrite Nb.
      - apply IH. intros q' j' H. apply (I q' j'). now right.
      - rewrite app_nil_r. apply (I q j). now left. }
    rewrite El. cbv zeta.
    assert (Ln : length (b :: pre ++ [b']) = S (S (length pre))) by (cbn [length]; rewrite app_length; cbn; lia).
    rewrite Ln. unfold p_idx, n_idx. cbn [Nat.eqb]. replace (S (S (length pre)) - 1) with (S (length pre)) by lia. rewrite Nat.eqb_refl.
    rewrite En. cbn [nth_error Nat.eqb negb andb]. rewrite Pe.
    unfold cut. rewrite Ln. rewrite (proj2 (Nat.leb_gt _ _)), (proj2 (Nat.ltb_ge _ _)), (proj2 (Nat.ltb_lt _ _)) by lia. cbn [orb bind].
    assert (Sk : skipn (S (length pre)) (b :: pre ++ [b']) = [b']) by (cbn [skipn]; now rewrite skipn_app, skipn_all, Nat.sub_diag).
    rewrite Sk. reflexivity.
  - cbn [app bubbles].
    assert (En : nth_error (b :: pre ++ p :: post ++ [b']) (S (length pre)) = Some p) by (cbn [nth_error]; now rewrite nth_error_app2, Nat.sub_diag by lia).
    rewrite En, C.
    destruct (lookup (m0 ++ [(b, 0)]) p) as [idx|] eqn:El.
    { exfalso. apply lookup_in in El. destruct El as (q & Iq & Gq). apply in_app_or in Iq. destruct Iq as [Iq|[E|[]]].
      - apply I in Iq. apply In_nth_error in Iq. destruct Iq as [j Ej]. assert (Lj : j < length pre) by (apply nth_error_Some; congruence).
        rewrite (D (S j) (S (length pre)) q p) in Gq; [discriminate|lia| |]; cbn [nth_error].
        + now rewrite nth_error_app1.
        + now rewrite nth_error_app2, Nat.sub_diag by lia.
      - injection E as -> _. rewrite (D 0 (S (length pre)) q p) in Gq; [discriminate|lia|reflexivity|]. cbn [nth_error]. now rewrite nth_error_app2, Nat.sub_diag by lia. }
    replace (S (length pre) + 1) with (S (length (pre ++ [p]))) by (rewrite app_length; cbn; lia).
    replace (pre ++ p :: post ++ [b']) with ((pre ++ [p]) ++ post ++ [b']) by (rewrite <- app_assoc; reflexivity).
    apply IH.
    + exists ((p, S (length pre)) :: m0). split; [reflexivity|]. intros q j [E|H]; apply in_or_app; [injection E as <- _; right; now left|left; now apply (I q j)].
    + rewrite <- app_assoc. exact D.
    + rewrite <- app_assoc. exact Nb.
    + exact G.
    + exact Pe.
    + cbn [length] in L. lia.
Qed.

Theorem closed_panics ctx n b r b' : (forall n, ctx n = false) -> 1 <= length r ->
  distinct (b :: r) -> go_eq b b' = true -> point_equal hi_cmp b' b = true -> find_min_idx (b :: r ++ [b']) = 0 ->
  polygon_for_ring ctx n (b :: r ++ [b']) = Panic.
Proof.
  intros C Lr D G Pe Mn. unfold polygon_for_ring.
  assert (Ln : length (b :: r ++ [b']) = S (S (length r))) by (cbn [length]; rewrite app_length; cbn; lia).
  rewrite (proj2 (Nat.leb_gt _ _)) by lia. rewrite rotate_leftmost_ok, Mn. cbn [bind]. unfold rotated. cbn [skipn firstn]. rewrite app_nil_r, Ln.
  destruct ((S (S (length r)) + 1) * (S (S (length r)) + 1)) as [|k] eqn:Ek; [lia|]. cbn [bubbles nth_error]. rewrite C. cbn [lookup].
  pose proof (bubbles_closed ctx C r k (S n) [] [(b, 0)] [] b b') as B. cbn [app length] in B. cbn [Nat.add].
  rewrite B; [reflexivity| |exact D| |exact G|exact Pe|lia].
  - exists []. split; [reflexivity|]. intros q j [].
  - intros q Hq. cbn [app] in Hq. apply In_nth_error in Hq. destruct Hq as [j Ej].
    destruct (go_eq q b') eqn:E; [|reflexivity]. rewrite <- E. rewrite <- (D 0 (S j) b q); [|lia|reflexivity|exact Ej].
    symmetry. destruct (go_eq b q) eqn:E2; [now rewrite (D 0 (S j) b q) in E2 by (lia || assumption || reflexivity)|].
    exfalso. rewrite (go_eq_trans b b' q) in E2; [discriminate|exact G|now rewrite go_eq_sym].
Qed.
