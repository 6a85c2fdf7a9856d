(** Proofs about planar/makevalid/walker: the walk over a triangulation *)
From Coq Require Import ZArith Bool List Lia Reals Lra Permutation.
From Flocq Require Import Core.Core.
From Verif Require Import Base_Res Base_F64 Base_F64Arith Base_Geom M_Geom M_Extent M_Cmp M_Planar M_Triangle M_Winding M_Walker
  P_F64 P_F64Flocq S_Intersect S_Walker S_Cmp P_Cmp P_Cmp2 P_Walker P_Walker2 P_Walker6 P_Walker7.
Import ListNotations.
Local Open Scope nat_scope.

Lemma triangles_cons ts j t vis : nth_error ts j = Some t -> triangles_area ts (j :: vis) = (ring_area (vertices3 t) + triangles_area ts vis)%R.
Proof. intros E. unfold triangles_area. cbn [fold_right]. now rewrite E. Qed.

Section Coherent.
  Variable ts : list triangle.
  Variable ctx : nat -> bool.
  Hypothesis Co : coherent ts.
  Let Pr : proper ts := proj1 Co.

  Lemma side_once i j t u x y : nth_error ts i = Some t -> nth_error ts j = Some u -> sideR t x y -> sideR u x y -> i = j.
  Proof.
    intros Ei Ej S1 S2. apply sideR_in in S1, S2. destruct S1 as (a & b & I1 & -> & ->), S2 as (a' & b' & I2 & E1 & E2).
    pose proof (proj2 Co) as C. exact (C i j t u a b a' b' Ei Ej I1 I2 E1 E2).
  Qed.

  Definition all_seen (seen : list nat) (u v : R * R) : Prop := forall j t, nth_error ts j = Some t -> edgeR t u v -> In j seen.

  Record winv (idx : nat) (seen0 : list nat) (rng : list pt) (head : nat) (seen vis : list nat) : Prop := {
    w_seen : seen = vis ++ seen0;
    w_vertex : Forall (vertex ts) rng;
    w_area : ring_area rng = triangles_area ts vis;
    w_ring : forall u v, adj (cyc rng) u v -> exists i t, In i vis /\ nth_error ts i = Some t /\ sideR t u v;
    w_done : forall u v, adj (firstn (head + 1) (cyc rng)) u v -> all_seen seen u v;
    w_sides : forall i t u v, In i vis -> nth_error ts i = Some t -> sideR t u v -> adj (cyc rng) u v \/ all_seen seen u v;
    w_link : forall i, In i vis -> linked ts idx i
  }.

  Lemma all_seen_more seen seen' u v : incl seen seen' -> all_seen seen u v -> all_seen seen' u v.
  Proof. intros I A j t E H. apply I. exact (A j t E H). Qed.
  Lemma all_seen_sym seen u v : all_seen seen u v -> all_seen seen v u.
  Proof. intros A j t E H. apply (A j t E). now apply edgeR_sym. Qed.

  Lemma firstn_cyc p l q h : h < length (p :: l ++ [q]) -> firstn (h + 1) (cyc (p :: l ++ [q])) = firstn (h + 1) ((rpt p :: map rpt l) ++ [rpt q]).
  Proof.
    intros H. unfold cyc. rewrite map_app, firstn_app, map_length.
    replace (h + 1 - length (p :: l ++ [q])) with 0 by lia. cbn [firstn]. rewrite app_nil_r. cbn [map]. rewrite map_app. reflexivity.
  Qed.

  Theorem ring_coherent n idx t seen : nth_error ts idx = Some t -> 
    exists rng vis n', ring_for_triangle ts ctx n idx seen = Ok (rng, vis ++ seen, n') /\
      ring_area rng = triangles_area ts vis /\ (forall i, In i vis -> linked ts idx i) /\
      ((forall k, n <= k < n' -> ctx k = false) ->
       forall i j ti tj, In i vis -> nth_error ts i = Some ti -> nth_error ts j = Some tj -> neighbours ti tj -> In j (vis ++ seen)).
  Proof.
    intros Et. assert (It : In t ts) by (eapply nth_error_In, Et).
    destruct (ring_for_triangle_ind ts ctx n idx t seen (fun rng head s => exists vis, winv idx seen rng head s vis) Et) as (rng & head & s & n' & E & (vis & W) & _ & D).
    - exists [idx]. destruct t as [[a b] c] eqn:Eqt.
      assert (Ec : cyc (vertices3 (a, b, c)) = [rpt a; rpt b; rpt c; rpt a]) by reflexivity.
      constructor.
      + reflexivity.
      + apply Forall_forall. intros p Hp. exists (a, b, c). auto.
      + rewrite (triangles_cons ts idx _ _ Et). unfold triangles_area. cbn [fold_right]. ring.
      + intros u v. rewrite Ec, !adj_cons. intros H. exists idx, (a, b, c). split; [now left|]. split; [exact Et|]. cbn.
        destruct H as [H|[H|[H|H]]]; [tauto..|]. now apply adj_one in H.
      + intros u v H. rewrite Ec in H. cbn in H. now apply adj_one in H.
      + intros i t' u v [<-|[]] Ei S. rewrite Et in Ei. injection Ei as <-. left. rewrite Ec, !adj_cons. cbn in S. tauto.
      + intros i [<-|[]]. constructor.
    - intros p l q head s (vis & W) L A. exists vis. destruct W as [W1 W2 W3 W4 W5 W6 W7].
      assert (Vp : vertex ts p) by now inversion W2.
      assert (Vq : vertex ts q) by (inversion W2 as [|? ? _ Vl]; subst; apply Forall_app in Vl; destruct Vl as [_ Vq]; now inversion Vq).
      constructor.
      + exact W1.
      + inversion W2 as [|? ? _ Vl]; subst. apply Forall_app in Vl. destruct Vl as [Vl _]. constructor; [assumption|]. now constructor.
      + rewrite <- W3. unfold ring_area. change (q :: p :: l) with ([q] ++ p :: l). rewrite map_app, area_rot, <- map_app. reflexivity.
      + intros u v H. apply cyc_back in H. now apply W4.
      + intros u v H. assert (Ef : firstn (head + 1 + 1) (cyc (q :: p :: l)) = rpt q :: firstn (head + 1) ((rpt p :: map rpt l) ++ [rpt q])).
        { unfold cyc. cbn [firstn app map]. rewrite (Nat.add_comm (head + 1) 1), map_app. cbn [Nat.add firstn map]. rewrite <- (Nat.add_comm 1). reflexivity. }
        rewrite Ef in H. destruct (firstn (head + 1) ((rpt p :: map rpt l) ++ [rpt q])) as [|x m] eqn:Ex; [now apply adj_one in H|].
        assert (x = rpt p) by (rewrite Nat.add_comm in Ex; cbn in Ex; now injection Ex). subst x. apply adj_cons in H. destruct H as [[-> ->]|H].
        * intros j u Ej Ed. apply A. apply (on_edge_iff ts ctx Pr); [assumption|assumption|]. exists u. split; [exact Ej|now apply edgeR_sym].
        * apply W5. rewrite firstn_cyc by exact L. rewrite Ex. exact H.
      + intros i u x y Hi Ei S. destruct (W6 i u x y Hi Ei S) as [H|H]; [left; now apply cyc_back|now right].
      + exact W7.
    - intros p l q head s j u (vis & W) L O Nj Ej. exists (j :: vis). destruct W as [W1 W2 W3 W4 W5 W6 W7].
      assert (Vp : vertex ts p) by now inversion W2.
      assert (Vq : vertex ts q) by (inversion W2 as [|? ? _ Vl]; subst; apply Forall_app in Vl; destruct Vl as [_ Vq]; now inversion Vq).
      assert (Iu : In u ts) by (eapply nth_error_In, Ej).
      apply (on_edge_iff ts ctx Pr) in O; [|assumption|assumption]. destruct O as (u' & Eu' & Ed). rewrite Ej in Eu'. injection Eu' as <-.
      (* the triangle on this side of the ring *)
      destruct (W4 (rpt q) (rpt p)) as (i0 & t0 & Hi0 & Et0 & S0); [apply cyc_old; now right|].
      assert (S : sideR u (rpt p) (rpt q)).
      { destruct Ed as [S|S]; [exact S|]. exfalso. apply Nj. rewrite <- (side_once i0 j t0 u _ _ Et0 Ej S0 S). rewrite W1. apply in_or_app. now left. }
      destruct (third_side ts Pr u p q Iu Vp Vq S) as (Vz & Zp & Zq & Sd & Ar).
      set (z := third_point u p q) in *. clearbody z.
      assert (Ic : incl s (j :: s)) by (intros x Hx; now right).
      assert (Done : all_seen (j :: s) (rpt p) (rpt q)).
      { intros i v Ei [S'|S'].
        - left. exact (side_once j i u v _ _ Ej Ei S S').
        - right. rewrite <- (side_once i0 i t0 v _ _ Et0 Ei S0 S'). rewrite W1. apply in_or_app. now left. }
      constructor.
      + now rewrite W1.
      + apply Forall_app. split; [exact W2|]. constructor; [exact Vz|constructor].
      + rewrite (triangles_cons ts j u vis Ej), <- W3, Ar. unfold ring_area. cbn [map app]. rewrite !map_app. cbn [map]. rewrite <- !app_assoc. cbn [app].
        change (rpt p :: map rpt l ++ [rpt q; rpt z]) with ((rpt p :: map rpt l) ++ [rpt q; rpt z]).
        change (rpt p :: map rpt l ++ [rpt q]) with ((rpt p :: map rpt l) ++ [rpt q]).
        rewrite (area_rot _ [rpt q; rpt z]), (area_rot _ [rpt q]). cbn [app].
        pose proof (area_remove [] (rpt q) (rpt z) (rpt p) (map rpt l)) as R. cbn [app] in R. rewrite R. ring.
      + intros x y H. apply cyc_fwd in H. destruct H as [H|H].
        * destruct (W4 x y) as (i & ti & Hi & Ei & Si); [apply cyc_old; now left|]. exists i, ti. split; [now right|auto].
        * exists j, u. split; [now left|]. split; [exact Ej|]. apply Sd. tauto.
      + intros x y H. apply (all_seen_more s); [exact Ic|]. apply W5. rewrite firstn_cyc by exact L.
        assert (Ef : firstn (head + 1) (cyc ((p :: l ++ [q]) ++ [z])) = firstn (head + 1) ((rpt p :: map rpt l) ++ [rpt q])).
        { unfold cyc. rewrite <- app_assoc, map_app, firstn_app, map_length. replace (head + 1 - length (p :: l ++ [q])) with 0 by lia.
          cbn [firstn]. rewrite app_nil_r. cbn [map]. rewrite map_app. reflexivity. }
        now rewrite Ef in H.
      + intros i ti x y [<-|Hi] Ei Si.
        * rewrite Ej in Ei. injection Ei as <-. apply Sd in Si. destruct Si as [[-> ->]|Si]; [now right|]. left. apply cyc_fwd. now right.
        * destruct (W6 i ti x y Hi Ei Si) as [H|H]; [|right; now apply (all_seen_more s)].
          apply cyc_old in H. destruct H as [H|[-> ->]]; [left; apply cyc_fwd; now left|right; now apply all_seen_sym].
      + intros i [<-|Hi]; [|now apply W7]. apply linked_step with i0 t0 u; [now apply W7|exact Et0|exact Ej|].
        apply neighbours_edge. exists (rpt q), (rpt p). split; [exact S0|now right].
    - destruct W as [W1 W2 W3 W4 W5 W6 W7]. exists rng, vis, n'. subst s. split; [exact E|]. split; [exact W3|]. split; [exact W7|].
      intros C i j ti tj Hi Ei Ej Nb. destruct D as [->|(k & Hk & T)]; [|rewrite (C k Hk) in T; discriminate].
      apply neighbours_edge in Nb. destruct Nb as (x & y & Sx & Ey).
      destruct (W6 i ti x y Hi Ei Sx) as [H|H]; [|exact (H j tj Ej Ey)].
      apply (fun G => W5 x y G j tj Ej Ey). rewrite firstn_all2; [exact H|]. unfold cyc. rewrite map_length, app_length.
      pose proof (firstn_le_length 1 rng). rewrite firstn_length in *. lia.
  Qed.
End Coherent.
