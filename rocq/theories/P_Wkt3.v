(** Proofs about well-known text: the round trip. *)
From Coq Require Import String ZArith Bool List Lia.
From Coq Require Import ZifyBool ZifyNat.
From Verif Require Import Base_F64 Base_Geom Base_Res Base_Bytes M_Extent M_Cmp M_Gpkg M_Wkt S_Wkt S_Cmp P_F64 P_Cmp P_Wkt P_Wkt2.
Import ListNotations.
Open Scope Z_scope.

Lemma number_numeric b : number_byte b -> is_numeric b = true.
Proof. unfold number_byte. cbn. intros H. repeat (destruct H as [<-|H]; [reflexivity|]). contradiction. Qed.

Lemma numeric_space b : is_numeric b = true -> is_space b = false /\ b <> 41 /\ b <> 44.
Proof. unfold is_numeric, is_space. lia. Qed.

Lemma drop_after_in p k q : In q (drop_after p k) -> In q k.
Proof.
  revert p. induction k as [|r k IH]; intros p; [easy|]. cbn. destruct (same p r); intros H.
  - right. eapply IH, H.
  - destruct H as [->|H]; [now left|right; eapply IH, H].
Qed.
Lemma drop_repeats_in k q : In q (drop_repeats k) -> In q k.
Proof. destruct k as [|p k]; [easy|]. cbn. intros [->|H]; [now left|right; eapply drop_after_in, H]. Qed.

Lemma kept_real ps q : In q (vertices_kept ps) -> In q ps /\ real q = true.
Proof. intros H. apply drop_repeats_in in H. now apply filter_In in H. Qed.

Lemma kept_nil ps : vertices_kept ps = [] <-> has_point ps = false.
Proof.
  unfold vertices_kept, has_point. induction ps as [|p ps IH]; [easy|]. cbn.
  destruct (real p); cbn; [split; discriminate|exact IH].
Qed.

Section RoundTrip.
  Variables (fmt : f64 -> list Z) (parse : list Z -> option f64) (rt : f64 -> f64).
  Variable (c : compare).
  Variable strict : bool.
  Hypothesis Pc : positive c.
  Hypothesis rt_eq : forall a b, f64_wf a = true -> f64_wf b = true -> f64_eq a b = true -> f64_eq (rt a) (rt b) = true.
  Hypothesis no_E : parse (str "E") = None.

  Definition okw (w : f64) : Prop := f64_wf w = true /\ f64_wf (rt w) = true /\ prints fmt parse w (rt w).
  Definition okp : pt -> Prop := good_point okw.

  Definition psome (p : pt) : option pt := if real p then Some (map_pt rt p) else None.

  Lemma float_reads w rest : okw w -> (exists b r, rest = b :: r /\ is_numeric b = false) ->
    read_float parse (fmt w ++ rest) = Ok (rt w, rest).
  Proof.
    intros (_ & _ & N & F & P) (b & r & -> & Nb). unfold read_float.
    rewrite read_while_stop; [|eapply Forall_impl; [|exact F]; apply number_numeric|assumption].
    cbn [bind]. now rewrite P.
  Qed.

  Lemma fmt_starts w : okw w -> starts (fmt w).
  Proof.
    intros (_ & _ & N & F & _). destruct (fmt w) as [|b r]; [easy|]. exists b, r. split; [reflexivity|].
    apply Forall_inv in F. apply number_numeric, numeric_space in F. tauto.
  Qed.

  Lemma point_reads p : okp p -> starts (txt fmt p) /\ elem_reads (read_point parse) (txt fmt p) (psome p).
  Proof.
    intros H. unfold txt, psome. unfold okp, good_point in H. destruct (real p).
    - destruct (H eq_refl) as [H1 H2]. clear H. split.
      + apply starts_app, fmt_starts, H1.
      + intros rest S. unfold read_point. rewrite <- app_assoc, <- app_comm_cons.
        rewrite float_reads; [|assumption|exists 32; eexists; split; reflexivity]. cbn [bind].
        rewrite ws_one; [|apply starts_app, fmt_starts, H2]. cbn [bind negb].
        rewrite float_reads; [reflexivity|assumption|].
        destruct S as (b & r & -> & [-> | ->]); eexists; eexists; split; reflexivity.
    - split.
      + exists 69. eexists. split; [reflexivity|]. split; [reflexivity|discriminate].
      + intros rest S. unfold read_point.
        assert (E : read_float parse (str "EMPTY" ++ rest) = Err EFloat).
        { unfold read_float. change (str "EMPTY" ++ rest) with (str "E" ++ (77 :: str "PTY" ++ rest)).
          rewrite read_while_stop; [|repeat constructor|reflexivity]. cbn [bind]. now rewrite no_E. }
        rewrite E. reflexivity.
  Qed.

  (** What is read from the text of the points of a line, ring or multipoint. *)
  Definition psem (t : gtype) (mp : list pt) : option (list pt) :=
    match sel t None mp with
    | [] => None
    | k => sequence (map psome (close t k))
    end.

  Lemma sel_in t mp q : In q (sel t None mp) -> In q mp /\ (is_mp t = false -> real q = true).
  Proof.
    unfold sel. destruct (is_mp t); [easy|]. intros H. apply kept_real in H. split; [tauto|]. intros _. tauto.
  Qed.
  Lemma close_in t k q : In q (close t k) -> In q k.
  Proof.
    destruct k as [|p k]; [easy|]. unfold close. destruct (is_ring t && _); [|easy].
    intros H. apply in_app_iff in H. destruct H as [H|[<-|[]]]; [exact H|now left].
  Qed.

  Lemma pts_read l : l <> [] -> (forall q, In q l -> okp q) ->
    starts (pts_text fmt l) /\ brk_reads (read_points parse) (pts_text fmt l) (sequence (map psome l)).
  Proof.
    intros NE Q. split.
    - exists 40. eexists. split; [reflexivity|]. split; [reflexivity|discriminate].
    - apply bracketed_reads.
      + clear NE. induction l as [|x l IH]; constructor; [apply point_reads, Q; now left|]. apply IH. intros q Hq. apply Q. now right.
      + destruct l; [easy|discriminate].
  Qed.

  Lemma points_read t mp tx : Forall okp mp -> pts_ok fmt strict t mp tx ->
    starts tx /\ brk_reads (read_points parse) tx (psem t mp).
  Proof.
    intros F H. apply points_ok in H. destruct H as [_ H]. unfold ptext in H. unfold psem.
    destruct (sel t None mp) as [|p k] eqn:K.
    - apply (f_equal (fun o => match o with Some x => x | None => [] end)) in H. cbn match in H. subst tx.
      split; [apply (brack_starts [])|apply empty_fails].
    - destruct (big_enough t (len (p :: k))); [|discriminate]. injection H as <-.
      assert (NE : close t (p :: k) <> []) by (unfold close; destruct (is_ring t && _); discriminate).
      assert (Q : forall q, In q (close t (p :: k)) -> okp q).
      { intros q Hq. apply close_in in Hq. rewrite <- K in Hq. apply sel_in in Hq.
        rewrite Forall_forall in F. now apply F. }
      apply pts_read; assumption.
  Qed.

  Definition lsem (t : gtype) (ls : list (list pt)) : option (list (list pt)) :=
    match sel_lines t ls with
    | [] => None
    | l => sequence (map (psem t) l)
    end.

  Lemma sel_lines_in t ls l : In l (sel_lines t ls) -> In l ls.
  Proof. unfold sel_lines. destruct (is_ml t); [easy|]. intros H. now apply filter_In in H. Qed.

  Lemma lines_read t ls tx : Forall (Forall okp) ls -> encode_lines fmt strict ls t = (tx, None) ->
    starts tx /\ brk_reads (read_lines parse) tx (lsem t ls).
  Proof.
    intros F H. apply lines_ok in H. destruct H as (_ & ts & G & ->). split; [apply brack_starts|].
    unfold lsem.
    assert (G2 : Forall2 (fun tx o => starts tx /\ elem_reads (read_points parse) tx o) ts (map (psem t) (sel_lines t ls))).
    { assert (F' : Forall (Forall okp) (sel_lines t ls)).
      { rewrite Forall_forall in F |- *. intros l Hl. now apply F, (sel_lines_in t). }
      clear F. induction G as [|l tx ls' ts Hl G IH]; [constructor|]. inversion F' as [|? ? Fa Fb]; subst.
      constructor; [|now apply IH]. apply points_read in Hl; [|assumption].
      split; [tauto|]. apply brk_elem. tauto. }
    pose proof (brack_reads _ _ _ G2) as B. destruct G as [|l tx ls' ts Hl G]; [exact B|exact B].
  Qed.

  Definition msem (pls : list (list (list pt))) : option (list (list (list pt))) :=
    match pls with
    | [] => None
    | _ => sequence (map (lsem mPolyType) pls)
    end.

  Lemma polys_read pls tx : Forall (Forall (Forall okp)) pls -> encode_polys fmt strict pls = (tx, None) ->
    starts tx /\ brk_reads (read_polys parse) tx (msem pls).
  Proof.
    intros F H. apply polys_ok in H. destruct H as (ts & G & ->). split; [apply brack_starts|].
    assert (G2 : Forall2 (fun tx o => starts tx /\ elem_reads (read_lines parse) tx o) ts (map (lsem mPolyType) pls)).
    { induction G as [|l tx ls' ts Hl G IH]; [constructor|]. inversion F as [|? ? Fa Fb]; subst.
      constructor; [|now apply IH]. apply lines_read in Hl; [|assumption].
      split; [tauto|]. apply brk_elem. tauto. }
    pose proof (brack_reads _ _ _ G2) as B. unfold msem. destruct G as [|l tx ls' ts Hl G]; [exact B|exact B].
  Qed.

  (** *** Checks of the decoder *)

  Lemma sequence_real k : (forall q, In q k -> real q = true) -> sequence (map psome k) = Some (map (map_pt rt) k).
  Proof.
    intros H. rewrite <- sequence_some, map_map. f_equal. apply map_ext_in. intros q Hq.
    unfold psome. now rewrite H.
  Qed.

  Lemma same_cmp p q : okp p -> okp q -> same p q = true -> point_equal c (map_pt rt p) (map_pt rt q) = true.
  Proof.
    intros Hp Hq S.
    assert (Rq : real q = true) by (eapply same_real, S).
    assert (Rp : real p = true).
    { unfold same, real in *. rewrite andb_true_iff in *. destruct S as [A B].
      apply eq_inv in A. apply eq_inv in B. destruct A as (A & _ & _), B as (B & _ & _). unfold nn in *.
      unfold f64_eq. rewrite A, B, !Z.eqb_refl. auto. }
    destruct (Hp Rp) as [(P1 & P1' & _) (P2 & P2' & _)], (Hq Rq) as [(Q1 & Q1' & _) (Q2 & Q2' & _)].
    unfold same in S. apply andb_true_iff in S. destruct S as [A B].
    unfold point_equal, map_pt. cbn [fst snd]. destruct Pc as [T [Bt _]].
    rewrite !float_same; auto.
  Qed.

  Lemma len_close_ring t r p k : is_ring t = true -> is_mp t = false -> sel t None r = p :: k ->
    close t (p :: k) = ring_kept r ++ [if same p (List.last k p) then List.last k p else p].
  Proof.
    intros Rg M K. unfold sel in K. rewrite M in K. fold (vertices_kept r) in K.
    unfold ring_kept. rewrite K. unfold close. rewrite Rg. cbn [andb].
    destruct (same p (List.last k p)); cbn [negb]; [|reflexivity].
    rewrite <- (last_cons p p k). apply app_removelast_last. discriminate.
  Qed.

  Lemma open_read t r l : is_ring t = true -> Forall okp r -> psem t r = Some l ->
    open_ring c l = if (3 <=? len (ring_kept r))%nat then Ok (map (map_pt rt) (ring_kept r)) else Err ETooFew.
  Proof.
    intros Rg F H. assert (M : is_mp t = false) by (destruct t; easy).
    unfold psem in H. destruct (sel t None r) as [|p k] eqn:K; [discriminate|].
    rewrite sequence_real in H.
    2: { intros q Hq. apply close_in in Hq. rewrite <- K in Hq. exact (proj2 (sel_in _ _ _ Hq) M). }
    assert (Okk : forall q, In q (p :: k) -> okp q).
    { intros q Hq. rewrite <- K in Hq. apply sel_in in Hq. rewrite Forall_forall in F. now apply F. }
    assert (Rk : forall q, In q (p :: k) -> real q = true).
    { intros q Hq. rewrite <- K in Hq. exact (proj2 (sel_in _ _ _ Hq) M). }
    pose proof (len_close_ring t r p k Rg M K) as C. rewrite C in H. injection H as <-.
    rewrite map_app. cbn [map]. unfold open_ring.
    rewrite app_length, map_length. cbn [List.length].
    destruct (Nat.leb_spec 3 (len (ring_kept r))) as [L|L].
    - destruct (Nat.ltb_spec (len (ring_kept r) + 1) 4); [lia|].
      assert (Hd : exists rest, ring_kept r = p :: rest).
      { unfold ring_kept in *. unfold sel in K. rewrite M in K. fold (vertices_kept r) in K. rewrite K in *.
        destruct (same p (List.last k p)); [|now eexists]. destruct k as [|q k]; [cbn in L; lia|]. cbn [removelast]. now eexists. }
      destruct Hd as [rest Hd]. rewrite Hd. cbn [map app].
      rewrite app_comm_cons, last_last, removelast_last.
      assert (Sm : same p (if same p (List.last k p) then List.last k p else p) = true).
      { destruct (same p (List.last k p)) eqn:S; [exact S|]. exact (Rk p (or_introl eq_refl)). }
      rewrite (same_cmp p _); [reflexivity|apply Okk; now left| |exact Sm].
      apply Okk. destruct (same p (List.last k p)); [|now left].
      destruct k as [|q k]; [now left|]. right. rewrite last_cons. destruct k as [|q2 k]; [now left|].
      rewrite last_cons. clear. revert q2. induction k as [|x k IH]; intros q2; [right; now left|].
      rewrite last_cons. destruct (IH x) as [E|[E|E]]; [left|right; right; left|right; right; right]; auto.
    - destruct (Nat.ltb_spec (len (ring_kept r) + 1) 4); [reflexivity|lia].
  Qed.
End RoundTrip.
