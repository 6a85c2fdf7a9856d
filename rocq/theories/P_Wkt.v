(** Proofs about well-known text: what the encoder writes and how it is read. *)
From Coq Require Import String ZArith Bool List Lia.
From Coq Require Import ZifyBool ZifyNat.
From Verif Require Import Base_F64 Base_Geom Base_Res Base_Bytes M_Extent M_Cmp M_Gpkg M_Wkt S_Wkt S_Cmp P_F64 P_Cmp.
Import ListNotations.
Open Scope Z_scope.
Notation len := List.length.

(** ** Reading *)

Definition stop (rest : list Z) : Prop := exists b r, rest = b :: r /\ (b = 44 \/ b = 41).
Definition starts (t : list Z) : Prop := exists b r, t = b :: r /\ is_space b = false /\ b <> 41.

Definition elem_reads {A} (R : list Z -> dres A) (t : list Z) (o : option A) : Prop :=
  forall rest, stop rest ->
  match o with Some v => R (t ++ rest) = Ok (v, rest) | None => is_err (R (t ++ rest)) = true end.
Definition brk_reads {A} (R : list Z -> dres A) (t : list Z) (o : option A) : Prop :=
  forall rest,
  match o with Some v => R (t ++ rest) = Ok (v, rest) | None => is_err (R (t ++ rest)) = true end.

Lemma brk_elem {A} (R : list Z -> dres A) t o : brk_reads R t o -> elem_reads R t o.
Proof. intros H rest _. exact (H rest). Qed.

Fixpoint join (ts : list (list Z)) : list Z :=
  match ts with
  | [] => []
  | [t] => t
  | t :: ts' => t ++ 44 :: join ts'
  end.

Lemma join_cons t ts : ts <> [] -> join (t :: ts) = t ++ 44 :: join ts.
Proof. destruct ts; [easy|reflexivity]. Qed.

Lemma join_snoc ts t : join (ts ++ [t]) = concat (map (fun t => t ++ [44]) ts) ++ t.
Proof.
  induction ts as [|u ts IH]; [reflexivity|].
  rewrite <- app_comm_cons, join_cons by (destruct ts; discriminate).
  rewrite IH. cbn [map concat]. rewrite <- !app_assoc. reflexivity.
Qed.

Fixpoint sequence {A} (os : list (option A)) : option (list A) :=
  match os with
  | [] => Some []
  | None :: _ => None
  | Some x :: os' => match sequence os' with Some xs => Some (x :: xs) | None => None end
  end.

Lemma sequence_some {A} (l : list A) : sequence (map Some l) = Some l.
Proof. induction l as [|x l IH]; [reflexivity|]. cbn. now rewrite IH. Qed.

Lemma read_while_stop f t b r : Forall (fun x => f x = true) t -> f b = false ->
  read_while f (t ++ b :: r) = Ok (t, b :: r).
Proof.
  intros H Hb. induction H as [|x t Hx _ IH]; cbn [app read_while].
  - now rewrite Hb.
  - rewrite Hx, IH. reflexivity.
Qed.

Lemma ws_none b r : is_space b = false -> read_whitespace (b :: r) = Ok (false, b :: r).
Proof. intros H. unfold read_whitespace. cbn [read_while]. rewrite H. reflexivity. Qed.

Lemma ws_starts t rest : starts t -> read_whitespace (t ++ rest) = Ok (false, t ++ rest).
Proof. intros (b & r & -> & S & _). apply ws_none, S. Qed.

Lemma ws_stop rest : stop rest -> read_whitespace rest = Ok (false, rest).
Proof. intros (b & r & -> & [-> | ->]); apply ws_none; reflexivity. Qed.

Lemma ws_one s : starts s -> read_whitespace (32 :: s) = Ok (true, s).
Proof.
  intros (b & r & -> & S & _). unfold read_whitespace. cbn [read_while].
  change (is_space 32) with true. cbn [read_while]. rewrite S. reflexivity.
Qed.

Lemma starts_app t s : starts t -> starts (t ++ s).
Proof. intros (b & r & -> & S). exists b, (r ++ s). auto. Qed.

Lemma err_bind {E A B} (m : res E A) (f : A -> res E B) : is_err m = true -> is_err (bind m f) = true.
Proof. destruct m; easy. Qed.

Lemma elements_reads {A} (R : list Z -> dres A) ts os :
  Forall2 (fun t o => starts t /\ elem_reads R t o) ts os -> ts <> [] ->
  forall n rest, (len ts <= n)%nat ->
  match sequence os with
  | Some vs => elements R n (join ts ++ 41 :: rest) = Ok (vs, rest)
  | None => is_err (elements R n (join ts ++ 41 :: rest)) = true
  end.
Proof.
  intros H. induction H as [|t o ts os [St Hr] H IH]; [easy|]. intros _ n rest Hn.
  cbn [List.length] in Hn. destruct n as [|n]; [lia|].
  destruct (list_eq_dec (list_eq_dec Z.eq_dec) ts []) as [E|NE].
  - subst ts. inversion H; subst. cbn [join sequence].
    assert (S : stop (41 :: rest)) by (exists 41, rest; auto).
    specialize (Hr _ S). cbn [elements]. destruct o as [v|].
    + rewrite Hr. cbn [bind]. rewrite (ws_stop _ S). cbn. reflexivity.
    + now apply err_bind.
  - rewrite join_cons by assumption. rewrite <- app_assoc, <- app_comm_cons.
    set (tl := join ts ++ 41 :: rest) in *.
    assert (S : stop (44 :: tl)) by (exists 44, tl; auto).
    specialize (Hr _ S). specialize (IH NE n rest ltac:(lia)). cbn [elements sequence].
    destruct o as [v|]; [|now apply err_bind].
    rewrite Hr. cbn [bind]. rewrite (ws_stop _ S). cbn [bind read_byte].
    change (44 =? 44) with true. cbn match.
    assert (W : read_whitespace tl = Ok (false, tl)).
    { unfold tl. destruct H as [|t2 o2 ts2 os2 [S2 _] _]; [easy|].
      destruct S2 as (b & r & -> & Sp & _). destruct ts2; cbn [join app]; apply ws_none, Sp. }
    rewrite W. cbn [bind]. fold tl in IH.
    destruct (sequence os) as [vs|].
    + rewrite IH. reflexivity.
    + now apply err_bind.
Qed.

Lemma join_len ts : Forall starts ts -> (len ts <= len (join ts))%nat.
Proof.
  intros H. induction H as [|t ts (b & r & -> & _) H IH]; [cbn; lia|].
  destruct ts as [|u ts]; [cbn; lia|].
  rewrite join_cons by discriminate. rewrite app_length. cbn [List.length] in *. lia.
Qed.

Lemma join_starts ts : Forall starts ts -> ts <> [] -> starts (join ts).
Proof.
  intros H N. destruct H as [|t ts St H]; [easy|].
  destruct ts; [exact St|]. rewrite join_cons by discriminate. now apply starts_app.
Qed.

Lemma bracketed_reads {A} (R : list Z -> dres A) ts os :
  Forall2 (fun t o => starts t /\ elem_reads R t o) ts os -> ts <> [] ->
  brk_reads (bracketed R) (40 :: join ts ++ [41]) (sequence os).
Proof.
  intros H N rest.
  assert (F : Forall starts ts) by (clear N; induction H as [|t o ts os [S _] H IH]; constructor; auto).
  assert (S : starts (join ts)) by (apply join_starts; auto).
  pose proof (elements_reads R ts os H N (len (join ts ++ 41 :: rest)) rest) as E.
  assert (L : (len ts <= len (join ts ++ (41 :: rest)%Z))%nat).
  { rewrite app_length. pose proof (join_len ts F). lia. }
  specialize (E L). clear L.
  assert (Q : bracketed R ((40 :: join ts ++ [41]) ++ rest) =
              elements R (len (join ts ++ 41 :: rest)) (join ts ++ 41 :: rest)).
  { rewrite <- app_comm_cons, <- app_assoc. unfold bracketed, expect. cbn [read_byte bind].
    change (40 =? 40) with true. cbn [bind]. cbn [app].
    rewrite (ws_starts _ _ S). cbn [bind].
    destruct S as (b & r & Eq & Sp & NB). rewrite Eq. cbn [app read_byte bind].
    destruct (Z.eqb_spec b 41); [contradiction|]. reflexivity. }
  destruct (sequence os); rewrite Q; exact E.
Qed.

Lemma empty_fails {A} (R : list Z -> dres A) : brk_reads (bracketed R) (str "EMPTY") None.
Proof. intros rest. reflexivity. Qed.

(** ** What the encoder writes *)

Lemma andthen_ok a b t : a >> b = (t, None) <->
  exists ta tb, a = (ta, None) /\ b = (tb, None) /\ t = ta ++ tb.
Proof.
  destruct a as [ta ea], b as [tb eb]. unfold andthen. cbn. split.
  - destruct ea; intros H; [congruence|]. injection H as <- ->. exists ta, tb. auto.
  - intros (ta' & tb' & Ea & Eb & ->). injection Ea as -> ->. injection Eb as -> ->. reflexivity.
Qed.
Lemma wr_then bs w : wr bs >> w = (bs ++ fst w, snd w).
Proof. reflexivity. Qed.

Lemma empty_real p : is_empty_point p = negb (real p).
Proof. unfold is_empty_point, real, f64_ne. now destruct (f64_eq _ _), (f64_eq _ _). Qed.

Lemma last_idx_from_spec {A} (e : A -> bool) l : forall i d,
  (forallb e l = true /\ last_idx_from e i d l = d) \/
  exists a x b, l = a ++ x :: b /\ e x = false /\ forallb e b = true /\
    last_idx_from e i d l = i + Z.of_nat (len a).
Proof.
  induction l as [|y l IH]; intros i d; [now left|]. cbn [last_idx_from forallb].
  destruct (IH (i + 1) (if e y then d else i)) as [[F E]|(a & x & b & -> & X & F & E)].
  - destruct (e y) eqn:Y; [left; auto|]. right. exists [], y, l. rewrite F, E.
    repeat split; auto. cbn. lia.
  - right. exists (y :: a), x, b. repeat split; auto. rewrite E. cbn [List.length]. lia.
Qed.

Lemma last_idx_spec {A} (e : A -> bool) l :
  (forallb e l = true /\ last_idx e l = -1) \/
  exists a x b, l = a ++ x :: b /\ e x = false /\ forallb e b = true /\ last_idx e l = Z.of_nat (len a).
Proof. exact (last_idx_from_spec e l 0 (-1)). Qed.

Lemma no_point ps : (last_idx_points ps =? -1) = negb (has_point ps).
Proof.
  unfold last_idx_points. destruct (last_idx_spec is_empty_point ps) as [[F E]|(a & x & b & -> & X & F & E)].
  - rewrite E. cbn. unfold has_point. clear E. symmetry. rewrite negb_true_iff.
    induction ps as [|p ps IH]; [reflexivity|]. cbn in *. apply andb_true_iff in F.
    rewrite empty_real in F. rewrite IH by easy. now destruct (real p).
  - rewrite E. rewrite empty_real in X. unfold has_point. rewrite existsb_app. cbn.
    destruct (real x); [|discriminate]. cbn. rewrite orb_true_r. cbn.
    apply Z.eqb_neq. lia.
Qed.

Lemma same_real p q : same p q = true -> real q = true.
Proof.
  unfold same, real. rewrite !andb_true_iff. intros [A B].
  apply eq_inv in A. apply eq_inv in B. destruct A as (_ & A & _), B as (_ & B & _).
  unfold nn in *. split; unfold f64_eq; rewrite ?A, ?B, Z.eqb_refl; reflexivity.
Qed.

Lemma last_cons (p q : pt) k : List.last (q :: k) p = List.last k q.
Proof. revert p q. induction k as [|r k IH]; intros; [reflexivity|]. cbn [List.last] in *. destruct k; [reflexivity|]. apply (IH p q). Qed.

Section Text.
  Variable fmt : f64 -> list Z.
  Variable strict : bool.

  (** The text of a pair. *)
  Definition txt (p : pt) : list Z :=
    if real p then fmt (fst p) ++ 32 :: fmt (snd p) else str "EMPTY".

  Lemma encode_pair_eq p : encode_pair fmt p = wr (txt p).
  Proof.
    unfold encode_pair, txt. rewrite empty_real. destruct (real p); cbn [negb]; [|reflexivity].
    unfold wr, andthen. cbn. reflexivity.
  Qed.

  Definition sel (t : gtype) (last : option pt) (mp : list pt) : list pt :=
    if is_mp t then mp
    else match last with
         | None => drop_repeats (filter real mp)
         | Some q => drop_after q (filter real mp)
         end.

  Fixpoint seg (count : nat) (k : list pt) : list Z :=
    match k with
    | [] => []
    | p :: k' => (if (count =? 0)%nat then 40 else 44) :: txt p ++ seg (S count) k'
    end.

  Definition allowed (t : gtype) (mp : list pt) : Prop :=
    strict = true -> is_mp t = false -> forallb real mp = true.

  Definition last_opt (d : option pt) (k : list pt) : option pt :=
    match k with [] => d | p :: k' => Some (List.last k' p) end.
  Definition first_opt (d : option pt) (k : list pt) : option pt :=
    match d with None => hd_error k | Some _ => d end.

  Lemma loop_eq t : forall mp first last count, allowed t mp ->
    points_loop fmt strict t first last count mp =
    (wr (seg count (sel t last mp)),
     (first_opt first (sel t last mp), last_opt last (sel t last mp), (count + len (sel t last mp))%nat)).
  Proof.
    induction mp as [|v mp IH]; intros first last count Ha.
    - assert (E : sel t last [] = []) by (unfold sel; destruct (is_mp t), last; reflexivity).
      rewrite E. cbn. rewrite Nat.add_0_r. destruct first; reflexivity.
    - assert (Ha' : allowed t mp).
      { intros A B. specialize (Ha A B). cbn in Ha. now apply andb_true_iff in Ha. }
      assert (W : forall f, 
        (wr (str (if (count =? 0)%nat then "(" else ",")) >> encode_pair fmt v) >>
          fst (points_loop fmt strict t f (Some v) (S count) mp) =
        wr ((if (count =? 0)%nat then 40 else 44) :: txt v ++ seg (S count) (sel t (Some v) mp))).
      { intros f. rewrite IH by assumption. cbn [fst]. rewrite encode_pair_eq.
        destruct (count =? 0)%nat; reflexivity. }
      cbn [points_loop]. destruct (is_mp t) eqn:M.
      + cbn [negb]. rewrite !andb_false_r. cbn match. rewrite W, IH by assumption.
        unfold sel. rewrite M. cbn [snd fst]. unfold wr. cbn [seg]. f_equal. f_equal; [f_equal|].
        * destruct first; reflexivity.
        * cbn [last_opt]. destruct mp as [|q mp]; [reflexivity|]. cbn [last_opt]. now rewrite last_cons.
        * cbn [List.length]. lia.
      + cbn [negb]. rewrite !andb_true_r.
        change (match last with Some q => pt_eq q v | None => false end)
          with (match last with Some q => same q v | None => false end).
        rewrite empty_real.
        destruct (match last with Some q => same q v | None => false end) eqn:D.
        * destruct last as [q|]; [|discriminate].
          rewrite IH by assumption. unfold sel. rewrite M. cbn [filter].
          rewrite (same_real _ _ D). cbn [drop_after]. rewrite D. reflexivity.
        * destruct (real v) eqn:Rv.
          -- cbn [negb andb]. rewrite W, IH by assumption. cbn [snd fst].
             assert (E : sel t last (v :: mp) = v :: sel t (Some v) mp).
             { unfold sel. rewrite M. cbn [filter]. rewrite Rv. destruct last as [q|].
               - cbn [drop_after]. rewrite D. reflexivity.
               - reflexivity. }
             rewrite E. cbn [seg]. f_equal. f_equal; [f_equal|].
             ++ destruct first; reflexivity.
             ++ cbn [last_opt]. destruct (sel t (Some v) mp) as [|q k]; [reflexivity|]. cbn [last_opt]. now rewrite last_cons.
             ++ cbn [List.length]. lia.
          -- destruct strict eqn:St.
             ++ exfalso. specialize (Ha St M). cbn in Ha. rewrite Rv in Ha. discriminate.
             ++ cbn [negb andb]. rewrite IH by assumption.
                unfold sel. rewrite M. cbn [filter]. rewrite Rv. reflexivity.
  Qed.

  Lemma loop_err t : strict = true -> is_mp t = false -> forall mp first last count,
    forallb real mp = false -> snd (fst (points_loop fmt strict t first last count mp)) <> None.
  Proof.
    intros -> M. induction mp as [|v mp IH]; intros first last count Hf; [discriminate|].
    cbn [points_loop]. rewrite M. cbn [negb]. rewrite !andb_true_r.
    change (match last with Some q => pt_eq q v | None => false end)
      with (match last with Some q => same q v | None => false end).
    rewrite empty_real. cbn in Hf.
    destruct (match last with Some q => same q v | None => false end) eqn:D.
    - destruct last as [q|]; [|discriminate]. rewrite (same_real _ _ D) in Hf. now apply IH.
    - destruct (real v); cbn [negb andb]; [|cbn; discriminate].
      specialize (IH (match first with None => Some v | Some _ => first end) (Some v) (S count) Hf).
      cbn [fst]. rewrite encode_pair_eq. unfold andthen, wr. cbn. exact IH.
  Qed.

  (** The points written for a list of points. *)
  Definition close (t : gtype) (k : list pt) : list pt :=
    match k with
    | [] => []
    | p :: k' => if is_ring t && negb (same p (List.last k' p)) then k ++ [p] else k
    end.
  Definition big_enough (t : gtype) (n : nat) : bool :=
    negb (is_ring t && (n <? 3)%nat) && negb (is_line t && (n <? 2)%nat).

  Lemma seg_S n k : seg (S n) k = concat (map (fun p => 44 :: txt p) k).
  Proof. revert n. induction k as [|p k IH]; intros; [reflexivity|]. cbn [seg map concat]. rewrite IH. reflexivity. Qed.

  Lemma seg_join p k : seg 0 (p :: k) = 40 :: join (map txt (p :: k)).
  Proof.
    cbn [seg]. change (0 =? 0)%nat with true. cbn match. f_equal. rewrite seg_S.
    revert p. induction k as [|q k IH]; intros p.
    - cbn. now rewrite app_nil_r.
    - cbn [map]. rewrite join_cons by discriminate. f_equal. cbn [map concat].
      rewrite <- app_comm_cons. f_equal. rewrite IH. reflexivity.
  Qed.

  Definition pts_text (l : list pt) : list Z := 40 :: join (map txt l) ++ [41].

  Lemma join_close p k x : join (map txt ((p :: k) ++ [x])) = join (map txt (p :: k)) ++ 44 :: txt x.
  Proof.
    revert p. induction k as [|q k IH]; intros p; [reflexivity|].
    cbn [app map]. rewrite join_cons by discriminate.
    specialize (IH q). cbn [app map] in IH. rewrite IH.
    rewrite (join_cons (txt p)) by discriminate. now rewrite <- app_assoc.
  Qed.

  Lemma points_eq t mp : allowed t mp ->
    encode_points fmt strict mp t =
    match sel t None mp with
    | [] => wr (str "EMPTY")
    | k => if big_enough t (len k) then wr (pts_text (close t k))
           else (seg 0 k, Some TooFewPoints)
    end.
  Proof.
    intros Ha. unfold encode_points. rewrite loop_eq by assumption.
    set (k := sel t None mp). destruct k as [|p k]; [reflexivity|].
    cbn [first_opt last_opt hd_error]. rewrite Nat.add_0_l.
    change (len (p :: k) =? 0)%nat with false. cbn match.
    unfold big_enough.
    destruct (is_ring t) eqn:Rg.
    - destruct (len (p :: k) <? 3)%nat; cbn [andb negb].
      + cbn [andthen wr fst snd]. now rewrite app_nil_r.
      + assert (Li : is_line t = false) by (destruct t; easy). rewrite Li. cbn [andb negb].
        change (pt_eq p (last k p)) with (same p (last k p)).
        unfold close, pts_text. rewrite Rg. cbn [andb].
        destruct (same p (last k p)); cbn [negb].
        * unfold wr, andthen; cbn [fst snd app]. rewrite seg_join. reflexivity.
        * rewrite encode_pair_eq, join_close. unfold wr, andthen; cbn [fst snd]. rewrite seg_join.
          cbn. rewrite <- !app_assoc. reflexivity.
    - cbn [andb negb]. destruct (is_line t && (len (p :: k) <? 2)%nat); cbn [andb negb].
      + cbn [andthen wr fst snd]. now rewrite app_nil_r.
      + unfold close, pts_text. rewrite Rg. cbn [andb].
        unfold wr, andthen; cbn [fst snd app]. rewrite seg_join. reflexivity.
  Qed.

  Lemma points_allowed t mp tx : encode_points fmt strict mp t = (tx, None) -> allowed t mp.
  Proof.
    intros H St M. destruct (forallb real mp) eqn:F; [reflexivity|exfalso].
    apply (loop_err t St M mp None None 0%nat) in F. unfold encode_points in H.
    destruct (points_loop fmt strict t None None 0 mp) as [w [[f l] cnt]]. cbn in F.
    apply andthen_ok in H. destruct H as (ta & tb & E & _ & _). subst w. now apply F.
  Qed.

  (** The text of the points of a line, ring or multipoint, if there is one. *)
  Definition ptext (t : gtype) (mp : list pt) : option (list Z) :=
    match sel t None mp with
    | [] => Some (str "EMPTY")
    | k => if big_enough t (len k) then Some (pts_text (close t k)) else None
    end.

  Lemma points_ok t mp tx : encode_points fmt strict mp t = (tx, None) <->
    allowed t mp /\ ptext t mp = Some tx.
  Proof.
    assert (K : forall a b : list Z, Some a = Some b <-> wr a = (b, None)).
    { intros a b. split; intros W; [injection W as ->; reflexivity|apply (f_equal fst) in W; exact (f_equal Some W)]. }
    assert (Q : allowed t mp -> (encode_points fmt strict mp t = (tx, None) <-> ptext t mp = Some tx)).
    { intros A. rewrite points_eq by assumption. unfold ptext. destruct (sel t None mp) as [|p k]; [symmetry; apply K|].
      destruct (big_enough t (len (p :: k))); [symmetry; apply K|split; discriminate]. }
    split.
    - intros H. pose proof (points_allowed _ _ _ H) as A. split; [assumption|]. now apply Q.
    - intros [A H]. now apply Q.
  Qed.

  (** ** Lines *)

  Definition sel_lines (t : gtype) (ls : list (list pt)) : list (list pt) :=
    if is_ml t then ls else filter has_point ls.
  Definition lines_allowed (t : gtype) (ls : list (list pt)) : Prop :=
    strict = true -> is_ml t = false -> forallb has_point ls = true.
  Definition pts_ok (t : gtype) (l : list pt) (tx : list Z) : Prop := encode_points fmt strict l t = (tx, None).

  Lemma lines_loop_ok t ls tx : lines_loop fmt strict t ls = (tx, None) <->
    lines_allowed t ls /\
    exists ts, Forall2 (pts_ok t) (sel_lines t ls) ts /\ tx = concat (map (fun x => x ++ [44]) ts).
  Proof.
    revert tx. induction ls as [|v ls IH]; intros tx.
    - assert (E : sel_lines t [] = []) by (unfold sel_lines; destruct (is_ml t); reflexivity). rewrite E. split.
      + intros H. injection H as <-. split; [intros _ _; reflexivity|]. exists []. split; [constructor|reflexivity].
      + intros (_ & ts & F & ->). inversion F. reflexivity.
    - cbn [lines_loop]. rewrite no_point.
      destruct (is_ml t) eqn:M; cbn [negb].
      + rewrite !andb_false_r. split.
        * intros H. apply andthen_ok in H. destruct H as (ta & tb & Ea & H & ->).
          apply andthen_ok in H. destruct H as (tc & td & Ec & H & ->). injection Ec as <-.
          apply IH in H. destruct H as (_ & ts & F & ->). split; [intros _ W; congruence|].
          exists (ta :: ts). unfold sel_lines in *. rewrite M in *. split; [constructor; assumption|].
          cbn. rewrite <- app_assoc. reflexivity.
        * intros (_ & ts & F & ->). unfold sel_lines in F. rewrite M in F.
          inversion F as [|? t1 ? ts' F1 F2]; subst. apply andthen_ok. exists t1, (44 :: concat (map (fun x => x ++ [44]) ts')).
          split; [assumption|]. split; [|cbn; now rewrite <- app_assoc].
          apply andthen_ok. exists [44], (concat (map (fun x => x ++ [44]) ts')). split; [reflexivity|]. split; [|reflexivity].
          apply IH. split; [intros _ W; congruence|]. exists ts'. unfold sel_lines. rewrite M. auto.
      + rewrite !andb_true_r. destruct (has_point v) eqn:P; cbn [negb andb].
        * split.
          -- intros H. apply andthen_ok in H. destruct H as (ta & tb & Ea & H & ->).
             apply andthen_ok in H. destruct H as (tc & td & Ec & H & ->). injection Ec as <-.
             apply IH in H. destruct H as (La & ts & F & ->). split.
             { intros A B. cbn. rewrite P. now apply La. }
             exists (ta :: ts). unfold sel_lines in *. rewrite M in *. cbn [filter]. rewrite P.
             split; [constructor; assumption|]. cbn. rewrite <- app_assoc. reflexivity.
          -- intros (La & ts & F & ->). unfold sel_lines in F. rewrite M in F. cbn [filter] in F. rewrite P in F.
             inversion F as [|? t1 ? ts' F1 F2]; subst. apply andthen_ok. exists t1, (44 :: concat (map (fun x => x ++ [44]) ts')).
             split; [assumption|]. split; [|cbn; now rewrite <- app_assoc].
             apply andthen_ok. exists [44], (concat (map (fun x => x ++ [44]) ts')). split; [reflexivity|]. split; [|reflexivity].
             apply IH. split.
             { intros A B. specialize (La A B). cbn in La. now apply andb_true_iff in La. }
             exists ts'. unfold sel_lines. rewrite M. auto.
        * destruct strict eqn:St.
          -- cbn [andb]. split; [discriminate|]. intros (La & _). specialize (La St M). cbn in La. rewrite P in La. discriminate.
          -- cbn [andb]. rewrite IH. unfold lines_allowed, sel_lines. rewrite St, M. cbn [filter]. rewrite P.
             split; intros (_ & ts & F & ->); (split; [discriminate|]); exists ts; auto.
  Qed.
End Text.
