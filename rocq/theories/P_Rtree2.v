(** * Proofs about the R-tree: searching and bulk loading *)
From Coq Require Import ZArith Bool List Permutation Sorted Lia.
From Coq Require Import ZifyBool ZifyNat.
From Verif Require Import Base_F64 Base_F64Arith Base_Res P_F64 M_Rtree S_Rtree P_Rtree.
Import ListNotations.

Section Search.
  Context {A : Type} (bounds : A -> rect) (d : nat).
  Implicit Types (n c : node A) (e : entry A) (es : list (entry A)).

  Fixpoint searchable n : Prop :=
    match n with
    | Node leaf _ es =>
        all (fun e => rect_ok d (fst e) /\
          match snd e with
          | inl c => leaf = false /\ (forall a, In a (objs c) -> rect_in (bounds a) (fst e)) /\ searchable c
          | inr a => leaf = true /\ fst e = bounds a
          end) es
    end.
  Definition se (leaf : bool) e : Prop :=
    rect_ok d (fst e) /\
    match snd e with
    | inl c => leaf = false /\ (forall a, In a (objs c) -> rect_in (bounds a) (fst e)) /\ searchable c
    | inr a => leaf = true /\ fst e = bounds a
    end.
  Lemma searchable_eq leaf level es : searchable (Node leaf level es) <-> Forall (se leaf) es.
  Proof. cbn [searchable]. now rewrite all_Forall. Qed.

  Lemma searchable_bounds n a : searchable n -> In a (objs n) -> rect_ok d (bounds a).
  Proof.
    revert a. induction n as [leaf level es IH] using node_ind'. intros a S Ha.
    apply searchable_eq in S. rewrite Forall_forall in *. rewrite objs_node in Ha. apply in_flat_map in Ha.
    destruct Ha as ([r [c|b]] & Hin & Ha); specialize (IH _ Hin); specialize (S _ Hin); cbn in *.
    - destruct S as (_ & _ & _ & S). auto.
    - destruct S as (S & _ & S'), Ha as [->|[]]. cbn in S, S'. now subst r.
  Qed.

  Lemma good_searchable lo max n : good bounds max lo (rect_ok d) n -> searchable n.
  Proof.
    induction n as [leaf level es IH] using node_ind'. intros G. apply good_eq in G. destruct G as (_ & _ & G).
    apply searchable_eq. rewrite Forall_forall in *. intros [r [c|a]] Hin; specialize (IH _ Hin); specialize (G _ Hin); cbn in *.
    - destruct G as (G0 & G1 & G2 & G3 & G4 & G5). split; [exact G0|]. cbn. auto.
    - exact G.
  Qed.

  Variable bb : rect.
  Hypothesis Hbb : rect_ok d bb.
  Definition hit (a : A) : bool := overlap (bounds a) bb.

  Lemma filter_none l (r : rect) : (forall a, In a l -> rect_in (bounds a) r) -> overlap r bb = false -> filter hit l = [].
  Proof.
    intros H E. induction l as [|a l IH]; [reflexivity|]. cbn.
    destruct (hit a) eqn:C.
    - rewrite (overlap_mono _ r _ (H a (or_introl eq_refl)) C) in E. discriminate.
    - apply IH. intros; apply H; now right.
  Qed.

  (** The traversal of the entries of a node as a loop of its own. *)
  Fixpoint scan (fs : list (filter_fn A)) (leaf : bool) (results : list A) es : res unit (list A) :=
    match es with
    | [] => Ok results
    | (r, s) :: tl =>
        match intersect r bb with
        | None => scan fs leaf results tl
        | Some _ =>
            if negb leaf then
              match s with
              | inl c => do results <- search bb fs results c; scan fs leaf results tl
              | inr _ => Panic
              end
            else
              match s with
              | inl _ => Panic
              | inr a =>
                  let '(refuse, abort) := apply_filters results a fs in
                  let results := if refuse then results else results ++ [a] in
                  if abort then Ok results else scan fs leaf results tl
              end
        end
    end.
  Lemma search_scan fs leaf level es results : search bb fs results (Node leaf level es) = scan fs leaf results es.
  Proof.
    cbn [search]. revert results. induction es as [|[r s] es IH]; intros results; [reflexivity|].
    cbn [scan]. destruct (intersect r bb); [|apply IH].
    destruct leaf; cbn [negb] in *.
    - destruct s as [c|a]; [reflexivity|]. destruct (apply_filters results a fs) as [refuse abort].
      destruct abort; [reflexivity|apply IH].
    - destruct s as [c|a]; [|reflexivity]. destruct (search bb fs results c); cbn [bind]; auto.
  Qed.

  Lemma intersect_cases r : rect_ok d r ->
    (exists x, intersect r bb = Some x /\ overlap r bb = true) \/ (intersect r bb = None /\ overlap r bb = false).
  Proof.
    intros H. pose proof (intersect_overlap d r bb H Hbb) as E. destruct (intersect r bb) as [x|]; [left|right]; eauto.
  Qed.

  Lemma search_all n : searchable n -> forall results, search bb [] results n = Ok (results ++ filter hit (objs n)).
  Proof.
    induction n as [leaf level es IH] using node_ind'. intros S results. rewrite search_scan.
    apply searchable_eq in S. revert results. rewrite objs_node.
    induction es as [|[r s] es IHes]; intros results; [cbn; now rewrite app_nil_r|].
    inversion IH as [|? ? IH1 IH2]; subst. inversion S as [|? ? [S1 S1'] S2]; subst. specialize (IHes IH2 S2).
    cbn [scan flat_map e_objs snd fst] in *. rewrite filter_app.
    destruct (intersect_cases r S1) as [(x & -> & O)|[-> O]].
    - destruct s as [c|a].
      + destruct S1' as (-> & Hc & Sc). cbn [negb]. rewrite (IH1 Sc). cbn [bind]. rewrite IHes, app_assoc. reflexivity.
      + destruct S1' as [-> ->]. cbn [negb apply_filters]. rewrite IHes. change (e_objs (bounds a, inr a)) with [a]. cbn [filter]. change (hit a) with (overlap (bounds a) bb). rewrite O.
        rewrite <- app_assoc. reflexivity.
    - destruct s as [c|a].
      + destruct S1' as (-> & Hc & Sc). change (e_objs (r, inl c)) with (objs c). rewrite (filter_none _ r Hc O). apply IHes.
      + destruct S1' as [-> ->]. change (e_objs (bounds a, inr a)) with [a]. cbn [filter]. change (hit a) with (overlap (bounds a) bb). rewrite O. apply IHes.
  Qed.

  Lemma firstn_full {X} k (l m : list X) : (length l <= k)%nat -> (k <= length l)%nat -> firstn k (l ++ m) = l.
  Proof. intros. assert (k = length l) as -> by lia. rewrite firstn_app, Nat.sub_diag, firstn_all. cbn. apply app_nil_r. Qed.

  Lemma firstn_more {X} k (l m x : list X) : firstn k (firstn k (l ++ m) ++ x) = firstn k (l ++ m ++ x).
  Proof.
    rewrite app_assoc. generalize (l ++ m) as y. intros y. rewrite firstn_app, firstn_firstn, Nat.min_id.
    destruct (Nat.le_gt_cases (length y) k).
    - rewrite (firstn_all2 y) by lia. rewrite firstn_app. rewrite (firstn_all2 y) by lia. reflexivity.
    - rewrite firstn_length_le by lia. rewrite Nat.sub_diag. cbn. rewrite app_nil_r.
      rewrite firstn_app. replace (k - length y)%nat with 0%nat by lia. cbn. now rewrite app_nil_r.
  Qed.

  Lemma search_limit k n : searchable n -> forall results, (length results <= k)%nat ->
    search bb [limit_filter (Z.of_nat k)] results n = Ok (firstn k (results ++ filter hit (objs n))).
  Proof.
    induction n as [leaf level es IH] using node_ind'. intros S results L. rewrite search_scan.
    apply searchable_eq in S. revert results L. rewrite objs_node.
    induction es as [|[r s] es IHes]; intros results L; [cbn; rewrite app_nil_r, firstn_all2 by lia; reflexivity|].
    inversion IH as [|? ? IH1 IH2]; subst. inversion S as [|? ? [S1 S1'] S2]; subst. specialize (IHes IH2 S2).
    cbn [scan flat_map e_objs snd fst] in *. rewrite filter_app.
    destruct (intersect_cases r S1) as [(x & -> & O)|[-> O]].
    - destruct s as [c|a].
      + destruct S1' as (-> & Hc & Sc). cbn [negb]. rewrite (IH1 Sc _ L). cbn [bind].
        rewrite IHes by (rewrite firstn_length; lia). now rewrite firstn_more.
      + destruct S1' as [-> ->]. cbn [negb apply_filters]. unfold limit_filter at 1. change (e_objs (bounds a, inr a)) with [a]. cbn [filter]. change (hit a) with (overlap (bounds a) bb). rewrite O.
        destruct (Z.of_nat k <=? Z.of_nat (length results))%Z eqn:C; cbn [orb].
        * rewrite firstn_full by lia. reflexivity.
        * rewrite IHes by (rewrite app_length; cbn; lia). rewrite <- app_assoc. reflexivity.
    - destruct s as [c|a].
      + destruct S1' as (-> & Hc & Sc). change (e_objs (r, inl c)) with (objs c). rewrite (filter_none _ r Hc O). now apply IHes.
      + destruct S1' as [-> ->]. change (e_objs (bounds a, inr a)) with [a]. cbn [filter]. change (hit a) with (overlap (bounds a) bb). rewrite O. now apply IHes.
  Qed.

  Lemma apply_no_abort fs results a : Forall (fun f : filter_fn A => forall rs x, snd (f rs x) = false) fs ->
    apply_filters results a fs = (existsb (fun f => fst (f results a)) fs, false).
  Proof.
    induction fs as [|f fs IH]; intros H; [reflexivity|]. inversion H as [|? ? H1 H2]; subst. cbn [apply_filters existsb].
    pose proof (H1 results a) as E. destruct (f results a) as [refuse abort]. cbn in E. subst abort.
    cbn [fst]. destruct refuse; [reflexivity|]. exact (IH H2).
  Qed.

  (** One result after the other is offered to the filters. *)
  Lemma search_filtered fs n : Forall (fun f : filter_fn A => forall rs x, snd (f rs x) = false) fs ->
    searchable n -> forall results,
    search bb fs results n =
    Ok (fold_left (fun rs a => if existsb (fun f => fst (f rs a)) fs then rs else rs ++ [a]) (filter hit (objs n)) results).
  Proof.
    intros NA. induction n as [leaf level es IH] using node_ind'. intros S results. rewrite search_scan.
    apply searchable_eq in S. revert results. rewrite objs_node.
    induction es as [|[r s] es IHes]; intros results; [reflexivity|].
    inversion IH as [|? ? IH1 IH2]; subst. inversion S as [|? ? [S1 S1'] S2]; subst. specialize (IHes IH2 S2).
    cbn [scan flat_map e_objs snd fst] in *. rewrite filter_app, fold_left_app.
    destruct (intersect_cases r S1) as [(x & -> & O)|[-> O]].
    - destruct s as [c|a].
      + destruct S1' as (-> & Hc & Sc). cbn [negb]. rewrite (IH1 Sc). cbn [bind]. rewrite IHes. reflexivity.
      + destruct S1' as [-> ->]. cbn [negb]. rewrite apply_no_abort by assumption. rewrite IHes.
        change (e_objs (bounds a, inr a)) with [a]. cbn [filter]. change (hit a) with (overlap (bounds a) bb). rewrite O.
        reflexivity.
    - destruct s as [c|a].
      + destruct S1' as (-> & Hc & Sc). change (e_objs (r, inl c)) with (objs c). rewrite (filter_none _ r Hc O). apply IHes.
      + destruct S1' as [-> ->]. change (e_objs (bounds a, inr a)) with [a]. cbn [filter]. change (hit a) with (overlap (bounds a) bb). rewrite O. apply IHes.
  Qed.
End Search.

(** ** Partitions *)
Lemma parts_from_spec {X : Type} k : (1 <= k)%nat -> forall fuel (l : list (entry X)), (1 <= length l <= fuel)%nat ->
  exists init lst, parts_from fuel k l = init ++ [lst] /\ concat (parts_from fuel k l) = l /\
    Forall (fun p => length p = k) init /\ (1 <= length lst <= k)%nat.
Proof.
  intros Hk. induction fuel as [|fuel IH]; intros l L; [lia|]. cbn [parts_from].
  destruct (length l <=? k)%nat eqn:C.
  - exists [], l. cbn. rewrite app_nil_r. repeat split; auto; lia.
  - destruct (IH (skipn k l)) as (init & lst & E & Ec & Hi & Hl); [rewrite skipn_length; lia|].
    exists (firstn k l :: init), lst. rewrite E in *. split; [reflexivity|]. split.
    + cbn [concat]. rewrite Ec. apply firstn_skipn.
    + split; [constructor; [rewrite firstn_length; lia|exact Hi]|exact Hl].
Qed.

Lemma mapm_ok {X Y} (f : X -> res unit Y) l ys : mapm f l = Ok ys -> Forall2 (fun x y => f x = Ok y) l ys.
Proof.
  revert ys. induction l as [|x l IH]; intros ys E; cbn in E.
  - injection E as <-. constructor.
  - apply bind_ok in E. destruct E as (y & Ey & E). apply bind_ok in E. destruct E as (ys' & Eys & E).
    injection E as <-. constructor; auto.
Qed.
Lemma mapm_total {X Y} (f : X -> res unit Y) l : Forall (fun x => exists y, f x = Ok y) l -> exists ys, mapm f l = Ok ys.
Proof.
  induction 1 as [|x l [y Ey] H [ys IH]]; cbn; [eauto|]. rewrite Ey, IH. cbn. eauto.
Qed.

Lemma Forall2_imp {X Y} (P Q : X -> Y -> Prop) l m : (forall x y, P x y -> Q x y) -> Forall2 P l m -> Forall2 Q l m.
Proof. induction 2; constructor; auto. Qed.

Lemma Forall2_len {X Y} (P : X -> Y -> Prop) l m : Forall2 P l m -> length l = length m.
Proof. induction 1; cbn; congruence. Qed.

Lemma ceil_bound a m : (1 <= m)%nat -> (a <= m * ((a + m - 1) / m))%nat.
Proof.
  intros Hm. pose proof (Nat.div_mod (a + m - 1) m ltac:(lia)) as E.
  pose proof (Nat.mod_upper_bound (a + m - 1) m ltac:(lia)). lia.
Qed.
Lemma ceil_le a m b : (1 <= m)%nat -> (a <= m * b)%nat -> ((a + m - 1) / m <= b)%nat.
Proof.
  intros Hm H. apply Nat.lt_succ_r. apply Nat.div_lt_upper_bound; [lia|]. rewrite Nat.mul_succ_r. lia.
Qed.

Section Bulk.
  Context {A : Type} (bounds : A -> rect) (d : nat).
  Variables (max dim : nat).
  Variable sorted : nat -> list (entry A) -> list (entry A).
  Hypothesis sorted_perm : forall i l, Permutation (sorted i l) l.
  Hypothesis Hmax : (2 <= max)%nat.
  Implicit Types (n c : node A) (e : entry A) (es : list (entry A)).

  Definition isobj e : Prop := exists a, e = (bounds a, inr a) /\ rect_ok d (bounds a).
  Lemma isobj_sorted i es : Forall isobj es -> Forall isobj (sorted i es).
  Proof. intros H. eapply Permutation_Forall; [symmetry; apply sorted_perm|exact H]. Qed.

  (** The two nested walks as one list of parts. *)
  Lemma omt_big fuel top level ns es m n : (length es <=? m)%nat = false ->
    omt max sorted dim (S fuel) top level ns es m = Ok n ->
    exists parts ces, n = Node false level ces /\ Permutation (concat parts) es /\
      Forall2 (fun p e => exists c, omt max sorted dim fuel top (level - 1) 1 p max = Ok c /\ child_entry c = Ok e) parts ces /\
      (1 <= length es)%nat /\ (1 <= m)%nat /\
      let k := ((length es + m - 1) / m)%nat in
      (1 <= k)%nat /\ Forall (fun p => 1 <= length p <= k)%nat parts /\ (1 <= length parts <= m)%nat.
  Proof.
    intros C E. cbn [omt] in E. rewrite C in E. destruct (m =? 0)%nat eqn:Cm; [discriminate|].
    set (k := ((length es + m - 1) / m)%nat) in *.
    pose proof (ceil_bound (length es) m ltac:(lia)) as Hk. fold k in Hk.
    assert (Hk1 : (1 <= k)%nat) by (destruct k; lia).
    set (vs := if (1 <? ns)%Z then (Z.to_nat ns * k)%nat else length es) in *.
    apply bind_ok in E. destruct E as (verts & Ev & E). apply bind_ok in E. destruct E as (ess & Ee & E).
    injection E as <-. apply mapm_ok in Ee.
    assert (Hvs : (1 <= vs)%nat) by (unfold vs; destruct (1 <? ns)%Z eqn:Cn; [|lia]; nia).
    unfold partitions in Ev. destruct ((vs =? 0)%nat || (length es =? 0)%nat) eqn:Cp; [discriminate|].
    injection Ev as <-.
    destruct (parts_from_spec vs Hvs (length es) es ltac:(lia)) as (vinit & vlast & Evp & Evc & Hvi & Hvl).
    rewrite Evp in Ee. rewrite Evp in Evc.
    (* the parts of each vertical slice *)
    assert (One : forall vert ys, (1 <= length vert)%nat ->
      (let vert := sorted (Z.to_nat ((top - level + 1) mod Z.of_nat dim)) vert in
       do ps <- partitions k vert;
       mapm (fun part => do c <- omt max sorted dim fuel top (level - 1) 1 part max; child_entry c) ps) = Ok ys ->
      exists ps, Permutation (concat ps) vert /\
        Forall2 (fun p e => exists c, omt max sorted dim fuel top (level - 1) 1 p max = Ok c /\ child_entry c = Ok e) ps ys /\
        Forall (fun p => 1 <= length p <= k)%nat ps /\ (1 <= length ps)%nat /\ ((length ps - 1) * k < length vert)%nat).
    { intros vert ys Hlen Ey. cbv zeta in Ey. set (sv := sorted _ vert) in *.
      assert (Ls : length sv = length vert) by (apply Permutation_length, sorted_perm).
      apply bind_ok in Ey. destruct Ey as (ps & Eps & Ey). unfold partitions in Eps.
      destruct ((k =? 0)%nat || (length sv =? 0)%nat) eqn:Cq; [discriminate|]. injection Eps as <-.
      destruct (parts_from_spec k Hk1 (length sv) sv ltac:(lia)) as (init & lst & Ep & Epc & Hi & Hl).
      exists (parts_from (length sv) k sv). split; [rewrite Epc; apply sorted_perm|].
      split; [|split; [|split]].
      - apply mapm_ok in Ey. eapply Forall2_imp; [|exact Ey]. cbn. intros p e Hp.
        apply bind_ok in Hp. exact Hp.
      - rewrite Ep. apply Forall_app. split; [|constructor; [lia|constructor]].
        eapply Forall_impl; [|exact Hi]. cbn. intros; lia.
      - rewrite Ep, app_length. cbn. lia.
      - assert (Lc : length sv = (length init * k + length lst)%nat).
        { rewrite <- Epc, Ep, concat_app, app_length. cbn [concat]. rewrite app_nil_r. f_equal.
          clear - Hi. induction Hi as [|p init Hp Hi IH]; [reflexivity|]. cbn [concat length]. rewrite app_length, IH, Hp. lia. }
        rewrite Ep, app_length. cbn [length]. rewrite Nat.add_sub. lia. }
    assert (Evc' : concat vinit ++ vlast = es).
    { rewrite concat_app in Evc. cbn in Evc. now rewrite app_nil_r in Evc. }
    assert (Goal1 : exists parts, Permutation (concat parts) es /\
      Forall2 (fun p e => exists c, omt max sorted dim fuel top (level - 1) 1 p max = Ok c /\ child_entry c = Ok e) parts (concat ess) /\
      Forall (fun p => 1 <= length p <= k)%nat parts /\ (1 <= length parts)%nat /\ ((length parts - 1) * k < length es)%nat).
    { clear Evc Evp. subst es. clear C.
      assert (Hmul : vinit <> [] -> exists S, vs = (S * k)%nat /\ (1 <= S)%nat).
      { intros Hne. unfold vs in *. destruct (1 <? ns)%Z eqn:Cn; [exists (Z.to_nat ns); split; [reflexivity|lia]|].
        exfalso. destruct vinit as [|v0 vinit]; [easy|]. inversion Hvi as [|? ? Hv0 _]; subst.
        rewrite app_length in Hv0. cbn [concat] in Hv0. rewrite app_length in Hv0. lia. }
      clear Hk Cp. revert ess Ee Hmul.
      assert (HviT : Forall (fun p => length p = vs) vinit) by exact Hvi. clear Hvi.
      clearbody vs k. induction vinit as [|v vinit IH]; intros ess Ee Hmul; cbn [app] in Ee.
      - inversion Ee as [|? ys ? ess' Ey Er]; subst. inversion Er; subst.
        destruct (One vlast ys ltac:(lia) Ey) as (ps & P1 & P2 & P3 & P4 & P5).
        exists ps. cbn [concat app]. rewrite !app_nil_r. auto.
      - inversion Ee as [|? ys ? ess' Ey Er]; subst. inversion HviT as [|? ? Hv HviT']; subst.
        destruct (One v ys ltac:(lia) Ey) as (ps & P1 & P2 & P3 & P4 & P5).
        destruct (IH HviT' ess' Er) as (qs & Q1 & Q2 & Q3 & Q4 & Q5); [intros; apply Hmul; discriminate|].
        exists (ps ++ qs). cbn [concat]. split; [rewrite concat_app, P1, Q1, app_assoc; reflexivity|].
        split; [now apply Forall2_app|]. split; [now apply Forall_app|]. rewrite app_length. split; [lia|].
        rewrite <- app_assoc, app_length. destruct (Hmul ltac:(discriminate)) as (S & HS & HS1).
        (* a full slice has exactly S parts *)
        assert (length ps <= S)%nat by (rewrite HS in P5; nia). nia. }
    destruct Goal1 as (parts & P1 & P2 & P3 & P4 & P5).
    exists parts, (concat ess). cbv zeta. fold k.
    refine (conj eq_refl (conj P1 (conj P2 (conj _ (conj _ (conj Hk1 (conj P3 (conj P4 _)))))))); [lia|lia|]. nia.
  Qed.

  Lemma se_bb leaf es bb : Forall (se bounds d leaf) es -> compute_bb es = Ok bb ->
    rect_ok d bb /\ forall a, In a (flat_map e_objs es) -> rect_in (bounds a) bb.
  Proof.
    intros H E. assert (Hr : Forall (rect_ok d) (map fst es)).
    { rewrite Forall_map. eapply Forall_impl; [|exact H]. now intros e [? _]. }
    destruct (bounding_box_n_ok d _ _ Hr E) as [Ho Hin]. split; [exact Ho|].
    intros a Ha. apply in_flat_map in Ha. destruct Ha as (e & He & Ha).
    rewrite Forall_forall in H, Hin. apply (rect_in_trans _ (fst e)); [|apply Hin; now apply in_map].
    destruct (H _ He) as [H1 H2]. unfold e_objs in Ha. destruct (snd e) as [c|b].
    - now apply H2.
    - destruct H2 as [_ H2], Ha as [->|[]]. rewrite <- H2. now apply (rect_in_refl d).
  Qed.

  Lemma isobj_flat es : Forall isobj es -> Forall (se bounds d true) es.
  Proof. apply Forall_impl. intros e (a & -> & Ha). split; [exact Ha|]. now split. Qed.

  Lemma parts_isobj parts es : Permutation (concat parts) es -> Forall isobj es -> Forall (Forall isobj) parts.
  Proof.
    intros P H. assert (H' : Forall isobj (concat parts)) by (eapply Permutation_Forall; [symmetry; exact P|exact H]).
    clear P. induction parts as [|p parts IH]; [constructor|]. cbn in H'. apply Forall_app in H'. destruct H'. constructor; auto.
  Qed.

  Lemma omt_search fuel : forall top level ns es m n, Forall isobj es ->
    omt max sorted dim fuel top level ns es m = Ok n ->
    searchable bounds d n /\ Permutation (objs n) (flat_map e_objs es).
  Proof.
    induction fuel as [|fuel IH]; intros top level ns es m n H E; [discriminate|].
    destruct (length es <=? m)%nat eqn:C.
    - cbn [omt] in E. rewrite C in E. destruct (1 <? level)%Z.
      + apply bind_ok in E. destruct E as (c & Ec & E). apply bind_ok in E. destruct E as (e & Ee & E). injection E as <-.
        destruct (IH _ _ _ _ _ _ H Ec) as [Sc Pc]. unfold child_entry in Ee. apply bind_ok in Ee. destruct Ee as (bb & Eb & Ee).
        injection Ee as <-. split.
        * apply searchable_eq. constructor; [|constructor]. destruct c as [lf lv ces]. cbn [n_entries] in Eb.
          pose proof Sc as Sc'. apply searchable_eq in Sc'. destruct (se_bb _ _ _ Sc' Eb). split; [assumption|]. cbn. auto.
        * rewrite objs_node. cbn [flat_map]. rewrite app_nil_r. exact Pc.
      + injection E as <-. split; [apply searchable_eq; now apply isobj_flat|reflexivity].
    - destruct (omt_big _ _ _ _ _ _ _ C E) as (parts & ces & -> & P & F & _ & _ & _ & Hp & _).
      pose proof (parts_isobj _ _ P H) as Hi.
      assert (Goal1 : Forall (se bounds d false) ces /\ Permutation (flat_map e_objs ces) (flat_map e_objs (concat parts))).
      { clear P Hp E. induction F as [|p e parts ces (c & Ec & Ee) F IHF]; [split; [constructor|reflexivity]|].
        inversion Hi as [|? ? Hp Hi']; subst. destruct (IHF Hi') as [F1 F2].
        destruct (IH _ _ _ _ _ _ Hp Ec) as [Sc Pc]. unfold child_entry in Ee. apply bind_ok in Ee. destruct Ee as (bb & Eb & Ee).
        injection Ee as <-. split.
        - constructor; [|exact F1]. destruct c as [lf lv ces']. cbn [n_entries] in Eb.
          pose proof Sc as Sc'. apply searchable_eq in Sc'. destruct (se_bb _ _ _ Sc' Eb). split; [assumption|]. cbn. auto.
        - cbn [flat_map concat]. rewrite flat_map_app. change (e_objs (bb, inl c)) with (objs c). now rewrite Pc, F2. }
      destruct Goal1 as [F1 F2]. split; [now apply searchable_eq|].
      rewrite objs_node, F2. now apply Permutation_flat_map.
  Qed.

  (** *** Termination *)
  Lemma ceil_lt l : (max < l)%nat -> ((l + max - 1) / max < l)%nat.
  Proof. intros H. apply Nat.div_lt_upper_bound; [lia|]. nia. Qed.

  Lemma omt_nonempty fuel : forall top level ns es m n, (1 <= length es)%nat ->
    omt max sorted dim fuel top level ns es m = Ok n -> n_entries n <> [].
  Proof.
    intros top level ns es m n L E. destruct fuel as [|fuel]; [discriminate|].
    destruct (length es <=? m)%nat eqn:C.
    - cbn [omt] in E. rewrite C in E. destruct (1 <? level)%Z.
      + apply bind_ok in E. destruct E as (c & Ec & E). apply bind_ok in E. destruct E as (e & Ee & E). injection E as <-. discriminate.
      + injection E as <-. cbn. destruct es; [cbn in L; lia|discriminate].
    - destruct (omt_big _ _ _ _ _ _ _ C E) as (parts & ces & -> & P & F & _ & _ & _ & Hp & Hl).
      apply Forall2_len in F. cbn. destruct ces; [cbn in F; lia|discriminate].
  Qed.

  Lemma partitions_total k (es : list (entry A)) : (1 <= k)%nat -> (1 <= length es)%nat ->
    exists ps, partitions k es = Ok ps /\ Permutation (concat ps) es /\ Forall (fun p => 1 <= length p <= k)%nat ps.
  Proof.
    intros Hk L. unfold partitions. replace ((k =? 0)%nat || (length es =? 0)%nat) with false by lia.
    destruct (parts_from_spec k Hk (length es) es ltac:(lia)) as (init & lst & E & Ec & Hi & Hl).
    eexists. split; [reflexivity|]. split; [now rewrite Ec|]. rewrite E. apply Forall_app. split; [|constructor; [lia|constructor]].
    eapply Forall_impl; [|exact Hi]. cbn. intros; lia.
  Qed.

  Lemma omt_step fuel top level ns es m : (1 <= length es)%nat -> (1 <= m)%nat -> (m < length es)%nat ->
    (forall p, (1 <= length p <= (length es + m - 1) / m)%nat -> exists c, omt max sorted dim fuel top (level - 1) 1 p max = Ok c) ->
    exists n, omt max sorted dim (S fuel) top level ns es m = Ok n.
  Proof.
    intros L Hm C H. cbn [omt]. replace (length es <=? m)%nat with false by lia. replace (m =? 0)%nat with false by lia.
    set (k := ((length es + m - 1) / m)%nat) in *.
    pose proof (ceil_bound (length es) m ltac:(lia)) as Hk. fold k in Hk.
    assert (Hk1 : (1 <= k)%nat) by (destruct k; lia).
    set (vs := if (1 <? ns)%Z then (Z.to_nat ns * k)%nat else length es) in *.
    assert (Hvs : (1 <= vs)%nat) by (unfold vs; destruct (1 <? ns)%Z eqn:Cn; [|lia]; nia).
    destruct (partitions_total vs es Hvs L) as (verts & -> & _ & Hv). cbn [bind].
    match goal with |- context [mapm ?f verts] => destruct (mapm_total f verts) as [ess Ee] end.
    - eapply Forall_impl; [|exact Hv]. cbv beta zeta. intros vert Hvert.
      set (sv := sorted _ vert). assert (Ls : length sv = length vert) by (apply Permutation_length, sorted_perm).
      destruct (partitions_total k sv Hk1 ltac:(lia)) as (ps & -> & _ & Hps). cbn [bind].
      apply mapm_total. eapply Forall_impl; [|exact Hps]. cbv beta. intros p Hp.
      destruct (H p Hp) as (c & Ec). rewrite Ec. cbn [bind]. unfold child_entry.
      destruct (compute_bb_total (n_entries c)) as [bb ->]; [|cbn; eauto].
      eapply omt_nonempty; [|exact Ec]. lia.
    - rewrite Ee. cbn. eauto.
  Qed.

  Lemma omt_total fuel : forall top level ns es, (1 <= length es)%nat -> (Z.to_nat level + length es < fuel)%nat ->
    exists n, omt max sorted dim fuel top level ns es max = Ok n.
  Proof.
    induction fuel as [|fuel IH]; intros top level ns es L Hf; [lia|].
    destruct (length es <=? max)%nat eqn:C.
    - cbn [omt]. rewrite C. destruct (1 <? level)%Z eqn:Cl; [|eauto].
      destruct (IH top (level - 1)%Z ns es L ltac:(lia)) as (c & Ec). rewrite Ec. cbn [bind]. unfold child_entry.
      destruct (compute_bb_total (n_entries c)) as [bb ->]; [|cbn; eauto].
      eapply omt_nonempty; [|exact Ec]. exact L.
    - apply omt_step; [lia|lia|lia|]. intros p Hp. pose proof (ceil_lt (length es) ltac:(lia)). apply IH; lia.
  Qed.

  Lemma omt_total_top fuel top level ns es m : (1 <= m)%nat -> (m < length es)%nat -> (Z.to_nat level + length es + 1 < fuel)%nat ->
    exists n, omt max sorted dim fuel top level ns es m = Ok n.
  Proof.
    intros Hm C Hf. destruct fuel as [|fuel]; [lia|]. apply omt_step; [lia|lia|lia|].
    intros p Hp. assert ((length es + m - 1) / m <= length es)%nat.
    { apply ceil_le; [lia|]. nia. }
    apply omt_total; lia.
  Qed.

  (** *** The shape of the tree *)
  Let g := good bounds max 1 (rect_ok d).

  Lemma isobj_ge es : Forall isobj es -> Forall (ge bounds max 1 (rect_ok d) true 1) es.
  Proof. apply Forall_impl. intros e (a & -> & Ha). split; [exact Ha|]. now split. Qed.

  Lemma omt_good_step fuel top level ns es m n : (1 < level)%Z -> Forall isobj es -> (m < length es)%nat -> (m <= max)%nat ->
    (forall p c, Forall isobj p -> (1 <= length p <= (length es + m - 1) / m)%nat ->
       omt max sorted dim fuel top (level - 1) 1 p max = Ok c ->
       g c /\ n_level c = (level - 1)%Z /\ (1 <= length (n_entries c) <= max)%nat) ->
    omt max sorted dim (S fuel) top level ns es m = Ok n ->
    g n /\ n_level n = level /\ (1 <= length (n_entries n) <= max)%nat.
  Proof.
    intros Hl H C Hm IH E.
    assert (C' : (length es <=? m)%nat = false) by lia.
    destruct (omt_big _ _ _ _ _ _ _ C' E) as (parts & ces & -> & P & F & _ & _ & _ & Hp & Hc).
    pose proof (parts_isobj _ _ P H) as Hi.
    split; [|split; [reflexivity|]]; [|apply Forall2_len in F; cbn; lia].
    apply good_eq. split; [lia|]. split; [lia|].
    clear P Hc E. induction F as [|p e parts ces (c & Ec & Ee) F IHF]; [constructor|].
    inversion Hi as [|? ? Hip Hi']; subst. inversion Hp as [|? ? Hp1 Hp']; subst.
    constructor; [|now apply IHF].
    destruct (IH _ _ Hip Hp1 Ec) as (G1 & G2 & G3).
    unfold child_entry in Ee. apply bind_ok in Ee. destruct Ee as (bb & Eb & Ee). injection Ee as <-.
    apply (child_good bounds max 1 d (rect_ok d)); auto. apply bounding_box_ok.
  Qed.

  Lemma omt_good fuel : forall top level ns es n, (1 <= level)%Z -> Forall isobj es -> (1 <= length es)%nat ->
    (length es <= max ^ Z.to_nat level)%nat -> omt max sorted dim fuel top level ns es max = Ok n ->
    g n /\ n_level n = level /\ (1 <= length (n_entries n) <= max)%nat.
  Proof.
    induction fuel as [|fuel IH]; intros top level ns es n Hl H L Hb E; [discriminate|].
    destruct (length es <=? max)%nat eqn:C.
    - cbn [omt] in E. rewrite C in E. destruct (1 <? level)%Z eqn:Cl.
      + apply bind_ok in E. destruct E as (c & Ec & E). apply bind_ok in E. destruct E as (e & Ee & E). injection E as <-.
        assert (Hb' : (length es <= max ^ Z.to_nat (level - 1))%nat).
        { replace (Z.to_nat (level - 1)) with (S (Z.to_nat (level - 2))) by lia. cbn [Nat.pow].
          assert (1 <= max ^ Z.to_nat (level - 2))%nat by (apply Nat.neq_0_lt_0, Nat.pow_nonzero; lia). nia. }
        assert (Hl' : (1 <= level - 1)%Z) by lia. destruct (IH _ _ _ _ _ Hl' H L Hb' Ec) as (G1 & G2 & G3).
        unfold child_entry in Ee. apply bind_ok in Ee. destruct Ee as (bb & Eb & Ee). injection Ee as <-.
        split; [|split; [reflexivity|cbn; lia]]. apply good_eq. split; [lia|]. split; [lia|].
        constructor; [|constructor]. apply (child_good bounds max 1 d (rect_ok d)); auto. apply bounding_box_ok.
      + injection E as <-. assert (level = 1%Z) as -> by lia.
        split; [|split; [reflexivity|cbn; lia]]. apply good_eq. split; [lia|]. split; [reflexivity|]. now apply isobj_ge.
    - assert (1 < level)%Z.
      { destruct (Z.eq_dec level 1) as [->|]; [|lia]. change (Z.to_nat 1) with 1%nat in Hb. rewrite Nat.pow_1_r in Hb. lia. }
      eapply omt_good_step; [lia|exact H| |apply Nat.le_refl| |exact E]; [lia|].
      intros p c Hp Lp Ec. eapply IH; [lia|exact Hp|lia| |exact Ec].
      etransitivity; [apply Lp|]. apply ceil_le; [lia|].
      replace (Z.to_nat level) with (S (Z.to_nat (level - 1))) in Hb by lia. cbn [Nat.pow] in Hb. lia.
  Qed.

  Lemma omt_good_top fuel top level ns es m n : (1 <= level)%Z -> Forall isobj es -> (1 <= m <= max)%nat ->
    (max < length es)%nat -> (length es <= m * max ^ Z.to_nat (level - 1))%nat ->
    omt max sorted dim fuel top level ns es m = Ok n ->
    g n /\ n_level n = level /\ (1 <= length (n_entries n) <= max)%nat.
  Proof.
    intros Hl H Hm C Hb E. destruct fuel as [|fuel]; [discriminate|].
    assert (1 < level)%Z.
    { destruct (Z.eq_dec level 1) as [->|]; [|lia]. change (Z.to_nat (1 - 1)) with 0%nat in Hb. rewrite Nat.pow_0_r in Hb. lia. }
    eapply omt_good_step; [lia|exact H| | | |exact E]; [lia|lia|].
    intros p c Hp Lp Ec. eapply omt_good; [lia|exact Hp|lia| |exact Ec].
    etransitivity; [apply Lp|]. now apply ceil_le; [lia|].
  Qed.
End Bulk.
