(** Proofs about well-known text: the round trip of geometries. *)
From Coq Require Import String ZArith Bool List Lia.
From Coq Require Import ZifyBool ZifyNat.
From Verif Require Import Base_F64 Base_Geom Base_Res Base_Bytes M_Extent M_Cmp M_Gpkg M_Wkt S_Wkt S_Cmp P_F64 P_Cmp
  P_Wkt P_Wkt2 P_Wkt3 P_Wkt4.
Import ListNotations.
Open Scope Z_scope.

Definition good_polygon_dec rs : {good_polygon rs} + {~ good_polygon rs}.
Proof.
  unfold good_polygon. destruct (filter has_point rs) as [|r l]; [now right|].
  destruct (Forall_dec _ (fun r => le_dec 3 (len (ring_kept r))) (r :: l)) as [F|F].
  - left. split; [discriminate|exact F].
  - right. tauto.
Defined.

Lemma coll_readable gs : readable (GCollection gs) <-> gs <> [] /\ Forall readable gs.
Proof.
  change (readable (GCollection gs)) with
    (gs <> [] /\ (fix all (l : list (geom f64)) : Prop := match l with [] => True | x :: l' => readable x /\ all l' end) gs).
  assert (E : forall l, (fix all (l : list (geom f64)) : Prop := match l with [] => True | x :: l' => readable x /\ all l' end) l <-> Forall readable l).
  { induction l as [|x l IH]; [split; constructor|]. rewrite Forall_cons_iff, <- IH. reflexivity. }
  now rewrite E.
Qed.
Lemma coll_every P gs : every P (GCollection gs) <-> Forall (every P) gs.
Proof.
  change (every P (GCollection gs)) with
    ((fix all (l : list (geom f64)) : Prop := match l with [] => True | x :: l' => every P x /\ all l' end) gs).
  induction gs as [|x l IH]; [split; constructor|]. rewrite Forall_cons_iff, <- IH. reflexivity.
Qed.

Lemma readable_dec g : readable g \/ ~ readable g.
Proof.
  induction g as [p|ps|ps|ls|rs|pls|gs IH|] using geom_ind'.
  - cbn. destruct (real p); [now left|now right].
  - cbn. destruct ps as [|p ps]; [right; tauto|].
    destruct (Forall_dec _ (fun p => bool_dec (real p) true) (p :: ps)) as [F|F]; [left; split; [discriminate|exact F]|right; tauto].
  - cbn. destruct (le_dec 2 (len (vertices_kept ps))); tauto.
  - cbn. destruct ls as [|l ls]; [right; tauto|].
    destruct (Forall_dec _ (fun r => le_dec 2 (len (vertices_kept r))) (l :: ls)) as [F|F]; [left; split; [discriminate|exact F]|right; tauto].
  - destruct (good_polygon_dec rs); [now left|now right].
  - cbn. destruct pls as [|l ls]; [right; tauto|].
    destruct (Forall_dec _ good_polygon_dec (l :: ls)) as [F|F]; [left; split; [discriminate|exact F]|right; tauto].
  - rewrite coll_readable. destruct gs as [|g gs]; [right; tauto|].
    assert (D : Forall readable (g :: gs) \/ ~ Forall readable (g :: gs)).
    { induction IH as [|x l [H|H] F IH2]; [left; constructor| |right; intros W; now inversion W].
      destruct IH2; [left; now constructor|right; intros W; now inversion W]. }
    destruct D; [left; split; [discriminate|assumption]|right; tauto].
  - now right.
Qed.

Section Geo.
  Variables (fmt : f64 -> list Z) (parse : list Z -> option f64) (rt : f64 -> f64).
  Variable (c : compare).
  Variable strict : bool.
  Hypothesis Pc : positive c.
  Hypothesis rt_eq : forall a b, f64_wf a = true -> f64_wf b = true -> f64_eq a b = true -> f64_eq (rt a) (rt b) = true.
  Hypothesis no_E : parse (str "E") = None.
  Notation okw := (okw fmt parse rt).
  Notation okp := (okp fmt parse rt).
  Notation psem := (psem rt).
  Notation lsem := (lsem rt).
  Notation msem := (msem rt).
  Notation mp := (map (map_pt rt)).

  (** *** What is read from lines and rings *)

  Lemma psem_none t ps : psem t ps = None -> is_mp t = false -> has_point ps = false.
  Proof.
    unfold P_Wkt3.psem. intros H M. destruct (sel t None ps) as [|p k] eqn:K.
    - unfold sel in K. rewrite M in K. now apply kept_nil.
    - exfalso. rewrite sequence_real in H; [discriminate|]. intros q Hq. apply close_in in Hq.
      rewrite <- K in Hq. exact (proj2 (sel_in _ _ _ Hq) M).
  Qed.
  Lemma psem_line t ps l : psem t ps = Some l -> is_line t = true -> l = mp (vertices_kept ps).
  Proof.
    unfold P_Wkt3.psem. intros H Li. assert (M : is_mp t = false) by (destruct t; easy).
    assert (Rg : is_ring t = false) by (destruct t; easy).
    destruct (sel t None ps) as [|p k] eqn:K; [discriminate|].
    rewrite sequence_real in H.
    2: { intros q Hq. apply close_in in Hq. rewrite <- K in Hq. exact (proj2 (sel_in _ _ _ Hq) M). }
    injection H as <-. unfold close. rewrite Rg. cbn [andb].
    unfold sel in K. rewrite M in K. unfold vertices_kept. now rewrite K.
  Qed.
  Lemma psem_some t ps : has_point ps = true -> is_mp t = false -> exists l, psem t ps = Some l.
  Proof.
    intros H M. destruct (psem t ps) as [l|] eqn:E; [now exists l|].
    apply psem_none in E; [congruence|assumption].
  Qed.

  Lemma sequence_opts {A B} (f : A -> option B) l :
    (exists x, In x l /\ f x = None /\ sequence (map f l) = None) \/
    exists ys, Forall2 (fun x y => f x = Some y) l ys /\ sequence (map f l) = Some ys.
  Proof.
    induction l as [|x l IH]; [right; now exists []|]. cbn. destruct (f x) as [y|] eqn:E.
    - destruct IH as [(z & I & N & ->)|(ys & F & ->)].
      + left. exists z. auto.
      + right. exists (y :: ys). auto.
    - left. exists x. auto.
  Qed.

  Lemma map_ok_open t rs ls : is_ring t = true -> Forall (Forall okp) rs ->
    Forall2 (fun r l => psem t r = Some l) rs ls ->
    (Forall (fun r => (3 <= len (ring_kept r))%nat) rs /\ map_ok (open_ring c) ls = Ok (map (fun r => mp (ring_kept r)) rs)) \/
    (~ Forall (fun r => (3 <= len (ring_kept r))%nat) rs /\ is_err (map_ok (open_ring c) ls) = true).
  Proof.
    intros Rg F H. induction H as [|r l rs ls E H IH]; [left; split; [constructor|reflexivity]|].
    inversion F as [|? ? Fa Fb]; subst. cbn [map_ok map].
    rewrite (open_read fmt parse rt c Pc rt_eq t r l Rg Fa E).
    destruct (Nat.leb_spec 3 (len (ring_kept r))) as [L|L].
    - destruct (IH Fb) as [[G ->]|[G Q]].
      + left. split; [constructor; assumption|reflexivity].
      + right. split; [intros W; now inversion W|]. cbn [bind]. now apply err_bind.
    - right. split; [intros W; inversion W; lia|reflexivity].
  Qed.

  Lemma filter_Forall {A} (P : A -> Prop) f (l : list A) : Forall P l -> Forall P (filter f l).
  Proof. rewrite !Forall_forall. intros H x Hx. apply filter_In in Hx. now apply H. Qed.

  (** One polygon: what is read from its rings, and how they are checked. *)
  Lemma poly_read t rs : is_ring t = true -> Forall (Forall okp) rs ->
    match lsem t rs with
    | None => ~ good_polygon rs
    | Some ls => (1 <= len ls)%nat /\
       (good_polygon rs /\ map_ok (open_ring c) ls = Ok (map (fun r => mp (ring_kept r)) (filter has_point rs)) \/
        ~ good_polygon rs /\ is_err (map_ok (open_ring c) ls) = true)
    end.
  Proof.
    intros Rg F. assert (M : is_mp t = false) by (destruct t; easy). assert (Ml : is_ml t = false) by (destruct t; easy).
    unfold P_Wkt3.lsem, sel_lines. rewrite Ml. unfold good_polygon.
    pose proof (filter_Forall _ has_point rs F) as F'.
    assert (HP : Forall (fun r => has_point r = true) (filter has_point rs)).
    { rewrite Forall_forall. intros r Hr. now apply filter_In in Hr. }
    destruct (filter has_point rs) as [|r l]; [tauto|].
    destruct (sequence_opts (psem t) (r :: l)) as [(x & I & N & _)|(ys & G & ->)].
    - exfalso. apply psem_none in N; [|assumption]. rewrite Forall_forall in HP. rewrite HP in N by assumption. discriminate.
    - split; [inversion G; cbn; lia|].
      destruct (map_ok_open t _ _ Rg F' G) as [[A ->]|[A B]].
      + left. split; [|reflexivity]. split; [discriminate|assumption].
      + right. split; [tauto|assumption].
  Qed.

  (** *** Geometries *)

  Definition goes (g : geom f64) (r : dres (geom f64)) (rest : list Z) : Prop :=
    (readable g /\ r = Ok (map_geom rt (kept g), rest)) \/ (~ readable g /\ is_err r = true).

  Lemma map_map_mp (ls : list (list pt)) f : map (fun r => mp (f r)) ls = map mp (map f ls).
  Proof. now rewrite map_map. Qed.

  Lemma tag_text T x tx : (wr (str T) >> x) = (tx, None) -> exists b, x = (b, None) /\ tx = str T ++ b.
  Proof.
    intros H. apply andthen_ok in H. destruct H as (t0 & b & E & H & ->).
    apply (f_equal fst) in E. cbn [fst wr] in E. subst t0. now exists b.
  Qed.

  Definition geo_P (g : geom f64) : Prop := forall tx, every okw g -> g_ok fmt strict g tx ->
    forall n rest, (2 * len tx + 1 <= n)%nat -> goes g (read_geometry parse c n (tx ++ rest)) rest.

  Lemma g_starts g tx : g_ok fmt strict g tx -> starts tx.
  Proof.
    assert (K : forall T b, starts (str T) -> starts (str T ++ b)) by (intros; now apply starts_app).
    intros H. unfold g_ok in H. destruct g; cbn [enc_g] in H.
    1-6: apply tag_text in H; destruct H as (b & _ & ->); apply K; eexists; eexists;
         (split; [reflexivity|split; [reflexivity|discriminate]]).
    - change (enc_g fmt strict (GCollection gs) = (tx, None)) in H. apply coll_ok in H. destruct H as (ts & _ & ->).
      apply K; eexists; eexists; (split; [reflexivity|split; [reflexivity|discriminate]]).
    - discriminate.
  Qed.

  Lemma rm_geom n tx rest : starts tx -> read_members parse c (S n) (tx ++ rest) =
    do (g, s) <- read_geometry parse c n (tx ++ rest);
    do (_, s) <- read_whitespace s;
    do (b, s') <- read_byte s;
    if b =? 41 then do (gs, s) <- read_members parse c n s; Ok (g :: gs, s)
    else if b =? 44 then
      do (_, s) <- read_whitespace s';
      do (gs, s) <- read_members parse c n s; Ok (g :: gs, s)
    else Err EExpected.
  Proof.
    intros (b & r & -> & _ & NB). destruct (Z.eqb_spec b 41); [contradiction|].
    transitivity (if b =? 41 then Ok ([], r ++ rest) else
      do (g, s) <- read_geometry parse c n ((b :: r) ++ rest);
      do (_, s) <- read_whitespace s;
      do (b, s') <- read_byte s;
      if b =? 41 then do (gs, s) <- read_members parse c n s; Ok (g :: gs, s)
      else if b =? 44 then
        do (_, s) <- read_whitespace s';
        do (gs, s) <- read_members parse c n s; Ok (g :: gs, s)
      else Err EExpected); [reflexivity|].
    destruct (Z.eqb_spec b 41); [contradiction|]. reflexivity.
  Qed.

  Lemma members_read gs ts : Forall2 (g_ok fmt strict) gs ts -> Forall geo_P gs -> Forall (every okw) gs -> gs <> [] ->
    forall n rest, (2 * len (join ts ++ [41%Z]) <= n)%nat ->
    (Forall readable gs /\ read_members parse c n (join ts ++ 41 :: rest) = Ok (map (fun g => map_geom rt (kept g)) gs, rest)) \/
    (~ Forall readable gs /\ is_err (read_members parse c n (join ts ++ 41 :: rest)) = true).
  Proof.
    intros H. induction H as [|g tx gs ts Hg H IH]; [easy|]. intros FP FE _ n rest Hn.
    inversion FP as [|? ? Pg FP']; subst. inversion FE as [|? ? Eg FE']; subst.
    pose proof (g_starts _ _ Hg) as St.
    destruct n as [|n]; [rewrite app_length in Hn; cbn in Hn; lia|].
    destruct (list_eq_dec (list_eq_dec Z.eq_dec) ts []) as [E|NE].
    - subst ts. inversion H; subst. cbn [join] in *.
      destruct (Pg tx Eg Hg n (41 :: rest)) as [[Rd Q]|[Rd Q]]; [rewrite app_length in Hn; cbn in Hn; lia| |].
      + left. split; [constructor; [assumption|constructor]|].
        rewrite rm_geom, Q by assumption. cbn [bind].
        rewrite ws_none by reflexivity. cbn [bind read_byte]. change (41 =? 41) with true. cbn match.
        destruct n as [|n]; [rewrite app_length in Hn; cbn in Hn; lia|]. reflexivity.
      + right. split; [intros W; inversion W; contradiction|].
        rewrite rm_geom by assumption. now apply err_bind.
    - rewrite join_cons in * by assumption.
      rewrite <- app_assoc, <- app_comm_cons in *. rewrite app_length in Hn. cbn [List.length] in Hn.
      assert (NG : gs <> []) by (intros ->; inversion H; subst; easy).
      destruct (Pg tx Eg Hg n (44 :: join ts ++ 41 :: rest)) as [[Rd Q]|[Rd Q]]; [lia| |].
      + specialize (IH FP' FE' NG n rest ltac:(lia)).
        assert (S2 : starts (join ts)).
        { apply join_starts; [|assumption]. clear - H. induction H; constructor; [eapply g_starts; eassumption|assumption]. }
        assert (Stp : read_members parse c (S n) (tx ++ 44 :: join ts ++ 41 :: rest) =
          (do (gs, s) <- read_members parse c n (join ts ++ 41 :: rest); Ok (map_geom rt (kept g) :: gs, s))).
        { rewrite rm_geom, Q by assumption. cbn [bind].
          rewrite ws_none by reflexivity. cbn [bind read_byte]. change (44 =? 41) with false. change (44 =? 44) with true. cbn match.
          rewrite ws_starts by assumption. reflexivity. }
        rewrite Stp. destruct IH as [[A ->]|[A B]].
        * left. split; [constructor; assumption|reflexivity].
        * right. split; [intros W; now inversion W|]. now apply err_bind.
      + right. split; [intros W; inversion W; contradiction|].
        rewrite rm_geom by assumption. now apply err_bind.
  Qed.

  Lemma seq_psome ps : (Forall (fun p => real p = true) ps /\ sequence (map (psome rt) ps) = Some (mp ps)) \/
    (~ Forall (fun p => real p = true) ps /\ sequence (map (psome rt) ps) = None).
  Proof.
    destruct (sequence_opts (psome rt) ps) as [(x & I & N & E)|(ys & F & E)].
    - right. split; [|assumption]. intros W. rewrite Forall_forall in W. unfold psome in N. rewrite (W x I) in N. discriminate.
    - assert (W : Forall (fun p => real p = true) ps).
      { clear E. induction F as [|x y l l' H F IH]; constructor; [|assumption]. unfold psome in H. now destruct (real x). }
      left. split; [assumption|]. apply sequence_real. now rewrite <- Forall_forall.
  Qed.

  Lemma kept_len ps : has_point ps = true -> (1 <= len (vertices_kept ps))%nat.
  Proof. intros H. destruct (vertices_kept ps) eqn:E; [apply kept_nil in E; congruence|cbn; lia]. Qed.

  Lemma geo_read g : geo_P g.
  Proof.
    induction g as [p|ps|ps|ls|rs|pls|gs IH|] using geom_ind'; intros tx Ev Hok n rest Hn;
      unfold goes; (destruct n as [|n]; [lia|]); unfold g_ok in Hok; cbn [enc_g] in Hok.
    - apply tag_text in Hok. destruct Hok as (b & E & ->). rewrite <- app_assoc.
      unfold encode_point in E. rewrite encode_pair_eq, empty_real in E. cbn [every] in Ev. cbn [readable kept map_geom].
      destruct (real p) eqn:Rp; cbn [negb] in E.
      + left. split; [reflexivity|].
        assert (Eb : b = pts_text fmt [p]).
        { apply andthen_ok in E. destruct E as (t1 & t2 & E1 & E & ->). injection E1 as <-.
          apply andthen_ok in E. destruct E as (t3 & t4 & E3 & E4 & ->). injection E3 as <-. injection E4 as <-. reflexivity. }
        destruct (pts_read fmt parse rt no_E [p]) as [S R]; [discriminate|intros q [<-|[]]; exact Ev|].
        subst b. rewrite rd_point by now apply starts_app.
        assert (Q : sequence (map (psome rt) [p]) = Some [map_pt rt p]) by (cbn; unfold psome; now rewrite Rp).
        rewrite Q in R. specialize (R rest). cbn match in R. rewrite R. reflexivity.
      + right. split; [discriminate|]. apply (f_equal fst) in E. cbn [fst wr] in E. subst b.
        rewrite rd_point by (apply starts_app, (brack_starts [])).
        apply err_bind. apply (empty_fails (read_point parse) rest).
    - apply tag_text in Hok. destruct Hok as (b & E & ->). rewrite <- app_assoc.
      cbn [every] in Ev. cbn [readable kept map_geom].
      destruct (points_read fmt parse rt strict no_E _ _ _ Ev E) as [S R]. rewrite rd_mpoint by now apply starts_app.
      unfold P_Wkt3.psem, sel in R. cbn [is_mp] in R. destruct ps as [|p ps].
      + right. split; [tauto|]. now apply err_bind.
      + unfold close in R. cbn [is_ring andb] in R. destruct (seq_psome (p :: ps)) as [[A Q]|[A Q]]; rewrite Q in R.
        * left. split; [split; [discriminate|assumption]|]. specialize (R rest). cbn match in R. rewrite R. reflexivity.
        * right. split; [tauto|]. apply err_bind. exact (R rest).
    - apply tag_text in Hok. destruct Hok as (b & E & ->). rewrite <- app_assoc.
      cbn [every] in Ev. cbn [readable kept map_geom].
      destruct (points_read fmt parse rt strict no_E _ _ _ Ev E) as [S R]. rewrite rd_ls by now apply starts_app.
      destruct (psem lsType ps) as [l|] eqn:Q.
      + specialize (R rest). cbn match in R. rewrite R. cbn [bind].
        apply psem_line in Q; [|reflexivity]. subst l. rewrite map_length.
        destruct (Nat.ltb_spec (len (vertices_kept ps)) 2) as [L|L].
        * right. split; [lia|reflexivity].
        * left. split; [lia|reflexivity].
      + apply psem_none in Q; [|reflexivity]. apply kept_nil in Q. rewrite Q. right. split; [cbn; lia|].
        apply err_bind. exact (R rest).
    - apply tag_text in Hok. destruct Hok as (b & E & ->). rewrite <- app_assoc.
      cbn [every] in Ev. cbn [readable kept map_geom].
      destruct (lines_read fmt parse rt strict no_E _ _ _ Ev E) as [S R]. rewrite rd_mls by now apply starts_app.
      unfold P_Wkt3.lsem, sel_lines in R. cbn [is_ml] in R. destruct ls as [|l ls].
      + right. split; [tauto|]. apply err_bind. exact (R rest).
      + destruct (sequence_opts (psem mlType) (l :: ls)) as [(x & I & N & Q)|(ys & F & Q)]; rewrite Q in R.
        * right. split.
          { intros [_ W]. rewrite Forall_forall in W. specialize (W x I). apply psem_none in N; [|reflexivity].
            apply kept_nil in N. rewrite N in W. cbn in W. lia. }
          apply err_bind. exact (R rest).
        * specialize (R rest). cbn match in R. rewrite R. cbn [bind]. set (L := l :: ls) in *.
          assert (Ne : L <> []) by discriminate. clearbody L. clear l ls.
          assert (Ly : (len ys <? 1)%nat = false) by (destruct F; [easy|reflexivity]). rewrite Ly.
          assert (Ey : ys = map (fun x => mp (vertices_kept x)) L).
          { clear - F. induction F as [|x y l l' H F IH]; [reflexivity|]. apply psem_line in H; [|reflexivity]. cbn. congruence. }
          destruct (existsb (fun v : list pt => (len v <? 2)%nat) ys) eqn:X.
          -- right. split; [|reflexivity]. intros [_ W]. apply existsb_exists in X. destruct X as (y & Iy & Hy).
             subst ys. apply in_map_iff in Iy. destruct Iy as (x & <- & Ix). rewrite Forall_forall in W.
             specialize (W x Ix). rewrite map_length in Hy. lia.
          -- left. split.
             ++ split; [assumption|]. rewrite Forall_forall. intros x Ix.
                destruct (le_lt_dec 2 (len (vertices_kept x))) as [L2|L2]; [assumption|exfalso].
                assert (X' : existsb (fun v : list pt => (len v <? 2)%nat) ys = true); [|congruence].
                apply existsb_exists. exists (mp (vertices_kept x)). split.
                ** subst ys. apply in_map_iff. now exists x.
                ** rewrite map_length. now apply Nat.ltb_lt.
             ++ subst ys. now rewrite map_map_mp.
    - apply tag_text in Hok. destruct Hok as (b & E & ->). rewrite <- app_assoc.
      cbn [every] in Ev. cbn [readable kept map_geom].
      destruct (lines_read fmt parse rt strict no_E _ _ _ Ev E) as [S R]. rewrite rd_poly by now apply starts_app.
      pose proof (poly_read polyType rs eq_refl Ev) as Q. destruct (lsem polyType rs) as [ls|].
      + destruct Q as [L Q]. specialize (R rest). cbn match in R. rewrite R. cbn [bind].
        destruct (Nat.ltb_spec (len ls) 1); [lia|].
        destruct Q as [[G ->]|[G Q]].
        * left. split; [assumption|]. cbn [bind]. now rewrite map_map_mp.
        * right. split; [assumption|]. now apply err_bind.
      + right. split; [assumption|]. apply err_bind. exact (R rest).
    - apply tag_text in Hok. destruct Hok as (b & E & ->). rewrite <- app_assoc.
      cbn [every] in Ev. cbn [readable kept map_geom].
      destruct (polys_read fmt parse rt strict no_E _ _ Ev E) as [S R]. rewrite rd_mpoly by now apply starts_app.
      unfold P_Wkt3.msem in R. destruct pls as [|p pls].
      + right. split; [tauto|]. apply err_bind. exact (R rest).
      + destruct (sequence_opts (lsem mPolyType) (p :: pls)) as [(x & I & N & Q)|(ys & F & Q)]; rewrite Q in R.
        * right. split; [|apply err_bind; exact (R rest)]. intros [_ W]. rewrite Forall_forall in W, Ev.
          pose proof (poly_read mPolyType x eq_refl (Ev x I)) as K. rewrite N in K. exact (K (W x I)).
        * specialize (R rest). cbn match in R. rewrite R. cbn [bind]. set (L := p :: pls) in *.
          assert (Ne : L <> []) by discriminate. clearbody L. clear p pls.
          assert (Ly : (len ys <? 1)%nat = false) by (destruct F; [easy|reflexivity]). rewrite Ly.
          assert (D : (Forall good_polygon L /\ map_ok (map_ok (open_ring c)) ys =
                        Ok (map (fun rs => map (fun r => mp (ring_kept r)) (filter has_point rs)) L)) \/
                      (~ Forall good_polygon L /\ is_err (map_ok (map_ok (open_ring c)) ys) = true)).
          { clear - F Ev Pc rt_eq. induction F as [|x y l l' H F IH]; [left; split; [constructor|reflexivity]|].
            inversion Ev as [|? ? Ea Eb]; subst. cbn [map_ok map].
            pose proof (poly_read mPolyType x eq_refl Ea) as K. rewrite H in K. destruct K as [_ [[G ->]|[G K]]].
            - destruct (IH Eb) as [[A ->]|[A B]].
              + left. split; [constructor; assumption|reflexivity].
              + right. split; [intros W; now inversion W|]. cbn [bind]. now apply err_bind.
            - right. split; [intros W; now inversion W|]. now apply err_bind. }
          destruct D as [[A ->]|[A B]].
          -- left. split; [split; assumption|]. cbn [bind]. rewrite map_map.
             do 3 f_equal. apply map_ext. intros rs. apply map_map_mp.
          -- right. split; [tauto|]. now apply err_bind.
    - change (enc_g fmt strict (GCollection gs) = (tx, None)) in Hok. apply coll_ok in Hok.
      destruct Hok as (ts & F & ->). rewrite <- app_assoc. rewrite rd_coll by apply starts_app, brack_starts.
      rewrite coll_readable. apply coll_every in Ev. destruct F as [|g t gs ts Hg F].
      + right. split; [tauto|reflexivity].
      + set (G := g :: gs) in *. set (T := t :: ts) in *.
        assert (F' : Forall2 (g_ok fmt strict) G T) by (constructor; assumption).
        assert (NG : G <> []) by discriminate.
        assert (BT : brack T = 40 :: join T ++ [41]) by reflexivity.
        assert (NT : T <> []) by discriminate. clearbody G T. clear g gs t ts Hg F.
        rewrite BT in *. rewrite <- app_comm_cons, <- app_assoc. unfold expect. cbn [read_byte bind app].
        change (40 =? 40) with true. cbn [bind].
        assert (S2 : starts (join T)).
        { apply join_starts; [|assumption]. clear - F'. induction F'; constructor; [eapply g_starts; eassumption|assumption]. }
        rewrite ws_starts by assumption. cbn [bind].
        destruct (members_read G T F' IH Ev NG n rest) as [[A ->]|[A B]].
        { rewrite app_length in Hn. cbn [List.length] in Hn. lia. }
        * left. split; [tauto|]. cbn [bind]. rewrite map_length. destruct G; [easy|].
          change (len (g :: G) <? 1)%nat with false. cbn match. cbn [kept map_geom]. now rewrite map_map.
        * right. split; [tauto|]. now apply err_bind.
    - discriminate.
  Qed.

  (** *** The encoder succeeds on readable geometries *)

  Lemma points_exist t ps : is_mp t = false -> (strict = true -> clean_points ps = true) ->
    big_enough t (len (vertices_kept ps)) = true -> exists tx, pts_ok fmt strict t ps tx.
  Proof.
    intros M A B. destruct (ptext fmt t ps) as [tx|] eqn:E.
    - exists tx. apply points_ok. split; [intros St _; now apply A|assumption].
    - exfalso. unfold ptext, sel in E. rewrite M in E. fold (vertices_kept ps) in E.
      destruct (vertices_kept ps); [discriminate|]. rewrite B in E. discriminate.
  Qed.

  Lemma ring_len r : (len (ring_kept r) <= len (vertices_kept r))%nat.
  Proof.
    unfold ring_kept. destruct (vertices_kept r) as [|p k]; [reflexivity|]. destruct (same p (last k p)); [|reflexivity].
    rewrite removelast_firstn_len, firstn_length. lia.
  Qed.

  Lemma lines_exist t ls : is_mp t = false -> (strict = true -> forallb clean_points ls = true) ->
    (strict = true -> is_ml t = false -> forallb has_point ls = true) ->
    Forall (fun r => big_enough t (len (vertices_kept r)) = true) (sel_lines t ls) ->
    exists tx, encode_lines fmt strict ls t = (tx, None).
  Proof.
    intros M A Al H.
    assert (E : exists ts, Forall2 (pts_ok fmt strict t) (sel_lines t ls) ts).
    { assert (A' : Forall (fun r => strict = true -> clean_points r = true) (sel_lines t ls)).
      { rewrite Forall_forall. intros r Hr St. specialize (A St). rewrite forallb_forall in A. now apply A, (sel_lines_in t). }
      induction H as [|r l B H IH]; [now exists []|]. inversion A' as [|? ? Aa Ab]; subst.
      destruct (IH Ab) as [ts F]. destruct (points_exist t r M Aa B) as [tx P]. exists (tx :: ts). now constructor. }
    destruct E as [ts F]. exists (brack ts). apply lines_ok. split; [exact Al|]. now exists ts.
  Qed.

  Lemma poly_exist t rs : is_ring t = true -> (strict = true -> forallb clean_ring rs = true) ->
    good_polygon rs \/ filter has_point rs = [] -> exists tx, encode_lines fmt strict rs t = (tx, None).
  Proof.
    intros Rg C G. assert (M : is_mp t = false) by (destruct t; easy). assert (Ml : is_ml t = false) by (destruct t; easy).
    assert (Li : is_line t = false) by (destruct t; easy).
    apply lines_exist; [assumption| | |].
    - intros St. specialize (C St). rewrite forallb_forall in *. intros r Hr. specialize (C r Hr).
      now apply andb_true_iff in C.
    - intros St _. specialize (C St). rewrite forallb_forall in *. intros r Hr. specialize (C r Hr).
      now apply andb_true_iff in C.
    - unfold sel_lines. rewrite Ml. destruct G as [[_ G]| ->]; [|constructor].
      eapply Forall_impl; [|exact G]. cbn. intros r Hr. unfold big_enough. rewrite Rg, Li.
      pose proof (ring_len r). destruct (Nat.ltb_spec (len (vertices_kept r)) 3); [lia|reflexivity].
  Qed.

  Lemma polys_exist pls : Forall (fun rs => exists tx, encode_lines fmt strict rs mPolyType = (tx, None)) pls ->
    exists tx, encode_polys fmt strict pls = (tx, None).
  Proof.
    intros H. assert (E : exists ts, Forall2 (lns_ok fmt strict mPolyType) pls ts).
    { induction H as [|rs l [tx E] H [ts F]]; [now exists []|]. exists (tx :: ts). now constructor. }
    destruct E as [ts F]. exists (brack ts). apply polys_ok. now exists ts.
  Qed.

  Lemma tag_exist T x : (exists b, x = (b, None)) -> exists tx, (wr (str T) >> x) = (tx, None).
  Proof. intros [b ->]. eexists. reflexivity. Qed.

  Lemma line_big t r : is_line t = true -> (2 <= len (vertices_kept r))%nat -> big_enough t (len (vertices_kept r)) = true.
  Proof.
    intros Li L. assert (Rg : is_ring t = false) by (destruct t; easy). unfold big_enough. rewrite Li, Rg.
    destruct (Nat.ltb_spec (len (vertices_kept r)) 2); [lia|reflexivity].
  Qed.

  Lemma coll_exist gs : Forall (fun g => exists tx, enc_g fmt strict g = (tx, None)) gs ->
    exists tx, enc_g fmt strict (GCollection gs) = (tx, None).
  Proof.
    intros H. assert (E : exists ts, Forall2 (g_ok fmt strict) gs ts).
    { induction H as [|g l [tx E] H [ts F]]; [now exists []|]. exists (tx :: ts). now constructor. }
    destruct E as [ts F]. eexists. apply coll_ok. exists ts. split; [assumption|reflexivity].
  Qed.

  Lemma enc_exists g : readable g -> (strict = true -> clean g = true) -> exists tx, enc_g fmt strict g = (tx, None).
  Proof.
    induction g as [p|ps|ps|ls|rs|pls|gs IH|] using geom_ind'; intros Rd Cl; cbn [enc_g].
    - apply tag_exist. unfold encode_point. destruct (is_empty_point p); [eexists; reflexivity|].
      rewrite encode_pair_eq. eexists. reflexivity.
    - apply tag_exist. rewrite points_eq by (intros _ W; discriminate).
      unfold sel. cbn [is_mp]. destruct ps; eexists; [reflexivity|]. cbn [big_enough is_ring is_line andb negb]. reflexivity.
    - apply tag_exist. cbn in Rd, Cl. apply points_exist; [reflexivity|assumption|]. now apply line_big.
    - apply tag_exist. cbn in Rd, Cl. apply lines_exist; [reflexivity|assumption|discriminate|].
      unfold sel_lines. cbn [is_ml]. destruct Rd as [_ Rd]. eapply Forall_impl; [|exact Rd]. intros r Hr. now apply (line_big mlType).
    - apply tag_exist. cbn in Rd, Cl. apply poly_exist; [reflexivity|assumption|now left].
    - apply tag_exist. cbn in Rd, Cl. apply polys_exist. destruct Rd as [_ Rd]. rewrite Forall_forall in *.
      intros rs Hr. apply poly_exist; [reflexivity| |left; now apply Rd].
      intros St. specialize (Cl St). rewrite forallb_forall in Cl. now apply Cl.
    - apply coll_readable in Rd. destruct Rd as [_ Rd]. apply coll_exist.
      rewrite Forall_forall in *. intros g Hg. apply IH; [assumption|now apply Rd|].
      intros St. specialize (Cl St). cbn in Cl. rewrite forallb_forall in Cl. now apply Cl.
    - contradiction.
  Qed.
End Geo.
