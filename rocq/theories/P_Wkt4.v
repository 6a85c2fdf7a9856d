(** Proofs about well-known text: geometries. *)
From Coq Require Import String ZArith Bool List Lia.
From Coq Require Import ZifyBool ZifyNat.
From Verif Require Import Base_F64 Base_Geom Base_Res Base_Bytes M_Extent M_Cmp M_Gpkg M_Wkt S_Wkt S_Cmp P_F64 P_Cmp
  P_Wkt P_Wkt2 P_Wkt3.
Import ListNotations.
Open Scope Z_scope.

(** ** Values *)

Section GvalInd.
  Variable P : gval -> Prop.
  Hypothesis Hc : forall gs, Forall P gs -> P (VCollection gs).
  Hypothesis Hpc : forall gs, Forall P gs -> P (VPCollection (Some gs)).
  Hypothesis Ho : forall g, (forall gs, g <> VCollection gs) -> (forall gs, g <> VPCollection (Some gs)) -> P g.
  Fixpoint gval_ind' (g : gval) : P g :=
    let all := fix go (l : list gval) : Forall P l :=
      match l with
      | [] => Forall_nil P
      | x :: xs => Forall_cons x (gval_ind' x) (go xs)
      end in
    match g with
    | VCollection gs => Hc gs (all gs)
    | VPCollection (Some gs) => Hpc gs (all gs)
    | _ => ltac:(apply Ho; discriminate)
    end.
End GvalInd.

Section Enc.
  Variable fmt : f64 -> list Z.
  Variable strict : bool.

  Fixpoint enc_g (g : geom f64) : written :=
    match g with
    | GPoint p => encode_pt fmt p
    | GMultiPoint ps => encode_mp fmt strict ps
    | GLineString ps => encode_ls fmt strict ps
    | GMultiLineString ls => encode_mls fmt strict ls
    | GPolygon rs => encode_poly fmt strict rs
    | GMultiPolygon pls => encode_mpoly fmt strict pls
    | GCollection gs =>
        match gs with
        | [] => wr (str "GEOMETRYCOLLECTION EMPTY")
        | _ => wr (str "GEOMETRYCOLLECTION ") >> wr (str "(") >>
            (fix members (l : list (geom f64)) : written :=
               match l with
               | [] => wr (str ")")
               | [x] => enc_g x >> wr (str ")")
               | x :: l' => enc_g x >> wr (str ",") >> members l'
               end) gs
        end
    | GUnknown => fail UnknownGeometry
    end.

  Definition members_v := fix members (l : list gval) : written :=
    match l with
    | [] => wr (str ")")
    | [x] => encode fmt strict x >> wr (str ")")
    | x :: l' => encode fmt strict x >> wr (str ",") >> members l'
    end.
  Definition members_g := fix members (l : list (geom f64)) : written :=
    match l with
    | [] => wr (str ")")
    | [x] => enc_g x >> wr (str ")")
    | x :: l' => enc_g x >> wr (str ",") >> members l'
    end.
  Lemma encode_coll gs : encode fmt strict (VCollection gs) =
    match gs with [] => wr (str "GEOMETRYCOLLECTION EMPTY")
    | _ => wr (str "GEOMETRYCOLLECTION ") >> wr (str "(") >> members_v gs end.
  Proof. destruct gs; reflexivity. Qed.
  Lemma encode_pcoll gs : encode fmt strict (VPCollection (Some gs)) = encode fmt strict (VCollection gs).
  Proof. destruct gs; reflexivity. Qed.
  Lemma enc_coll gs : enc_g (GCollection gs) =
    match gs with [] => wr (str "GEOMETRYCOLLECTION EMPTY")
    | _ => wr (str "GEOMETRYCOLLECTION ") >> wr (str "(") >> members_g gs end.
  Proof. destruct gs; reflexivity. Qed.

  Lemma members_map gs : Forall (fun v => encode fmt strict v = enc_g (geom_of v)) gs ->
    members_v gs = members_g (map geom_of gs).
  Proof.
    intros H. induction H as [|v gs E H IH]; [reflexivity|].
    destruct gs as [|v2 gs]; [cbn; now rewrite E|].
    change (members_v (v :: v2 :: gs)) with (encode fmt strict v >> wr (str ",") >> members_v (v2 :: gs)).
    rewrite E, IH. reflexivity.
  Qed.

  Lemma encode_enc v : encode fmt strict v = enc_g (geom_of v).
  Proof.
    induction v as [gs H|gs H|v N1 N2] using gval_ind'.
    - rewrite encode_coll. change (geom_of (VCollection gs)) with (GCollection (map geom_of gs)).
      rewrite enc_coll. destruct gs as [|v gs]; [reflexivity|]. cbn match. now rewrite members_map.
    - rewrite encode_pcoll, encode_coll. change (geom_of (VPCollection (Some gs))) with (GCollection (map geom_of gs)).
      rewrite enc_coll. destruct gs as [|v gs]; [reflexivity|]. cbn match. now rewrite members_map.
    - destruct v; try reflexivity.
      + destruct p; reflexivity.
      + destruct ps; reflexivity.
      + destruct ps; reflexivity.
      + destruct ls; reflexivity.
      + destruct rs; reflexivity.
      + destruct pls; reflexivity.
      + now elim (N1 gs).
      + destruct gs as [gs|]; [now elim (N2 gs)|reflexivity].
      + destruct e. reflexivity.
      + destruct e as [[]|]; reflexivity.
  Qed.

  Definition g_ok (g : geom f64) (tx : list Z) : Prop := enc_g g = (tx, None).

  Lemma members_ok gs tx : gs <> [] -> members_g gs = (tx, None) <->
    exists ts, Forall2 g_ok gs ts /\ tx = join ts ++ [41].
  Proof.
    revert tx. induction gs as [|g gs IH]; intros tx N; [easy|]. destruct gs as [|g2 gs].
    - cbn [members_g]. rewrite andthen_ok. split.
      + intros (ta & tb & Ea & Eb & ->). injection Eb as <-. exists [ta]. split; [repeat constructor; assumption|reflexivity].
      + intros (ts & F & ->). inversion F as [|? t1 ? ts' F1 F2]; subst. inversion F2; subst.
        exists t1, [41]. auto.
    - change (members_g (g :: g2 :: gs)) with (enc_g g >> wr (str ",") >> members_g (g2 :: gs)).
      rewrite andthen_ok. split.
      + intros (ta & tb & Ea & H & ->). apply andthen_ok in H. destruct H as (tc & td & Ec & H & ->).
        injection Ec as <-. apply IH in H; [|discriminate]. destruct H as (ts & F & ->).
        exists (ta :: ts). split; [constructor; assumption|]. rewrite join_cons by (inversion F; discriminate).
        cbn. now rewrite <- app_assoc.
      + intros (ts & F & ->). inversion F as [|? t1 ? ts' F1 F2]; subst.
        exists t1, (44 :: join ts' ++ [41]). split; [assumption|]. split.
        * apply andthen_ok. exists [44], (join ts' ++ [41]). split; [reflexivity|]. split; [|reflexivity].
          apply IH; [discriminate|]. now exists ts'.
        * rewrite join_cons by (inversion F2; discriminate). now rewrite <- app_assoc.
  Qed.

  Lemma coll_ok gs tx : enc_g (GCollection gs) = (tx, None) <->
    exists ts, Forall2 g_ok gs ts /\ tx = str "GEOMETRYCOLLECTION " ++ brack ts.
  Proof.
    rewrite enc_coll. destruct gs as [|g gs].
    - split.
      + intros H. apply (f_equal fst) in H. cbn [fst wr] in H. subst tx. exists []. split; [constructor|reflexivity].
      + intros (ts & F & ->). inversion F. reflexivity.
    - rewrite andthen_ok. split.
      + intros (t0 & tb & E0 & H & ->). apply (f_equal fst) in E0. cbn [fst wr] in E0. subst t0.
        apply andthen_ok in H. destruct H as (t1 & t2 & E1 & H & ->).
        apply (f_equal fst) in E1. cbn [fst wr] in E1. subst t1.
        apply members_ok in H; [|discriminate]. destruct H as (ts & F & ->). exists ts. split; [assumption|].
        inversion F; subst. reflexivity.
      + intros (ts & F & ->). exists (str "GEOMETRYCOLLECTION "), (40 :: join ts ++ [41]). split; [reflexivity|].
        split; [|inversion F; reflexivity].
        apply andthen_ok. exists [40], (join ts ++ [41]). split; [reflexivity|]. split; [|reflexivity].
        apply members_ok; [discriminate|]. now exists ts.
  Qed.
End Enc.

(** ** Reading *)

Section Dispatch.
  Variables (parse : list Z -> option f64) (c : compare).

  Lemma tag_read T t x : Forall (fun b => is_alpha b = true) (str T) -> (exists b r, str T = b :: r /\ is_space b = false) ->
    map lower (str T) = t -> starts x ->
    read_tag (str T ++ 32 :: x) = Ok (t, 32 :: x) /\ read_whitespace (32 :: x) = Ok (true, x).
  Proof.
    intros F (b & r & E & S) <- Sx. split; [|now apply ws_one].
    unfold read_tag. rewrite E in *. cbn [app]. rewrite ws_none by assumption. cbn [bind].
    rewrite app_comm_cons, read_while_stop; [reflexivity|assumption|reflexivity].
  Qed.

  Ltac tag T t := intros Sx;
    match goal with |- read_geometry _ _ _ (?s ++ ?x) = _ =>
      change (s ++ x) with (str T ++ 32 :: x) end;
    match goal with |- read_geometry _ _ _ (_ ++ 32 :: ?x) = _ =>
      let H1 := fresh in let H2 := fresh in
      destruct (tag_read T (str t) x) as [H1 H2];
        [repeat constructor|eexists; eexists; split; reflexivity|reflexivity|assumption|];
      cbn [read_geometry]; rewrite H1; cbn [bind]; rewrite H2; cbn [bind] end;
    repeat match goal with |- context [if list_eq_dec Z.eq_dec ?a ?b then _ else _] =>
      let E := fresh in destruct (list_eq_dec Z.eq_dec a b) as [E|E]; [try discriminate E|try now elim E]; clear E end;
    reflexivity.

  Lemma rd_point n x : starts x -> read_geometry parse c (S n) (str "POINT " ++ x) =
    do (pts, s) <- read_points parse x;
    match pts with [] => Err ETooFew | [p] => Ok (GPoint p, s) | _ => Err ETooFew end.
  Proof. tag "POINT"%string "point"%string. Qed.
  Lemma rd_mpoint n x : starts x -> read_geometry parse c (S n) (str "MULTIPOINT " ++ x) =
    do (pts, s) <- read_points parse x; Ok (GMultiPoint pts, s).
  Proof. tag "MULTIPOINT"%string "multipoint"%string. Qed.
  Lemma rd_ls n x : starts x -> read_geometry parse c (S n) (str "LINESTRING " ++ x) =
    do (pts, s) <- read_points parse x;
    if (len pts <? 2)%nat then Err ETooFew else Ok (GLineString pts, s).
  Proof. tag "LINESTRING"%string "linestring"%string. Qed.
  Lemma rd_mls n x : starts x -> read_geometry parse c (S n) (str "MULTILINESTRING " ++ x) =
    do (ls, s) <- read_lines parse x;
    if (len ls <? 1)%nat then Err ETooFew
    else if existsb (fun v => (len v <? 2)%nat) ls then Err ETooFew
    else Ok (GMultiLineString ls, s).
  Proof. tag "MULTILINESTRING"%string "multilinestring"%string. Qed.
  Lemma rd_poly n x : starts x -> read_geometry parse c (S n) (str "POLYGON " ++ x) =
    do (ls, s) <- read_lines parse x;
    if (len ls <? 1)%nat then Err ETooFew
    else do rs <- map_ok (open_ring c) ls; Ok (GPolygon rs, s).
  Proof. tag "POLYGON"%string "polygon"%string. Qed.
  Lemma rd_mpoly n x : starts x -> read_geometry parse c (S n) (str "MULTIPOLYGON " ++ x) =
    do (pls, s) <- read_polys parse x;
    if (len pls <? 1)%nat then Err ETooFew
    else do ps <- map_ok (map_ok (open_ring c)) pls; Ok (GMultiPolygon ps, s).
  Proof. tag "MULTIPOLYGON"%string "multipolygon"%string. Qed.
  Lemma rd_coll n x : starts x -> read_geometry parse c (S n) (str "GEOMETRYCOLLECTION " ++ x) =
    do (_, s) <- expect 40 x;
    do (_, s) <- read_whitespace s;
    do (gs, s) <- read_members parse c n s;
    if (len gs <? 1)%nat then Err ETooFew else Ok (GCollection gs, s).
  Proof. tag "GEOMETRYCOLLECTION"%string "geometrycollection"%string. Qed.
End Dispatch.
