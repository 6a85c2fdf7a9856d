(** Proofs about encoding/mvt/prepare.go: integer tiles, through the encoder and back *)
From Coq Require Import ZArith Bool List Lia Reals Lra.
From Flocq Require Import Core.Core.
From Verif Require Import Base_Res Base_F64 Base_F64Arith Base_Geom M_Extent M_Cmp M_Winding M_Triangle M_Walker M_MvtPrepare
  M_Mvt S_Mvt P_Mvt S_Winding S_MvtPrepare P_F64 P_F64Flocq P_F64Round P_F64Grid P_SimplifyR P_Winding P_Winding2 P_MvtPrepare P_MvtPrepare2 P_MvtPrepare3.
Import ListNotations.
Local Open Scope Z_scope.

Lemma sub_ofZ a b : Z.abs a <= two53 -> Z.abs b <= two53 -> Z.abs (a - b) <= two53 -> f64_sub (f64_ofZ a) (f64_ofZ b) = f64_ofZ (a - b).
Proof.
  intros A B C. apply repr_is_ofZ; [exact C|apply repr_sub; auto using repr_ofZ; lia|]. intros E.
  assert (a = b) by lia. subst b. destruct (repr_ofZ a A) as (W & F & _). rewrite sub_self by assumption. reflexivity.
Qed.

Lemma zero_pixels a b : 0 <= a <= 53 -> 0 <= b <= 53 -> f64_mul (f64_div f64_zero (f64_ofZ (2 ^ a))) (f64_ofZ (2 ^ b)) = f64_zero.
Proof.
  intros A B.
  assert (T : forallb (fun i => forallb (fun j => f64_mul (f64_div f64_zero (f64_ofZ (2 ^ Z.of_nat i))) (f64_ofZ (2 ^ Z.of_nat j)) =? f64_zero) (seq 0 54)) (seq 0 54) = true)
    by (vm_compute; reflexivity).
  rewrite forallb_forall in T. specialize (T (Z.to_nat a) ltac:(apply in_seq; lia)).
  rewrite forallb_forall in T. specialize (T (Z.to_nat b) ltac:(apply in_seq; lia)).
  rewrite !Z2Nat.id in T by lia. now apply Z.eqb_eq.
Qed.

Lemma repr_scale k v w : 0 <= k -> repr k v w -> repr 0 (2 ^ k * v) w.
Proof.
  intros K (W & F & E). split; [exact W|]. split; [exact F|]. rewrite E, mult_IZR. replace (IZR (2 ^ k)) with (bpow radix2 k) by (symmetry; exact (IZR_Zpower radix2 k K)).
  change (bpow radix2 0) with 1%R. ring.
Qed.

Section Tile.
  Variables (a k x0 y0 : Z).
  Hypothesis Ht : exact_tile a k x0 y0.
  Let tile := Some (int_tile a x0 y0).
  Let pixels := f64_ofZ (2 ^ (a + k)).
  Let px := tile_pixel k x0 y0.

  Lemma pow_small c : 0 <= c <= 53 -> Z.abs (2 ^ c) <= two53.
  Proof. intros C. rewrite Z.abs_eq by (apply Z.pow_nonneg; lia). unfold two53. apply Z.pow_le_mono_r; lia. Qed.

  Lemma unscale c v : 0 <= c -> Z.abs (2 ^ c * v) <= 2 ^ 20 -> Z.abs v <= 2 ^ 20.
  Proof. intros C H. rewrite Z.abs_mul in H. rewrite (Z.abs_eq (2 ^ c)) in H by (apply Z.pow_nonneg; lia).
    assert (1 <= 2 ^ c) by (apply Z.lt_pred_le; cbn; apply Z.pow_pos_nonneg; lia). nia. Qed.

  Lemma prepare_int p : Z.abs (fst p) <= 2 ^ 53 -> Z.abs (snd p) <= 2 ^ 53 -> pixel_range (px p) -> prepare_pt tile pixels (fpt p) = fpt (px p).
  Proof.
    intros Bx By [Px Py]. destruct Ht as (A & K & AK & X & Y & A2). fold two53 in Bx, By.
    assert (P2 : 0 <= 2 ^ a <= 2 ^ 52) by (split; [apply Z.pow_nonneg; lia|apply Z.pow_le_mono_r; lia]).
    cbn [px tile_pixel fst snd] in Px, Py.
    assert (Vx := unscale k _ K Px). assert (Vy := unscale k _ K Py).
    assert (T53 : two53 = 2 * 2 ^ 52) by reflexivity.
    assert (G := exact_pixels a (a + k) (int_tile a x0 y0) pixels (fpt p) x0 y0 (fst p) (snd p) ltac:(lia) ltac:(lia)
      ltac:(apply repr_ofZ; lia) ltac:(apply repr_ofZ; lia) ltac:(apply repr_ofZ; lia) ltac:(apply repr_ofZ; lia)
      ltac:(apply repr_ofZ, pow_small; lia) ltac:(now apply repr_ofZ) ltac:(now apply repr_ofZ) ltac:(lia) ltac:(lia)).
    fold tile in G. replace (a + k - a) with k in G by ring. destruct G as [Gx Gy].
    apply repr_scale in Gx, Gy; try exact K.
    assert (Sx : f64_sub (f64_ofZ (x0 + 2 ^ a)) (f64_ofZ x0) = f64_ofZ (2 ^ a)).
    { rewrite sub_ofZ by lia. f_equal. ring. }
    assert (Sy : f64_sub (f64_ofZ y0) (f64_ofZ (y0 - 2 ^ a)) = f64_ofZ (2 ^ a)).
    { rewrite sub_ofZ by lia. f_equal. ring. }
    assert (P0 : 0 < 2 ^ k) by (apply Z.pow_pos_nonneg; lia).
    rewrite (surjective_pairing (prepare_pt tile pixels (fpt p))). unfold fpt at 3. cbn [px tile_pixel fst snd].
    f_equal.
    - apply repr_is_ofZ; [unfold two53; lia|exact Gx|]. intros Z0. assert (E : fst p - x0 = 0) by nia.
      unfold prepare_pt, tile, minX, xspan. cbn [fst fpt int_tile e0 e2]. rewrite Sx, sub_ofZ by lia. rewrite E.
      change (f64_ofZ 0) with f64_zero. unfold pixels. rewrite zero_pixels by lia. reflexivity.
    - apply repr_is_ofZ; [unfold two53; lia|exact Gy|]. intros Z0. assert (E : y0 - snd p = 0) by nia.
      unfold prepare_pt, tile, maxY, yspan. cbn [snd fpt int_tile e1 e3]. rewrite Sy, sub_ofZ by lia. rewrite E.
      change (f64_ofZ 0) with f64_zero. unfold pixels. rewrite zero_pixels by lia. reflexivity.
  Qed.

  Local Notation in_range := (in_range k x0 y0).
  Lemma prepare_ints l : Forall in_range l -> map (prepare_pt tile pixels) (map fpt l) = map fpt (map px l).
  Proof. induction 1 as [|p l [[A B] C] F IH]; [reflexivity|]. cbn [map]. rewrite IH. f_equal. now apply prepare_int. Qed.

  Lemma same_zpt_iff p q : same_zpt p q = true <-> p = q.
  Proof. unfold same_zpt. rewrite andb_true_iff, !Z.eqb_eq. destruct p, q. cbn. split; [intros [-> ->]; reflexivity|now intros [= -> ->]]. Qed.

  Lemma thin_int l : forall p, in_range p -> Forall in_range l ->
    squeezed (map px (p :: l)) = px p :: tl (squeezed (map px (p :: l))) /\
    thin tile pixels (fpt (px p)) (map fpt l) = map fpt (tl (squeezed (map px (p :: l)))).
  Proof.
    induction l as [|q l IH]; intros p Rp F; [split; reflexivity|]. inversion F as [|? ? Rq F']; subst.
    destruct (IH q Rq F') as [Hq Tq]. destruct (IH p Rp F') as [_ Tp].
    cbn [map thin]. rewrite (prepare_int q) by (apply Rq). rewrite same_int by (apply Rp || apply Rq).
    cbn [map] in Hq, Tq. change (squeezed (px p :: px q :: map px l)) with
      (match squeezed (px q :: map px l) with [] => [px p] | c :: r => if same_zpt (px p) c then c :: r else px p :: c :: r end).
    rewrite Hq. destruct (same_zpt (px p) (px q)) eqn:E.
    - apply same_zpt_iff in E. rewrite E in *. cbn [tl]. split; [reflexivity|]. exact Tq.
    - cbn [tl]. split; [reflexivity|]. cbn [map]. now rewrite Tq.
  Qed.

  Lemma prepare_line_int l : Forall in_range l -> (2 <= length (squeezed (map px l)))%nat ->
    prepare_line tile pixels (map fpt l) = map fpt (squeezed (map px l)).
  Proof.
    intros F L. destruct l as [|p l]; [cbn in L; lia|]. inversion F as [|? ? Rp F']; subst.
    destruct (thin_int l p Rp F') as [H T]. unfold prepare_line. rewrite map_length.
    destruct l as [|q l]; [cbn in L; lia|]. change (length (p :: q :: l) <? 2)%nat with false. cbv iota. cbn zeta.
    change (map fpt (p :: q :: l)) with (fpt p :: map fpt (q :: l)). cbv iota beta.
    rewrite prepare_int by apply Rp. rewrite T.
    change (fpt (px p) :: map fpt (tl (squeezed (map px (p :: q :: l))))) with (map fpt (px p :: tl (squeezed (map px (p :: q :: l))))).
    rewrite <- H, map_length. destruct (Nat.ltb_spec (length (squeezed (map px (p :: q :: l)))) 2); [lia|reflexivity].
  Qed.

  Lemma squeezed_in l p : In p (squeezed l) -> In p l.
  Proof.
    induction l as [|q l IH]; cbn [squeezed]; [auto|]. destruct (squeezed l) as [|c r]; cbn [In].
    - intros [-> |[]]; auto.
    - destruct (same_zpt q c); cbn [In]; cbn [In] in IH; tauto.
  Qed.
  Lemma squeezed_range l : Forall in_range l -> Forall pixel_range (squeezed (map px l)).
  Proof.
    intros F. apply Forall_forall. intros p Hp. apply squeezed_in in Hp. apply in_map_iff in Hp as (q & <- & Hq).
    rewrite Forall_forall in F. apply (F q Hq).
  Qed.

  Lemma last_map {A B} (f : A -> B) l d : last (map f l) (f d) = f (last l d).
  Proof. induction l as [|x l IH]; [reflexivity|]. destruct l; [reflexivity|]. exact IH. Qed.
  Lemma removelast_map {A B} (f : A -> B) l : removelast (map f l) = map f (removelast l).
  Proof. induction l as [|x l IH]; [reflexivity|]. destruct l; [reflexivity|]. cbn [map removelast] in *. now rewrite IH. Qed.

  Lemma prepare_ring_int r : Forall in_range r -> (2 <= length (squeezed (map px r)))%nat ->
    prepare_ring tile pixels (map fpt r) = Ok (map fpt (open_ring (squeezed (map px r)))).
  Proof.
    intros F L. unfold prepare_ring. rewrite (prepare_line_int r F L). pose proof (squeezed_range r F) as S.
    destruct (squeezed (map px r)) as [|p t]; [cbn in L; lia|]. unfold open_ring. cbn [map].
    change (fpt p :: map fpt t) with (map fpt (p :: t)). rewrite last_map, removelast_map.
    rewrite same_int.
    - destruct (same_zpt _ _); reflexivity.
    - now inversion S.
    - rewrite Forall_forall in S. apply S. 
      destruct (exists_last (l := p :: t) ltac:(discriminate)) as (i & z & E). rewrite E, last_last. apply in_or_app. right. now left.
  Qed.

  Lemma open_length r : (2 <= length (squeezed r))%nat -> (2 <= length (open_ring (squeezed r)))%nat.
  Proof.
    intros L. assert (N : forall p q, squeezed r = [p; q] -> same_zpt p q = false).
    { clear. induction r as [|x r IH]; cbn [squeezed]; [discriminate|]. intros p q. destruct (squeezed r) as [|c t]; [discriminate|].
      destruct (same_zpt x c) eqn:E; [intros Q; now apply IH|]. intros [= -> -> _]. exact E. }
    destruct (squeezed r) as [|p [|q t]]; [cbn in L; lia|cbn in L; lia|]. unfold open_ring.
    destruct (same_zpt p (last (p :: q :: t) p)) eqn:E; [|cbn; lia].
    destruct t as [|s t]; [cbn in E; rewrite N in E by reflexivity; discriminate|].
    assert (Z := app_removelast_last p (l := p :: q :: s :: t) ltac:(discriminate)). apply (f_equal (@length _)) in Z.
    rewrite app_length in Z. cbn [length] in Z. lia.
  Qed.

  Local Notation tile_ring := (tile_ring k x0 y0).
  Local Notation real_ring := (real_ring k x0 y0).
  Lemma squeezed_length l : (length (squeezed l) <= length l)%nat.
  Proof. induction l as [|x l IH]; [auto|]. cbn [squeezed length]. destruct (squeezed l) as [|c t]; cbn [length] in *; [lia|]. destruct (same_zpt x c); cbn [length]; lia. Qed.

  Lemma prepare_rings_int rs : Forall real_ring rs -> prepare_rings tile pixels (map (map fpt) rs) = Ok (map (map fpt) (map tile_ring rs)).
  Proof.
    induction 1 as [|r rs [F L] Frs IH]; [reflexivity|]. cbn [map prepare_rings]. rewrite map_length.
    change (2 <= length (squeezed (map px r)))%nat in L. pose proof (squeezed_length (map px r)) as Q. rewrite map_length in Q.
    destruct (Nat.ltb_spec (length r) 2); [lia|]. rewrite (prepare_ring_int r F L). cbn [bind]. rewrite IH. cbn [bind].
    rewrite map_length. pose proof (open_length (map px r) L) as O. 
    destruct (Nat.ltb_spec (length (open_ring (squeezed (map px r)))) 2); [exfalso; apply (Nat.lt_irrefl 2); eapply Nat.le_lt_trans; eassumption|]. reflexivity.
  Qed.

  Lemma orientation_plain r : exact_pts r -> small_ring r -> orientation false (map fpt r) = Z.sgn (area2 r).
  Proof.
    intros He Hs. rewrite orientation_int; [lia | | exact Hs]. intros p Hp. exact (proj1 (Forall_forall _ _) He p Hp).
  Qed.

  Lemma exterior_same r o : o = r \/ o = rev r -> has_area r = true -> exterior o = exterior r.
  Proof.
    intros [-> | ->] H; [reflexivity|]. unfold exterior, has_area in *. rewrite area2_rev.
    destruct (Z.ltb_spec 0 (- area2 r)), (Z.ltb_spec 0 (area2 r)); try reflexivity; rewrite ?rev_involutive; try reflexivity; exfalso; destruct (Z.eqb_spec (area2 r) 0); try discriminate; lia.
  Qed.
  Lemma interior_same r o : o = r \/ o = rev r -> has_area r = true -> interior o = interior r.
  Proof.
    intros [-> | ->] H; [reflexivity|]. unfold interior, has_area in *. rewrite area2_rev.
    destruct (Z.ltb_spec (- area2 r) 0), (Z.ltb_spec (area2 r) 0); try reflexivity; rewrite ?rev_involutive; try reflexivity; exfalso; destruct (Z.eqb_spec (area2 r) 0); try discriminate; lia.
  Qed.
  Lemma fixed_int want r : ok_ring r -> exists o, fix_ring false want (map fpt r) = map fpt o /\ (o = r \/ o = rev r).
  Proof.
    intros K. unfold fix_ring. destruct (_ =? _); [exists r; auto|]. exists (rev r). rewrite <- map_rev. auto.
  Qed.

  (** RectifyPolygon on integer rings. *)
  Lemma rectify_int rs : ok_polygon rs -> exists os,
    fst (rectify_polygon false (map (map fpt) rs)) = Some (map (map fpt) os) /\ ok_polygon os /\ tile_polygon os = tile_polygon rs.
  Proof.
    destruct rs as [|r rs]; [intros []|]. intros [H F]. inversion F as [|? ? Kr Frs]; subst. cbn [map]. rewrite rectify_polygon_exact.
    assert (Q : forall r, ok_ring r -> (orientation false (map fpt r) =? wColinear) = negb (has_area r)).
    { intros q (A & B & _). rewrite orientation_plain by assumption. unfold has_area, wColinear. rewrite negb_involutive.
      destruct (Z.eqb_spec (area2 q) 0), (Z.eqb_spec (Z.sgn (area2 q)) 0); auto; lia. }
    rewrite Q by exact Kr. rewrite H. cbn [negb fst].
    destruct (fixed_int wClockwise r Kr) as (o & -> & O).
    assert (G : exists os, map (fix_ring false wCounterClockwise) (filter (fun r => negb (orientation false r =? wColinear)) (map (map fpt) rs)) = map (map fpt) os
      /\ Forall ok_ring os /\ map interior (filter has_area os) = map interior (filter has_area rs)).
    { clear F. induction Frs as [|q rs Kq Frs IH]; [exists []; auto|]. destruct IH as (os & E & Fo & I). cbn [map filter].
      rewrite Q by exact Kq. rewrite negb_involutive. destruct (has_area q) eqn:Hq; [|exists os; auto].
      destruct (fixed_int wCounterClockwise q Kq) as (o' & E' & O'). exists (o' :: os). cbn [map filter]. rewrite E', E.
      assert (Ha : has_area o' = true) by (destruct O' as [-> | ->]; rewrite ?area2_rev_has; exact Hq). rewrite Ha. cbn [map].
      split; [reflexivity|]. split; [constructor; [destruct O' as [-> | ->]; auto using ok_rev|exact Fo]|].
      rewrite I. f_equal. now apply interior_same. }
    destruct G as (os & -> & Fo & I). exists (o :: os). split; [reflexivity|].
    assert (Ha : has_area o = true) by (destruct O as [-> | ->]; rewrite ?area2_rev_has; exact H).
    split; [split; [exact Ha|constructor; [destruct O as [-> | ->]; auto using ok_rev|exact Fo]]|].
    cbn [tile_polygon]. rewrite I. f_equal. now apply exterior_same.
  Qed.

  Lemma range_steps l : Forall pixel_range l -> forall c, pixel_range c -> steps_fit c l.
  Proof.
    induction 1 as [|p l [A B] F IH]; intros c [C D]; [exact I|]. cbn [steps_fit]. unfold int32.
    split; [lia|]. split; [lia|]. apply IH. now split.
  Qed.
  Lemma range_origin : pixel_range (0, 0). Proof. split; cbn; lia. Qed.
  Lemma range_fits l : Forall pixel_range l -> fits l.
  Proof.
    intros F. split; [now apply range_steps, range_origin|]. unfold exact_pts. revert F. apply Forall_impl. intros p [A B]. lia.
  Qed.
  Lemma open_in r p : In p (open_ring r) -> In p r.
  Proof.
    destruct r as [|q r]; [auto|]. unfold open_ring. destruct (same_zpt _ _); [|auto].
    intros H. rewrite (app_removelast_last q (l := q :: r)) by discriminate. apply in_or_app. now left.
  Qed.
  Lemma tile_polygon_in rs p : In p (concat (tile_polygon rs)) -> exists r, In r rs /\ In p r.
  Proof.
    destruct rs as [|o rs]; [intros []|]. cbn [tile_polygon concat]. intros H. apply in_app_or in H as [H|H].
    - exists o. split; [now left|]. unfold exterior in H. destruct (0 <? _); [exact H|now apply in_rev].
    - apply in_concat in H as (q & Hq & Hp). apply in_map_iff in Hq as (r & <- & Hr). apply filter_In in Hr as [Hr _].
      exists r. split; [now right|]. unfold interior in Hp. destruct (_ <? 0); [exact Hp|now apply in_rev].
  Qed.
  Lemma polygon_range rs : Forall real_ring rs -> Forall pixel_range (concat (tile_polygon (map tile_ring rs))).
  Proof.
    intros F. apply Forall_forall. intros p H. apply tile_polygon_in in H as (r & Hr & Hp). apply in_map_iff in Hr as (q & <- & Hq).
    rewrite Forall_forall in F. destruct (F q Hq) as [G _]. apply squeezed_range in G. rewrite Forall_forall in G. apply G. now apply open_in.
  Qed.

  Lemma polygon_pipeline rs : Forall real_ring rs -> ok_polygon (map tile_ring rs) ->
    exists p b, prepare_geo (GPolygon (map (map fpt) rs)) tile pixels = Ok (Some p) /\ encode_geometry p = Ok (b, Tile_POLYGON) /\
      decode_geometry Tile_POLYGON b = Ok (Some (fgeom (GPolygon (tile_polygon (map tile_ring rs))))).
  Proof.
    intros R K. pose proof (range_steps _ (polygon_range _ R) _ range_origin) as S.
    destruct (rectify_int _ K) as (os & E & Ko & T). rewrite <- T in S |- *.
    destruct (decode_polygon_enc os Ko S) as (b & E1 & E2). exists (GPolygon (map (map fpt) os)), b.
    split; [|split; assumption]. cbn [prepare_geo]. unfold prepare_polygon.
    destruct rs as [|r rs]; [destruct K|]. change (map (map fpt) (r :: rs)) with (map fpt r :: map (map fpt) rs). cbv iota.
    change (map fpt r :: map (map fpt) rs) with (map (map fpt) (r :: rs)). rewrite (prepare_rings_int _ R). cbn [bind]. now rewrite E.
  Qed.

  Lemma line_pipeline l : Forall in_range l -> good_line (squeezed (map px l)) ->
    exists b, prepare_geo (GLineString (map fpt l)) tile pixels = Ok (Some (GLineString (map fpt (squeezed (map px l))))) /\
      encode_geometry (GLineString (map fpt (squeezed (map px l)))) = Ok (b, Tile_LINESTRING) /\
      decode_geometry Tile_LINESTRING b = Ok (Some (GLineString (map fpt (squeezed (map px l))))).
  Proof.
    intros F G. destruct (decode_line_enc _ G (range_fits _ (squeezed_range l F))) as (b & E1 & E2). exists b. split; [|split; assumption].
    cbn [prepare_geo]. rewrite (prepare_line_int l F) by apply G. reflexivity.
  Qed.
End Tile.
