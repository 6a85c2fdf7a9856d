(** * Model of encoding/wkt (text encoder and decoder)

    Text is a list of bytes.  [strconv.AppendFloat] with the encoder's format and
    precision is the argument [fmt], [strconv.ParseFloat] the argument [parse]
    ([None] for an error); M_Strconv gives the ones of the default encoder.
    Writers never fail and readers fail only at their end.  The row and column
    of a syntax error are not modelled. *)
From Coq Require Import ZArith Bool List String Ascii.
From Verif Require Import Base_F64 Base_Geom Base_Res Base_Bytes M_Extent M_Cmp M_Gpkg.
Import ListNotations.
Open Scope Z_scope.

(** The bytes of a Go string literal. *)
Fixpoint str (s : string) : list Z :=
  match s with
  | EmptyString => []
  | String c s' => Z.of_nat (nat_of_ascii c) :: str s'
  end.

(** ** Values *)

(** The dynamic types of the switch of wkt_encode.go 339-518; [None] is a nil
    pointer, [VOther] any other value. *)
Inductive gval : Type :=
| VPoint (p : pt) | VPPoint (p : option pt)
| VMultiPoint (ps : list pt) | VPMultiPoint (ps : option (list pt))
| VLineString (ps : list pt) | VPLineString (ps : option (list pt))
| VMultiLineString (ls : list (list pt)) | VPMultiLineString (ls : option (list (list pt)))
| VPolygon (rs : list (list pt)) | VPPolygon (rs : option (list (list pt)))
| VMultiPolygon (pls : list (list (list pt))) | VPMultiPolygon (pls : option (list (list (list pt))))
| VCollection (gs : list gval) | VPCollection (gs : option (list gval))
| VArr2 (p : pt) | VSlice2 (ps : list pt) | VSlice3 (ls : list (list pt))
| VLine (a b : pt) | VArr22 (a b : pt) | VLines (ls : list (pt * pt)) | VPoints (ps : list pt)
| VTriangle (a b c : pt) | VTriangles (ts : list (pt * pt * pt))
| VExtent (e : extent) | VPExtent (e : option extent)
| VOther.

(** ** Encoder *)

Inductive enc_err := EmptyInStrict | TooFewPoints | UnknownGeometry.

(** What was written, and the error returned. *)
Definition written : Type := (list Z * option enc_err)%type.
Definition wr (bs : list Z) : written := (bs, None).
Definition fail (e : enc_err) : written := ([], Some e).
(** [if err != nil { return err }] *)
Definition andthen (a b : written) : written :=
  match snd a with
  | None => (fst a ++ fst b, snd b)
  | Some _ => a
  end.
Infix ">>" := andthen (at level 60, right associativity).

(** wkt_encode.go 248-254 *)
Inductive gtype := mpType | lsType | mlType | polyType | mPolyType.
Definition is_mp (t : gtype) : bool := match t with mpType => true | _ => false end.
Definition is_ring (t : gtype) : bool := match t with polyType | mPolyType => true | _ => false end.
Definition is_line (t : gtype) : bool := match t with lsType | mlType => true | _ => false end.
Definition is_ml (t : gtype) : bool := match t with mlType => true | _ => false end.

(** [==] on [2]float64 *)
Definition pt_eq (p q : pt) : bool := f64_eq (fst p) (fst q) && f64_eq (snd p) (snd q).

(** wkt_encode.go 107-137: the index of the last element that is not empty, -1
    if there is none. *)
Fixpoint last_idx_from {A} (empty : A -> bool) (i : Z) (last : Z) (l : list A) : Z :=
  match l with
  | [] => last
  | x :: l' => last_idx_from empty (i + 1) (if empty x then last else i) l'
  end.
Definition last_idx {A} (empty : A -> bool) (l : list A) : Z := last_idx_from empty 0 (-1) l.
Definition last_idx_points : list pt -> Z := last_idx is_empty_point.
Definition last_idx_lines : list (list pt) -> Z := last_idx (fun l => last_idx_points l =? -1).

Section Encoder.
  Variable fmt : f64 -> list Z.
  Variable strict : bool.

  (** wkt_encode.go 74-91 *)
  Definition encode_pair (p : pt) : written :=
    if is_empty_point p then wr (str "EMPTY")
    else wr (fmt (fst p)) >> wr (str " ") >> wr (fmt (snd p)).
  (** wkt_encode.go 93-105 *)
  Definition encode_point (p : pt) : written :=
    if is_empty_point p then wr (str "EMPTY")
    else wr (str "(") >> encode_pair p >> wr (str ")").

  (** The loop of wkt_encode.go 146-203: what is written, the first and the last
      point written and their number. *)
  Fixpoint points_loop (t : gtype) (first last : option pt) (count : nat) (mp : list pt)
    : written * (option pt * option pt * nat) :=
    match mp with
    | [] => (wr [], (first, last, count))
    | v :: mp' =>
        if (match last with Some q => pt_eq q v | None => false end) && negb (is_mp t) then
          points_loop t first last count mp'
        else if is_empty_point v && strict && negb (is_mp t) then
          (fail EmptyInStrict, (first, last, count))
        else if is_empty_point v && negb (is_mp t) then
          points_loop t first last count mp'
        else
          let first := match first with None => Some v | Some _ => first end in
          let w := wr (str (if (count =? 0)%nat then "(" else ",")) >> encode_pair v in
          let r := points_loop t first (Some v) (S count) mp' in
          (w >> fst r, snd r)
    end.

  (** wkt_encode.go 139-246, always called with [last = len(mp)-1]. *)
  Definition encode_points (mp : list pt) (t : gtype) : written :=
    let '(w, (first, last, count)) := points_loop t None None 0 mp in
    w >>
    if (count =? 0)%nat then wr (str "EMPTY")
    else if is_ring t && (count <? 3)%nat then fail TooFewPoints
    else if is_line t && (count <? 2)%nat then fail TooFewPoints
    else
      match first, last with
      | Some f, Some l =>
          (if is_ring t && negb (pt_eq f l) then wr (str ",") >> encode_pair f else wr []) >> wr (str ")")
      | _, _ => wr (str ")")    (* count is 0 then *)
      end.

  (** The loop of wkt_encode.go 285-316. *)
  Fixpoint lines_loop (t : gtype) (lines : list (list pt)) : written :=
    match lines with
    | [] => wr []
    | v :: lines' =>
        if (last_idx_points v =? -1) && strict && negb (is_ml t) then fail EmptyInStrict
        else if (last_idx_points v =? -1) && negb (is_ml t) then lines_loop t lines'
        else encode_points v t >> wr (str ",") >> lines_loop t lines'
    end.

  (** wkt_encode.go 256-323, always called with [last = len(lines)-1]. *)
  Definition encode_lines (lines : list (list pt)) (t : gtype) : written :=
    let last := Z.of_nat (List.length lines) - 1 in
    let idx := last_idx_lines lines in
    if negb (is_ml t) && negb (idx =? last) && strict then fail EmptyInStrict
    else
      let last := if is_ml t then last else idx in
      if last =? -1 then wr (str "EMPTY")
      else
        wr (str "(") >> lines_loop t (firstn (Z.to_nat last) lines) >>
        encode_points (nth (Z.to_nat last) lines []) t >> wr (str ")").

  (** wkt_encode.go 325-360 *)
  Fixpoint polys_loop (polys : list (list (list pt))) : written :=
    match polys with
    | [] => wr []
    | v :: polys' => encode_lines v mPolyType >> wr (str ",") >> polys_loop polys'
    end.
  Definition encode_polys (polys : list (list (list pt))) : written :=
    match polys with
    | [] => wr (str "EMPTY")
    | _ =>
        wr (str "(") >> polys_loop (removelast polys) >>
        encode_lines (List.last polys []) mPolyType >> wr (str ")")
    end.

  (** wkt_encode.go 365-411, 444-486: the basic kinds. *)
  Definition encode_mp (ps : list pt) : written := wr (str "MULTIPOINT ") >> encode_points ps mpType.
  Definition encode_ls (ps : list pt) : written := wr (str "LINESTRING ") >> encode_points ps lsType.
  Definition encode_mls (ls : list (list pt)) : written := wr (str "MULTILINESTRING ") >> encode_lines ls mlType.
  Definition encode_poly (rs : list (list pt)) : written := wr (str "POLYGON ") >> encode_lines rs polyType.
  Definition encode_mpoly (pls : list (list (list pt))) : written := wr (str "MULTIPOLYGON ") >> encode_polys pls.
  Definition encode_pt (p : pt) : written := wr (str "POINT ") >> encode_point p.

  (** wkt_encode.go 362-599.  The inner loop is that of 489-521. *)
  Fixpoint encode (g : gval) : written :=
    let members := fix members (l : list gval) : written :=
      match l with
      | [] => wr (str ")")
      | [x] => encode x >> wr (str ")")
      | x :: l' => encode x >> wr (str ",") >> members l'
      end in
    let coll := fun gs =>
      match gs with
      | [] => wr (str "GEOMETRYCOLLECTION EMPTY")
      | _ => wr (str "GEOMETRYCOLLECTION ") >> wr (str "(") >> members gs
      end in
    match g with
    | VPoint p | VArr2 p => encode_pt p
    | VPPoint None => wr (str "POINT EMPTY")
    | VPPoint (Some p) => encode_pt p
    | VMultiPoint ps | VSlice2 ps | VPoints ps => encode_mp ps
    | VPMultiPoint None => wr (str "MULTIPOINT ") >> wr (str "EMPTY")
    | VPMultiPoint (Some ps) => encode_mp ps
    | VLineString ps => encode_ls ps
    | VPLineString None => wr (str "LINESTRING ") >> wr (str "EMPTY")
    | VPLineString (Some ps) => encode_ls ps
    | VMultiLineString ls | VSlice3 ls => encode_mls ls
    | VPMultiLineString None => wr (str "MULTILINESTRING ") >> wr (str "EMPTY")
    | VPMultiLineString (Some ls) => encode_mls ls
    | VPolygon rs => encode_poly rs
    | VPPolygon None => wr (str "POLYGON ") >> wr (str "EMPTY")
    | VPPolygon (Some rs) => encode_poly rs
    | VMultiPolygon pls => encode_mpoly pls
    | VPMultiPolygon None => wr (str "MULTIPOLYGON ") >> wr (str "EMPTY")
    | VPMultiPolygon (Some pls) => encode_mpoly pls
    | VCollection gs => coll gs
    | VPCollection None => wr (str "GEOMETRYCOLLECTION EMPTY")
    | VPCollection (Some gs) => coll gs
    | VLine a b | VArr22 a b => encode_ls [a; b]
    | VLines ls => encode_mls (map (fun l => [fst l; snd l]) ls)
    | VTriangle a b c => encode_poly [[a; b; c]]
    | VTriangles ts => encode_mpoly (map (fun '(a, b, c) => [[a; b; c]]) ts)
    | VExtent e => encode_poly [vertices (Some e)]
    | VPExtent None => encode_poly []
    | VPExtent (Some e) => encode_poly [vertices (Some e)]
    | VOther => fail UnknownGeometry
    end.

  (** wkt_encode.go 614-620, Encoder.EncodeString: text or error. *)
  Definition encode_string (g : gval) : res enc_err (list Z) :=
    match encode g with
    | (bs, None) => Ok bs
    | (_, Some e) => Err e
    end.
End Encoder.

(** ** Decoder *)

(** [EFuel]: the recursion bound of the model ran out (never happens, C73). *)
Inductive dec_err := EEof | EExpected | EFloat | ETooFew | ENotClosed | EUnknown | EFuel.
Notation dres A := (res dec_err (A * list Z)).

(** unicode.IsSpace on a byte *)
Definition is_space (b : Z) : bool :=
  (b =? 9) || (b =? 10) || (b =? 11) || (b =? 12) || (b =? 13) || (b =? 32) || (b =? 0x85) || (b =? 0xA0).
(** wkt_decode.go 92-100 *)
Definition is_numeric (b : Z) : bool :=
  ((48 <=? b) && (b <=? 57)) || (b =? 45) || (b =? 46) || (b =? 69) || (b =? 101).
(** wkt_decode.go 198-200 *)
Definition is_alpha (b : Z) : bool :=
  ((97 <=? b) && (b <=? 122)) || ((65 <=? b) && (b <=? 90)).

(** wkt_decode.go 25-40; the text still to be read is the state. *)
Definition read_byte (s : list Z) : dres Z :=
  match s with
  | [] => Err EEof
  | b :: s' => Ok (b, s')
  end.

(** The loops that read bytes as long as [f] holds and unread the first other
    one; at the end of the text they return its error. *)
Fixpoint read_while (f : Z -> bool) (s : list Z) : dres (list Z) :=
  match s with
  | [] => Err EEof
  | b :: s' =>
      if f b then do (tok, s2) <- read_while f s'; Ok (b :: tok, s2)
      else Ok ([], s)
  end.
(** wkt_decode.go 51-65: whether any whitespace was read. *)
Definition read_whitespace (s : list Z) : dres bool :=
  do (sp, s) <- read_while is_space s; Ok (negb (List.length sp =? 0)%nat, s).
(** wkt_decode.go 196-230 *)
Definition lower (b : Z) : Z := if b <? 97 then b + 32 else b.
Definition read_tag (s : list Z) : dres (list Z) :=
  do (_, s) <- read_whitespace s;
  do (tok, s) <- read_while is_alpha s; Ok (map lower tok, s).
(** [b, err := readByte(); if b != c { return expected }] *)
Definition expect (c : Z) (s : list Z) : dres unit :=
  do (b, s) <- read_byte s; if b =? c then Ok (tt, s) else Err EExpected.

(** The skeleton shared by readPoints (150-194), readLines (232-285) and
    readPolys (287-339): '(' then nothing or elements separated by commas, then
    ')', with whitespace around the elements.  [n] bounds the loop. *)
Fixpoint elements {A} (elem : list Z -> dres A) (n : nat) (s : list Z) : dres (list A) :=
  match n with
  | O => Err EFuel
  | S n' =>
      do (x, s) <- elem s;
      do (_, s) <- read_whitespace s;
      do (b, s) <- read_byte s;
      if b =? 44 then
        do (_, s) <- read_whitespace s;
        do (xs, s) <- elements elem n' s;
        Ok (x :: xs, s)
      else if b =? 41 then Ok ([x], s)
      else Err EExpected
  end.
Definition bracketed {A} (elem : list Z -> dres A) (s : list Z) : dres (list A) :=
  do (_, s) <- expect 40 s;
  do (_, s) <- read_whitespace s;
  do (b, s') <- read_byte s;
  if b =? 41 then Ok ([], s')
  else elements elem (List.length s) s.

Section Decoder.
  Variable parse : list Z -> option f64.
  Variable c : compare.            (* the default comparer *)

  (** wkt_decode.go 91-127 *)
  Definition read_float (s : list Z) : dres f64 :=
    do (tok, s) <- read_while is_numeric s;
    match parse tok with
    | Some w => Ok (w, s)
    | None => Err EFloat
    end.
  (** wkt_decode.go 131-148 *)
  Definition read_point (s : list Z) : dres pt :=
    do (x, s) <- read_float s;
    do (did, s) <- read_whitespace s;
    if negb did then Err EExpected
    else do (y, s) <- read_float s; Ok ((x, y), s).
  Definition read_points : list Z -> dres (list pt) := bracketed read_point.
  Definition read_lines : list Z -> dres (list (list pt)) := bracketed read_points.
  Definition read_polys : list Z -> dres (list (list (list pt))) := bracketed read_lines.

  (** wkt_decode.go 403-415, 434-447: check a ring and drop its last vertex. *)
  Definition open_ring (v : list pt) : res dec_err (list pt) :=
    if (List.length v <? 4)%nat then Err ETooFew
    else match v with
         | [] => Panic
         | p :: _ =>
             if negb (point_equal c p (List.last v p)) then Err ENotClosed
             else Ok (removelast v)
         end.
  Fixpoint map_ok {A B} (f : A -> res dec_err B) (l : list A) : res dec_err (list B) :=
    match l with
    | [] => Ok []
    | x :: l' => do y <- f x; do ys <- map_ok f l'; Ok (y :: ys)
    end.

  (** wkt_decode.go 341-510.  [n] bounds the nesting and the members.  The loop
      of 467-497 reads a byte; if it is not ')' it reads a geometry, whitespace and
      then either a ')' that it leaves to be read again or a comma and
      whitespace. *)
  Fixpoint read_geometry (n : nat) (s : list Z) {struct n} : dres (geom f64) :=
    match n with
    | O => Err EFuel
    | S n' =>
      do (tag, s) <- read_tag s;
      do (_, s) <- read_whitespace s;
      if list_eq_dec Z.eq_dec tag (str "point") then
        do (pts, s) <- read_points s;
        match pts with
        | [] => Err ETooFew
        | [p] => Ok (GPoint p, s)
        | _ => Err ETooFew
        end
      else if list_eq_dec Z.eq_dec tag (str "multipoint") then
        do (pts, s) <- read_points s; Ok (GMultiPoint pts, s)
      else if list_eq_dec Z.eq_dec tag (str "linestring") then
        do (pts, s) <- read_points s;
        if (List.length pts <? 2)%nat then Err ETooFew else Ok (GLineString pts, s)
      else if list_eq_dec Z.eq_dec tag (str "multilinestring") then
        do (ls, s) <- read_lines s;
        if (List.length ls <? 1)%nat then Err ETooFew
        else if existsb (fun v => (List.length v <? 2)%nat) ls then Err ETooFew
        else Ok (GMultiLineString ls, s)
      else if list_eq_dec Z.eq_dec tag (str "polygon") then
        do (ls, s) <- read_lines s;
        if (List.length ls <? 1)%nat then Err ETooFew
        else do rs <- map_ok open_ring ls; Ok (GPolygon rs, s)
      else if list_eq_dec Z.eq_dec tag (str "multipolygon") then
        do (pls, s) <- read_polys s;
        if (List.length pls <? 1)%nat then Err ETooFew
        else do ps <- map_ok (map_ok open_ring) pls; Ok (GMultiPolygon ps, s)
      else if list_eq_dec Z.eq_dec tag (str "geometrycollection") then
        do (_, s) <- expect 40 s;
        do (_, s) <- read_whitespace s;
        do (gs, s) <- read_members n' s;
        if (List.length gs <? 1)%nat then Err ETooFew else Ok (GCollection gs, s)
      else Err EUnknown
    end
  with read_members (n : nat) (s : list Z) {struct n} : dres (list (geom f64)) :=
    match n with
    | O => Err EFuel
    | S n' =>
      do (b, s') <- read_byte s;
      if b =? 41 then Ok ([], s')
      else
        do (g, s) <- read_geometry n' s;
        do (_, s) <- read_whitespace s;
        do (b, s') <- read_byte s;
        if b =? 41 then do (gs, s) <- read_members n' s; Ok (g :: gs, s)
        else if b =? 44 then
          do (_, s) <- read_whitespace s';
          do (gs, s) <- read_members n' s; Ok (g :: gs, s)
        else Err EExpected
    end.

  (** wkt_decode.go 512-514 and wkt.go 42-52: what follows the geometry is not
      looked at. *)
  Definition decode (s : list Z) : res dec_err (geom f64) :=
    do (g, _) <- read_geometry (2 * List.length s + 2) s; Ok g.
End Decoder.
