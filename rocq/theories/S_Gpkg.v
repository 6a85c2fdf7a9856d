(** * Specification vocabulary for GeoPackage binaries

    Written from the GeoPackage specification, clause 2.1.3 (the flag layout is
    also quoted in binary_header.go 70-78), independently of the code. *)
From Coq Require Import ZArith Bool List.
From Verif Require Import Base_F64 Base_Geom Base_Bytes S_Wkb S_Geom.
Import ListNotations.
Open Scope Z_scope.

Definition bit (b : bool) : Z := if b then 1 else 0.
Definition order_bit (bo : byte_order) : Z := match bo with LittleEndian => 1 | BigEndian => 0 end.

(** The flag byte: R R X Y E E E B. *)
Definition gp_flags (bo : byte_order) (et : Z) (extended empty : bool) (reserved : Z) : Z :=
  order_bit bo + 2 * et + 16 * bit empty + 32 * bit extended + 64 * reserved.

(** The number of doubles in an envelope of each kind. *)
Definition gp_envelope_len (et : Z) : option Z :=
  match et with
  | 0 => Some 0 | 1 => Some 4 | 2 => Some 6 | 3 => Some 6 | 4 => Some 8
  | _ => None
  end.

(** The header: "GP", version, flags, SRS id (two's complement), envelope. *)
Definition gp_header (m0 m1 version : Z) (bo : byte_order) (et : Z) (extended empty : bool)
  (reserved srs : Z) (env : list f64) : list Z :=
  [m0; m1; version; gp_flags bo et extended empty reserved]
  ++ put_uint bo 4 (srs mod 2 ^ 32) ++ flat_map (put_uint bo 8) env.

Definition int32_range (v : Z) : Prop := - 2 ^ 31 <= v < 2 ^ 31.

(** No coordinate pair of [g] is a real point: each has a NaN (or there are
    none). *)
Definition all_nan (g : geom f64) : bool := forallb pt_isnan (coords g).
