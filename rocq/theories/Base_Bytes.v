(** * Fixed-width integers as bytes

    A byte is an integer [0 <= b < 256].  [put_uint bo n v] models
    [binary.Write] of an [n]-byte unsigned integer and [get_uint] the
    matching read (Go library encoding/binary, LittleEndian/BigEndian). *)
From Coq Require Import ZArith Bool List.
Import ListNotations.
Open Scope Z_scope.

Inductive byte_order := LittleEndian | BigEndian.

Definition byte_ok (b : Z) : bool := (0 <=? b) && (b <? 256).

Fixpoint le_bytes (n : nat) (v : Z) : list Z :=
  match n with
  | O => []
  | S n' => (v mod 256) :: le_bytes n' (v / 256)
  end.

Fixpoint le_value (bs : list Z) : Z :=
  match bs with
  | [] => 0
  | b :: bs' => b + 256 * le_value bs'
  end.

Definition put_uint (bo : byte_order) (n : nat) (v : Z) : list Z :=
  match bo with
  | LittleEndian => le_bytes n v
  | BigEndian => rev (le_bytes n v)
  end.

Definition get_uint (bo : byte_order) (bs : list Z) : Z :=
  match bo with
  | LittleEndian => le_value bs
  | BigEndian => le_value (rev bs)
  end.

(** uint32(v), uint64(v): conversion by truncation. *)
Definition u32 (v : Z) : Z := v mod 2 ^ 32.
Definition u64 (v : Z) : Z := v mod 2 ^ 64.
(** int32(v): conversion by truncation to two's complement. *)
Definition i32 (v : Z) : Z :=
  let w := v mod 2 ^ 32 in if w <? 2 ^ 31 then w else w - 2 ^ 32.
Definition i64 (v : Z) : Z :=
  let w := v mod 2 ^ 64 in if w <? 2 ^ 63 then w else w - 2 ^ 64.
