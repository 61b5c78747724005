(** Byte-level representation of integers as laid out in memory by the C++
    code on the little-endian targets the project supports (x86).  A byte is a
    [Z] in [0,256).  Used wherever the code does memcpy of ints / size_t's. *)
From Verif Require Import Base.
Local Open Scope Z_scope.

Definition byte_ok (b : Z) : bool := (0 <=? b) && (b <? 256).

(** little-endian bytes of the low [n] bytes of [z] (two's complement) *)
Fixpoint le_bytes (n : nat) (z : Z) : list Z :=
  match n with
  | O => []
  | S n' => (z mod 256) :: le_bytes n' (z / 256)
  end.

(** unsigned value of a little-endian byte string *)
Fixpoint le_val (bs : list Z) : Z :=
  match bs with
  | [] => 0
  | b :: bs' => b + 256 * le_val bs'
  end.

(** reinterpretation of an unsigned [8*n]-bit value as two's complement *)
Definition to_signed (n : nat) (v : Z) : Z :=
  if v <? 2 ^ (8 * Z.of_nat n - 1) then v else v - 2 ^ (8 * Z.of_nat n).

(** a C++ [int] (4 bytes) and a [size_t] (8 bytes) *)
Definition enc_i32 (z : Z) : list Z := le_bytes 4 z.
Definition dec_i32 (bs : list Z) : Z := to_signed 4 (le_val bs).
Definition enc_u64 (z : Z) : list Z := le_bytes 8 z.
Definition dec_u64 (bs : list Z) : Z := le_val bs.

Definition i32_ok (z : Z) : bool := (- 2^31 <=? z) && (z <? 2^31).
Definition u64_ok (z : Z) : bool := (0 <=? z) && (z <? 2^64).

(** arrays of ints / size_t's *)
Definition enc_i32s (zs : list Z) : list Z := flat_map enc_i32 zs.
Fixpoint dec_i32s (n : nat) (bs : list Z) : list Z :=
  match n with
  | O => []
  | S n' => dec_i32 (firstn 4 bs) :: dec_i32s n' (skipn 4 bs)
  end.
Definition enc_u64s (zs : list Z) : list Z := flat_map enc_u64 zs.
Fixpoint dec_u64s (n : nat) (bs : list Z) : list Z :=
  match n with
  | O => []
  | S n' => dec_u64 (firstn 8 bs) :: dec_u64s n' (skipn 8 bs)
  end.
