(** Model of the CRC32 hash of integers in /repo/src/jstd/hasher/hash_crc32.h (with
    SSE4.2 on x86-64). *)
From Coq Require Import NArith List Bool.
From Verif Require Import Base.
Import ListNotations.
Open Scope N_scope.

(** One bit of the crc32 instruction (polynomial 11EDC6F41, reflected). *)
Definition crc_bit (c : N) : N :=
  if N.odd c then N.lxor (N.div2 c) 2197175160 else N.div2 c.

Fixpoint crc_bits (n : nat) (c : N) : N :=
  match n with O => c | S n' => crc_bits n' (crc_bit c) end.

(** _mm_crc32_u64: eight bytes, the lowest first; only the low 32 bits of [crc] are
    used. *)
Fixpoint crc_bytes (n : nat) (c v : N) : N :=
  match n with
  | O => c
  | S n' => crc_bytes n' (crc_bits 8 (N.lxor c (v mod 256))) (v / 256)
  end.

Definition crc32_u64 (crc v : N) : N := crc_bytes 8 (w32 crc) v.

(** intel_simple_int_crc32, hash_crc32.h:67-78, called by simple_int_hash_crc32,
    hash_crc32.h:263-270. *)
Definition simple_int_hash_crc32 (value : N) : N := crc32_u64 (two64 - 1) value.

(** intel_int_crc32_x64, hash_crc32.h:89-96, called by int_hash_crc32,
    hash_crc32.h:250-261. *)
Definition int_hash_crc32 (value : N) : N :=
  N.lor (N.land (crc32_u64 (two64 - 1) value) 4294967295)
        (w64 (N.shiftl (crc32_u64 0 value) 32)).
