(** What the hash functions are meant to compute, written without reference to the
    model of the code. *)
From Coq Require Import Arith NArith List Bool.
From Verif Require Import Base.
Import ListNotations.
Open Scope N_scope.

Definition is_byte (b : N) : Prop := b < 256.
Definition is_bytes (data : list N) : Prop := Forall is_byte data.

(** Horner evaluation of the bytes in base [seed], modulo 2^32. *)
Definition horner (seed start : N) (data : list N) : N :=
  fold_left (fun h b => (h * seed + b) mod 2 ^ 32) data start.

(** One bit of CRC-32C, reflected form of the polynomial 1EDC6F41. *)
Definition crc32c_bit (c : N) : N :=
  if N.testbit c 0 then N.lxor (c / 2) 2197175160 else c / 2.

(** One byte. *)
Definition crc32c_byte (c b : N) : N :=
  Nat.iter 8 crc32c_bit (N.lxor c b).

(** CRC register after some bytes, starting from all ones. *)
Definition crc32c_reg (data : list N) : N := fold_left crc32c_byte data (2 ^ 32 - 1).

(** CRC-32C. *)
Definition crc32c (data : list N) : N := N.lxor (crc32c_reg data) (2 ^ 32 - 1).

(** AP hash: byte 0, 2, 4, ... and byte 1, 3, 5, ... are mixed in differently. *)
Fixpoint ap_hash (even : bool) (h : N) (data : list N) : N :=
  match data with
  | [] => h
  | c :: r =>
      let left := (h * 2 ^ (if even then 7 else 11)) mod 2 ^ 32 in
      let right := h / 2 ^ (if even then 3 else 5) in
      let x := N.lxor (N.lxor left c) right in
      ap_hash (negb even) (N.lxor h (if even then x else 2 ^ 32 - 1 - x)) r
  end.

(** FNV-1a, 64 bits. *)
Definition fnv_1a (data : list N) : N :=
  fold_left (fun h b => (N.lxor h b * 1099511628211) mod 2 ^ 64) data
            14695981039346656037.

(** The bytes of [data] followed by zeros up to a multiple of [n]. *)
Definition zero_pad (n : nat) (data : list N) : list N :=
  data ++ repeat 0 ((n - length data mod n) mod n)%nat.

(** What a hash returns when it is defined. *)
Definition defined (r : res N) : option N := match r with Ok h => Some h | Err _ => None end.

(** [H] gives different values for any two keys of the same length that differ in one byte. *)
Definition byte_sensitive (H : list N -> N -> option N) : Prop :=
  forall pre c c' post,
    is_bytes (pre ++ c :: post) -> is_byte c' -> c <> c' ->
    N.of_nat (length (pre ++ c :: post)) < 2 ^ 64 ->
    exists h h',
      H (pre ++ c :: post) (N.of_nat (length (pre ++ c :: post))) = Some h /\
      H (pre ++ c' :: post) (N.of_nat (length (pre ++ c' :: post))) = Some h' /\ h <> h'.

(** The same for keys whose length satisfies [P]. *)
Definition byte_sensitive_for (P : nat -> Prop) (H : list N -> N -> option N) : Prop :=
  forall pre c c' post,
    is_bytes (pre ++ c :: post) -> is_byte c' -> c <> c' ->
    N.of_nat (length (pre ++ c :: post)) < 2 ^ 64 -> P (length (pre ++ c :: post)) ->
    exists h h',
      H (pre ++ c :: post) (N.of_nat (length (pre ++ c :: post))) = Some h /\
      H (pre ++ c' :: post) (N.of_nat (length (pre ++ c' :: post))) = Some h' /\ h <> h'.
