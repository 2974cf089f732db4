(** Properties of the hash functions (C71-C87).  The model is HashModel.v; what the functions
    are meant to compute is in HashSpec.v.  Memory is the list of bytes that may be read;
    a key that is given as the whole memory shows that nothing else is read. *)
From Coq Require Import Arith NArith List Bool.
From Verif Require Import Base Crc32Model HashModel HashSpec HashData HashData2 HashCrc HashPrimary
  HashSens2 HashArith HashMul HashWitness.
Import ListNotations.
Open Scope N_scope.

(** ** C71 *)

Theorem c71_bkdr_is_the_polynomial_of_the_bytes :
  forall seed data, is_bytes data -> N.of_nat (length data) < 2 ^ 64 ->
  BKDRHash seed 1 data 0 (N.of_nat (length data)) = Ok (horner seed 0 data).
Proof. exact BKDR_correct. Qed.
Print Assumptions c71_bkdr_is_the_polynomial_of_the_bytes.

Theorem c71_times31std_is_the_polynomial_of_the_bytes :
  forall data, is_bytes data -> N.of_nat (length data) < 2 ^ 64 ->
  Times31Std 1 data 0 (N.of_nat (length data)) = Ok (horner 31 0 data).
Proof. exact BKDR_std_correct. Qed.
Print Assumptions c71_times31std_is_the_polynomial_of_the_bytes.

Theorem c71_djb_is_the_polynomial_of_the_bytes :
  forall data, is_bytes data ->
  DJBHash data 0 (N.of_nat (length data)) = Ok (horner 33 5381 data).
Proof. exact DJB_correct. Qed.
Print Assumptions c71_djb_is_the_polynomial_of_the_bytes.

(** "hello": the value of java.lang.String.hashCode, and of DJB. *)
Example c71_example : horner 31 0 [104; 101; 108; 108; 111] = 99162322
  /\ Times31 1 [104; 101; 108; 108; 111] 0 5 = Ok 99162322
  /\ DJBHash [104; 101; 108; 108; 111] 0 5 = Ok 261238937.
Proof. vm_compute. auto. Qed.

(** ** C72 *)

Theorem c72_ap_alternates_over_all_bytes :
  forall data, is_bytes data -> N.of_nat (length data) < 2 ^ 64 ->
  APHash data 0 (N.of_nat (length data)) = Ok (ap_hash true 0 data).
Proof. exact AP_correct. Qed.
Print Assumptions c72_ap_alternates_over_all_bytes.

Example c72_example : exists h, APHash [1; 2; 3; 4; 5; 6; 7] 0 7 = Ok h
  /\ ap_hash true 0 [1; 2; 3; 4; 5; 6; 7] = h /\ h <> 0.
Proof. eexists. split; [vm_compute; reflexivity|]. split; [vm_compute; reflexivity|discriminate]. Qed.

(** ** C73 *)

Theorem c73_simple_crc_is_crc32c :
  forall n data, n = 4%nat \/ n = 8%nat -> is_bytes data ->
  intel_crc32_simple n data 0 (N.of_nat (length data)) = Ok (crc32c data).
Proof. exact crc_simple_correct. Qed.
Print Assumptions c73_simple_crc_is_crc32c.

(** The check value of CRC-32C for "123456789" is E3069283. *)
Example c73_example : crc32c [49; 50; 51; 52; 53; 54; 55; 56; 57] = 3808858755
  /\ intel_crc32_simple 8 [49; 50; 51; 52; 53; 54; 55; 56; 57] 0 9 = Ok 3808858755.
Proof. vm_compute. auto. Qed.

(** ** C74 *)

(** Every key whose length is not a multiple of the word is read beyond its end. *)
Theorem c74_hash_crc32_reads_only_the_key_refuted :
  exists data, is_bytes data /\ hash_crc32 data 0 (N.of_nat (length data)) = Err EUndef.
Proof.
  exact (ex_intro _ [97; 98; 99]
           (conj (Forall_cons 97 eq_refl (Forall_cons 98 eq_refl (Forall_cons 99 eq_refl
                   (Forall_nil _)))) eq_refl)).
Qed.
Print Assumptions c74_hash_crc32_reads_only_the_key_refuted.

Theorem c74_reads_beyond_exactly_for_other_lengths_partial :
  forall n data extra, n = 4%nat \/ n = 8%nat -> is_bytes data ->
  intel_crc32 n (data ++ extra) 0 (N.of_nat (length data)) =
  if ((n - length data mod n) mod n <=? length extra)%nat
  then Ok (crc32c_reg (zero_pad n data))
  else Err EUndef.
Proof. exact crc_correct. Qed.
Print Assumptions c74_reads_beyond_exactly_for_other_lengths_partial.

Example c74_example : hash_crc32 ([97; 98; 99] ++ [1; 2; 3; 4; 5]) 0 3 =
                      hash_crc32 ([97; 98; 99] ++ [9; 9; 9; 9; 9; 9]) 0 3
  /\ hash_crc32 ([97; 98; 99] ++ [1; 2; 3; 4]) 0 3 = Err EUndef.
Proof. vm_compute. auto. Qed.

(** ** C75 *)

(** Zeros at the end of a key do not change the hash as long as they fit in its last word. *)
Theorem c75_hash_crc32_depends_on_the_length_refuted :
  forall data k extra extra',
  is_bytes data -> (length data mod 8 <> 0)%nat -> (length data mod 8 + k <= 8)%nat ->
  (7 <= length extra)%nat -> (7 <= length extra')%nat ->
  exists h,
    hash_crc32 (data ++ extra) 0 (N.of_nat (length data)) = Ok h
    /\ hash_crc32 ((data ++ repeat 0 k) ++ extra') 0 (N.of_nat (length (data ++ repeat 0 k))) = Ok h.
Proof. exact crc_zeros. Qed.
Print Assumptions c75_hash_crc32_depends_on_the_length_refuted.

Example c75_example :
  hash_crc32 ([97] ++ repeat 5 7) 0 1 = hash_crc32 ([97; 0; 0; 0] ++ repeat 6 7) 0 4
  /\ hash_crc32 ([97] ++ repeat 5 7) 0 1 <> hash_crc32 ([98] ++ repeat 5 7) 0 1.
Proof. vm_compute. split; [reflexivity|discriminate]. Qed.

(** ** C76 *)

Theorem c76_primary_hash_reads_only_the_key_refuted :
  forall n data seed, n = 4%nat \/ n = 8%nat -> is_bytes data ->
  N.of_nat (length data) < 2 ^ 64 -> (length data mod n <> 0)%nat ->
  primaryHash_x86 n data 0 (N.of_nat (length data)) seed = Err EUndef.
Proof. exact primary_over_read. Qed.
Print Assumptions c76_primary_hash_reads_only_the_key_refuted.

(** What follows the key does not matter if it may be read. *)
Theorem c76_primary_hash_ignores_what_follows_partial :
  forall n data seed, n = 4%nat \/ n = 8%nat -> is_bytes data ->
  N.of_nat (length data) < 2 ^ 64 ->
  exists h, forall extra : list N, (n <= S (length extra))%nat ->
    primaryHash_x86 n (data ++ extra) 0 (N.of_nat (length data)) seed = Ok h.
Proof. exact primary_padded. Qed.
Print Assumptions c76_primary_hash_ignores_what_follows_partial.

(** Unlike hash_crc32 it mixes in the length. *)
Theorem c76_primary_hash_separates_zeros_at_the_end :
  forall data k extra extra' seed,
  is_bytes data -> N.of_nat (length data) + N.of_nat k < 2 ^ 64 -> (0 < k)%nat ->
  (length data mod 8 <> 0)%nat -> (length data mod 8 + k <= 8)%nat ->
  (7 <= length extra)%nat -> (7 <= length extra')%nat ->
  exists h h',
    primaryHash_x86 8 (data ++ extra) 0 (N.of_nat (length data)) seed = Ok h
    /\ primaryHash_x86 8 ((data ++ repeat 0 k) ++ extra') 0 (N.of_nat (length (data ++ repeat 0 k)))
         seed = Ok h'
    /\ h <> h'.
Proof. exact primary_zeros. Qed.
Print Assumptions c76_primary_hash_separates_zeros_at_the_end.

Example c76_example : exists h h',
  primaryHash_x86 8 ([97; 98; 99] ++ repeat 5 7) 0 3 1 = Ok h
  /\ primaryHash_x86 8 ([97; 98; 99; 0] ++ repeat 6 7) 0 4 1 = Ok h' /\ h <> h'
  /\ primaryHash_x86 8 [97; 98; 99] 0 3 1 = Err EUndef.
Proof.
  eexists. eexists. split; [vm_compute; reflexivity|]. split; [vm_compute; reflexivity|].
  split; [discriminate|vm_compute; reflexivity].
Qed.

(** ** C77 *)

Theorem c77_primary_hash_is_a_function_of_the_key_refuted :
  exists data mem mem',
  is_bytes mem /\ is_bytes mem' /\
  firstn 8 (skipn 8 mem) = data /\ firstn 8 (skipn 9 mem') = data /\
  exists h h', primaryHash_other 8 mem 8 8 0 = Ok h /\ primaryHash_other 8 mem' 9 8 0 = Ok h' /\
    h <> h'.
Proof. exact primary_other_alignment. Qed.
Print Assumptions c77_primary_hash_is_a_function_of_the_key_refuted.

(** The byte before a key changes its hash. *)
Theorem c77_primary_hash_ignores_what_precedes_refuted :
  exists b b' data rest h h',
  is_byte b /\ is_byte b' /\ is_bytes data /\
  primaryHash_other 4 ([0; 0; 0; 0] ++ b :: data ++ rest) 5 (N.of_nat (length data)) 0 = Ok h /\
  primaryHash_other 4 ([0; 0; 0; 0] ++ b' :: data ++ rest) 5 (N.of_nat (length data)) 0 = Ok h' /\
  h <> h'.
Proof. exact primary_other_before. Qed.
Print Assumptions c77_primary_hash_ignores_what_precedes_refuted.

(** ** C78 *)

Theorem c78_arm_multiplication_is_the_128_bit_product :
  forall x y, x < 2 ^ 64 -> y < 2 ^ 64 ->
  uint128_mul_arm x y = ((x * y) mod 2 ^ 64, x * y / 2 ^ 64).
Proof. exact uint128_arm_correct. Qed.
Print Assumptions c78_arm_multiplication_is_the_128_bit_product.

Theorem c78_portable_mum_is_the_folded_product :
  forall x y, x < 2 ^ 64 -> y < 2 ^ 64 ->
  mum_mul_mix64_portable x y = N.lxor ((x * y) mod 2 ^ 64) (x * y / 2 ^ 64).
Proof. exact mum_portable_correct. Qed.
Print Assumptions c78_portable_mum_is_the_folded_product.

Theorem c78_mum_hash_is_the_folded_product :
  forall x y, mum_hash64 x y = N.lxor ((x * y) mod 2 ^ 64) (x * y / 2 ^ 64).
Proof. exact mum_hash64_spec. Qed.
Print Assumptions c78_mum_hash_is_the_folded_product.

Theorem c78_generic_multiplication_is_the_128_bit_product_refuted :
  exists x y, x < 2 ^ 64 /\ y < 2 ^ 64 /\
  uint128_mul_generic x y <> ((x * y) mod 2 ^ 64, x * y / 2 ^ 64).
Proof. exact uint128_generic_wrong. Qed.
Print Assumptions c78_generic_multiplication_is_the_128_bit_product_refuted.

(** The low half is always right, the high one is right exactly when the sum of the middle
    products fits in 64 bits, and is 2^32 less otherwise. *)
Theorem c78_generic_multiplication_value :
  forall x y, x < 2 ^ 64 -> y < 2 ^ 64 ->
  fst (uint128_mul_generic x y) = (x * y) mod 2 ^ 64
  /\ snd (uint128_mul_generic x y)
     + 2 ^ 32 * ((x / 2 ^ 32 * (y mod 2 ^ 32) + x mod 2 ^ 32 * (y / 2 ^ 32)
                  + x mod 2 ^ 32 * (y mod 2 ^ 32) / 2 ^ 32) / 2 ^ 64)
     = x * y / 2 ^ 64.
Proof. exact uint128_generic_value. Qed.
Print Assumptions c78_generic_multiplication_value.

Example c78_example :
  uint128_mul_arm (2 ^ 64 - 1) (2 ^ 64 - 1) = (1, 2 ^ 64 - 2)
  /\ mum_mul_mix64_portable (2 ^ 64 - 1) (2 ^ 64 - 1) = 2 ^ 64 - 1
  /\ uint128_mul_generic (2 ^ 64 - 1) (2 ^ 64 - 1) = (1, 2 ^ 64 - 2 - 2 ^ 32)
  /\ uint128_mul_generic (2 ^ 63 + 1) (2 ^ 32 + 1) = ((2 ^ 63 + 1) * (2 ^ 32 + 1) mod 2 ^ 64, 2 ^ 31).
Proof. vm_compute. auto. Qed.

(** ** C79 *)

Theorem c79_msvc_fnv_1a_is_fnv_1a_refuted :
  exists d4 d8, length d4 = 4%nat /\ length d8 = 8%nat /\ is_bytes d4 /\ is_bytes d8 /\
  msvc_fnv_1a d4 0 4 <> Ok (fnv_1a d4) /\ msvc_fnv_1a d8 0 8 <> Ok (fnv_1a d8).
Proof. exact fnv_4_8_wrong. Qed.
Print Assumptions c79_msvc_fnv_1a_is_fnv_1a_refuted.

Theorem c79_msvc_fnv_1a_is_fnv_1a_for_other_lengths_partial :
  forall data, (length data <> 4)%nat -> (length data <> 8)%nat ->
  msvc_fnv_1a data 0 (N.of_nat (length data)) = Ok (fnv_1a data).
Proof. exact fnv_correct. Qed.
Print Assumptions c79_msvc_fnv_1a_is_fnv_1a_for_other_lengths_partial.

(** FNV-1a of "foobar" is 85944171f73967e8. *)
Example c79_example : msvc_fnv_1a [102; 111; 111; 98; 97; 114] 0 6 = Ok 9625390261332436968.
Proof. vm_compute. reflexivity. Qed.

(** ** C80 *)

Theorem c80_bkdr_notices_every_byte :
  byte_sensitive (fun data len => defined (BKDRHash 131 1 data 0 len)).
Proof. exact BKDR131_sens. Qed.
Print Assumptions c80_bkdr_notices_every_byte.

Theorem c80_times31_notices_every_byte :
  byte_sensitive (fun data len => defined (Times31 1 data 0 len)).
Proof. exact Times31_sens. Qed.
Print Assumptions c80_times31_notices_every_byte.

Theorem c80_times31std_notices_every_byte :
  byte_sensitive (fun data len => defined (Times31Std 1 data 0 len)).
Proof. exact Times31Std_sens. Qed.
Print Assumptions c80_times31std_notices_every_byte.

Theorem c80_djb_notices_every_byte :
  byte_sensitive (fun data len => defined (DJBHash data 0 len)).
Proof. exact DJB_sens. Qed.
Print Assumptions c80_djb_notices_every_byte.

Theorem c80_ap_notices_every_byte :
  byte_sensitive (fun data len => defined (APHash data 0 len)).
Proof. exact AP_sens. Qed.
Print Assumptions c80_ap_notices_every_byte.

Theorem c80_openssl_notices_every_byte :
  byte_sensitive (fun data len => defined (OpenSSL_Hash data 0 len)).
Proof. exact ossl_sens'. Qed.
Print Assumptions c80_openssl_notices_every_byte.

Theorem c80_msvc_fnv_1a_notices_every_byte :
  byte_sensitive (fun data len => defined (msvc_fnv_1a data 0 len)).
Proof. exact fnv_sens'. Qed.
Print Assumptions c80_msvc_fnv_1a_notices_every_byte.

Theorem c80_simple_crc_notices_every_byte :
  forall n, n = 4%nat \/ n = 8%nat ->
  byte_sensitive (fun data len => defined (intel_crc32_simple n data 0 len)).
Proof. exact crc_simple_sens. Qed.
Print Assumptions c80_simple_crc_notices_every_byte.

Theorem c80_crc_notices_every_byte :
  forall n (extra : list N), n = 4%nat \/ n = 8%nat -> (n <= S (length extra))%nat ->
  byte_sensitive (fun data len => defined (intel_crc32 n (data ++ extra) 0 len)).
Proof. exact crc_pad_sens. Qed.
Print Assumptions c80_crc_notices_every_byte.

Theorem c80_primary_hash_notices_every_byte :
  forall n (extra : list N) seed, n = 4%nat \/ n = 8%nat -> (n <= length extra)%nat ->
  byte_sensitive (fun data len => defined (primaryHash_x86 n (data ++ extra) 0 len seed)).
Proof. exact primary_sens'. Qed.
Print Assumptions c80_primary_hash_notices_every_byte.

Example c80_example :
  OpenSSL_Hash [1; 2; 3] 0 3 <> OpenSSL_Hash [1; 2; 4] 0 3
  /\ APHash [1; 2; 3; 4; 5] 0 5 <> APHash [1; 2; 3; 4; 6] 0 5
  /\ hash_crc32 ([1; 2; 3] ++ repeat 9 7) 0 3 <> hash_crc32 ([1; 7; 3] ++ repeat 9 7) 0 3.
Proof. vm_compute. repeat split; discriminate. Qed.

(** ** C81 *)

Theorem c81_index_of_mum_policy_is_below_the_capacity :
  forall excl k h, 1 <= k -> k <= 63 -> h < 2 ^ 64 ->
  mum_index excl (policy_shift (2 ^ k)) h < 2 ^ k.
Proof. exact mum_index_lt. Qed.
Print Assumptions c81_index_of_mum_policy_is_below_the_capacity.

Example c81_example : mum_index false (policy_shift (2 ^ 20)) 12345 = 660173
  /\ mum_index true (policy_shift (2 ^ 4)) (2 ^ 63) = 8.
Proof. vm_compute. auto. Qed.

(** ** C82 *)

(** Up to 2^28 slots the index is the same for all keys. *)
Theorem c82_fibonacci_policy_uses_all_slots_refuted :
  forall k h, k <= 28 -> fibonacci_index false (policy_shift (2 ^ k)) h = 0.
Proof. exact fibonacci_index_zero. Qed.
Print Assumptions c82_fibonacci_policy_uses_all_slots_refuted.

(** So it is for strings, whose hash is not mixed, with a hasher of 32 bits. *)
Theorem c82_policies_use_all_slots_for_strings_refuted :
  forall k h, k <= 32 -> h < 2 ^ 32 ->
  mum_index true (policy_shift (2 ^ k)) h = 0 /\ fibonacci_index true (policy_shift (2 ^ k)) h = 0.
Proof. exact excluded_index_zero. Qed.
Print Assumptions c82_policies_use_all_slots_for_strings_refuted.

Example c82_example :
  fibonacci_index false (policy_shift (2 ^ 20)) 12345 = 0
  /\ mum_index false (policy_shift (2 ^ 20)) 12345 <> 0.
Proof. exact fibonacci_spread_example. Qed.

(** ** C83 *)

Theorem c83_crc_of_integers_separates_32_bit_keys_partial :
  forall v v', v < 2 ^ 32 -> v' < 2 ^ 32 ->
  (simple_int_hash_crc32 v = simple_int_hash_crc32 v' -> v = v')
  /\ (int_hash_crc32 v = int_hash_crc32 v' -> v = v').
Proof. exact int_crc_inj32. Qed.
Print Assumptions c83_crc_of_integers_separates_32_bit_keys_partial.

Theorem c83_crc_of_integers_separates_64_bit_keys_refuted :
  forall v, v < 2 ^ 64 -> exists v', v' < 2 ^ 64 /\ v' <> v
  /\ int_hash_crc32 v' = int_hash_crc32 v /\ simple_int_hash_crc32 v' = simple_int_hash_crc32 v.
Proof. exact int_crc_collide. Qed.
Print Assumptions c83_crc_of_integers_separates_64_bit_keys_refuted.

(** The upper half of the 64-bit hash holds nothing that the lower half does not. *)
Theorem c83_halves_of_the_hash_are_independent_refuted :
  forall v, v < 2 ^ 64 ->
  N.lxor (int_hash_crc32 v mod 2 ^ 32) (int_hash_crc32 v / 2 ^ 32) = int_hash_crc32 0.
Proof. exact int_crc_halves. Qed.
Print Assumptions c83_halves_of_the_hash_are_independent_refuted.

Example c83_example :
  int_hash_crc32 1 <> int_hash_crc32 2
  /\ N.lxor (int_hash_crc32 7 mod 2 ^ 32) (int_hash_crc32 7 / 2 ^ 32) = 1943489909.
Proof. vm_compute. split; [discriminate|reflexivity]. Qed.

(** ** C84 *)

Theorem c84_equal_floating_point_keys_hash_equally_refuted :
  forall f,
  defined (object_getHashCode f [0; 0; 0; 0; 0; 0; 0; 0]) <>        (* +0.0 *)
  defined (object_getHashCode f [0; 0; 0; 0; 0; 0; 0; 128]).        (* -0.0 *)
Proof. exact zero_hashes. Qed.
Print Assumptions c84_equal_floating_point_keys_hash_equally_refuted.

Theorem c84_float_keys_are_read_inside_the_object_refuted :
  forall object, length object = 4%nat -> is_bytes object ->
  object_getHashCode HashFunc_CRC32C object = Err EUndef.
Proof. exact float_over_read. Qed.
Print Assumptions c84_float_keys_are_read_inside_the_object_refuted.

Example c84_example : object_getHashCode HashFunc_Time31 [0; 0; 0; 0] = Ok 0
  /\ object_getHashCode HashFunc_Time31 [0; 0; 0; 128] = Ok 128.
Proof. vm_compute. auto. Qed.

(** ** C85 *)

Theorem c85_wide_strings_are_read_inside_the_string_refuted :
  forall w (mem : list N) size, (w = 2 \/ w = 4)%nat -> 0 < size ->
  N.of_nat (length mem) = size * N.of_nat w -> N.of_nat (length mem) < 2 ^ 64 ->
  defined (string_getHashCode HashFunc_Time31 w mem 0 size) = None
  /\ defined (string_getHashCode HashFunc_Time31Std w mem 0 size) = None.
Proof. exact wide_string_over_read. Qed.
Print Assumptions c85_wide_strings_are_read_inside_the_string_refuted.

(** With CRC32C the bytes of all characters are hashed; the reads stay inside the string if its
    bytes are a multiple of 8. *)
Theorem c85_crc_of_wide_strings_partial :
  forall w data extra size,
  is_bytes data -> N.of_nat (length data) = size * N.of_nat w -> N.of_nat (length data) < 2 ^ 64 ->
  string_getHashCode HashFunc_CRC32C w (data ++ extra) 0 size =
  if ((8 - length data mod 8) mod 8 <=? length extra)%nat
  then Ok (crc32c_reg (zero_pad 8 data))
  else Err EUndef.
Proof. exact wide_string_crc. Qed.
Print Assumptions c85_crc_of_wide_strings_partial.

Example c85_example :
  string_getHashCode HashFunc_Time31 2 [97; 0; 98; 0] 0 2 = Err EUndef
  /\ string_getHashCode HashFunc_Time31 1 [97; 98] 0 2 = Ok 3105.
Proof. vm_compute. auto. Qed.

(** ** C86 *)

Theorem c86_rocksdb_hash_is_defined_refuted :
  exists data, is_bytes data /\ rocksdb_Hash data 0 (N.of_nat (length data)) 0 = Err EUndef.
Proof.
  exact (ex_intro _ [97; 195]
           (conj (Forall_cons 97 eq_refl (Forall_cons 195 eq_refl (Forall_nil _))) eq_refl)).
Qed.
Print Assumptions c86_rocksdb_hash_is_defined_refuted.

(** It is defined exactly if no byte behind the first one after the last whole word is
    negative as a signed char. *)
Theorem c86_rocksdb_hash_is_defined_for_ascii_partial :
  forall data seed,
  (exists h, rocksdb_Hash data 0 (N.of_nat (length data)) seed = Ok h) <->
  (forall i, (length data / 4 * 4 < i < length data)%nat -> nth i data 0 < 128).
Proof. exact rocksdb_defined. Qed.
Print Assumptions c86_rocksdb_hash_is_defined_for_ascii_partial.

Example c86_example : exists h, rocksdb_Hash [97; 98; 99; 195; 195; 99] 0 6 1 = Ok h /\ h <> 0.
Proof. eexists. split; [vm_compute; reflexivity|discriminate]. Qed.

(** ** C87 *)

Theorem c87_hash_of_a_pointer_depends_on_the_pointer_only_refuted :
  forall f, exists mem mem' key h h',
  length mem = length mem' /\ is_bytes mem /\ is_bytes mem' /\
  pointer_getHashCode f mem key = Ok h /\ pointer_getHashCode f mem' key = Ok h' /\ h <> h'.
Proof. exact pointer_content. Qed.
Print Assumptions c87_hash_of_a_pointer_depends_on_the_pointer_only_refuted.

(** Pointers to objects of four bytes. *)
Theorem c87_pointer_keys_are_read_inside_the_object_refuted :
  forall f object, length object = 4%nat -> defined (pointer_getHashCode f object 0) = None.
Proof. exact pointer_over_read. Qed.
Print Assumptions c87_pointer_keys_are_read_inside_the_object_refuted.

Example c87_example : pointer_getHashCode HashFunc_Time31 [0; 0; 0; 0; 0; 0; 0; 5] 0 = Ok 5.
Proof. vm_compute. reflexivity. Qed.
