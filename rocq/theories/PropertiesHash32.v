(** The integer hashes and the hash policies on machines of 32 bits (C217, C218).  The model
    is Hash32Model.v. *)
From Coq Require Import NArith List Bool.
From Verif Require Import Base Hash32Model Hash32Facts.
Import ListNotations.
Open Scope N_scope.

(** ** C217 *)

Theorem c217_mum_is_the_folded_product :
  forall x y, x < 2 ^ 32 -> y < 2 ^ 32 ->
  mum_hash32 x y = N.lxor ((x * y) mod 2 ^ 32) (x * y / 2 ^ 32)
  /\ mum_mul_mix32 x y = N.lxor ((x * y) mod 2 ^ 32) (x * y / 2 ^ 32).
Proof. exact mum32_spec. Qed.
Print Assumptions c217_mum_is_the_folded_product.

(** Where unsigned long has 64 bits, different words have different hashes. *)
Theorem c217_fibonacci_is_injective_with_long_of_64_bits :
  forall u v, u < 2 ^ 32 -> v < 2 ^ 32 -> fibonacci_hash32 64 u = fibonacci_hash32 64 v -> u = v.
Proof. exact fib32_inj. Qed.
Print Assumptions c217_fibonacci_is_injective_with_long_of_64_bits.

(** Where it has 32 bits, they need not. *)
Theorem c217_fibonacci_is_injective_with_long_of_32_bits_refuted :
  exists u v, u < 2 ^ 32 /\ v < 2 ^ 32 /\ u <> v /\ fibonacci_hash32 32 u = fibonacci_hash32 32 v.
Proof. exact fib32_collide. Qed.
Print Assumptions c217_fibonacci_is_injective_with_long_of_32_bits_refuted.

Example c217_example : mum_hash32 4294967295 4294967295 = 4294967295
  /\ mum_mul_mix32 4294967295 4294967295 = 4294967295 /\ mum_mul_mix_w32 1 = 3893885741
  /\ mum_index32 false (policy_shift32 (2 ^ 20)) 12345 = 660149
  /\ fibonacci_index32 false (policy_shift32 (2 ^ 20)) 12345 = 161
  /\ fibonacci_hash32 64 (2 ^ 32 - 1) = 2783377631878280.
Proof. exact hx32. Qed.

(** ** C218 *)

Theorem c218_index_of_mum_policy_is_below_the_capacity :
  forall excl k h, 1 <= k -> k <= 32 -> h < 2 ^ 32 ->
  mum_index32 excl (policy_shift32 (2 ^ k)) h < 2 ^ k.
Proof. exact mum_index32_lt. Qed.
Print Assumptions c218_index_of_mum_policy_is_below_the_capacity.

(** Of a table the fibonacci policy uses one slot in 4096, or the first one only. *)
Theorem c218_fibonacci_policy_uses_few_slots :
  forall k h, 1 <= k -> k <= 31 ->
  fibonacci_index32 false (policy_shift32 (2 ^ k)) h < (if k <=? 12 then 1 else 2 ^ (k - 12)).
Proof. exact fib_index32_small. Qed.
Print Assumptions c218_fibonacci_policy_uses_few_slots.

Theorem c218_every_slot_is_some_index_refuted :
  exists k slot, 1 <= k /\ k <= 31 /\ slot < 2 ^ k
  /\ forall h, fibonacci_index32 false (policy_shift32 (2 ^ k)) h <> slot.
Proof. exact fib_slots_unused. Qed.
Print Assumptions c218_every_slot_is_some_index_refuted.
