(** The bit scans for compilers other than MSVC, GCC and Clang. *)
From Coq Require Import NArith ZArith List Bool Lia.
From Verif Require Import Base BitsModel BitSpec FallbackModel FallbackFacts FallbackFacts2.
Open Scope N_scope.

Lemma generic_bsf32_spec x i : x < two32 -> lowest_bit x i -> generic_bsf32 x = i.
Proof. exact (ctz32_spec x i). Qed.

Lemma generic_bsr32_spec x i : x < two32 -> highest_bit x i -> generic_bsr32 x = 31 - i.
Proof. exact (clz32_spec x i). Qed.

Lemma generic_64_wrong :
  (exists x i, x < two64 /\ lowest_bit x i /\ generic_bsf64 x <> i)
  /\ exists x i, x < two64 /\ highest_bit x i /\ generic_bsr64 x <> i.
Proof.
  split.
  - exists (2 ^ 40), 40. split; [reflexivity|]. destruct ctz64_wrong as [A B]. split; [exact B|exact A].
  - exists 1, 0. split; [reflexivity|]. destruct generic_bsr32_wrong as [_ B]. split; [exact B|].
    vm_compute. discriminate.
Qed.
