(** Examples and refutations in the form in which PropertiesBits.v states them. *)
From Coq Require Import NArith ZArith List Bool Lia Permutation.
From Verif Require Import Base BaseFacts BitSpec Pow2Spec BitsModel ProberModel GroupModel SmallProps LayoutModel
  LayoutFacts Pow2Facts FallbackModel FallbackFacts FallbackFacts2.
Import ListNotations.
Open Scope N_scope.

Lemma c23_example_lemma :
  map fst (rounds 8 7 (prober_init 5)) = [5; 6; 0; 3; 7; 4; 2; 1]
  /\ map snd (rounds 8 7 (prober_init 5)) = [true; true; true; true; true; true; true; false].
Proof. split; vm_compute; reflexivity. Qed.

Definition sample : group := [0; 7; 200; 1; 0; 8; 255; 0; 9; 3; 3; 128; 130; 0; 66; 170].

Lemma c24_example_lemma :
  sixteen_bytes sample
  /\ match_empty15 sample = 1 + 16 + 128 + 8192
  /\ match_hash15 sample (reduced_hash15 (2 ^ 50 + 3)) = 512 + 1024
  /\ match_empty16 sample = 1 + 16 + 128 + 2048 + 8192
  /\ match_hash16 sample (reduced_hash16 (2 ^ 50 + 2)) = 4096.
Proof.
  split; [split; [reflexivity|repeat constructor]|]. vm_compute. repeat split; reflexivity.
Qed.

Lemma c28_example_lemma :
  round_up 0 1000 = Ok 1024 /\ round_down 0 1024 = Ok 512 /\ round_to 0 1024 = Ok 1024
  /\ next_pow2 0 1024 = Ok 2048 /\ prev_pow2 0 1000 = Ok 256 /\ log2_int 0 1000 = 10.
Proof. vm_compute. repeat split; reflexivity. Qed.

Lemma c29_popcount x : x < two32 ->
  popcnt_fast x = ones x /\ popcnt_slow x = ones x /\ popcnt_hakmem x = ones x.
Proof.
  intros H. split; [now apply popcnt_fast_spec|]. split; [now apply popcnt_slow_spec|now apply popcnt_hakmem_spec].
Qed.

Lemma c29_leading x i : x < two32 -> highest_bit x i -> clz32 x = 31 - i /\ ms1b32 x = 2 ^ i.
Proof. intros H Hi. split; [now apply clz32_spec|now apply ms1b32_spec]. Qed.

Lemma c29_trailing x i : x < two32 -> lowest_bit x i -> ctz32 x = i /\ ls1b32 x = 2 ^ i.
Proof. intros H Hi. split; [now apply ctz32_spec|now apply ls1b32_spec]. Qed.

Lemma c29_zero : clz32 0 = 32 /\ ctz32 0 = 32.
Proof. split; [exact clz32_zero|exact ctz32_zero]. Qed.

Lemma c29_wide x i j : x < two64 -> highest_bit x i -> lowest_bit x j ->
  narrow_popcnt64 x = ones x /\ narrow_bsr64 x = i /\ ms1b64 x = 2 ^ i /\ ls1b64 x = 2 ^ j.
Proof.
  intros H Hi Hj. split; [now apply narrow_popcnt64_spec|]. split; [now apply narrow_bsr64_spec|].
  split; [now apply ms1b64_spec|now apply ls1b64_spec].
Qed.

Lemma c29_example_lemma :
  highest_bit (2 ^ 20 + 2 ^ 7) 20 /\ lowest_bit (2 ^ 20 + 2 ^ 7) 7
  /\ ones (2 ^ 20 + 2 ^ 7) = 2 /\ clz32 (2 ^ 20 + 2 ^ 7) = 11 /\ ctz32 (2 ^ 20 + 2 ^ 7) = 7.
Proof.
  split; [split; [reflexivity|]|split; [split; [reflexivity|]|vm_compute; repeat split; reflexivity]].
  - intros j Hj. apply N.bits_above_log2. change (N.log2 (2 ^ 20 + 2 ^ 7)) with 20. exact Hj.
  - intros j Hj. assert (H : j = 0 \/ j = 1 \/ j = 2 \/ j = 3 \/ j = 4 \/ j = 5 \/ j = 6) by lia.
    destruct H as [->|[->|[->|[->|[->|[->| ->]]]]]]; reflexivity.
Qed.

Lemma c29_popcnt64 : exists x, x < two64 /\ popcnt64 x <> ones x.
Proof. exists (2 ^ 32). split; [reflexivity|]. vm_compute. discriminate. Qed.
Lemma c29_ctz64 : exists x i, x < two64 /\ lowest_bit x i /\ ctz64 x <> i.
Proof. exists (2 ^ 40), 40. split; [reflexivity|]. destruct ctz64_wrong. auto. Qed.
Lemma c29_clz64 : exists x i, x < two64 /\ highest_bit x i /\ clz64 x <> 63 - i.
Proof. exists (2 ^ 40), 40. split; [reflexivity|]. destruct clz64_wrong. auto. Qed.
Lemma c29_bsr32 : exists x i, x < two32 /\ highest_bit x i /\ generic_bsr32 x <> i.
Proof.
  exists 1, 0. split; [reflexivity|]. destruct generic_bsr32_wrong as [E H]. split; auto. rewrite E. discriminate.
Qed.
Lemma c29_bsf64 : exists x i, x < two64 /\ lowest_bit x i /\ narrow_bsf64 x <> i.
Proof.
  exists 1, 0. split; [reflexivity|]. destruct narrow_bsf64_wrong as [E H]. split; auto. rewrite E. discriminate.
Qed.

Lemma c30_example_lemma :
  239 * 24 + 16 + 16 * 16 + 24 <= two64
  /\ 4096 + 8 + total_slot_alloc_count 24 16 239 * 24 < two64
  /\ aligned_slots_and_groups 24 (4096 + 8) 239 = 9840
  /\ total_slot_alloc_count 24 16 239 = 251.
Proof. repeat split; vm_compute; try reflexivity; discriminate. Qed.

Lemma c30_lemma : exists sz gcap sc,
  0 < sz /\ gcap * 15 = sc + 1 /\ gcap * 16 <= 2 ^ 55 /\ total_slot_alloc_count sz gcap sc < sc.
Proof.
  exists (2 ^ 21), (2 ^ 43), (15 * 2 ^ 43 - 1). split; [reflexivity|]. split; [reflexivity|].
  split; [vm_compute; discriminate|exact one_block_wraps].
Qed.
