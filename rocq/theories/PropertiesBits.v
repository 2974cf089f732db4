(** Properties of the parts: prober, groups, powers of two, bit counting, memory layout
    (C23-C25, C28-C30). *)
From Coq Require Import NArith List Bool Permutation.
From Verif Require Import Base BitSpec Pow2Spec BitsModel ProberModel GroupModel SmallProps LayoutModel
  LayoutFacts Pow2Facts FallbackModel FallbackFacts FallbackFacts2 PropertyFacts3 FallbackGeneric.
Import ListNotations.
Open Scope N_scope.

(** ** C23 *)

(** [rounds n mask p]: the index looked at and the result of next_bucket, n times. *)
Theorem c23_prober_visits_every_group :
  forall k home, k <= 64 -> home < 2 ^ k ->
  Permutation (map fst (rounds (N.to_nat (2 ^ k)) (2 ^ k - 1) (prober_init home))) (seqN (2 ^ k)).
Proof. exact prober_visits_all. Qed.
Print Assumptions c23_prober_visits_every_group.

Theorem c23_prober_stops_after_all_groups :
  forall k home, k <= 63 -> home < 2 ^ k ->
  map snd (rounds (N.to_nat (2 ^ k)) (2 ^ k - 1) (prober_init home))
  = repeat true (N.to_nat (2 ^ k) - 1) ++ [false].
Proof. exact prober_stops. Qed.
Print Assumptions c23_prober_stops_after_all_groups.

Example c23_example :
  map fst (rounds 8 7 (prober_init 5)) = [5; 6; 0; 3; 7; 4; 2; 1]
  /\ map snd (rounds 8 7 (prober_init 5)) = [true; true; true; true; true; true; true; false].
Proof. exact c23_example_lemma. Qed.

(** ** C24 *)

Theorem c24_group15_matching :
  forall g h, sixteen_bytes g ->
  (forall p, N.testbit (match_empty15 g) p = (p <? 15) && (byte g p =? 0))
  /\ (forall p, N.testbit (match_used15 g) p = (p <? 15) && negb (byte g p =? 0))
  /\ (forall p, N.testbit (match_hash15 g (reduced_hash15 h)) p = (p <? 15) && (byte g p =? reduced_hash15 h)).
Proof. exact group15_exact. Qed.
Print Assumptions c24_group15_matching.

Theorem c24_group15_updates :
  forall g p h, sixteen_bytes g -> p < 15 ->
  (forall q, byte (set_used15 g p (reduced_hash15 h)) q = if q =? p then reduced_hash15 h else byte g q)
  /\ (forall q, byte (set_empty15 g p) q = if q =? p then 0 else byte g q)
  /\ (forall q, q < 15 -> byte (set_overflow15 g h) q = byte g q)
  /\ (forall x, is_overflow15 (set_overflow15 g h) x = (x mod 8 =? h mod 8) || is_overflow15 g x)
  /\ (forall x, is_overflow15 (set_used15 g p (reduced_hash15 h)) x = is_overflow15 g x)
  /\ (forall x, is_overflow15 (set_empty15 g p) x = is_overflow15 g x).
Proof. exact group15_updates. Qed.
Print Assumptions c24_group15_updates.

Example c24_example :
  sixteen_bytes sample
  /\ match_empty15 sample = 1 + 16 + 128 + 8192
  /\ match_hash15 sample (reduced_hash15 (2 ^ 50 + 3)) = 512 + 1024
  /\ match_empty16 sample = 1 + 16 + 128 + 2048 + 8192
  /\ match_hash16 sample (reduced_hash16 (2 ^ 50 + 2)) = 4096.
Proof. exact c24_example_lemma. Qed.

(** ** C25 *)

Theorem c25_group16_matching :
  forall g h, sixteen_bytes g ->
  (forall p, N.testbit (match_empty16 g) p = (p <? 16) && (byte g p mod 128 =? 0))
  /\ (forall p, N.testbit (match_used16 g) p = (p <? 16) && negb (byte g p mod 128 =? 0))
  /\ (forall p, N.testbit (match_hash16 g (reduced_hash16 h)) p
                = (p <? 16) && (byte g p mod 128 =? reduced_hash16 h)).
Proof. exact group16_exact. Qed.
Print Assumptions c25_group16_matching.

Theorem c25_group16_updates :
  forall g p h, sixteen_bytes g -> p < 16 ->
  (forall q, byte (set_used16 g p (reduced_hash16 h)) q mod 128
             = if q =? p then reduced_hash16 h else byte g q mod 128)
  /\ (forall q, byte (set_empty16 g p) q mod 128 = if q =? p then 0 else byte g q mod 128)
  /\ (forall q, byte (set_overflow16 g h) q mod 128 = byte g q mod 128)
  /\ (forall x, is_overflow16 (set_overflow16 g h) x = (x mod 16 =? h mod 16) || is_overflow16 g x)
  /\ (forall x, is_overflow16 (set_used16 g p (reduced_hash16 h)) x = is_overflow16 g x)
  /\ (forall x, is_overflow16 (set_empty16 g p) x = is_overflow16 g x).
Proof. exact group16_updates. Qed.
Print Assumptions c25_group16_updates.

(** ** C28 *)

Theorem c28_is_pow2 : forall n, n < two64 -> is_pow2 n = true <-> n = 0 \/ pow2 n.
Proof. exact is_pow2_iff. Qed.
Print Assumptions c28_is_pow2.

Theorem c28_round_up :
  forall n, 1 <= n -> n <= 2 ^ 63 -> exists p, round_up 0 n = Ok p /\ least_pow2_ge n p.
Proof. exact round_up_least. Qed.
Print Assumptions c28_round_up.

Theorem c28_round_down :
  forall n, 2 <= n -> n < two64 -> exists p, round_down 0 n = Ok p /\ greatest_pow2_lt n p.
Proof. exact round_down_greatest. Qed.
Print Assumptions c28_round_down.

Theorem c28_round_to :
  forall n, 1 <= n -> n < two64 -> exists p, round_to 0 n = Ok p /\ greatest_pow2_le n p.
Proof. exact round_to_greatest. Qed.
Print Assumptions c28_round_to.

Theorem c28_next_pow2 :
  forall n, n < 2 ^ 63 -> exists p, next_pow2 0 n = Ok p /\ least_pow2_gt n p.
Proof. exact next_pow2_least. Qed.
Print Assumptions c28_next_pow2.

Theorem c28_prev_pow2 :
  forall n, 2 <= n -> n < two64 -> exists p, prev_pow2 0 n = Ok p /\ greatest_pow2_le n (2 * p).
Proof. exact prev_pow2_half. Qed.
Print Assumptions c28_prev_pow2.

Theorem c28_log2_int : forall n, 1 <= n -> n < two64 -> ceil_log2 n (log2_int 0 n).
Proof. exact log2_int_ceil. Qed.
Print Assumptions c28_log2_int.

(** No result exists: a shift by the width of the word. *)
Theorem c28_round_up_not_representable :
  forall n, 2 ^ 63 < n -> n < two64 -> round_up 0 n = Err EUndef.
Proof. exact round_up_big. Qed.
Print Assumptions c28_round_up_not_representable.

Theorem c28_next_pow2_not_representable :
  forall n, 2 ^ 63 <= n -> n < two64 -> next_pow2 0 n = Err EUndef.
Proof. exact next_pow2_big. Qed.
Print Assumptions c28_next_pow2_not_representable.

Example c28_example :
  round_up 0 1000 = Ok 1024 /\ round_down 0 1024 = Ok 512 /\ round_to 0 1024 = Ok 1024
  /\ next_pow2 0 1024 = Ok 2048 /\ prev_pow2 0 1000 = Ok 256 /\ log2_int 0 1000 = 10.
Proof. exact c28_example_lemma. Qed.

(** ** C29 *)

Theorem c29_popcount32_partial : forall x, x < two32 ->
  popcnt_fast x = ones x /\ popcnt_slow x = ones x /\ popcnt_hakmem x = ones x.
Proof. exact c29_popcount. Qed.
Print Assumptions c29_popcount32_partial.

Theorem c29_leading32_partial : forall x i, x < two32 -> highest_bit x i ->
  clz32 x = 31 - i /\ ms1b32 x = 2 ^ i.
Proof. exact c29_leading. Qed.
Print Assumptions c29_leading32_partial.

Theorem c29_trailing32_partial : forall x i, x < two32 -> lowest_bit x i ->
  ctz32 x = i /\ ls1b32 x = 2 ^ i.
Proof. exact c29_trailing. Qed.
Print Assumptions c29_trailing32_partial.

Theorem c29_zero32_partial : clz32 0 = 32 /\ ctz32 0 = 32.
Proof. exact c29_zero. Qed.
Print Assumptions c29_zero32_partial.

Theorem c29_wide_partial : forall x i j, x < two64 -> highest_bit x i -> lowest_bit x j ->
  narrow_popcnt64 x = ones x /\ narrow_bsr64 x = i /\ ms1b64 x = 2 ^ i /\ ls1b64 x = 2 ^ j.
Proof. exact c29_wide. Qed.
Print Assumptions c29_wide_partial.

Example c29_example :
  highest_bit (2 ^ 20 + 2 ^ 7) 20 /\ lowest_bit (2 ^ 20 + 2 ^ 7) 7
  /\ ones (2 ^ 20 + 2 ^ 7) = 2 /\ clz32 (2 ^ 20 + 2 ^ 7) = 11 /\ ctz32 (2 ^ 20 + 2 ^ 7) = 7.
Proof. exact c29_example_lemma. Qed.

Theorem c29_popcnt64_refuted : exists x, x < two64 /\ popcnt64 x <> ones x.
Proof. exact c29_popcnt64. Qed.
Print Assumptions c29_popcnt64_refuted.

Theorem c29_ctz64_refuted : exists x i, x < two64 /\ lowest_bit x i /\ ctz64 x <> i.
Proof. exact c29_ctz64. Qed.
Print Assumptions c29_ctz64_refuted.

Theorem c29_clz64_refuted : exists x i, x < two64 /\ highest_bit x i /\ clz64 x <> 63 - i.
Proof. exact c29_clz64. Qed.
Print Assumptions c29_clz64_refuted.

Theorem c29_bsr32_refuted : exists x i, x < two32 /\ highest_bit x i /\ generic_bsr32 x <> i.
Proof. exact c29_bsr32. Qed.
Print Assumptions c29_bsr32_refuted.

Theorem c29_bsf64_refuted : exists x i, x < two64 /\ lowest_bit x i /\ narrow_bsf64 x <> i.
Proof. exact c29_bsf64. Qed.
Print Assumptions c29_bsf64_refuted.

(** The scans for other compilers: forward correct for 32 bits only, backwards the number of
    leading zeros. *)
Theorem c29_generic_bsf32_partial : forall x i, x < two32 -> lowest_bit x i -> generic_bsf32 x = i.
Proof. exact generic_bsf32_spec. Qed.
Print Assumptions c29_generic_bsf32_partial.

Theorem c29_generic_bsr32_counts_leading_zeros :
  forall x i, x < two32 -> highest_bit x i -> generic_bsr32 x = 31 - i.
Proof. exact generic_bsr32_spec. Qed.
Print Assumptions c29_generic_bsr32_counts_leading_zeros.

Theorem c29_generic_scans_64_refuted :
  (exists x i, x < two64 /\ lowest_bit x i /\ generic_bsf64 x <> i)
  /\ exists x i, x < two64 /\ highest_bit x i /\ generic_bsr64 x <> i.
Proof. exact generic_64_wrong. Qed.
Print Assumptions c29_generic_scans_64_refuted.

(** ** C30 *)

(** group15: slots, then groups, in one block at address [a]. *)
Theorem c30_groups_fit_in_slot_block :
  forall sz gcap sc a, 0 < sz ->
  sc * sz + 16 + gcap * 16 + sz <= two64 ->
  a + total_slot_alloc_count sz gcap sc * sz < two64 ->
  exists groups, aligned_slots_and_groups sz a sc = groups /\ groups mod 16 = 0
    /\ a + sc * sz <= groups
    /\ groups + gcap * 16 <= a + total_slot_alloc_count sz gcap sc * sz.
Proof. exact one_block. Qed.
Print Assumptions c30_groups_fit_in_slot_block.

(** group16: the groups in a block of their own. *)
Theorem c30_groups_fit_in_group_block :
  forall gcap a, gcap * 16 + 32 <= two64 ->
  a + total_group_alloc_count gcap * 16 < two64 ->
  exists groups, aligned_groups a = groups /\ groups mod 16 = 0 /\ a <= groups
    /\ groups + gcap * 16 < a + total_group_alloc_count gcap * 16.
Proof. exact group_block. Qed.
Print Assumptions c30_groups_fit_in_group_block.

Example c30_example :
  239 * 24 + 16 + 16 * 16 + 24 <= two64
  /\ 4096 + 8 + total_slot_alloc_count 24 16 239 * 24 < two64
  /\ aligned_slots_and_groups 24 (4096 + 8) 239 = 9840
  /\ total_slot_alloc_count 24 16 239 = 251.
Proof. exact c30_example_lemma. Qed.

(** Without the bound on the size in bytes: fewer slots are requested than the table
    will use. *)
Theorem c30_size_wraps_refuted : exists sz gcap sc,
  0 < sz /\ gcap * 15 = sc + 1 /\ gcap * 16 <= 2 ^ 55 /\ total_slot_alloc_count sz gcap sc < sc.
Proof. exact c30_lemma. Qed.
Print Assumptions c30_size_wraps_refuted.
