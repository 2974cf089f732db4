(** Properties of the vector helpers (C153-C155), the string helper (C156), the array of
    string views (C157) and the bucket statistics (C158, C159).  The models are
    BitVecModel.v, HelperModel.v, ViewArrayModel.v and AnalyzerModel.v; [is_vec] (a vector of n
    bytes) and [replaced] are in BitVecFacts.v, [writes], [truncate_all], [recover_all],
    [va_keeping], [sumN] and [countb] in MiscFacts.v. *)
From Coq Require Import NArith ZArith List Bool.
From Verif Require Import Base BitsModel GroupModel TableModel TableInv ReachModel WitnessModel WitnessFacts2
  BitVecModel BitVecFacts HelperModel ViewArrayModel AnalyzerModel MiscFacts MiscMore.
Import ListNotations.
Open Scope N_scope.

(** ** C153 *)

Example c153_example : is_vec 32 some_vec /\ is_vec 16 some_junk.
Proof. exact some_vec_ok. Qed.

Theorem c153_extraction_reads_the_word :
  forall v, is_vec 32 v ->
  (forall i, (i < 16)%nat -> extract16 i v = lane 2 i v)
  /\ (forall i, (i < 8)%nat -> extract32 i v = lane 4 i v)
  /\ (forall i, (i < 4)%nat -> extract64 i v = lane 8 i v).
Proof. exact extract_words. Qed.
Print Assumptions c153_extraction_reads_the_word.

Theorem c153_insertion_of_16_bits :
  forall avx2 junk i v x, is_vec 32 v -> is_vec 16 junk -> (i < 16)%nat ->
  replaced 2 i x v (insert16 avx2 junk i v x) /\ replaced 2 i x v (insert16_gcc i v x).
Proof. exact insert16_replaced. Qed.
Print Assumptions c153_insertion_of_16_bits.

Theorem c153_insertion_of_64_bits :
  forall avx2 junk i v x, is_vec 32 v -> is_vec 16 junk -> (i < 4)%nat ->
  replaced 8 i x v (insert64 avx2 junk i v x).
Proof. exact insert64_replaced. Qed.
Print Assumptions c153_insertion_of_64_bits.

Theorem c153_insertion_of_32_bits_partial :
  forall avx2 junk i v x, is_vec 32 v -> is_vec 16 junk -> (i < 8)%nat ->
  avx2 = false \/ Nat.even i = true -> replaced 4 i x v (insert32 avx2 junk i v x).
Proof. exact insert32_replaced. Qed.
Print Assumptions c153_insertion_of_32_bits_partial.

(** Missing above: with AVX2, every odd word becomes 0 whatever is inserted. *)
Theorem c153_insertion_of_32_bits_refuted :
  exists junk i v x, is_vec 32 v /\ is_vec 16 junk /\ (i < 8)%nat /\ x < 2 ^ 32
  /\ ~ replaced 4 i x v (insert32 true junk i v x).
Proof. exact insert32_wrong. Qed.
Print Assumptions c153_insertion_of_32_bits_refuted.

Theorem c153_odd_words_become_zero :
  forall junk i v x, is_vec 32 v -> is_vec 16 junk -> (i < 8)%nat ->
  Nat.even i = false -> replaced 4 i 0 v (insert32 true junk i v x).
Proof. exact insert32_zero. Qed.
Print Assumptions c153_odd_words_become_zero.

(** ** C154 *)

Theorem c154_halves_of_the_lowest_word :
  forall n v, is_vec n v -> (4 <= n)%nat ->
  low_half v = lane 2 0 v /\ high_half v = lane 2 1 v /\ low_half256 v = lane 2 0 v.
Proof. exact halves. Qed.
Print Assumptions c154_halves_of_the_lowest_word.

Theorem c154_high_half_of_256_bits_refuted : exists v, is_vec 32 v /\ high_half256 v <> lane 2 1 v.
Proof. exact high256_wrong. Qed.
Print Assumptions c154_high_half_of_256_bits_refuted.

(** What it is instead: the sign is copied into the upper sixteen bits. *)
Theorem c154_high_half_of_256_bits_partial :
  forall v, is_vec 32 v ->
  high_half256 v = if lane 2 1 v <? 32768 then lane 2 1 v else 4294901760 + lane 2 1 v.
Proof. exact high256. Qed.
Print Assumptions c154_high_half_of_256_bits_partial.

Theorem c154_repeated_numbers :
  forall x,
  (forall j, (j < 4)%nat -> lane 4 j (set1_32 x) = x mod 2 ^ 32)
  /\ (forall j, (j < 2)%nat -> lane 8 j (set1_64 x) = x mod 2 ^ 64).
Proof. exact set1_lanes. Qed.
Print Assumptions c154_repeated_numbers.

Theorem c154_repeated_numbers_are_vectors :
  forall x, is_vec 16 (set1_32 x) /\ is_vec 16 (set1_64 x).
Proof. exact set1_vec. Qed.
Print Assumptions c154_repeated_numbers_are_vectors.

(** ** C155 *)

Theorem c155_comparison_of_signed_bytes :
  forall a b, is_vec 16 a -> is_vec 16 b ->
  length (cmpgt_fixed a b) = 16%nat /\ length (cmplt_fixed a b) = 16%nat
  /\ forall i x y, nth_error a i = Some x -> nth_error b i = Some y ->
     nth_error (cmpgt_fixed a b) i = Some (if (sbyte y <? sbyte x)%Z then 255 else 0)
     /\ nth_error (cmplt_fixed a b) i = Some (if (sbyte x <? sbyte y)%Z then 255 else 0).
Proof. exact cmpgt_spec. Qed.
Print Assumptions c155_comparison_of_signed_bytes.

Example c155_example :
  is_vec 16 (firstn 16 (skipn 16 some_vec)) /\ is_vec 16 some_junk
  /\ cmpgt_fixed (firstn 16 (skipn 16 some_vec)) some_junk = repeat 255 12 ++ repeat 0 4.
Proof. exact cmp_example. Qed.

(** ** C156 *)

(** truncate writes the terminator and nothing else; whatever the owner writes elsewhere in
    between, recover, detach and the destructor put the character back. *)
Theorem c156_truncate_and_recover :
  forall h mem d n, h_trunc h = false -> h_data h = Some d -> h_size h = n ->
  d + n < N.of_nat (length mem) ->
  exists mem1 h1, h_truncate mem h = Ok (mem1, h1)
    /\ geti mem1 (d + n) = Some 0 /\ (forall i, i <> d + n -> geti mem1 i = geti mem i)
    /\ forall l, Forall (fun p => fst p <> d + n) l ->
       (exists h2, h_recover (writes l mem1) h1 = Ok (writes l mem, h2) /\ h_trunc h2 = false)
       /\ (exists h2, h_detach (writes l mem1) h1 = Ok (writes l mem, h2) /\ h_data h2 = None).
Proof. exact helper_round. Qed.
Print Assumptions c156_truncate_and_recover.

(** While it is truncated, a helper refuses another string and puts the character back all the
    same; a moved helper puts it back, and the one it was moved from writes nothing. *)
Theorem c156_attached_again_or_moved :
  forall h mem d n l d' n', h_trunc h = false -> h_data h = Some d -> h_size h = n ->
  d + n < N.of_nat (length mem) -> Forall (fun p => fst p <> d + n) l ->
  exists mem1 h1, h_truncate mem h = Ok (mem1, h1)
    /\ snd (h_attach h1 d' n') = false
    /\ (exists h2, h_detach (writes l mem1) (fst (h_attach h1 d' n')) = Ok (writes l mem, h2))
    /\ (exists h2, h_detach (writes l mem1) (snd (h_move h1)) = Ok (writes l mem1, h2))
    /\ (exists h2, h_detach (writes l mem1) (fst (h_move h1)) = Ok (writes l mem, h2)).
Proof. exact helper_keeps. Qed.
Print Assumptions c156_attached_again_or_moved.

(** Any number of views, overlapping or not, recovered in the reverse order. *)
Theorem c156_nested_helpers :
  forall l mem, Forall (fun p => fst p + snd p < N.of_nat (length mem)) l ->
  exists mem' hs, truncate_all mem l = Ok (mem', hs) /\ recover_all mem' hs = Ok mem.
Proof. exact helper_nested. Qed.
Print Assumptions c156_nested_helpers.

Example c156_example :
  Forall (fun p => fst p + snd p < N.of_nat (length [97; 98; 99])) [(0, 2); (1, 1); (0, 0)].
Proof. exact helper_example. Qed.

(** In another order the characters are not restored. *)
Theorem c156_helpers_in_any_order_refuted :
  exists mem l mem' hs, Forall (fun p => fst p + snd p < N.of_nat (length mem)) l
  /\ truncate_all mem l = Ok (mem', hs) /\ length hs = 2%nat
  /\ exists mem2, recover_all mem' (rev hs) = Ok mem2 /\ mem2 <> mem.
Proof. exact helper_crossed. Qed.
Print Assumptions c156_helpers_in_any_order_refuted.

(** The destructor of a copy overwrites what the owner wrote after the recovery. *)
Theorem c156_copies_are_harmless_refuted :
  exists mem h mem1 h1 mem2 h2 i x mem3 h3,
  h_truncate mem h = Ok (mem1, h1) /\ h_recover mem1 h1 = Ok (mem2, h2) /\ mem2 = mem
  /\ h_detach (writes [(i, x)] mem2) (h_copy h1) = Ok (mem3, h3) /\ mem3 <> writes [(i, x)] mem2.
Proof. exact helper_copied. Qed.
Print Assumptions c156_copies_are_harmless_refuted.

(** detach keeps the reference if nothing was truncated. *)
Theorem c156_detach_clears_the_reference_refuted :
  exists mem h, h_data h = Some 0 /\ h_trunc h = false /\ h_detach mem h = Ok (mem, h).
Proof. exact helper_kept. Qed.
Print Assumptions c156_detach_clears_the_reference_refuted.

Theorem c156_detach_clears_the_reference_partial :
  forall h mem mem' h', h_trunc h = true -> h_detach mem h = Ok (mem', h') ->
  h_data h' = None /\ h_size h' = 0 /\ length mem' = length mem.
Proof. exact detached. Qed.
Print Assumptions c156_detach_clears_the_reference_partial.

(** ** C157 *)

(** The destructor deletes what the array holds, nothing twice; what remains are the
    elements that the array does not hold any more. *)
Theorem c157_destruction_after_any_calls :
  forall l a, va_run l va_new = Ok a ->
  exists live', va_destroy (va_ptrs a) (va_live a) = Ok live'
    /\ (forall p, In p live' <-> p < va_next a /\ ~ In (Some p) (va_ptrs a)).
Proof. exact va_destroyed. Qed.
Print Assumptions c157_destruction_after_any_calls.

Theorem c157_nothing_leaks_partial :
  forall l a, va_keeping l va_new -> va_run l va_new = Ok a ->
  va_destroy (va_ptrs a) (va_live a) = Ok [].
Proof. exact va_nothing_lost. Qed.
Print Assumptions c157_nothing_leaks_partial.

Example c157_example : va_keeping [VPush; VResize 3; VPush] va_new
  /\ exists a, va_run [VPush; VResize 3; VPush] va_new = Ok a /\ va_ptrs a = [Some 0; None; None; Some 1]
    /\ va_get a 1 = Some None /\ va_at a 1 = Err EUndef /\ va_at a 3 = Ok 1.
Proof. exact va_example. Qed.

(** Missing above: clear, pop_back and resize to fewer elements drop the pointers. *)
Theorem c157_nothing_leaks_refuted :
  (exists a, va_run [VPush; VPush; VClear] va_new = Ok a /\ va_destroy (va_ptrs a) (va_live a) = Ok [1; 0])
  /\ (exists a, va_run [VPush; VPush; VPop] va_new = Ok a /\ va_destroy (va_ptrs a) (va_live a) = Ok [1])
  /\ (exists a, va_run [VPush; VPush; VResize 1] va_new = Ok a /\ va_destroy (va_ptrs a) (va_live a) = Ok [1]).
Proof. exact va_lost. Qed.
Print Assumptions c157_nothing_leaks_refuted.

(** ** C158 *)

Theorem c158_bucket_sizes_add_up_to_the_size_refuted :
  forall kd, group_kind kd ->
  exists t, built N N idhash N.eqb kd t /\ t_size _ _ t = 10
    /\ sumN (map (bucket_size N N t) (seqN (bucket_count N N kd t))) <> t_size _ _ t.
Proof. exact buckets_wrong. Qed.
Print Assumptions c158_bucket_sizes_add_up_to_the_size_refuted.

(** Every bucket is said to hold one element. *)
Theorem c158_bucket_sizes_add_up_to_the_capacity_partial :
  forall K V kd t, sumN (map (bucket_size K V t) (seqN (bucket_count K V kd t))) = capacity K V kd t.
Proof. exact buckets_sum. Qed.
Print Assumptions c158_bucket_sizes_add_up_to_the_capacity_partial.

(** ** C159 *)

Theorem c159_counts_of_the_analyzer_partial :
  forall l size, N.of_nat (length l) < 2 ^ 64 -> size < 2 ^ 64 -> sumN l = size ->
  an_total l = size /\ an_start l = (0 <? size)
  /\ an_usage l = an_conflict l + an_perfect l /\ an_usage l <= size
  /\ an_unused size l + an_usage l = size
  /\ (forall c, In c l -> c <= an_max l) /\ (l <> [] -> In (an_max l) l \/ an_max l = 0).
Proof. exact analyzer_sound. Qed.
Print Assumptions c159_counts_of_the_analyzer_partial.

(** Missing above: in a table the bucket sizes add up to the capacity, so the first
    statement fails and the number of unused buckets wraps, unless the table is full. *)
Theorem c159_counts_of_the_analyzer_for_tables :
  forall K V kd t, capacity K V kd t < 2 ^ 64 -> t_size _ _ t < capacity K V kd t ->
  let l := an_counts (bucket_size K V t) (bucket_count K V kd t) in
  an_total l = capacity K V kd t /\ an_total l <> t_size _ _ t
  /\ an_unused (t_size _ _ t) l = 2 ^ 64 - (capacity K V kd t - t_size _ _ t)
  /\ an_conflict l = 0 /\ an_max l = 1.
Proof. exact analyzer_of_table. Qed.
Print Assumptions c159_counts_of_the_analyzer_for_tables.

Theorem c159_counts_of_the_analyzer_for_tables_refuted :
  forall kd, group_kind kd ->
  exists t, built N N idhash N.eqb kd t /\ t_size _ _ t = 10
    /\ an_total (an_counts (bucket_size N N t) (bucket_count N N kd t)) <> t_size _ _ t.
Proof. exact analyzer_wrong. Qed.
Print Assumptions c159_counts_of_the_analyzer_for_tables_refuted.

Example c159_example :
  (forall kd, group_kind kd ->
   capacity N N kd (small kd) < 2 ^ 64 /\ t_size _ _ (small kd) < capacity N N kd (small kd))
  /\ sumN [3; 0; 1; 2] = 6 /\ an_usage [3; 0; 1; 2] = 3 /\ an_unused 6 [3; 0; 1; 2] = 3.
Proof. exact analyzer_example. Qed.
