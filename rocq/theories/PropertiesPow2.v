(** Properties of the templates of Power2.h (C160, C161) and of its functions for narrow types
    (C162), and of is_pow2 and clear_low_bit (C224).  The model is Pow2Model.v; the specifications are in Pow2Spec.v and BitSpec.v;
    [narrow] (8, 16 or 32 bits) is in Pow2CtFacts.v. *)
From Coq Require Import NArith Bool.
From Verif Require Import Base Pow2Spec BitSpec Pow2Model Pow2CtFacts Pow2LowFacts.
Open Scope N_scope.

Example c160_example : ct_round_up 100 = Ok 128 /\ ct_round_to 100 = Ok 64 /\ ct_round_down 64 = Ok 32
  /\ ct_next_pow2 64 = Ok 128 /\ ct_clz 100 = Ok 57 /\ ct_ctz 64 = Ok 6 /\ ct_ctz 100 = Ok 7
  /\ rt_up 16 40000 = Ok 65535 /\ rt_up 16 30000 = Ok 32768 /\ rt_clz 100 = 25.
Proof. exact ct_example. Qed.

(** ** C160 *)

Theorem c160_templates_round_up :
  forall n, n < 2 ^ 64 ->
  (n = 0 -> ct_round_up n = Ok 0 /\ ct_round_up2 n = 0)
  /\ (1 <= n -> n <= 2 ^ 63 -> exists p, ct_round_up n = Ok p /\ ct_round_up2 n = p /\ least_pow2_ge n p)
  /\ (2 ^ 63 < n -> ct_round_up n = Ok (2 ^ 64 - 1) /\ ct_round_up2 n = 2 ^ 64 - 1).
Proof. exact ct_up_all. Qed.
Print Assumptions c160_templates_round_up.

Theorem c160_templates_round_to :
  forall n, n < 2 ^ 64 ->
  (n = 0 -> ct_round_to n = Ok 0 /\ ct_round_to2 n = 0)
  /\ (1 <= n -> exists p, ct_round_to n = Ok p /\ ct_round_to2 n = p /\ greatest_pow2_le n p).
Proof. exact ct_to_all. Qed.
Print Assumptions c160_templates_round_to.

Theorem c160_templates_round_down :
  forall n, n < 2 ^ 64 ->
  (n <= 1 -> ct_round_down n = Ok 0 /\ ct_round_down2 n = 0)
  /\ (2 <= n -> exists p, ct_round_down n = Ok p /\ ct_round_down2 n = p /\ greatest_pow2_lt n p).
Proof. exact ct_down_all. Qed.
Print Assumptions c160_templates_round_down.

Theorem c160_templates_next :
  forall n, n < 2 ^ 64 ->
  (n < 2 ^ 63 -> exists p, ct_next_pow2 n = Ok p /\ ct_next2 n = p /\ least_pow2_gt n p)
  /\ (2 ^ 63 <= n -> ct_next_pow2 n = Ok (2 ^ 64 - 1) /\ ct_next2 n = 2 ^ 64 - 1).
Proof. exact ct_next_all. Qed.
Print Assumptions c160_templates_next.

(** The alignments that the tables compute from the size and the alignment of a type. *)
Theorem c160_alignment_constants :
  forall size a k, a = 2 ^ k -> 0 < size -> size <= 2 ^ 63 -> k <= 63 ->
  exists p, ct_round_up (ct_max size a) = Ok p /\ pow2 p /\ size <= p /\ p mod a = 0.
Proof. exact ct_alignment. Qed.
Print Assumptions c160_alignment_constants.

(** ** C161 *)

Theorem c161_template_leading_zeros :
  forall n i, n < 2 ^ 64 -> highest_bit n i -> ct_clz n = Ok (63 - i).
Proof. exact ct_clz_all. Qed.
Print Assumptions c161_template_leading_zeros.

Theorem c161_template_trailing_zeros_partial :
  forall k, k <= 63 -> ct_ctz (2 ^ k) = Ok k /\ lowest_bit (2 ^ k) k.
Proof. exact ct_ctz_pow2. Qed.
Print Assumptions c161_template_trailing_zeros_partial.

(** Missing above: all other numbers, for which the answer is wrong. *)
Theorem c161_template_trailing_zeros_refuted :
  exists n i r, n < 2 ^ 64 /\ lowest_bit n i /\ ct_ctz n = Ok r /\ r <> i.
Proof. exact ct_ctz_wrong. Qed.
Print Assumptions c161_template_trailing_zeros_refuted.

Theorem c161_template_trailing_zeros_of_other_numbers :
  forall n i, n < 2 ^ 64 -> n <> 0 -> ~ pow2 n -> lowest_bit n i ->
  exists r, ct_ctz n = Ok r /\ r <> i /\ (n <= 2 ^ 63 -> ceil_log2 n r).
Proof. exact ct_ctz_other. Qed.
Print Assumptions c161_template_trailing_zeros_of_other_numbers.

(** ** C162 *)

Theorem c162_narrow_rounding :
  forall w n, narrow w -> n < 2 ^ w ->
  ((n <= 1 -> rt_down n = Ok 0) /\ (2 <= n -> exists p, rt_down n = Ok p /\ greatest_pow2_lt n p))
  /\ ((n = 0 -> rt_to n = Ok 0) /\ (1 <= n -> exists p, rt_to n = Ok p /\ greatest_pow2_le n p))
  /\ ((n <= 1 -> rt_prev n = Ok 0)
      /\ (2 <= n -> exists p, rt_prev n = Ok p /\ pow2 p /\ 2 * p <= n /\ n < 4 * p)).
Proof. exact rt_rounding. Qed.
Print Assumptions c162_narrow_rounding.

(** Without the undefined shift of the 64-bit variants. *)
Theorem c162_narrow_rounding_up :
  forall w n, narrow w -> n < 2 ^ w ->
  (n = 0 -> rt_up w n = Ok 0)
  /\ (1 <= n -> n <= 2 ^ (w - 1) -> exists p, rt_up w n = Ok p /\ least_pow2_ge n p)
  /\ (2 ^ (w - 1) < n -> rt_up w n = Ok (2 ^ w - 1)).
Proof. exact rt_up_all. Qed.
Print Assumptions c162_narrow_rounding_up.

Theorem c162_narrow_next :
  forall w n, narrow w -> n < 2 ^ w ->
  (n < 2 ^ (w - 1) -> exists p, rt_next w n = Ok p /\ least_pow2_gt n p)
  /\ (2 ^ (w - 1) <= n -> rt_next w n = Ok (2 ^ w - 1)).
Proof. exact rt_next_all. Qed.
Print Assumptions c162_narrow_next.

(** log2_int gives the largest number where it should give the width of the type. *)
Theorem c162_narrow_logarithm_partial :
  forall w n, narrow w -> n < 2 ^ w ->
  (n <= 2 ^ (w - 1) -> ceil_log2 n (rt_log2 w n))
  /\ (2 ^ (w - 1) < n -> rt_log2 w n = 2 ^ w - 1 /\ ceil_log2 n w).
Proof. exact rt_log2_all. Qed.
Print Assumptions c162_narrow_logarithm_partial.

Theorem c162_narrow_logarithm_refuted : exists n, n < 2 ^ 32 /\ ~ ceil_log2 n (rt_log2 32 n).
Proof. exact rt_log2_wrong. Qed.
Print Assumptions c162_narrow_logarithm_refuted.

(** countLeadingZeros counts the zeros of a 32-bit number also for shorter types. *)
Theorem c162_narrow_bits_partial :
  forall w n i, narrow w -> n < 2 ^ w ->
  (lowest_bit n i -> rt_bsf n = i /\ rt_ctz n = i)
  /\ (highest_bit n i -> rt_bsr n = i /\ rt_clz n = (w - 1 - i) + (32 - w)).
Proof. exact rt_bits. Qed.
Print Assumptions c162_narrow_bits_partial.

Theorem c162_narrow_leading_zeros_refuted :
  forall w, w = 8 \/ w = 16 ->
  exists n i, n < 2 ^ w /\ highest_bit n i /\ rt_clz n <> w - 1 - i.
Proof. exact rt_clz_wrong. Qed.
Print Assumptions c162_narrow_leading_zeros_refuted.

(** ** C224 *)

Theorem c224_is_pow2_partial :
  forall n, 0 < n -> n < 2 ^ 64 ->
  (ct_is_pow2 n = true <-> pow2 n)
  /\ (forall w, n < 2 ^ w -> (rt_is_pow2 w n = true <-> pow2 n)).
Proof. exact pow2_all. Qed.
Print Assumptions c224_is_pow2_partial.

(** Missing above: 0, which is_pow2 takes for a power of two. *)
Theorem c224_is_pow2_refuted :
  exists n, n < 2 ^ 64 /\ ~ pow2 n /\ ct_is_pow2 n = true /\ (forall w, rt_is_pow2 w n = true).
Proof. exact pow2_of_zero. Qed.
Print Assumptions c224_is_pow2_refuted.

Theorem c224_clear_low_bit :
  forall n i, n < 2 ^ 64 -> lowest_bit n i ->
  (ct_clear_low_bit n + 2 ^ i = n
   /\ forall j, N.testbit (ct_clear_low_bit n) j = N.testbit n j && negb (j =? i))
  /\ (forall w, n < 2 ^ w -> rt_clear_low_bit w n + 2 ^ i = n
      /\ forall j, N.testbit (rt_clear_low_bit w n) j = N.testbit n j && negb (j =? i)).
Proof. exact clear_all. Qed.
Print Assumptions c224_clear_low_bit.

Theorem c224_clear_low_bit_of_zero : ct_clear_low_bit 0 = 0 /\ forall w, rt_clear_low_bit w 0 = 0.
Proof. exact clear_zero. Qed.
Print Assumptions c224_clear_low_bit_of_zero.

Example c224_example :
  ct_clear_low_bit 104 = 96 /\ rt_clear_low_bit 8 104 = 96 /\ lowest_bit 104 3 /\ 104 < 2 ^ 8
  /\ ct_is_pow2 128 = true /\ rt_is_pow2 8 128 = true /\ rt_is_pow2 8 129 = false.
Proof. exact low_example. Qed.
