(** The templates and the narrow functions of Power2.h compute what Pow2Spec.v and BitSpec.v
    say, with exceptions. *)
From Coq Require Import NArith ZArith List Bool Lia.
From Coq Require Import ZifyBool ZifyNat ZifyN.
From Verif Require Import Base BaseFacts BitsModel BitsFacts ProberFacts Pow2Spec Pow2Facts
  BitSpec FallbackModel FallbackFacts FallbackFacts2 Pow2Model.
Open Scope N_scope.

(** ** Powers of two around a number *)

Lemma pow2_S k : 2 ^ (k + 1) = 2 * 2 ^ k.
Proof. rewrite N.pow_add_r. change (2 ^ 1) with 2. lia. Qed.

Lemma not_pow2_above n : ~ pow2 n -> 0 < n -> 2 ^ N.log2 n < n.
Proof.
  intros H Hn. destruct (log2_bounds n Hn) as [A _].
  destruct (N.eq_dec (2 ^ N.log2 n) n) as [E|]; [|lia]. exfalso. apply H. now exists (N.log2 n).
Qed.

Lemma around_le n : 0 < n -> greatest_pow2_le n (2 ^ N.log2 n).
Proof.
  intros Hn. destruct (log2_bounds n Hn) as [A B]. split; [now eexists|]. split; auto.
  intros q [j ->] Hj. apply pow2_le. assert (j < N.log2 n + 1); [|lia].
  apply pow2_mono_inv. rewrite pow2_S. lia.
Qed.

Lemma around_gt n : 0 < n -> least_pow2_gt n (2 ^ (N.log2 n + 1)).
Proof.
  intros Hn. destruct (log2_bounds n Hn) as [A B]. split; [now eexists|]. rewrite pow2_S. split; [lia|].
  intros q [j ->] Hj. rewrite <- pow2_S. apply pow2_le. assert (N.log2 n < j); [|lia].
  apply pow2_mono_inv. lia.
Qed.

Lemma around_ge n : 0 < n -> ~ pow2 n -> least_pow2_ge n (2 ^ (N.log2 n + 1)).
Proof.
  intros Hn HP. destruct (around_gt n Hn) as (A & B & C). split; [auto|]. split; [lia|].
  intros q Hq Hle. apply C; auto. destruct (N.eq_dec n q) as [->|]; [contradiction|lia].
Qed.

Lemma pow2_self_ge n : pow2 n -> least_pow2_ge n n.
Proof. intros H. split; auto. split; [lia|]. auto. Qed.

Lemma pow2_self_le n : pow2 n -> greatest_pow2_le n n.
Proof. intros H. split; auto. split; [lia|]. auto. Qed.

Lemma log2_lt_63 n : n < 2 ^ 63 -> N.log2 n < 63.
Proof.
  intros H. destruct (N.eq_dec n 0) as [->|]; [reflexivity|]. apply N.log2_lt_pow2; [lia|exact H].
Qed.

Lemma ct_is_pow2_iff n : n < 2 ^ 64 -> (ct_is_pow2 n = true <-> n = 0 \/ pow2 n).
Proof. exact (is_pow2_iff n). Qed.

Lemma ct_cases n : n < 2 ^ 64 -> (n = 0 \/ pow2 n) /\ ct_is_pow2 n = true
  \/ (0 < n /\ ~ pow2 n) /\ ct_is_pow2 n = false.
Proof.
  intros H. pose proof (ct_is_pow2_iff n H) as [A B]. destruct (ct_is_pow2 n).
  - left. auto.
  - right. split; auto. split.
    + destruct (N.eq_dec n 0) as [->|]; [|lia]. discriminate B. auto.
    + intros X. discriminate B. auto.
Qed.

(** ** The loops of the first family *)

Lemma next_of_pow k : k < 63 -> ct_next (2 ^ k) = 2 ^ (k + 1).
Proof.
  intros H. unfold ct_next, max_power2. pose proof (pow2_lt k 63 H) as X.
  replace (2 ^ k <? 2 ^ 63) with true by lia. rewrite pow2_S. lia.
Qed.

Lemma pow_not_max k : k < 63 -> (2 ^ k =? max_power2) = false.
Proof. intros H. pose proof (pow2_lt k 63 H) as X. unfold max_power2. lia. Qed.

Lemma up_impl_run n : 2 ^ N.log2 n < n -> n < 2 ^ 63 -> forall fuel k, k <= N.log2 n + 1 ->
  N.log2 n + 1 - k < N.of_nat fuel -> ct_up_impl fuel n (2 ^ k) = Ok (2 ^ (N.log2 n + 1)).
Proof.
  intros HP Hn. pose proof (log2_lt_63 n Hn) as HL. destruct (log2_bounds n ltac:(lia)) as [_ HB].
  induction fuel as [|fuel IH]; intros k Hk Hf; [lia|]. cbn [ct_up_impl].
  pose proof (pow2_pos k). replace (2 ^ k =? 0) with false by lia.
  unfold max_power2 at 1. replace (2 ^ 63 <? n) with false by lia.
  destruct (N.eq_dec k (N.log2 n + 1)) as [->|Hne].
  - replace (n <=? 2 ^ (N.log2 n + 1)) with true by (rewrite pow2_S; lia). now rewrite orb_true_r.
  - rewrite pow_not_max by lia. pose proof (pow2_le k (N.log2 n) ltac:(lia)).
    replace (n <=? 2 ^ k) with false by lia. cbn [orb]. rewrite next_of_pow by lia. apply IH; lia.
Qed.

Lemma to_impl_run n : 2 ^ N.log2 n < n -> n < 2 ^ 63 -> forall fuel k, k <= N.log2 n + 1 ->
  N.log2 n + 1 - k < N.of_nat fuel -> ct_to_impl fuel n (2 ^ k) = Ok (2 ^ N.log2 n).
Proof.
  intros HP Hn. pose proof (log2_lt_63 n Hn) as HL. destruct (log2_bounds n ltac:(lia)) as [_ HB].
  induction fuel as [|fuel IH]; intros k Hk Hf; [lia|]. cbn [ct_to_impl].
  pose proof (pow2_pos k). replace (2 ^ k =? 0) with false by lia.
  unfold max_power2 at 1. replace (2 ^ 63 <=? n) with false by lia.
  destruct (N.eq_dec k (N.log2 n + 1)) as [->|Hne].
  - replace (n <=? 2 ^ (N.log2 n + 1)) with true by (rewrite pow2_S; lia). rewrite orb_true_r.
    f_equal. rewrite pow2_S, N.mul_comm. apply N.div_mul. lia.
  - rewrite pow_not_max by lia. pose proof (pow2_le k (N.log2 n) ltac:(lia)).
    replace (n <=? 2 ^ k) with false by lia. cbn [orb]. rewrite next_of_pow by lia. apply IH; lia.
Qed.

Lemma next_impl_run n : 0 < n -> n < 2 ^ 63 -> forall fuel k, k <= N.log2 n + 1 ->
  N.log2 n + 1 - k < N.of_nat fuel -> ct_next_impl fuel n (2 ^ k) = Ok (2 ^ (N.log2 n + 1)).
Proof.
  intros HP Hn. pose proof (log2_lt_63 n Hn) as HL. destruct (log2_bounds n ltac:(lia)) as [HA HB].
  induction fuel as [|fuel IH]; intros k Hk Hf; [lia|]. cbn [ct_next_impl].
  pose proof (pow2_pos k). replace (2 ^ k =? 0) with false by lia.
  unfold max_power2 at 1. replace (2 ^ 63 <=? n) with false by lia.
  destruct (N.eq_dec k (N.log2 n + 1)) as [->|Hne].
  - replace (n <? 2 ^ (N.log2 n + 1)) with true by (rewrite pow2_S; lia). now rewrite orb_true_r.
  - rewrite pow_not_max by lia. pose proof (pow2_le k (N.log2 n) ltac:(lia)).
    replace (n <? 2 ^ k) with false by lia. cbn [orb]. rewrite next_of_pow by lia. apply IH; lia.
Qed.

(** ** The second family *)

Lemma smear_is n : 0 < n -> n < 2 ^ 64 -> ~ pow2 n -> ct_smear n = 2 ^ (N.log2 n + 1) - 1.
Proof.
  intros H0 Hn HP. pose proof (not_pow2_above n HP H0) as HA. destruct (log2_bounds n H0) as [_ HB].
  assert (HL1 : N.log2 (n - 1) = N.log2 n).
  { apply N.log2_unique; [lia|]. rewrite N.pow_succ_r'. lia. }
  assert (H64 : N.log2 n < 64) by (apply log2_lt64; exact Hn).
  assert (Hz : n - 1 <> 0).
  { intros E. assert (n = 1) as -> by lia. apply HP. now exists 0. }
  unfold ct_smear, ct_or. rewrite wsub_small by (unfold two64; change (2 ^ 64) with 18446744073709551616 in Hn; lia).
  pose proof (window_log2 (n - 1) Hz) as W. rewrite HL1 in W.
  apply smear_window in W. apply smear_window in W. apply smear_window in W.
  apply smear_window in W. apply smear_window in W. apply smear_window in W.
  change (2 * 1) with 2 in W. change (2 * 2) with 4 in W. change (2 * 4) with 8 in W.
  change (2 * 8) with 16 in W. change (2 * 16) with 32 in W. change (2 * 32) with 64 in W.
  exact (window_mask _ _ _ W H64).
Qed.

Lemma max_num_eq : max_num = 18446744073709551615. Proof. reflexivity. Qed.

(** ** Rounding up *)

Lemma ct_up_all n : n < 2 ^ 64 ->
  (n = 0 -> ct_round_up n = Ok 0 /\ ct_round_up2 n = 0)
  /\ (1 <= n -> n <= 2 ^ 63 -> exists p, ct_round_up n = Ok p /\ ct_round_up2 n = p /\ least_pow2_ge n p)
  /\ (2 ^ 63 < n -> ct_round_up n = Ok (2 ^ 64 - 1) /\ ct_round_up2 n = 2 ^ 64 - 1).
Proof.
  intros Hn. split; [intros ->; split; reflexivity|]. unfold ct_round_up, ct_round_up2.
  destruct (ct_cases n Hn) as [[HP ->]|[[H0 HP] ->]].
  - split.
    + intros H1 _. exists n. split; auto. split; auto. apply pow2_self_ge. destruct HP; [lia|auto].
    + intros H. exfalso. destruct HP as [->|[k ->]]; [lia|].
      apply pow2_mono_inv in H. apply pow2_mono_inv in Hn. lia.
  - pose proof (not_pow2_above n HP H0) as HA.
    split.
    + intros H1 H2. assert (H3 : n < 2 ^ 63).
      { destruct (N.eq_dec n (2 ^ 63)) as [E|]; [|lia]. exfalso. apply HP. now exists 63. }
      exists (2 ^ (N.log2 n + 1)). pose proof (log2_lt_63 n H3) as HL. split.
      * apply (up_impl_run n HA H3 depth 0); [lia|]. unfold depth. lia.
      * split; [|now apply around_ge]. rewrite smear_is by auto. cbv zeta.
        pose proof (pow2_le (N.log2 n + 1) 63 ltac:(lia)) as X. pose proof (pow2_pos (N.log2 n + 1)).
        change (2 ^ 63) with 9223372036854775808 in X. rewrite max_num_eq.
        replace (_ =? _) with false by lia. rewrite wadd_small; unfold two64; lia.
    + intros H. split.
      * unfold depth. cbn [ct_up_impl]. replace (1 =? 0) with false by lia.
        unfold max_power2. now replace (2 ^ 63 <? n) with true by lia.
      * assert (HL : N.log2 n = 63).
        { apply N.log2_unique; [lia|]. split; [lia|exact Hn]. }
        rewrite smear_is by auto. rewrite HL. reflexivity.
Qed.

(** ** Rounding to and rounding down *)

Lemma ct_to_all n : n < 2 ^ 64 ->
  (n = 0 -> ct_round_to n = Ok 0 /\ ct_round_to2 n = 0)
  /\ (1 <= n -> exists p, ct_round_to n = Ok p /\ ct_round_to2 n = p /\ greatest_pow2_le n p).
Proof.
  intros Hn. split; [intros ->; split; reflexivity|]. unfold ct_round_to, ct_round_to2.
  destruct (ct_cases n Hn) as [[HP ->]|[[H0 HP] ->]].
  - intros H1. exists n. split; auto. split; auto. apply pow2_self_le. destruct HP; [lia|auto].
  - intros _. pose proof (not_pow2_above n HP H0) as HA. exists (2 ^ N.log2 n).
    split; [|split; [|now apply around_le]].
    + destruct (N.lt_ge_cases n (2 ^ 63)) as [H3|H3].
      * apply (to_impl_run n HA H3 depth 0); [lia|]. pose proof (log2_lt_63 n H3). unfold depth. lia.
      * assert (HL : N.log2 n = 63).
        { apply N.log2_unique; [lia|]. split; [lia|exact Hn]. }
        rewrite HL. unfold depth. cbn [ct_to_impl]. replace (1 =? 0) with false by lia.
        unfold max_power2 at 1. now replace (2 ^ 63 <=? n) with true by lia.
    + rewrite smear_is by auto. cbv zeta. pose proof (log2_lt64 n Hn) as HL.
      destruct (N.eq_dec (N.log2 n) 63) as [->|D]; [reflexivity|].
      pose proof (pow2_le (N.log2 n + 1) 63 ltac:(lia)) as X. pose proof (pow2_pos (N.log2 n + 1)).
      change (2 ^ 63) with 9223372036854775808 in X. rewrite max_num_eq.
      replace (_ =? _) with false by lia. rewrite wadd_small by (unfold two64; lia).
      replace (2 ^ (N.log2 n + 1) - 1 + 1) with (2 ^ N.log2 n * 2) by (rewrite pow2_S; lia).
      apply N.div_mul. lia.
Qed.

Lemma le_pred_lt n p : 2 <= n -> greatest_pow2_le (n - 1) p -> greatest_pow2_lt n p.
Proof.
  intros H (A & B & C). split; auto. split; [lia|]. intros q Hq Hlt. apply C; auto. lia.
Qed.

Lemma ct_down_all n : n < 2 ^ 64 ->
  (n <= 1 -> ct_round_down n = Ok 0 /\ ct_round_down2 n = 0)
  /\ (2 <= n -> exists p, ct_round_down n = Ok p /\ ct_round_down2 n = p /\ greatest_pow2_lt n p).
Proof.
  intros Hn. split.
  - intros H. assert (n = 0 \/ n = 1) as [-> | ->] by lia; split; reflexivity.
  - intros H. unfold ct_round_down, ct_round_down2. replace (n =? 0) with false by lia.
    rewrite wsub_small by (unfold two64; change (2 ^ 64) with 18446744073709551616 in Hn; lia).
    destruct (proj2 (ct_to_all (n - 1) ltac:(lia)) ltac:(lia)) as (p & A & B & C).
    exists p. split; auto. split; auto. now apply le_pred_lt.
Qed.

(** ** The next one *)

Lemma succ_ge_gt n p : least_pow2_ge (n + 1) p -> least_pow2_gt n p.
Proof.
  intros (A & B & C). split; auto. split; [lia|]. intros q Hq Hlt. apply C; auto. lia.
Qed.

Lemma least_gt_unique n p q : least_pow2_gt n p -> least_pow2_gt n q -> p = q.
Proof.
  intros (A & B & C) (A' & B' & C'). specialize (C q A' B'). specialize (C' p A B). lia.
Qed.

Lemma ct_next_all n : n < 2 ^ 64 ->
  (n < 2 ^ 63 -> exists p, ct_next_pow2 n = Ok p /\ ct_next2 n = p /\ least_pow2_gt n p)
  /\ (2 ^ 63 <= n -> ct_next_pow2 n = Ok (2 ^ 64 - 1) /\ ct_next2 n = 2 ^ 64 - 1).
Proof.
  intros Hn. change (2 ^ 64) with 18446744073709551616 in Hn. unfold ct_next2. rewrite max_num_eq. split.
  - intros H. change (2 ^ 63) with 9223372036854775808 in H.
    replace (n <? _) with true by lia. rewrite wadd_small by (unfold two64; lia).
    destruct (proj1 (proj2 (ct_up_all (n + 1) ltac:(lia))) ltac:(lia) ltac:(lia)) as (p & _ & E & L).
    apply succ_ge_gt in L. exists p. split; [|auto]. unfold ct_next_pow2.
    destruct (N.eqb_spec n 0) as [->|Hz].
    + f_equal. destruct L as (A & B & C). specialize (C 1 ltac:(now exists 0) ltac:(lia)). lia.
    + assert (H63 : n < 2 ^ 63) by exact H.
      rewrite (least_gt_unique n p _ L (around_gt n ltac:(lia))).
      apply (next_impl_run n ltac:(lia) H63 depth 0); [lia|]. pose proof (log2_lt_63 n H63). unfold depth. lia.
  - intros H. change (2 ^ 63) with 9223372036854775808 in H. split.
    + unfold ct_next_pow2. replace (n =? 0) with false by lia. unfold depth. cbn [ct_next_impl].
      replace (1 =? 0) with false by lia. change max_power2 with 9223372036854775808.
      now replace (_ <=? n) with true by lia.
    + destruct (N.ltb_spec n 18446744073709551615) as [L|L]; [|reflexivity].
      rewrite wadd_small by (unfold two64; lia).
      apply (proj2 (proj2 (ct_up_all (n + 1) ltac:(lia))) ltac:(lia)).
Qed.

(** ** Counting zeros *)

Lemma clz_impl_run fuel : forall k bits, k <= 63 -> 64 - k < N.of_nat fuel ->
  ct_clz_impl fuel bits (2 ^ k) = Ok (bits + 63 - k).
Proof.
  induction fuel as [|fuel IH]; intros k bits Hk Hf; [lia|]. cbn [ct_clz_impl].
  pose proof (pow2_pos k). replace (2 ^ k =? 0) with false by lia.
  destruct (N.eq_dec k 63) as [->|D].
  - destruct fuel as [|fuel]; [lia|]. change (wmul (2 ^ 63) 2) with 0. cbn [ct_clz_impl].
    change (0 =? 0) with true. cbv iota. replace (0 <? bits + 1) with true by lia. f_equal. lia.
  - pose proof (pow2_le (k + 1) 63 ltac:(lia)) as X.
    assert (E : wmul (2 ^ k) 2 = 2 ^ (k + 1)).
    { unfold wmul, w64. rewrite pow2_S in *. change (2 ^ 63) with 9223372036854775808 in X.
      rewrite N.mod_small by (unfold two64; lia). lia. }
    rewrite E, IH by lia. f_equal. lia.
Qed.

Lemma ctz_impl_run fuel : forall k bits, k <= 63 -> k + 1 < N.of_nat fuel ->
  ct_ctz_impl fuel bits (2 ^ k) = Ok (bits + k).
Proof.
  induction fuel as [|fuel IH]; intros k bits Hk Hf; [lia|]. cbn [ct_ctz_impl].
  pose proof (pow2_pos k). replace (2 ^ k =? 0) with false by lia.
  destruct (N.eq_dec k 0) as [->|D].
  - destruct fuel as [|fuel]; [lia|]. change (2 ^ 0 / 2) with 0. cbn [ct_ctz_impl].
    change (0 =? 0) with true. cbv iota. replace (0 <? bits + 1) with true by lia. f_equal. lia.
  - replace (2 ^ k / 2) with (2 ^ (k - 1)).
    + rewrite IH by lia. f_equal. lia.
    + replace k with (k - 1 + 1) at 2 by lia. rewrite pow2_S, N.mul_comm. now rewrite N.div_mul by lia.
Qed.

Lemma pow2_bits k i : N.testbit (2 ^ k) i = (k =? i).
Proof. apply N.pow2_bits_eqb. Qed.

Lemma ct_clz_all n i : n < 2 ^ 64 -> highest_bit n i -> ct_clz n = Ok (63 - i).
Proof.
  intros Hn HI. apply highest_log2 in HI. destruct HI as [Hz ->]. pose proof (log2_lt64 n Hn) as HL.
  unfold ct_clz.
  assert (E : (if ct_is_pow2 n then Ok n else ct_round_down n) = Ok (2 ^ N.log2 n)).
  { destruct (ct_cases n Hn) as [[HP ->]|[[H0 HP] ->]].
    - destruct HP as [|[k ->]]; [lia|]. now rewrite N.log2_pow2 by lia.
    - assert (H2 : 2 <= n). { destruct (N.eq_dec n 1) as [->|]; [|lia]. exfalso. apply HP. now exists 0. }
      destruct (proj2 (ct_down_all n Hn) H2) as (p & A & _ & B). rewrite A. f_equal.
      destruct B as (P1 & P2 & P3). destruct (around_le n H0) as (Q1 & Q2 & Q3).
      pose proof (not_pow2_above n HP H0). specialize (P3 _ Q1 H). specialize (Q3 p P1 ltac:(lia)). lia. }
  rewrite E. cbn [rbind]. rewrite clz_impl_run; [f_equal; lia|lia|unfold depth; lia].
Qed.

Lemma ct_ctz_pow2 k : k <= 63 -> ct_ctz (2 ^ k) = Ok k /\ lowest_bit (2 ^ k) k.
Proof.
  intros Hk. pose proof (pow2_lt k 64 ltac:(lia)) as H. split.
  - unfold ct_ctz. destruct (ct_cases (2 ^ k) H) as [[_ ->]|[[_ HP] _]].
    + cbn [rbind]. rewrite ctz_impl_run; [f_equal; lia|lia|unfold depth; lia].
    + exfalso. apply HP. now exists k.
  - split; [rewrite pow2_bits; lia|]. intros j Hj. rewrite pow2_bits. lia.
Qed.

Lemma lowest_below_log2 n i : 0 < n -> ~ pow2 n -> lowest_bit n i -> i < N.log2 n.
Proof.
  intros H0 HP [A B].
  destruct (N.lt_total i (N.log2 n)) as [|[E|L]]; auto; exfalso.
  - apply HP. exists i. apply N.bits_inj. intros j. rewrite pow2_bits.
    destruct (N.lt_total j i) as [Hj|[->|Hj]].
    + rewrite B by auto. symmetry. lia.
    + rewrite A. symmetry. lia.
    + rewrite N.bits_above_log2 by lia. symmetry. lia.
  - rewrite N.bits_above_log2 in A by auto. discriminate.
Qed.

(** For every number that is not a power of two the answer is not the number of trailing
    zeros, but the logarithm rounded up. *)
Lemma ct_ctz_other n i : n < 2 ^ 64 -> n <> 0 -> ~ pow2 n -> lowest_bit n i ->
  exists r, ct_ctz n = Ok r /\ r <> i /\ (n <= 2 ^ 63 -> ceil_log2 n r).
Proof.
  intros Hn Hz HP HI. pose proof (lowest_below_log2 n i ltac:(lia) HP HI) as HLt.
  pose proof (log2_lt64 n Hn) as HL. unfold ct_ctz.
  destruct (ct_cases n Hn) as [[[|]]|[[H0 _] ->]]; [contradiction|contradiction|].
  destruct (N.le_gt_cases n (2 ^ 63)) as [H|H].
  - destruct (proj1 (proj2 (ct_up_all n Hn)) ltac:(lia) H) as (p & A & _ & B). rewrite A. cbn [rbind].
    assert (E : p = 2 ^ (N.log2 n + 1)).
    { destruct B as (P1 & P2 & P3). destruct (around_ge n H0 HP) as (Q1 & Q2 & Q3).
      specialize (P3 _ Q1 Q2). specialize (Q3 p P1 P2). lia. }
    assert (H63 : N.log2 n < 63).
    { apply log2_lt_63. destruct (N.eq_dec n (2 ^ 63)) as [X|]; [|lia]. exfalso. apply HP. now exists 63. }
    exists (N.log2 n + 1). split; [rewrite E, ctz_impl_run; [f_equal; lia|lia|unfold depth; lia]|].
    split; [lia|]. intros _. split.
    + destruct (around_ge n H0 HP) as (_ & Q & _). exact Q.
    + intros j Hj. destruct (around_ge n H0 HP) as (_ & _ & Q).
      specialize (Q (2 ^ j) ltac:(now eexists) Hj).
      destruct (N.le_gt_cases (N.log2 n + 1) j) as [|X]; auto. exfalso.
      pose proof (pow2_lt j (N.log2 n + 1) X). lia.
  - rewrite (proj1 (proj2 (proj2 (ct_up_all n Hn)) H)). cbn [rbind]. exists 63.
    split; [vm_compute; reflexivity|]. split; [lia|]. intros; lia.
Qed.

Lemma ct_ctz_wrong : exists n i r, n < 2 ^ 64 /\ lowest_bit n i /\ ct_ctz n = Ok r /\ r <> i.
Proof.
  exists 6, 1, 3. split; [reflexivity|]. split; [|split; [vm_compute; reflexivity|discriminate]].
  split; [reflexivity|]. intros j Hj. replace j with 0 by lia. reflexivity.
Qed.

(** Minimum and maximum. *)
Lemma ct_min_max a b : ct_min a b = N.min a b /\ ct_max a b = N.max a b.
Proof. unfold ct_min, ct_max. destruct (N.leb_spec a b), (N.leb_spec b a); lia. Qed.

(** kSlotAlignment and kGroupAlignment (group15_flat_table.hpp:207-214,
    group16_flat_table.hpp:206-213) are cmax rounded up: a power of two that covers the size
    and, since the alignment of a type is a power of two, a multiple of the alignment. *)
Lemma ct_alignment size a k : a = 2 ^ k -> 0 < size -> size <= 2 ^ 63 -> k <= 63 ->
  exists p, ct_round_up (ct_max size a) = Ok p /\ pow2 p /\ size <= p /\ p mod a = 0.
Proof.
  intros Ha H0 H1 Hk. pose proof (pow2_le k 63 Hk) as HK. rewrite (proj2 (ct_min_max size a)).
  assert (HM : N.max size a <= 2 ^ 63) by lia.
  assert (HM64 : N.max size a < 2 ^ 64).
  { eapply N.le_lt_trans; [exact HM|reflexivity]. }
  destruct (proj1 (proj2 (ct_up_all _ HM64)) ltac:(lia) HM) as (p & A & _ & (B & C & D)).
  exists p. split; auto. split; auto. split; [lia|]. destruct B as [j ->]. subst a.
  assert (k <= j).
  { destruct (N.le_gt_cases k j) as [|X]; auto. exfalso. pose proof (pow2_lt j k X). lia. }
  replace j with (j - k + k) by lia. rewrite N.pow_add_r. apply N.mod_mul. pose proof (pow2_pos k). lia.
Qed.

(** ** Types of 8, 16 and 32 bits *)

Definition narrow (w : N) : Prop := w = 8 \/ w = 16 \/ w = 32.

Lemma narrow_half w : narrow w -> (2 ^ w - 1) / 2 + 1 = 2 ^ (w - 1).
Proof. intros [-> | [-> | ->]]; reflexivity. Qed.

Lemma narrow_log2 w n : narrow w -> n < 2 ^ w -> N.log2 n < w.
Proof.
  intros Hw Hn. destruct (N.eq_dec n 0) as [->|]; [destruct Hw as [-> | [-> | ->]]; reflexivity|].
  apply N.log2_lt_pow2; [lia|exact Hn].
Qed.

Lemma narrow_32 w : narrow w -> w <= 32.
Proof. intros [-> | [-> | ->]]; lia. Qed.

Lemma shl1_32_ok s : s < 32 -> shl1_32 s = Ok (2 ^ s).
Proof. intros H. unfold shl1_32. now replace (s <? 32) with true by lia. Qed.

Lemma rt_down_all w n : narrow w -> n < 2 ^ w ->
  (n <= 1 -> rt_down n = Ok 0) /\ (2 <= n -> exists p, rt_down n = Ok p /\ greatest_pow2_lt n p).
Proof.
  intros Hw Hn. pose proof (narrow_32 w Hw). unfold rt_down. split; intros H1.
  - now replace (1 <? n) with false by lia.
  - replace (1 <? n) with true by lia. pose proof (narrow_log2 w (n - 1) Hw ltac:(lia)).
    eexists. split; [apply shl1_32_ok; unfold bsr; lia|]. apply le_pred_lt; auto. apply around_le. lia.
Qed.

Lemma rt_to_all w n : narrow w -> n < 2 ^ w ->
  (n = 0 -> rt_to n = Ok 0) /\ (1 <= n -> exists p, rt_to n = Ok p /\ greatest_pow2_le n p).
Proof.
  intros Hw Hn. pose proof (narrow_32 w Hw). unfold rt_to. split; intros H1.
  - now replace (0 <? n) with false by lia.
  - replace (0 <? n) with true by lia. pose proof (narrow_log2 w n Hw Hn).
    eexists. split; [apply shl1_32_ok; unfold bsr; lia|]. apply around_le. lia.
Qed.

Lemma rt_prev_all w n : narrow w -> n < 2 ^ w ->
  (n <= 1 -> rt_prev n = Ok 0)
  /\ (2 <= n -> exists p, rt_prev n = Ok p /\ pow2 p /\ 2 * p <= n /\ n < 4 * p).
Proof.
  intros Hw Hn. pose proof (narrow_32 w Hw). unfold rt_prev. split; intros H1.
  - now replace (1 <? n) with false by lia.
  - replace (1 <? n) with true by lia. pose proof (narrow_log2 w n Hw Hn).
    assert (1 <= N.log2 n) by (apply N.log2_le_pow2; lia).
    eexists. split; [apply shl1_32_ok; unfold bsr; lia|]. split; [now eexists|].
    destruct (log2_bounds n ltac:(lia)) as [A B]. unfold bsr.
    replace (N.log2 n) with (N.log2 n - 1 + 1) in A, B by lia. rewrite pow2_S in A, B. lia.
Qed.

Lemma rt_up_all w n : narrow w -> n < 2 ^ w ->
  (n = 0 -> rt_up w n = Ok 0)
  /\ (1 <= n -> n <= 2 ^ (w - 1) -> exists p, rt_up w n = Ok p /\ least_pow2_ge n p)
  /\ (2 ^ (w - 1) < n -> rt_up w n = Ok (2 ^ w - 1)).
Proof.
  intros Hw Hn. pose proof (narrow_32 w Hw). unfold rt_up. rewrite narrow_half by auto. split; [|split].
  - intros ->. now replace (0 <=? _) with true by lia.
  - intros H1 H2. replace (n <=? _) with true by lia. destruct (N.ltb_spec 1 n) as [L|L].
    + assert (HL : N.log2 (n - 1) < w - 1) by (apply N.log2_lt_pow2; lia).
      eexists. split; [apply shl1_32_ok; unfold bsr; lia|]. unfold bsr.
      destruct (around_gt (n - 1) ltac:(lia)) as (A & B & C). split; auto. split; [lia|].
      intros q Hq Hle. apply C; auto. lia.
    + exists n. split; auto. apply pow2_self_ge. exists 0. change (2 ^ 0) with 1. lia.
  - intros H1. now replace (n <=? _) with false by lia.
Qed.

Lemma rt_next_all w n : narrow w -> n < 2 ^ w ->
  (n < 2 ^ (w - 1) -> exists p, rt_next w n = Ok p /\ least_pow2_gt n p)
  /\ (2 ^ (w - 1) <= n -> rt_next w n = Ok (2 ^ w - 1)).
Proof.
  intros Hw Hn. pose proof (narrow_32 w Hw). unfold rt_next. rewrite narrow_half by auto. split.
  - intros H2. replace (n <? _) with true by lia. destruct (N.ltb_spec 0 n) as [L|L].
    + assert (HL : N.log2 n < w - 1) by (apply N.log2_lt_pow2; lia).
      eexists. split; [apply shl1_32_ok; unfold bsr; lia|]. unfold bsr. now apply around_gt.
    + exists 1. split; auto. split; [now exists 0|]. split; [lia|]. intros; lia.
  - intros H1. now replace (n <? _) with false by lia.
Qed.

Lemma rt_log2_all w n : narrow w -> n < 2 ^ w ->
  (n <= 2 ^ (w - 1) -> ceil_log2 n (rt_log2 w n))
  /\ (2 ^ (w - 1) < n -> rt_log2 w n = 2 ^ w - 1 /\ ceil_log2 n w).
Proof.
  intros Hw Hn. unfold rt_log2. rewrite narrow_half by auto. split.
  - intros H2. replace (n <=? _) with true by lia. destruct (N.ltb_spec 1 n) as [L|L].
    + unfold bsr. destruct (around_gt (n - 1) ltac:(lia)) as (_ & B & C). split; [lia|].
      intros j Hj. specialize (C (2 ^ j) ltac:(now eexists) ltac:(lia)).
      destruct (N.le_gt_cases (N.log2 (n - 1) + 1) j) as [|X]; auto. exfalso.
      pose proof (pow2_lt j _ X). lia.
    + split; [change (2 ^ 0) with 1; lia|]. intros; lia.
  - intros H1. replace (n <=? _) with false by lia. split; auto. split; [lia|].
    intros j Hj. destruct (N.le_gt_cases w j) as [|X]; auto. exfalso.
    pose proof (pow2_le j (w - 1) ltac:(lia)). lia.
Qed.

Lemma rt_log2_wrong : exists n, n < 2 ^ 32 /\ ~ ceil_log2 n (rt_log2 32 n).
Proof.
  exists 2147483649. split; [reflexivity|]. intros [_ B].
  assert (X : 2147483649 <= 2 ^ 32) by (vm_compute; discriminate). specialize (B 32 X). vm_compute in B. apply B. reflexivity.
Qed.

Lemma rt_bits w n i : narrow w -> n < 2 ^ w ->
  (lowest_bit n i -> rt_bsf n = i /\ rt_ctz n = i)
  /\ (highest_bit n i -> rt_bsr n = i /\ rt_clz n = (w - 1 - i) + (32 - w)).
Proof.
  intros Hw Hn. split.
  - intros [A B]. assert (E : bsf n = i); [|auto].
    assert (Hz : n <> 0) by (intros ->; now rewrite N.bits_0 in A).
    pose proof (bsf_lowest n i A). pose proof (testbit_bsf n Hz) as T.
    destruct (N.eq_dec (bsf n) i) as [|D]; auto. rewrite B in T by lia. discriminate.
  - intros H. apply highest_log2 in H. destruct H as [Hz ->]. split; [reflexivity|].
    pose proof (narrow_log2 w n Hw Hn). pose proof (narrow_32 w Hw). unfold rt_clz, bsr. lia.
Qed.

Lemma rt_clz_wrong w : w = 8 \/ w = 16 ->
  exists n i, n < 2 ^ w /\ highest_bit n i /\ rt_clz n <> w - 1 - i.
Proof.
  intros Hw. exists 1, 0. split; [destruct Hw as [-> | ->]; reflexivity|]. split.
  - split; [reflexivity|]. intros j Hj. apply N.bits_above_log2. change (N.log2 1) with 0. lia.
  - destruct Hw as [-> | ->]; discriminate.
Qed.

Lemma ct_example : ct_round_up 100 = Ok 128 /\ ct_round_to 100 = Ok 64 /\ ct_round_down 64 = Ok 32
  /\ ct_next_pow2 64 = Ok 128 /\ ct_clz 100 = Ok 57 /\ ct_ctz 64 = Ok 6 /\ ct_ctz 100 = Ok 7
  /\ rt_up 16 40000 = Ok 65535 /\ rt_up 16 30000 = Ok 32768 /\ rt_clz 100 = 25.
Proof. vm_compute. repeat split. Qed.

Lemma rt_rounding w n : narrow w -> n < 2 ^ w ->
  ((n <= 1 -> rt_down n = Ok 0) /\ (2 <= n -> exists p, rt_down n = Ok p /\ greatest_pow2_lt n p))
  /\ ((n = 0 -> rt_to n = Ok 0) /\ (1 <= n -> exists p, rt_to n = Ok p /\ greatest_pow2_le n p))
  /\ ((n <= 1 -> rt_prev n = Ok 0)
      /\ (2 <= n -> exists p, rt_prev n = Ok p /\ pow2 p /\ 2 * p <= n /\ n < 4 * p)).
Proof.
  intros Hw Hn. split; [exact (rt_down_all w n Hw Hn)|]. split; [exact (rt_to_all w n Hw Hn)|].
  exact (rt_prev_all w n Hw Hn).
Qed.
