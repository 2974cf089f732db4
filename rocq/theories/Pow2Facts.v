(** The run-time functions of Power2.h compute what Pow2Spec.v says. *)
From Coq Require Import NArith ZArith List Bool Lia.
From Coq Require Import ZifyBool ZifyNat ZifyN.
From Verif Require Import Base BaseFacts BitsModel BitsFacts ProberFacts Pow2Spec.
Open Scope N_scope.
Ltac Zify.zify_post_hook ::= Z.div_mod_to_equations.

Lemma pow2_mono_inv a b : 2 ^ a < 2 ^ b -> a < b.
Proof.
  intros H. destruct (N.lt_ge_cases a b); auto.
  assert (2 ^ b <= 2 ^ a) by (apply pow2_le; lia). lia.
Qed.

Lemma is_pow2_iff n : n < two64 -> (is_pow2 n = true <-> n = 0 \/ pow2 n).
Proof.
  intros H. destruct (N.eq_dec n 0) as [->|Hz].
  - split; auto.
  - rewrite is_pow2_spec by lia. unfold pow2. split; [auto|]. intros [|]; [lia|auto].
Qed.

Lemma log2_bounds n : 0 < n -> 2 ^ N.log2 n <= n /\ n < 2 * 2 ^ N.log2 n.
Proof.
  intros H. destruct (N.log2_spec n H) as [A B]. rewrite N.pow_succ_r' in B. auto.
Qed.

Lemma shl1_ok s : s < 64 -> shl1 s = Ok (2 ^ s).
Proof. intros H. unfold shl1. now replace (s <? 64) with true by lia. Qed.

Lemma log2_lt64 n : n < two64 -> N.log2 n < 64.
Proof.
  intros H. destruct (N.eq_dec n 0) as [->|]; [reflexivity|]. apply N.log2_lt_pow2; [lia|exact H].
Qed.

Lemma round_up_least n : 1 <= n -> n <= 2 ^ 63 -> exists p, round_up 0 n = Ok p /\ least_pow2_ge n p.
Proof.
  intros H1 H2. destruct (N.eq_dec n 1) as [->|Hn].
  - exists 1. split; [reflexivity|]. split; [now exists 0|]. split; [lia|]. auto.
  - destruct (round_up_spec 0 n ltac:(lia) H2) as (k & E & Hk & Ha & Hb).
    exists (2 ^ k). split; auto. split; [now exists k|]. split; auto.
    intros q [j ->] Hq. apply pow2_le.
    assert (k - 1 < j) by (apply pow2_mono_inv; lia). lia.
Qed.

Lemma round_up_big n : 2 ^ 63 < n -> n < two64 -> round_up 0 n = Err EUndef.
Proof.
  intros H1 H2. unfold round_up. pose proof (pow2_pos 63).
  replace (1 <? n) with true by lia. cbn [orb]. rewrite wsub_small by lia.
  unfold bsr. replace (N.log2 (n - 1)) with 63; [reflexivity|].
  symmetry. apply N.log2_unique; [lia|]. change (2 ^ N.succ 63) with two64. lia.
Qed.

Lemma round_down_greatest n : 2 <= n -> n < two64 ->
  exists p, round_down 0 n = Ok p /\ greatest_pow2_lt n p.
Proof.
  intros H1 H2. unfold round_down. replace (1 <? n) with true by lia. cbn [orb].
  rewrite wsub_small by lia. unfold bsr.
  destruct (log2_bounds (n - 1) ltac:(lia)) as [A B].
  pose proof (log2_lt64 (n - 1) ltac:(lia)).
  exists (2 ^ N.log2 (n - 1)). split; [now apply shl1_ok|].
  split; [now eexists|]. split; [lia|].
  intros q [j ->] Hq. apply pow2_le. rewrite <- N.pow_succ_r' in B.
  assert (j < N.succ (N.log2 (n - 1))) by (apply pow2_mono_inv; lia). lia.
Qed.

Lemma round_to_greatest n : 1 <= n -> n < two64 ->
  exists p, round_to 0 n = Ok p /\ greatest_pow2_le n p.
Proof.
  intros H1 H2. unfold round_to. replace (0 <? n) with true by lia. cbn [orb]. unfold bsr.
  destruct (log2_bounds n ltac:(lia)) as [A B]. pose proof (log2_lt64 n H2).
  exists (2 ^ N.log2 n). split; [now apply shl1_ok|].
  split; [now eexists|]. split; [lia|].
  intros q [j ->] Hq. apply pow2_le. rewrite <- N.pow_succ_r' in B.
  assert (j < N.succ (N.log2 n)) by (apply pow2_mono_inv; lia). lia.
Qed.

Lemma next_pow2_least n : n < 2 ^ 63 -> exists p, next_pow2 0 n = Ok p /\ least_pow2_gt n p.
Proof.
  intros H2. unfold next_pow2. destruct (N.eq_dec n 0) as [->|Hz].
  - exists 1. split; [reflexivity|]. split; [now exists 0|]. split; [lia|]. intros; lia.
  - replace (0 <? n) with true by lia. cbn [orb]. unfold bsr.
    destruct (log2_bounds n ltac:(lia)) as [A B].
    assert (N.log2 n < 63) by (apply N.log2_lt_pow2; [lia|exact H2]).
    rewrite <- N.pow_succ_r', <- N.add_1_r in B.
    exists (2 ^ (N.log2 n + 1)). split; [apply shl1_ok; lia|].
    split; [now eexists|]. split; [lia|].
    intros q [j ->] Hq. apply pow2_le.
    assert (N.log2 n < j) by (apply pow2_mono_inv; lia). lia.
Qed.

Lemma next_pow2_big n : 2 ^ 63 <= n -> n < two64 -> next_pow2 0 n = Err EUndef.
Proof.
  intros H1 H2. unfold next_pow2. pose proof (pow2_pos 63).
  replace (0 <? n) with true by lia. cbn [orb].
  unfold bsr. replace (N.log2 n) with 63; [reflexivity|].
  symmetry. apply N.log2_unique; [lia|]. exact (conj H1 H2).
Qed.

(** prev_pow2 is half of the greatest power of two that is at most [n]. *)
Lemma prev_pow2_half n : 2 <= n -> n < two64 ->
  exists p, prev_pow2 0 n = Ok p /\ greatest_pow2_le n (2 * p).
Proof.
  intros H1 H2. unfold prev_pow2. replace (1 <? n) with true by lia. cbn [orb]. unfold bsr.
  destruct (round_to_greatest n ltac:(lia) H2) as (p & E & Hp).
  unfold round_to, bsr in E. replace (0 <? n) with true in E by lia. cbn [orb] in E.
  pose proof (log2_lt64 n H2). rewrite shl1_ok in E by lia. injection E as <-.
  exists (2 ^ (N.log2 n - 1)). split; [apply shl1_ok; lia|].
  rewrite <- N.pow_succ_r'. replace (N.succ (N.log2 n - 1)) with (N.log2 n); auto.
  assert (1 <= N.log2 n) by (change 1 with (N.log2 2); now apply N.log2_le_mono). lia.
Qed.

Lemma log2_int_ceil n : 1 <= n -> n < two64 -> ceil_log2 n (log2_int 0 n).
Proof.
  intros H1 H2. unfold log2_int. destruct (N.eq_dec n 1) as [->|Hn].
  - split; [reflexivity|]. intros; cbn; lia.
  - replace (1 <? n) with true by lia. cbn [orb]. rewrite wsub_small by lia. unfold bsr.
    destruct (log2_bounds (n - 1) ltac:(lia)) as [A B].
    rewrite <- N.pow_succ_r', <- N.add_1_r in B. split; [lia|].
    intros j Hj. assert (N.log2 (n - 1) < j) by (apply pow2_mono_inv; lia). lia.
Qed.
