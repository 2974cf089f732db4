(** is_pow2 and clear_low_bit of Power2.h. *)
From Coq Require Import NArith ZArith List Bool Lia.
From Coq Require Import ZifyBool ZifyNat ZifyN.
From Verif Require Import Base BaseFacts BitsModel BitsFacts ProberFacts Pow2Spec Pow2Facts
  BitSpec FallbackModel FallbackFacts FallbackFacts2 Pow2Model Pow2CtFacts.
Open Scope N_scope.

Lemma rt_dec_pos w n : 0 < n -> n < 2 ^ w -> rt_dec w n = n - 1.
Proof.
  intros A B. unfold rt_dec. replace (n + (2 ^ w - 1)) with (n - 1 + 1 * 2 ^ w) by lia.
  rewrite N.mod_add by lia. apply N.mod_small. lia.
Qed.

Lemma rt_dec_64 n : n < 2 ^ 64 -> rt_dec 64 n = wsub n 1.
Proof.
  intros H. destruct (N.eq_dec n 0) as [->|]; [reflexivity|].
  rewrite rt_dec_pos by lia. rewrite wsub_small by (unfold two64; lia). reflexivity.
Qed.

Lemma rt_is_pow2_64 n : n < 2 ^ 64 -> rt_is_pow2 64 n = ct_is_pow2 n.
Proof. intros H. unfold rt_is_pow2, ct_is_pow2. now rewrite rt_dec_64. Qed.

Lemma rt_clear_64 n : n < 2 ^ 64 -> rt_clear_low_bit 64 n = ct_clear_low_bit n.
Proof. intros H. unfold rt_clear_low_bit, ct_clear_low_bit. now rewrite rt_dec_64. Qed.

Lemma rt_pow2_iff w n : 0 < n -> n < 2 ^ w -> (rt_is_pow2 w n = true <-> pow2 n).
Proof.
  intros A B. unfold rt_is_pow2. rewrite rt_dec_pos by lia. rewrite N.eqb_eq. split.
  - intros E. exists (N.log2 n). apply land_pred_0; [lia|auto].
  - intros [k ->]. apply land_pred_pow2.
Qed.

Lemma pow2_all n : 0 < n -> n < 2 ^ 64 ->
  (ct_is_pow2 n = true <-> pow2 n)
  /\ (forall w, n < 2 ^ w -> (rt_is_pow2 w n = true <-> pow2 n)).
Proof.
  intros A B. split; [|intros; now apply rt_pow2_iff].
  rewrite <- rt_is_pow2_64 by auto. now apply rt_pow2_iff.
Qed.

Lemma pow2_of_zero : exists n, n < 2 ^ 64 /\ ~ pow2 n /\ ct_is_pow2 n = true
  /\ (forall w, rt_is_pow2 w n = true).
Proof.
  exists 0. split; [reflexivity|]. split; [|split; reflexivity].
  intros (k & E). pose proof (pow2_pos k). lia.
Qed.

Lemma clear_odd i m : N.land (2 ^ i * (2 * m + 1)) (2 ^ i * (2 * m + 1) - 1) = 2 ^ i * (2 * m).
Proof.
  pose proof (pow2_pos i).
  replace (2 ^ i * (2 * m + 1) - 1) with ((2 ^ i - 1) + 2 * m * 2 ^ i) by lia.
  apply N.bits_inj. intros j. rewrite N.land_spec.
  destruct (N.lt_ge_cases j i) as [L|G].
  - rewrite !(N.mul_comm (2 ^ i)), !N.mul_pow2_bits_low by auto. reflexivity.
  - rewrite !(N.mul_comm (2 ^ i)), !N.mul_pow2_bits_high by auto.
    replace (N.testbit (2 ^ i - 1 + 2 * m * 2 ^ i) j) with (N.testbit (2 * m) (j - i)).
    + destruct (N.eq_dec (j - i) 0) as [->|Z].
      * now rewrite N.testbit_even_0, Bool.andb_false_r.
      * replace (j - i) with (N.succ (N.pred (j - i))) by lia.
        rewrite N.testbit_odd_succ, N.testbit_even_succ by lia. apply Bool.andb_diag.
    + replace j with (j - i + i) at 2 by lia. rewrite <- N.div_pow2_bits.
      rewrite N.div_add, N.div_small by lia. reflexivity.
Qed.

Lemma rt_clear_spec w n i : n < 2 ^ w -> lowest_bit n i ->
  rt_clear_low_bit w n + 2 ^ i = n
  /\ forall j, N.testbit (rt_clear_low_bit w n) j = N.testbit n j && negb (j =? i).
Proof.
  intros B L. destruct (odd_part n i L) as (m & E). pose proof (pow2_pos i).
  assert (P : 0 < n) by (subst n; apply N.mul_pos_pos; lia).
  unfold rt_clear_low_bit. rewrite rt_dec_pos by auto. rewrite E, clear_odd.
  split; [lia|]. intros j. rewrite !(N.mul_comm (2 ^ i)).
  destruct (N.lt_ge_cases j i) as [J|G].
  - rewrite !N.mul_pow2_bits_low by auto. reflexivity.
  - rewrite !N.mul_pow2_bits_high by auto. destruct (N.eqb_spec j i) as [->|Z].
    + rewrite N.sub_diag, N.testbit_even_0. now rewrite Bool.andb_false_r.
    + replace (j - i) with (N.succ (N.pred (j - i))) by lia.
      rewrite N.testbit_odd_succ, N.testbit_even_succ by lia. now rewrite Bool.andb_true_r.
Qed.

Lemma clear_all n i : n < 2 ^ 64 -> lowest_bit n i ->
  (ct_clear_low_bit n + 2 ^ i = n
   /\ forall j, N.testbit (ct_clear_low_bit n) j = N.testbit n j && negb (j =? i))
  /\ (forall w, n < 2 ^ w -> rt_clear_low_bit w n + 2 ^ i = n
      /\ forall j, N.testbit (rt_clear_low_bit w n) j = N.testbit n j && negb (j =? i)).
Proof.
  intros B L. split; [|intros; now apply rt_clear_spec].
  rewrite <- rt_clear_64 by auto. now apply rt_clear_spec.
Qed.

Lemma clear_zero : ct_clear_low_bit 0 = 0 /\ forall w, rt_clear_low_bit w 0 = 0.
Proof. split; reflexivity. Qed.

Lemma low_example :
  ct_clear_low_bit 104 = 96 /\ rt_clear_low_bit 8 104 = 96 /\ lowest_bit 104 3 /\ 104 < 2 ^ 8
  /\ ct_is_pow2 128 = true /\ rt_is_pow2 8 128 = true /\ rt_is_pow2 8 129 = false.
Proof.
  repeat split; try reflexivity. intros j J.
  assert (C : j = 0 \/ j = 1 \/ j = 2) by lia. destruct C as [->|[->| ->]]; reflexivity.
Qed.
