(** Facts about bsf, clear_low, bit-mask loops and powers of two. *)
From Coq Require Import NArith ZArith List Bool Lia Sorted.
From Coq Require Import ZifyBool ZifyNat ZifyN.
From Verif Require Import Base BaseFacts BitsModel ProberFacts.
Import ListNotations.
Open Scope N_scope.
Ltac Zify.zify_post_hook ::= Z.div_mod_to_equations.

Lemma bsf_double m : m <> 0 -> bsf (2 * m) = bsf m + 1.
Proof. destruct m; [lia|]. intros _. change (2 * N.pos p) with (N.pos p~0). cbn [bsf ctz_pos]. lia. Qed.

Lemma bsf_succ_double m : bsf (2 * m + 1) = 0.
Proof. destruct m; reflexivity. Qed.

Lemma clear_low_double m : clear_low (2 * m) = 2 * clear_low m.
Proof.
  unfold clear_low. apply N.bits_inj. intros i.
  destruct (N.eq_dec m 0) as [->|Hm]; [reflexivity|].
  destruct (N.eq_dec i 0) as [->|Hi].
  - rewrite N.land_spec, !N.testbit_even_0. reflexivity.
  - replace i with (N.succ (i - 1)) by lia.
    rewrite N.testbit_even_succ by lia.
    rewrite !N.land_spec.
    rewrite N.testbit_even_succ by lia.
    replace (2 * m - 1) with (2 * (m - 1) + 1) by lia.
    rewrite N.testbit_odd_succ by lia. reflexivity.
Qed.

Lemma clear_low_succ_double m : clear_low (2 * m + 1) = 2 * m.
Proof.
  unfold clear_low. replace (2 * m + 1 - 1) with (2 * m) by lia.
  apply N.bits_inj. intros i. rewrite N.land_spec.
  destruct (N.eq_dec i 0) as [->|Hi].
  - rewrite N.testbit_even_0. now rewrite andb_comm.
  - replace i with (N.succ (i - 1)) by lia.
    rewrite N.testbit_even_succ, N.testbit_odd_succ by lia. apply andb_diag.
Qed.

Lemma mask_positions_0 f : mask_positions f 0 = [].
Proof. destruct f; reflexivity. Qed.

Lemma mask_positions_double f m :
  mask_positions f (2 * m) = map (N.add 1) (mask_positions f m).
Proof.
  revert m; induction f; intros m; [reflexivity|]. cbn [mask_positions].
  destruct (N.eqb_spec m 0) as [->|Hm]; [reflexivity|].
  destruct (N.eqb_spec (2 * m) 0); [lia|].
  rewrite clear_low_double, IHf, bsf_double by auto. cbn [map]. f_equal. lia.
Qed.

Lemma mask_positions_succ_double f m :
  mask_positions (S f) (2 * m + 1) = 0 :: map (N.add 1) (mask_positions f m).
Proof.
  cbn [mask_positions].
  destruct (N.eqb_spec (2 * m + 1) 0); [lia|].
  rewrite clear_low_succ_double, bsf_succ_double, mask_positions_double. reflexivity.
Qed.

Lemma seqN_succ n : seqN (n + 1) = 0 :: map (N.add 1) (seqN n).
Proof.
  unfold seqN. replace (N.to_nat (n + 1)) with (S (N.to_nat n)) by lia. simpl. f_equal.
  rewrite <- seq_shift, !map_map. apply map_ext. intros. lia.
Qed.

Lemma filter_map {A B} (f : B -> bool) (g : A -> B) l :
  filter f (map g l) = map g (filter (fun x => f (g x)) l).
Proof. induction l; simpl; auto. destruct (f (g a)); simpl; now rewrite IHl. Qed.

Lemma mask_positions_spec (n : nat) f m :
  (n <= f)%nat -> m < 2 ^ N.of_nat n ->
  mask_positions f m = filter (N.testbit m) (seqN (N.of_nat n)).
Proof.
  revert f m; induction n; intros f m Hf Hm.
  - simpl in Hm. assert (m = 0) by lia. subst. apply mask_positions_0.
  - replace (N.of_nat (S n)) with (N.of_nat n + 1) in * by lia.
    rewrite N.pow_add_r in Hm. rewrite seqN_succ. cbn [filter].
    rewrite filter_map.
    destruct f as [|f]; [lia|].
    destruct (N.testbit m 0) eqn:E.
    + rewrite N.bit0_odd in E. apply N.odd_spec in E. destruct E as [q ->].
      rewrite mask_positions_succ_double. f_equal. f_equal.
      rewrite IHn; [|lia|lia]. apply filter_ext. intros i.
      replace (1 + i) with (N.succ i) by lia. now rewrite N.testbit_odd_succ by lia.
    + rewrite N.bit0_odd in E. assert (E' : N.even m = true) by (rewrite <- N.negb_odd, E; reflexivity).
      apply N.even_spec in E'. destruct E' as [q ->].
      rewrite mask_positions_double. f_equal.
      rewrite (IHn (S f)); [|lia|lia]. apply filter_ext. intros i.
      replace (1 + i) with (N.succ i) by lia. now rewrite N.testbit_even_succ by lia.
Qed.

Lemma positions_spec m : m < two32 -> positions m = filter (N.testbit m) (seqN 32).
Proof. intros. apply (mask_positions_spec 32); auto. Qed.

Lemma In_positions m p : m < two32 -> (In p (positions m) <-> N.testbit m p = true).
Proof.
  intros Hm. rewrite positions_spec by auto. rewrite filter_In, seqN_In. split; [tauto|].
  intros H. split; auto.
  destruct (N.lt_ge_cases p 32); auto.
  assert (m = 0 \/ N.log2 m < 32).
  { destruct (N.eq_dec m 0); auto. right. apply N.log2_lt_pow2; [lia|exact Hm]. }
  rewrite N.bits_above_log2 in H; [discriminate|].
  destruct H1 as [->|]; [simpl|]; lia.
Qed.

Lemma NoDup_positions m : m < two32 -> NoDup (positions m).
Proof. intros. rewrite positions_spec by auto. apply NoDup_filter, seqN_NoDup. Qed.

Lemma testbit_bsf m : m <> 0 -> N.testbit m (bsf m) = true.
Proof.
  destruct m; [lia|]. intros _. cbn [bsf]. induction p.
  - reflexivity.
  - cbn [ctz_pos]. replace (1 + ctz_pos p) with (N.succ (ctz_pos p)) by lia.
    change (N.pos p~0) with (2 * N.pos p). now rewrite N.testbit_even_succ by lia.
  - reflexivity.
Qed.

Lemma bsf_lowest m i : N.testbit m i = true -> bsf m <= i.
Proof.
  destruct m; [discriminate|]. cbn [bsf]. revert i. induction p; intros i H; cbn [ctz_pos].
  - lia.
  - change (N.pos p~0) with (2 * N.pos p) in H.
    destruct (N.eq_dec i 0) as [->|].
    + now rewrite N.testbit_even_0 in H.
    + replace i with (N.succ (i - 1)) in H by lia.
      rewrite N.testbit_even_succ in H by lia. apply IHp in H. lia.
  - lia.
Qed.

(** ** Powers of two *)

Lemma land_pred_pow2 k : N.land (2 ^ k) (2 ^ k - 1) = 0.
Proof.
  rewrite land_mask. apply N.mod_same. pose proof (pow2_pos k). lia.
Qed.

(** The number whose lowest bit is cleared to zero is a power of two. *)
Lemma land_pred_0 n : n <> 0 -> N.land n (n - 1) = 0 -> n = 2 ^ N.log2 n.
Proof.
  intros Hn H.
  destruct (N.log2_spec n) as [L U]; [lia|].
  destruct (N.eq_dec n (2 ^ N.log2 n)) as [|Hne]; auto. exfalso.
  assert (T : N.testbit (N.land n (n - 1)) (N.log2 n) = true).
  { rewrite N.land_spec, N.bit_log2 by auto.
    replace (N.log2 n) with (N.log2 (n - 1)).
    - rewrite N.bit_log2; auto. pose proof (pow2_pos (N.log2 n)). lia.
    - apply N.log2_unique; lia. }
  rewrite H, N.bits_0 in T. discriminate.
Qed.

Lemma is_pow2_spec n : 0 < n -> n < two64 -> (is_pow2 n = true <-> exists k, n = 2 ^ k).
Proof.
  intros H0 H. unfold is_pow2. rewrite wsub_small by lia. rewrite N.eqb_eq. split.
  - intros E. exists (N.log2 n). apply land_pred_0; auto. lia.
  - intros [k ->]. apply land_pred_pow2.
Qed.

Lemma round_up_spec mn n :
  1 < n -> n <= 2 ^ 63 ->
  exists k, round_up mn n = Ok (2 ^ k) /\ 1 <= k <= 63 /\ n <= 2 ^ k /\ 2 ^ (k - 1) < n.
Proof.
  intros H1 H2. unfold round_up.
  destruct (N.ltb_spec 1 n); [|lia]. cbn [orb].
  rewrite wsub_small by (unfold two64; lia).
  unfold bsr, shl1.
  destruct (N.log2_spec (n - 1)) as [L U]; [lia|].
  assert (N.log2 (n - 1) < 63).
  { apply N.log2_lt_pow2; lia. }
  exists (N.log2 (n - 1) + 1).
  destruct (N.ltb_spec (N.log2 (n - 1) + 1) 64); [|lia].
  split; [reflexivity|]. split; [lia|].
  rewrite <- N.add_1_r in U. split; [lia|].
  replace (N.log2 (n - 1) + 1 - 1) with (N.log2 (n - 1)) by lia. lia.
Qed.
