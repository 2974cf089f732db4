(** The group array lies where the tables need it. *)
From Coq Require Import NArith ZArith Bool Lia.
From Coq Require Import ZifyBool ZifyNat ZifyN.
From Verif Require Import Base BaseFacts ProberFacts LayoutModel.
Open Scope N_scope.
Ltac Zify.zify_post_hook ::= Z.div_mod_to_equations.

Lemma land_align x : x < two64 -> N.land x align_mask = x / 16 * 16.
Proof.
  intros Hx. unfold align_mask, kGroupAlignment.
  change (two64 - 16) with (N.shiftl (N.ones 60) 4).
  change (x / 16 * 16) with (x / 2 ^ 4 * 2 ^ 4).
  rewrite <- N.shiftr_div_pow2, <- N.shiftl_mul_pow2.
  apply N.bits_inj. intros i. rewrite N.land_spec.
  destruct (N.lt_ge_cases i 4) as [H|H].
  - rewrite !N.shiftl_spec_low by auto. apply andb_false_r.
  - rewrite !N.shiftl_spec_high' by auto. rewrite N.shiftr_spec by lia.
    replace (i - 4 + 4) with i by lia.
    destruct (N.lt_ge_cases (i - 4) 60) as [H'|H'].
    + rewrite N.ones_spec_low by auto. apply andb_true_r.
    + rewrite N.ones_spec_high by auto. rewrite andb_false_r. symmetry.
      destruct (N.eq_dec x 0) as [->|]; [apply N.bits_0|].
      apply N.bits_above_log2.
      assert (N.log2 x < 64) by (apply N.log2_lt_pow2; [lia|exact Hx]). lia.
Qed.

Lemma wadd_small x y : x + y < two64 -> wadd x y = x + y.
Proof. intros. unfold wadd. now apply w64_small. Qed.

Lemma round16 x : x + 16 < two64 ->
  exists pad, N.land (wsub (wadd x 16) 1) align_mask = x + pad /\ pad < 16 /\ (x + pad) mod 16 = 0.
Proof.
  intros H. rewrite wadd_small, wsub_small by lia. rewrite land_align by lia.
  exists ((x + 16 - 1) / 16 * 16 - x). lia.
Qed.

(** One block: slots first, groups behind them. *)
Lemma one_block sz gcap sc a : 0 < sz ->
  sc * sz + 16 + gcap * 16 + sz <= two64 ->
  a + total_slot_alloc_count sz gcap sc * sz < two64 ->
  exists groups, aligned_slots_and_groups sz a sc = groups
    /\ groups mod 16 = 0
    /\ a + sc * sz <= groups
    /\ groups + gcap * 16 <= a + total_slot_alloc_count sz gcap sc * sz.
Proof.
  intros Hz Hb Ha.
  assert (Et : total_slot_alloc_count sz gcap sc = (sc * sz + 16 + gcap * 16 + sz - 1) / sz).
  { unfold total_slot_alloc_count, sizeof_group, kGroupAlignment.
    destruct (N.eq_dec (sc * sz + 16 + gcap * 16 + sz) two64) as [E|E].
    - rewrite (wmul_small sc sz), (wmul_small gcap 16) by lia.
      rewrite (wadd_small (sc * sz) 16), (wadd_small (sc * sz + 16)) by lia.
      unfold wadd, wsub. rewrite E. unfold w64. rewrite N.mod_same by (unfold two64; lia).
      f_equal.
    - rewrite (wmul_small sc sz), (wmul_small gcap 16) by lia.
      rewrite (wadd_small (sc * sz) 16), (wadd_small (sc * sz + 16)) by lia.
      rewrite wadd_small, wsub_small by lia. reflexivity. }
  rewrite Et in *.
  set (q := (sc * sz + 16 + gcap * 16 + sz - 1) / sz) in *.
  assert (Hq : sc * sz + 16 + gcap * 16 <= q * sz).
  { pose proof (N.div_mod (sc * sz + 16 + gcap * 16 + sz - 1) sz ltac:(lia)) as D.
    pose proof (N.mod_lt (sc * sz + 16 + gcap * 16 + sz - 1) sz ltac:(lia)) as M.
    fold q in D. rewrite (N.mul_comm sz q) in D. lia. }
  unfold aligned_slots_and_groups, kGroupAlignment.
  rewrite (wmul_small sc sz) by lia. rewrite (wadd_small a) by lia.
  destruct (round16 (a + sc * sz) ltac:(lia)) as (pad & E & Hp & Hm).
  exists (a + sc * sz + pad). split; [exact E|]. split; [exact Hm|]. lia.
Qed.

(** Two blocks: the block of the groups alone.  The byte behind the last control
    byte, which iterators read, belongs to the block as well. *)
Lemma group_block gcap a : gcap * 16 + 32 <= two64 ->
  a + total_group_alloc_count gcap * 16 < two64 ->
  exists groups, aligned_groups a = groups
    /\ groups mod 16 = 0
    /\ a <= groups
    /\ groups + gcap * 16 < a + total_group_alloc_count gcap * 16.
Proof.
  intros Hb Ha.
  assert (Et : total_group_alloc_count gcap = gcap + 1).
  { unfold total_group_alloc_count, sizeof_group, kGroupAlignment.
    rewrite (wmul_small gcap 16), (wadd_small (gcap * 16)) by lia.
    destruct (N.eq_dec (gcap * 16 + 32) two64) as [E|E].
    - assert (G : gcap = 1152921504606846974) by (unfold two64 in E; change (2 ^ 64) with 18446744073709551616 in E; lia).
      subst gcap. reflexivity.
    - rewrite wadd_small, wsub_small by lia. lia. }
  rewrite Et in *. unfold aligned_groups, kGroupAlignment.
  destruct (round16 a ltac:(lia)) as (pad & E & Hp & Hm).
  exists (a + pad). split; [exact E|]. split; [exact Hm|]. lia.
Qed.

(** Slots of two megabytes and 2^43 groups: the byte count wraps around and the
    block is shorter than its slots. *)
Lemma one_block_wraps :
  total_slot_alloc_count (2 ^ 21) (2 ^ 43) (15 * 2 ^ 43 - 1) < 15 * 2 ^ 43 - 1.
Proof. reflexivity. Qed.
