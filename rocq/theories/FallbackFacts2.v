(** Leading and trailing zeros, and the 64-bit functions. *)
From Coq Require Import NArith ZArith List Bool Lia.
From Coq Require Import ZifyBool ZifyNat ZifyN.
From Verif Require Import Base BaseFacts BitsModel BitsFacts FallbackModel BitSpec FallbackFacts.
Import ListNotations.
Open Scope N_scope.
Ltac Zify.zify_post_hook ::= Z.div_mod_to_equations.

Lemma ones_mask (k : nat) : ones (2 ^ N.of_nat k - 1) = N.of_nat k.
Proof.
  induction k as [|k IH]; [reflexivity|].
  replace (N.of_nat (S k)) with (N.of_nat k + 1) by lia. rewrite N.pow_add_r. change (2 ^ 1) with 2.
  pose proof (pow2_pos (N.of_nat k)).
  replace (2 ^ N.of_nat k * 2 - 1) with (2 * (2 ^ N.of_nat k - 1) + 1) by lia.
  rewrite ones_succ_double, IH. lia.
Qed.

Lemma ones_maskN k : ones (2 ^ k - 1) = k.
Proof. pose proof (ones_mask (N.to_nat k)) as H. now rewrite N2Nat.id in H. Qed.

Definition window (L k x : N) : Prop :=
  (forall i, i <= L -> L < i + k -> N.testbit x i = true) /\ (forall i, L < i -> N.testbit x i = false).

Lemma smear_window L k x : window L k x -> window L (2 * k) (smear k x).
Proof.
  intros [H1 H2]. unfold smear. split; intros i Hi; [intros Hk|]; rewrite N.lor_spec, N.shiftr_spec by lia.
  - destruct (N.lt_ge_cases L (i + k)); [rewrite H1 by lia; reflexivity|].
    rewrite (H1 (i + k)) by lia. apply orb_true_r.
  - rewrite !H2 by lia. reflexivity.
Qed.

Lemma window_mask L k x : window L k x -> L < k -> x = 2 ^ (L + 1) - 1.
Proof.
  intros [H1 H2] Hk. apply N.bits_inj. intros i.
  replace (2 ^ (L + 1) - 1) with (N.ones (L + 1)) by (rewrite N.ones_equiv; lia).
  destruct (N.le_gt_cases i L).
  - rewrite N.ones_spec_low by lia. apply H1; lia.
  - rewrite N.ones_spec_high by lia. apply H2; lia.
Qed.

Lemma window_log2 x : x <> 0 -> window (N.log2 x) 1 x.
Proof.
  intros Hx. split; intros i Hi; [intros Hk|].
  - replace i with (N.log2 x) by lia. now apply N.bit_log2.
  - now apply N.bits_above_log2.
Qed.

Lemma highest_log2 x i : highest_bit x i -> x <> 0 /\ i = N.log2 x.
Proof.
  intros [H1 H2]. assert (Hx : x <> 0) by (intros ->; now rewrite N.bits_0 in H1).
  split; auto. pose proof (N.bit_log2 x Hx) as HL.
  destruct (N.lt_total i (N.log2 x)) as [H|[H|H]]; auto.
  - rewrite H2 in HL by auto. discriminate.
  - rewrite N.bits_above_log2 in H1 by auto. discriminate.
Qed.

Lemma clz32_spec x i : x < two32 -> highest_bit x i -> clz32 x = 31 - i.
Proof.
  intros Hx Hi. apply highest_log2 in Hi. destruct Hi as [Hz ->].
  assert (HL : N.log2 x < 32) by (apply N.log2_lt_pow2; [lia|exact Hx]).
  pose proof (window_log2 x Hz) as W.
  apply smear_window in W. apply smear_window in W. apply smear_window in W.
  apply smear_window in W. apply smear_window in W.
  change (2 * 1) with 2 in W. change (2 * 2) with 4 in W. change (2 * 4) with 8 in W.
  change (2 * 8) with 16 in W. change (2 * 16) with 32 in W.
  unfold clz32. rewrite (window_mask _ _ _ W HL).
  rewrite popcnt_fast_spec, ones_maskN; [lia|].
  pose proof (pow2_le (N.log2 x + 1) 32 ltac:(lia)). pose proof (pow2_pos (N.log2 x + 1)).
  change two32 with (2 ^ 32). lia.
Qed.

Lemma clz32_zero : clz32 0 = 32. Proof. reflexivity. Qed.

(** Splitting off the trailing zeros. *)
Lemma odd_part x i : lowest_bit x i -> exists m, x = 2 ^ i * (2 * m + 1).
Proof.
  intros [H1 H2]. exists (x / 2 ^ i / 2).
  assert (E : x mod 2 ^ i = 0).
  { apply N.bits_inj. intros j. rewrite N.bits_0. destruct (N.lt_ge_cases j i).
    - rewrite N.mod_pow2_bits_low by auto. now apply H2.
    - now rewrite N.mod_pow2_bits_high. }
  assert (O : (x / 2 ^ i) mod 2 = 1).
  { rewrite <- N.shiftr_div_pow2. rewrite <- N.bit0_mod. rewrite N.shiftr_spec by lia.
    rewrite N.add_0_l, H1. reflexivity. }
  pose proof (pow2_pos i). pose proof (N.div_mod x (2 ^ i) ltac:(lia)) as D.
  pose proof (N.div_mod (x / 2 ^ i) 2 ltac:(lia)) as D2. rewrite O in D2. rewrite E in D.
  rewrite <- D2. lia.
Qed.

Lemma land_compl m k : m < 2 ^ k -> N.land m (2 ^ k - 1 - m) = 0.
Proof.
  intros H. replace (2 ^ k - 1 - m) with (N.lnot m k).
  - destruct (N.eq_dec m 0) as [->|]; [apply N.land_0_l|].
    apply N.land_lnot_diag_low. apply N.log2_lt_pow2; lia.
  - destruct (N.eq_dec m 0) as [->|].
    + rewrite N.sub_0_r. unfold N.lnot. rewrite N.lxor_0_l, N.ones_equiv. lia.
    + rewrite N.lnot_sub_low by (apply N.log2_lt_pow2; lia). rewrite N.ones_equiv. lia.
Qed.

Lemma land_neg w i m : 2 ^ i * (2 * m + 1) < 2 ^ w ->
  N.land (2 ^ i * (2 * m + 1)) (2 ^ w - 2 ^ i * (2 * m + 1)) = 2 ^ i.
Proof.
  intros H. pose proof (pow2_pos i) as Hp.
  assert (Hi : i < w).
  { destruct (N.lt_ge_cases i w) as [|Hge]; auto. pose proof (pow2_le w i Hge). nia. }
  assert (Ew : 2 ^ w = 2 ^ i * (2 * 2 ^ (w - i - 1))).
  { rewrite <- (N.pow_succ_r' 2), <- N.pow_add_r. f_equal. lia. }
  rewrite Ew in *. assert (Hm : 2 * m + 1 < 2 * 2 ^ (w - i - 1)) by nia.
  replace (2 ^ i * (2 * 2 ^ (w - i - 1)) - 2 ^ i * (2 * m + 1))
    with (2 ^ i * (2 * (2 ^ (w - i - 1) - 1 - m) + 1)) by nia.
  rewrite <- !(N.mul_comm (2 * _ + 1)). rewrite <- !N.shiftl_mul_pow2. rewrite <- N.shiftl_land.
  rewrite N.shiftl_mul_pow2.
  replace (N.land (2 * m + 1) (2 * (2 ^ (w - i - 1) - 1 - m) + 1)) with 1; [lia|].
  pose proof (land_cat 1 1 m 1 (2 ^ (w - i - 1) - 1 - m) eq_refl eq_refl) as E.
  change (2 ^ 1) with 2 in E. rewrite (N.add_comm 1), (N.add_comm 1 (2 * (2 ^ (w - i - 1) - 1 - m))) in E.
  rewrite E, land_compl by lia. reflexivity.
Qed.

Lemma ls1b32_spec x i : x < two32 -> lowest_bit x i -> ls1b32 x = 2 ^ i.
Proof.
  intros Hx Hi. destruct (odd_part x i Hi) as [m ->]. unfold ls1b32.
  pose proof (pow2_pos i).
  assert (E : sub32 0 (2 ^ i * (2 * m + 1)) = 2 ^ 32 - 2 ^ i * (2 * m + 1)).
  { unfold sub32, w32. rewrite (N.mod_small (2 ^ i * (2 * m + 1))) by auto. change two32 with (2 ^ 32) in *.
    apply N.mod_small. nia. }
  rewrite E. now apply land_neg.
Qed.

Lemma ls1b64_spec x i : x < two64 -> lowest_bit x i -> ls1b64 x = 2 ^ i.
Proof.
  intros Hx Hi. destruct (odd_part x i Hi) as [m ->]. unfold ls1b64.
  pose proof (pow2_pos i).
  assert (E : wsub 0 (2 ^ i * (2 * m + 1)) = 2 ^ 64 - 2 ^ i * (2 * m + 1)).
  { unfold wsub, w64. rewrite (N.mod_small (2 ^ i * (2 * m + 1))) by auto. change two64 with (2 ^ 64) in *.
    apply N.mod_small. nia. }
  rewrite E. now apply land_neg.
Qed.

Lemma lowest_lt x i w : x < 2 ^ w -> lowest_bit x i -> i < w.
Proof.
  intros Hx [H _]. destruct (N.lt_ge_cases i w); auto.
  rewrite (testbit_small x i w) in H by auto. discriminate.
Qed.

Lemma ctz32_spec x i : x < two32 -> lowest_bit x i -> ctz32 x = i.
Proof.
  intros Hx Hi. unfold ctz32. fold (ls1b32 x). rewrite (ls1b32_spec x i Hx Hi).
  pose proof (lowest_lt x i 32 Hx Hi) as Hl. pose proof (pow2_lt i 32 Hl). pose proof (pow2_pos i).
  rewrite sub32_small by (change two32 with (2 ^ 32); lia).
  rewrite popcnt_fast_spec by (change two32 with (2 ^ 32); lia). apply ones_maskN.
Qed.

Lemma ctz32_zero : ctz32 0 = 32. Proof. reflexivity. Qed.

Lemma ms1b32_spec x i : x < two32 -> highest_bit x i -> ms1b32 x = 2 ^ i.
Proof.
  intros Hx Hi. apply highest_log2 in Hi. destruct Hi as [Hz ->]. unfold ms1b32.
  replace (x =? 0) with false by lia. cbn [negb]. unfold bsr, w32.
  assert (N.log2 x < 32) by (apply N.log2_lt_pow2; [lia|exact Hx]).
  apply N.mod_small. change two32 with (2 ^ 32). now apply pow2_lt.
Qed.

Lemma ms1b64_spec x i : x < two64 -> highest_bit x i -> ms1b64 x = 2 ^ i.
Proof.
  intros Hx Hi. apply highest_log2 in Hi. destruct Hi as [Hz ->]. unfold ms1b64.
  replace (x =? 0) with false by lia. cbn [negb]. unfold bsr, w64.
  assert (N.log2 x < 64) by (apply N.log2_lt_pow2; [lia|exact Hx]).
  apply N.mod_small. change two64 with (2 ^ 64). now apply pow2_lt.
Qed.

(** 32-bit builds: the count and the scan from above are right. *)
Lemma narrow_popcnt64_spec x : x < two64 -> narrow_popcnt64 x = ones x.
Proof.
  intros Hx. unfold narrow_popcnt64.
  change two32 with (2 ^ 32). rewrite land_mask_n. rewrite N.shiftr_div_pow2.
  pose proof (pow2_pos 32).
  assert (Hh : x / 2 ^ 32 < 2 ^ 32).
  { apply N.div_lt_upper_bound; [lia|]. rewrite <- N.pow_add_r. exact Hx. }
  assert (Hl : x mod 2 ^ 32 < 2 ^ 32) by (apply N.mod_lt; lia).
  unfold w32. change two32 with (2 ^ 32). rewrite (N.mod_small (x / 2 ^ 32)) by auto.
  rewrite !popcnt_fast_spec by auto.
  pose proof (ones_cat 32 (x mod 2 ^ 32) (x / 2 ^ 32) Hl) as E. change (N.of_nat 32) with 32 in E.
  replace (x mod 2 ^ 32 + 2 ^ 32 * (x / 2 ^ 32)) with x in E.
  2:{ pose proof (N.div_mod x (2 ^ 32) ltac:(lia)). lia. }
  rewrite E. unfold add32, w32.
  assert (B : forall y, y < two32 -> ones y <= 63).
  { intros y Hy. rewrite <- popcnt_fast_spec by auto. unfold popcnt_fast. cbv zeta.
    change 63 with (2 ^ 6 - 1) at 1. rewrite land_mask_n. pose proof (pow2_pos 6).
    assert (forall z, z mod 2 ^ 6 <= 63) by (intros z; change (2 ^ 6) with 64; lia). auto. }
  pose proof (B _ Hh). pose proof (B _ Hl). rewrite N.mod_small by (rewrite two32_eq; lia). lia.
Qed.

Lemma narrow_bsr64_spec x i : x < two64 -> highest_bit x i -> narrow_bsr64 x = i.
Proof.
  intros Hx Hi. apply highest_log2 in Hi. destruct Hi as [Hz ->]. unfold narrow_bsr64, bsr.
  rewrite N.shiftr_div_pow2. change (two32 - 1) with (2 ^ 32 - 1). rewrite land_mask_n.
  pose proof (pow2_pos 32).
  destruct (N.eqb_spec (x / 2 ^ 32) 0) as [E|E]; cbn [negb].
  - apply N.div_small_iff in E; [|lia]. now rewrite N.mod_small.
  - assert (Hge : 2 ^ 32 <= x).
    { destruct (N.le_gt_cases (2 ^ 32) x); auto. exfalso. apply E. now apply N.div_small. }
    rewrite <- N.shiftr_div_pow2, N.log2_shiftr.
    pose proof (N.log2_le_mono _ _ Hge) as HL. rewrite N.log2_pow2 in HL by lia. lia.
Qed.

(** ** Below 2^32 the 64-bit count is right as well *)

Lemma popcnt_sum64 c0 c1 c2 c3 : c0 <= 8 -> c1 <= 8 -> c2 <= 8 -> c3 <= 8 ->
  let x := c0 + 256 * c1 + 65536 * c2 + 16777216 * c3 in
  let y := wadd (wadd x (N.shiftr x 8)) (N.shiftr (wadd x (N.shiftr x 8)) 16) in
  N.land (wadd y (N.shiftr y 32)) 127 = c0 + c1 + c2 + c3.
Proof.
  intros H0 H1 H2 H3 x y.
  assert (T : two64 = 18446744073709551616) by reflexivity.
  assert (E1 : N.shiftr x 8 = c1 + 256 * c2 + 65536 * c3).
  { rewrite N.shiftr_div_pow2. change (2 ^ 8) with 256. unfold x. lia. }
  assert (E2 : wadd x (N.shiftr x 8)
     = (c0 + c1) + 256 * (c1 + c2) + 65536 * (c2 + c3) + 16777216 * c3).
  { rewrite E1. rewrite wadd_small; unfold x; [lia|rewrite T; lia]. }
  assert (E3 : N.shiftr (c0 + c1 + 256 * (c1 + c2) + 65536 * (c2 + c3) + 16777216 * c3) 16
     = c2 + c3 + 256 * c3).
  { rewrite N.shiftr_div_pow2. change (2 ^ 16) with 65536. lia. }
  assert (E4 : y = c0 + c1 + c2 + c3 + 256 * (c1 + c2 + c3) + 65536 * (c2 + c3) + 16777216 * c3).
  { unfold y. rewrite E2, E3, wadd_small by (rewrite T; lia). lia. }
  assert (E5 : N.shiftr y 32 = 0).
  { rewrite N.shiftr_div_pow2. apply N.div_small. rewrite E4. change (2 ^ 32) with 4294967296. lia. }
  rewrite E5, wadd_small by (rewrite E4, T; lia). rewrite N.add_0_r, E4.
  change 127 with (2 ^ 7 - 1). rewrite land_mask_n. change (2 ^ 7) with 128.
  replace (c0 + c1 + c2 + c3 + 256 * (c1 + c2 + c3) + 65536 * (c2 + c3) + 16777216 * c3)
    with (c0 + c1 + c2 + c3 + (2 * (c1 + c2 + c3) + 512 * (c2 + c3) + 131072 * c3) * 128) by lia.
  rewrite N.mod_add by discriminate. apply N.mod_small. lia.
Qed.

Lemma land_le_l a b : N.land a b <= a.
Proof.
  apply N.ldiff_le. apply N.bits_inj. intros i.
  rewrite N.ldiff_spec, N.land_spec, N.bits_0. destruct (N.testbit a i), (N.testbit b i); reflexivity.
Qed.

Lemma sub_64_32 x y : y <= x -> x < two32 -> wsub x y = sub32 x y.
Proof.
  intros. rewrite sub32_small, wsub_small; auto. change two64 with (2 ^ 64).
  change two32 with (2 ^ 32) in *. pose proof (pow2_lt 32 64 ltac:(lia)). lia.
Qed.

Lemma popcnt64_small x : x < two32 -> popcnt64 x = ones x.
Proof.
  intros Hx. destruct (two_steps x Hx) as (a & b & c & d & e & f & g & h & Ha & Hb & Hc & Hd & He & Hf & Hg & Hh & Ho & E).
  unfold popcnt64. cbv zeta in *.
  assert (Hle : N.land (N.shiftr x 1) x55 <= x).
  { pose proof (land_le_l (N.shiftr x 1) x55). rewrite N.shiftr_div_pow2 in *. change (2 ^ 1) with 2 in *. lia. }
  rewrite (sub_64_32 x _ Hle Hx). set (y := sub32 x (N.land (N.shiftr x 1) x55)) in *.
  assert (E' : wadd (N.land (N.shiftr y 2) x33) (N.land y x33) = nest 4 [a;b;c;d;e;f;g;h]).
  { assert (B : forall u, N.land u x33 < 2 ^ 30) by (intros u; apply land_lt; reflexivity).
    pose proof (B (N.shiftr y 2)). pose proof (B y). change (2 ^ 30) with 1073741824 in *.
    rewrite wadd_small by (change two64 with 18446744073709551616; lia).
    rewrite <- E, add32_small; [reflexivity|]. rewrite two32_eq. lia. }
  rewrite E'. rewrite shiftr4_nibbles by lia.
  assert (E2 : wadd (nest 4 [b; c; d; e; f; g; h; 0]) (nest 4 [a; b; c; d; e; f; g; h])
     = nest 4 [b+a;c+b;d+c;e+d;f+e;g+f;h+g;0+h]).
  { rewrite <- add_nibbles by lia. rewrite !nest4_eq. rewrite add32_small, wadd_small; auto.
    - change two64 with 18446744073709551616. lia.
    - rewrite two32_eq. lia. }
  rewrite E2. rewrite (land_nibbles0 _ _ _ _ _ _ _ _ 15 0 x0F) by side.
  rewrite !N.land_0_r, !land15 by lia. rewrite Ho, nest4_eq.
  replace (b + a + 16 * (0 + 16 * (d + c + 16 * (0 + 16 * (f + e + 16 * (0 + 16 * (h + g + 16 * 0)))))))
    with ((a + b) + 256 * (c + d) + 65536 * (e + f) + 16777216 * (g + h)) by lia.
  rewrite popcnt_sum64 by lia. lia.
Qed.

(** From 2^32 on it misses bits. *)
Lemma popcnt64_wrong : popcnt64 (2 ^ 32) = 0 /\ ones (2 ^ 32) = 1.
Proof. split; reflexivity. Qed.

Lemma ctz64_wrong : ctz64 (2 ^ 40) <> 40 /\ lowest_bit (2 ^ 40) 40.
Proof.
  split; [vm_compute; discriminate|]. split; [reflexivity|].
  intros j Hj. apply N.pow2_bits_false. lia.
Qed.

Lemma clz64_wrong : clz64 (2 ^ 40) <> 63 - 40 /\ highest_bit (2 ^ 40) 40.
Proof.
  split; [vm_compute; discriminate|]. split; [reflexivity|].
  intros j Hj. apply N.pow2_bits_false. lia.
Qed.

Lemma generic_bsr32_wrong : generic_bsr32 1 = 31 /\ highest_bit 1 0.
Proof.
  split; [reflexivity|]. split; [reflexivity|]. intros j Hj. change 1 with (2 ^ 0).
  apply N.pow2_bits_false. lia.
Qed.

Lemma narrow_bsf64_wrong : narrow_bsf64 1 = 32 /\ lowest_bit 1 0.
Proof. split; [reflexivity|]. split; [reflexivity|]. intros j Hj. lia. Qed.
