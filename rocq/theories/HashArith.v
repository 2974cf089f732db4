(** The 64 x 64 multiplications, the index of a hash policy and the CRC of an integer. *)
From Coq Require Import Arith NArith ZArith List Bool Lia.
From Coq Require Import ZifyBool ZifyNat ZifyN.
From Verif Require Import Base BitsModel Crc32Model HashModel HashSpec HashFacts HashData
  HashData2 HashCrc HashSens HashSens2.
Import ListNotations.
Open Scope N_scope.

(** ** 64 x 64 -> 128 bits *)
Lemma lor_add : forall a b, a < 2 ^ 32 -> N.lor a (b * 2 ^ 32) = a + b * 2 ^ 32.
Proof.
  intros a b Ha. rewrite <- N.shiftl_mul_pow2.
  assert (Z : N.land a (N.shiftl b 32) = 0).
  { apply N.bits_inj. intros i. rewrite N.land_spec, N.bits_0.
    destruct (N.lt_ge_cases i 32) as [H|H].
    - rewrite N.shiftl_spec_low by exact H. apply andb_false_r.
    - rewrite (proj1 (lt_pow2_bits 32 a) Ha i H). reflexivity. }
  rewrite <- N.lxor_lor by exact Z. rewrite N.add_nocarry_lxor by exact Z. reflexivity.
Qed.

Lemma shl_low : forall m, w64 (N.shiftl m 32) = (m mod 2 ^ 32) * 2 ^ 32.
Proof.
  intros m. rewrite N.shiftl_mul_pow2. unfold w64, two64.
  replace (2 ^ 64) with (2 ^ 32 * 2 ^ 32) by reflexivity.
  rewrite N.mul_mod_distr_r by (vm_compute; discriminate). reflexivity.
Qed.

Definition B32 : N := 4294967296.

Lemma land_low : forall x, N.land x 4294967295 = x mod B32.
Proof. intros x. change 4294967295 with (N.ones 32). apply N.land_ones. Qed.

Lemma shr_high : forall x, N.shiftr x 32 = x / B32.
Proof. intros x. rewrite N.shiftr_div_pow2. reflexivity. Qed.

Lemma two_words : forall x y x0 x1 y0 y1,
  x = x0 + B32 * x1 -> y = y0 + B32 * y1 ->
  x0 < B32 -> x1 < B32 -> y0 < B32 -> y1 < B32 ->
  let mid := x0 * y1 + x0 * y0 / B32 + (x1 * y0) mod B32 in
  let low := (x0 * y0) mod B32 + mid mod B32 * B32 in
  let high := x1 * y1 + x1 * y0 / B32 + mid / B32 in
  x0 * y1 < B32 * B32 /\ x0 * y1 + x0 * y0 / B32 < B32 * B32 /\ mid < B32 * B32 /\
  low = (x * y) mod (B32 * B32) /\ high = x * y / (B32 * B32) /\ high < B32 * B32.
Proof.
  intros x y x0 x1 y0 y1 -> -> X0 X1 Y0 Y1.
  assert (PB : B32 <> 0) by discriminate.
  pose proof (N.div_mod (x0 * y0) B32 PB) as D00.
  pose proof (N.mod_lt (x0 * y0) B32 PB) as M00.
  pose proof (N.div_mod (x1 * y0) B32 PB) as D10.
  pose proof (N.mod_lt (x1 * y0) B32 PB) as M10.
  assert (Q : forall a b, a < B32 -> b < B32 -> a * b <= (B32 - 1) * (B32 - 1)).
  { intros a b Ha Hb. apply N.mul_le_mono; lia. }
  assert (D00q : x0 * y0 / B32 < B32).
  { apply N.div_lt_upper_bound; [exact PB|]. apply N.mul_lt_mono; assumption. }
  assert (D10q : x1 * y0 / B32 < B32).
  { apply N.div_lt_upper_bound; [exact PB|]. apply N.mul_lt_mono; assumption. }
  pose proof (Q x0 y1 X0 Y1) as Q01. pose proof (Q x1 y1 X1 Y1) as Q11.
  change ((B32 - 1) * (B32 - 1)) with 18446744065119617025 in *.
  change (B32 * B32) with 18446744073709551616.
  set (q00 := x0 * y0 / B32) in *. set (r00 := (x0 * y0) mod B32) in *.
  set (q10 := x1 * y0 / B32) in *. set (r10 := (x1 * y0) mod B32) in *.
  set (p01 := x0 * y1) in *. set (p11 := x1 * y1) in *.
  intros mid low high.
  assert (Hm : mid < 18446744073709551616) by (unfold mid; change B32 with 4294967296 in *; lia).
  pose proof (N.div_mod mid B32 PB) as Dm. pose proof (N.mod_lt mid B32 PB) as Mm.
  assert (Lw : low < 18446744073709551616)
    by (unfold low; change B32 with 4294967296 in *; lia).
  assert (E : (x0 + B32 * x1) * (y0 + B32 * y1) = 18446744073709551616 * high + low).
  { assert (E0 : (x0 + B32 * x1) * (y0 + B32 * y1) =
                 x0 * y0 + B32 * (x1 * y0) + B32 * p01 + B32 * B32 * p11)
      by (unfold p01, p11; ring).
    rewrite E0, D00, D10.
    set (qm := mid / B32) in *. set (rm := mid mod B32) in *.
    assert (Hmid : p01 + q00 + r10 = B32 * qm + rm) by (rewrite <- Dm; reflexivity).
    unfold high, low. fold qm. change B32 with 4294967296 in *. lia. }
  split; [change B32 with 4294967296 in *; lia|].
  split; [change B32 with 4294967296 in *; lia|].
  split; [exact Hm|].
  rewrite E.
  split; [apply (N.mod_unique _ _ high); [exact Lw|reflexivity]|].
  split; [apply (N.div_unique _ _ _ low); [exact Lw|reflexivity]|].
  unfold high.
  assert (HH : (x0 + B32 * x1) * (y0 + B32 * y1) <
               18446744073709551616 * 18446744073709551616).
  { apply N.mul_lt_mono; change B32 with 4294967296 in *; lia. }
  rewrite E in HH. unfold high in HH. lia.
Qed.

Lemma split_word : forall x, x < 2 ^ 64 ->
  x = x mod B32 + B32 * (x / B32) /\ x mod B32 < B32 /\ x / B32 < B32.
Proof.
  intros x Hx. assert (PB : B32 <> 0) by discriminate.
  split; [rewrite N.add_comm; apply N.div_mod; exact PB|].
  split; [apply N.mod_lt; exact PB|].
  apply N.div_lt_upper_bound; [exact PB|]. exact Hx.
Qed.

Lemma w64_BB : forall x, w64 x = x mod (B32 * B32).
Proof. reflexivity. Qed.

Lemma wmul_small : forall a b, a < B32 -> b < B32 -> wmul a b = a * b.
Proof.
  intros a b Ha Hb. unfold wmul. rewrite w64_BB. apply N.mod_small.
  apply N.mul_lt_mono; assumption.
Qed.

Lemma w32_small' : forall a, a < B32 -> w32 a = a.
Proof. intros a Ha. apply w32_small. exact Ha. Qed.

Lemma uint128_arm_correct : forall x y, x < 2 ^ 64 -> y < 2 ^ 64 ->
  uint128_mul_arm x y = ((x * y) mod 2 ^ 64, x * y / 2 ^ 64).
Proof.
  intros x y Hx Hy.
  destruct (split_word x Hx) as (Ex & Lx & Ux). destruct (split_word y Hy) as (Ey & Ly & Uy).
  unfold uint128_mul_arm. rewrite !land_low, !shr_high.
  rewrite (w32_small' (x / B32)), (w32_small' (y / B32)) by assumption.
  rewrite !wmul_small by assumption.
  destruct (two_words x y _ _ _ _ Ex Ey Lx Ux Ly Uy) as (H1 & H2 & H3 & H4 & H5 & H6).
  change (2 ^ 64) with (B32 * B32). rewrite <- H4, <- H5.
  set (x0 := x mod B32) in *. set (x1 := x / B32) in *.
  set (y0 := y mod B32) in *. set (y1 := y / B32) in *.
  assert (PB : B32 <> 0) by discriminate.
  assert (D00q : x0 * y0 / B32 < B32)
    by (apply N.div_lt_upper_bound; [exact PB|]; apply N.mul_lt_mono; assumption).
  assert (D10q : x1 * y0 / B32 < B32)
    by (apply N.div_lt_upper_bound; [exact PB|]; apply N.mul_lt_mono; assumption).
  rewrite (w32_small' (x0 * y0 / B32)), (w32_small' (x1 * y0 / B32)) by assumption.
  unfold wadd. rewrite !w64_BB.
  rewrite (N.mod_small (x0 * y1 + _)) by exact H2.
  rewrite (N.mod_small (x0 * y1 + _ + _)) by exact H3.
  set (mid := x0 * y1 + x0 * y0 / B32 + (x1 * y0) mod B32) in *.
  assert (Dm : mid / B32 < B32) by (apply N.div_lt_upper_bound; [exact PB|]; exact H3).
  rewrite (w32_small' (mid / B32)) by exact Dm.
  rewrite <- w64_BB, shl_low.
  change (2 ^ 32) with B32. rewrite (lor_add ((x0 * y0) mod B32)) by (apply N.mod_lt; exact PB).
  f_equal. change (2 ^ 32) with B32.
  rewrite (N.mod_small (x1 * y1 + x1 * y0 / B32)).
  - apply N.mod_small. exact H6.
  - eapply N.le_lt_trans; [|exact H6]. apply N.le_add_r.
Qed.

Lemma sum3 : forall a b c, a < B32 -> b < B32 -> c < B32 ->
  a + b < B32 * B32 /\ a + b + c < B32 * B32.
Proof.
  intros a b c. change (B32 * B32) with 18446744073709551616. change B32 with 4294967296. lia.
Qed.

Lemma word2 : forall a b, a < B32 -> b < B32 -> a * B32 + b < B32 * B32.
Proof.
  intros a b. change (B32 * B32) with 18446744073709551616. change B32 with 4294967296. lia.
Qed.

Lemma sum4 : forall p a b c, p + b + (c + a) < B32 * B32 ->
  (((p + a) mod (B32 * B32) + b) mod (B32 * B32) + c) mod (B32 * B32) = p + b + (c + a).
Proof.
  intros p a b c. generalize (B32 * B32). intros m H.
  rewrite (N.mod_small (p + a)), (N.mod_small (p + a + b)), N.mod_small; lia.
Qed.

Lemma mum_portable_correct : forall x y, x < 2 ^ 64 -> y < 2 ^ 64 ->
  mum_mul_mix64_portable x y = N.lxor ((x * y) mod 2 ^ 64) (x * y / 2 ^ 64).
Proof.
  intros x y Hx Hy.
  destruct (split_word x Hx) as (Ex & Lx & Ux). destruct (split_word y Hy) as (Ey & Ly & Uy).
  unfold mum_mul_mix64_portable. rewrite !shr_high.
  change (w32 x) with (x mod B32). change (w32 y) with (y mod B32).
  rewrite !wmul_small by assumption.
  pose proof (two_words y x _ _ _ _ Ey Ex Ly Uy Lx Ux) as (G1 & _ & _ & _ & _ & G6).
  destruct (two_words x y _ _ _ _ Ex Ey Lx Ux Ly Uy) as (H1 & H2 & H3 & H4 & H5 & H6).
  change (2 ^ 64) with (B32 * B32). rewrite <- H4, <- H5.
  set (x0 := x mod B32) in *. set (x1 := x / B32) in *.
  set (y0 := y mod B32) in *. set (y1 := y / B32) in *.
  assert (PB : B32 <> 0) by discriminate.
  set (mid := x0 * y1 + x0 * y0 / B32 + (x1 * y0) mod B32) in *.
  change (w32 (x0 * y1)) with ((x0 * y1) mod B32).
  change (w32 (x1 * y0)) with ((x1 * y0) mod B32).
  change (w32 (x0 * y0)) with ((x0 * y0) mod B32).
  assert (D00q : x0 * y0 / B32 < B32)
    by (apply N.div_lt_upper_bound; [exact PB|]; apply N.mul_lt_mono; assumption).
  pose proof (N.div_mod (x0 * y1) B32 PB) as D01.
  pose proof (N.mod_lt (x0 * y1) B32 PB) as M01.
  pose proof (N.mod_lt (x1 * y0) B32 PB) as M10.
  pose proof (N.mod_lt (x0 * y0) B32 PB) as M00.
  set (q01 := x0 * y1 / B32) in *. set (r01 := (x0 * y1) mod B32) in *.
  set (q00 := x0 * y0 / B32) in *. set (r10 := (x1 * y0) mod B32) in *.
  set (q10 := x1 * y0 / B32) in *. set (r00 := (x0 * y0) mod B32) in *.
  unfold wadd. rewrite !w64_BB.
  set (r2 := q00 + r01 + r10).
  destruct (sum3 q00 r01 r10 D00q M01 M10) as [Hs2 Hr2]. fold r2 in Hr2.
  assert (Em : mid = r2 + q01 * B32) by (unfold mid, r2; rewrite D01; ring).
  rewrite (N.mod_small (q00 + r01)) by exact Hs2.
  fold r2. rewrite (N.mod_small r2) by exact Hr2.
  rewrite <- (w64_BB (N.shiftl r2 32)), shl_low. change (2 ^ 32) with B32.
  assert (Mm : mid mod B32 = r2 mod B32) by (rewrite Em; apply N.mod_add; exact PB).
  assert (Dm : mid / B32 = r2 / B32 + q01) by (rewrite Em; apply N.div_add; exact PB).
  pose proof (N.mod_lt r2 B32 PB) as Mr2.
  rewrite Mm, Dm in *. rewrite (N.add_comm r00).
  rewrite (N.mod_small (r2 mod B32 * B32 + r00)) by (apply word2; assumption).
  f_equal. apply (sum4 (x1 * y1) q01 q10 (r2 / B32)). exact H6.
Qed.

Lemma mum_hash64_lt : forall x y, x < 2 ^ 64 -> y < 2 ^ 64 -> mum_hash64 x y < 2 ^ 64.
Proof.
  intros x y Hx Hy. apply lxor_lt.
  - apply N.mod_lt. vm_compute; discriminate.
  - rewrite N.shiftr_div_pow2. apply N.div_lt_upper_bound; [vm_compute; discriminate|].
    apply N.mul_lt_mono; assumption.
Qed.

Lemma mum_hash64_spec : forall x y,
  mum_hash64 x y = N.lxor ((x * y) mod 2 ^ 64) (x * y / 2 ^ 64).
Proof. intros x y. unfold mum_hash64. rewrite N.shiftr_div_pow2. reflexivity. Qed.

(** ** The index of a policy *)
Lemma shr_index : forall h k, h < 2 ^ 64 -> k <= 64 -> N.shiftr h (64 - k) < 2 ^ k.
Proof.
  intros h k Hh Hk. rewrite N.shiftr_div_pow2. apply N.div_lt_upper_bound.
  - apply N.pow_nonzero. lia.
  - rewrite <- N.pow_add_r. replace (64 - k + k) with 64 by lia. exact Hh.
Qed.

Lemma policy_shift_pow : forall k, policy_shift (2 ^ k) = 64 - k.
Proof. intros k. unfold policy_shift, bsr. rewrite N.log2_pow2 by lia. reflexivity. Qed.

Lemma mum_index_lt : forall excl k h, 1 <= k -> k <= 63 -> h < 2 ^ 64 ->
  mum_index excl (policy_shift (2 ^ k)) h < 2 ^ k.
Proof.
  intros excl k h H1 H2 Hh. rewrite policy_shift_pow. unfold mum_index.
  apply shr_index; [|lia]. destruct excl; [exact Hh|].
  apply mum_hash64_lt; [exact Hh|vm_compute; reflexivity].
Qed.

Lemma fibonacci_hash64_lt : forall v, fibonacci_hash64 v < 2 ^ 36.
Proof.
  intros v. unfold fibonacci_hash64. rewrite N.shiftr_div_pow2.
  apply N.div_lt_upper_bound; [vm_compute; discriminate|].
  change (2 ^ 28 * 2 ^ 36) with two64. apply N.mod_lt. vm_compute; discriminate.
Qed.

Lemma shiftr_zero : forall h a b, h < 2 ^ a -> a <= b -> N.shiftr h b = 0.
Proof.
  intros h a b Hh Hab. rewrite N.shiftr_div_pow2. apply N.div_small.
  eapply N.lt_le_trans; [exact Hh|]. apply N.pow_le_mono_r; lia.
Qed.

Lemma fibonacci_index_zero : forall k h, k <= 28 ->
  fibonacci_index false (policy_shift (2 ^ k)) h = 0.
Proof.
  intros k h Hk. rewrite policy_shift_pow. unfold fibonacci_index.
  apply (shiftr_zero _ 36); [apply fibonacci_hash64_lt|lia].
Qed.

Lemma excluded_index_zero : forall k h, k <= 32 -> h < 2 ^ 32 ->
  mum_index true (policy_shift (2 ^ k)) h = 0 /\
  fibonacci_index true (policy_shift (2 ^ k)) h = 0.
Proof.
  intros k h Hk Hh. rewrite policy_shift_pow. unfold fibonacci_index, mum_index.
  split; apply (shiftr_zero _ 32); auto; lia.
Qed.

(** ** CRC of an integer *)
Lemma crc_bit_lin : forall x y, crc_bit (N.lxor x y) = N.lxor (crc_bit x) (crc_bit y).
Proof.
  intros x y. unfold crc_bit. rewrite <- !N.bit0_odd, N.lxor_spec, !N.div2_spec.
  rewrite N.shiftr_lxor.
  destruct (N.testbit x 0), (N.testbit y 0); cbn [xorb].
  - apply N.bits_inj. intros i. rewrite !N.lxor_spec.
    destruct (N.testbit (N.shiftr x 1) i), (N.testbit (N.shiftr y 1) i),
      (N.testbit 2197175160 i); reflexivity.
  - rewrite !N.lxor_assoc. f_equal. apply N.lxor_comm.
  - apply N.lxor_assoc.
  - reflexivity.
Qed.

Lemma crc_bits_lin : forall n x y, crc_bits n (N.lxor x y) = N.lxor (crc_bits n x) (crc_bits n y).
Proof.
  induction n as [|n IH]; intros x y; cbn [crc_bits]; [reflexivity|].
  rewrite crc_bit_lin. apply IH.
Qed.

Lemma crc_bits_shift : forall n u, crc_bits n (u * 2 ^ N.of_nat n) = u.
Proof.
  induction n as [|n IH]; intros u; cbn [crc_bits]; [apply N.mul_1_r|].
  replace (u * 2 ^ N.of_nat (S n)) with (2 * (u * 2 ^ N.of_nat n))
    by (rewrite Nat2N.inj_succ, N.pow_succ_r'; ring).
  unfold crc_bit. rewrite <- N.bit0_odd, N.testbit_even_0, N.div2_double. apply IH.
Qed.

Lemma crc_bits_add : forall n m x, crc_bits (n + m) x = crc_bits m (crc_bits n x).
Proof.
  induction n as [|n IH]; intros m x; cbn [crc_bits Nat.add]; [reflexivity|]. apply IH.
Qed.

Lemma xor_byte : forall b u, b < 256 -> N.lxor b (u * 256) = b + 256 * u.
Proof.
  intros b u Hb. rewrite (N.mul_comm 256).
  change 256 with (2 ^ 8) in *. rewrite <- N.shiftl_mul_pow2.
  symmetry. apply N.add_nocarry_lxor.
  apply N.bits_inj. intros i. rewrite N.land_spec, N.bits_0.
  destruct (N.lt_ge_cases i 8) as [H|H].
  - rewrite N.shiftl_spec_low by exact H. apply andb_false_r.
  - rewrite (proj1 (lt_pow2_bits 8 b) Hb i H). reflexivity.
Qed.

Lemma crc_bytes_word : forall n c v, v < 2 ^ (8 * N.of_nat n) ->
  crc_bytes n c v = crc_bits (8 * n) (N.lxor c v).
Proof.
  induction n as [|n IH]; intros c v Hv; cbn [crc_bytes].
  - change (2 ^ (8 * N.of_nat 0)) with 1 in Hv. assert (v = 0) by lia. subst v.
    rewrite N.lxor_0_r. reflexivity.
  - replace (8 * N.of_nat (S n)) with (8 + 8 * N.of_nat n) in Hv by lia.
    rewrite N.pow_add_r in Hv. change (2 ^ 8) with 256 in Hv.
    rewrite IH by (apply N.div_lt_upper_bound; [lia|exact Hv]).
    replace (8 * S n)%nat with (8 + 8 * n)%nat by lia.
    rewrite crc_bits_add. f_equal.
    rewrite <- (crc_bits_shift 8 (v / 256)) at 1. change (2 ^ N.of_nat 8) with 256.
    rewrite <- crc_bits_lin. f_equal. rewrite N.lxor_assoc. f_equal.
    rewrite xor_byte by (apply N.mod_lt; lia).
    rewrite N.add_comm. symmetry. apply N.div_mod. lia.
Qed.

Lemma crc32_u64_word : forall c v, v < 2 ^ 64 ->
  crc32_u64 c v = crc_bits 64 (N.lxor (w32 c) v).
Proof. intros c v Hv. unfold crc32_u64. apply (crc_bytes_word 8). exact Hv. Qed.

Lemma crc_bit_same : forall c, crc_bit c = crc32c_bit c.
Proof.
  intros c. unfold crc_bit, crc32c_bit. rewrite N.bit0_odd, N.div2_div. reflexivity.
Qed.

Lemma crc_bit_lt : forall c, c < 2 ^ 32 -> crc_bit c < 2 ^ 32.
Proof. intros c H. rewrite crc_bit_same. apply crc32c_bit_lt. exact H. Qed.

Lemma crc_bits_lt : forall n c, c < 2 ^ 32 -> crc_bits n c < 2 ^ 32.
Proof.
  induction n as [|n IH]; intros c H; cbn [crc_bits]; [exact H|]. apply IH, crc_bit_lt, H.
Qed.

Lemma crc_bits_inj : forall n x y, x < 2 ^ 32 -> y < 2 ^ 32 ->
  crc_bits n x = crc_bits n y -> x = y.
Proof.
  induction n as [|n IH]; intros x y Hx Hy E; cbn [crc_bits] in E; [exact E|].
  apply IH in E; auto using crc_bit_lt. rewrite !crc_bit_same in E.
  apply crc32c_bit_inj in E; auto.
Qed.

Lemma crc32_u64_lt : forall c v, v < 2 ^ 64 -> crc32_u64 c v < 2 ^ 32.
Proof.
  intros c v Hv. rewrite crc32_u64_word by exact Hv.
  change 64%nat with (32 + 32)%nat. rewrite crc_bits_add. apply crc_bits_lt.
  assert (Hx : N.lxor (w32 c) v < 2 ^ 64).
  { apply lxor_lt; [|exact Hv]. eapply N.lt_trans; [apply w32_lt|]. vm_compute; reflexivity. }
  set (x := N.lxor (w32 c) v) in *. clearbody x.
  rewrite (N.div_mod x (2 ^ 32)) by (vm_compute; discriminate).
  replace (2 ^ 32 * (x / 2 ^ 32) + x mod 2 ^ 32)
    with (N.lxor (x mod 2 ^ 32) (x / 2 ^ 32 * 2 ^ 32)).
  - rewrite crc_bits_lin. apply lxor_lt.
    + apply crc_bits_lt. apply N.mod_lt. vm_compute; discriminate.
    + change (2 ^ 32) with (2 ^ N.of_nat 32) at 2. rewrite crc_bits_shift.
      apply N.div_lt_upper_bound; [vm_compute; discriminate|]. exact Hx.
  - rewrite <- N.shiftl_mul_pow2.
    assert (Z : N.land (x mod 2 ^ 32) (N.shiftl (x / 2 ^ 32) 32) = 0).
    { apply N.bits_inj. intros i. rewrite N.land_spec, N.bits_0.
      destruct (N.lt_ge_cases i 32) as [H|H].
      - rewrite N.shiftl_spec_low by exact H. apply andb_false_r.
      - rewrite N.mod_pow2_bits_high by exact H. reflexivity. }
    rewrite <- N.add_nocarry_lxor by exact Z.
    rewrite N.shiftl_mul_pow2. lia.
Qed.

Lemma int_crc_parts : forall v, v < 2 ^ 64 ->
  int_hash_crc32 v mod 2 ^ 32 = crc32_u64 (two64 - 1) v /\
  int_hash_crc32 v / 2 ^ 32 = crc32_u64 0 v.
Proof.
  intros v Hv. unfold int_hash_crc32.
  pose proof (crc32_u64_lt (two64 - 1) v Hv) as H1.
  pose proof (crc32_u64_lt 0 v Hv) as H2.
  rewrite land_low. change B32 with (2 ^ 32). rewrite shl_low.
  rewrite (N.mod_small (crc32_u64 (two64 - 1) v)), (N.mod_small (crc32_u64 0 v)) by assumption.
  rewrite lor_add by exact H1.
  split.
  - rewrite N.mod_add by (vm_compute; discriminate). apply N.mod_small. exact H1.
  - rewrite N.div_add by (vm_compute; discriminate). rewrite N.div_small by exact H1. reflexivity.
Qed.

(** The two halves of the 64-bit hash always differ in the same bits. *)
Lemma int_crc_halves : forall v, v < 2 ^ 64 ->
  N.lxor (int_hash_crc32 v mod 2 ^ 32) (int_hash_crc32 v / 2 ^ 32) = int_hash_crc32 0.
Proof.
  intros v Hv. destruct (int_crc_parts v Hv) as [-> ->].
  rewrite !crc32_u64_word, <- crc_bits_lin by exact Hv.
  replace (N.lxor (N.lxor (w32 (two64 - 1)) v) (N.lxor (w32 0) v)) with (2 ^ 32 - 1).
  - vm_compute. reflexivity.
  - change (w32 0) with 0. change (w32 (two64 - 1)) with (2 ^ 32 - 1).
    rewrite N.lxor_0_l, N.lxor_assoc, N.lxor_nilpotent. symmetry. apply N.lxor_0_r.
Qed.

Definition crc_kernel : N := Eval vm_compute in (1 + 2 ^ 32 * crc_bits 32 1).

Lemma crc_kernel_spec : crc_bits 64 crc_kernel = 0.
Proof. vm_compute. reflexivity. Qed.

Lemma crc_collide : forall c v, v < 2 ^ 64 -> crc32_u64 c (N.lxor v crc_kernel) = crc32_u64 c v.
Proof.
  intros c v Hv.
  assert (Hv' : N.lxor v crc_kernel < 2 ^ 64)
    by (apply lxor_lt; [exact Hv|vm_compute; reflexivity]).
  rewrite (crc32_u64_word c _ Hv'), (crc32_u64_word c v Hv).
  rewrite <- N.lxor_assoc, crc_bits_lin, crc_kernel_spec. apply N.lxor_0_r.
Qed.

Lemma int_crc_collide : forall v, v < 2 ^ 64 -> exists v', v' < 2 ^ 64 /\ v' <> v /\
  int_hash_crc32 v' = int_hash_crc32 v /\ simple_int_hash_crc32 v' = simple_int_hash_crc32 v.
Proof.
  intros v Hv. exists (N.lxor v crc_kernel).
  split; [apply lxor_lt; [exact Hv|vm_compute; reflexivity]|].
  split.
  - intros E. assert (K : N.lxor v (N.lxor v crc_kernel) = 0) by (rewrite E; apply N.lxor_nilpotent).
    rewrite <- N.lxor_assoc, N.lxor_nilpotent, N.lxor_0_l in K. discriminate K.
  - unfold int_hash_crc32, simple_int_hash_crc32. rewrite !crc_collide by exact Hv. auto.
Qed.

Lemma int_crc_inj32 : forall v v', v < 2 ^ 32 -> v' < 2 ^ 32 ->
  (simple_int_hash_crc32 v = simple_int_hash_crc32 v' -> v = v') /\
  (int_hash_crc32 v = int_hash_crc32 v' -> v = v').
Proof.
  intros v v' Hv Hv'.
  assert (L : forall x, x < 2 ^ 32 -> x < 2 ^ 64)
    by (intros x Hx; eapply N.lt_trans; [exact Hx|]; vm_compute; reflexivity).
  assert (S : simple_int_hash_crc32 v = simple_int_hash_crc32 v' -> v = v').
  { unfold simple_int_hash_crc32. rewrite !crc32_u64_word by auto. intros E.
    apply crc_bits_inj in E; try (apply lxor_lt; [apply w32_lt|assumption]).
    apply lxor_inj_l in E. exact E. }
  split; [exact S|]. intros E. apply S.
  destruct (int_crc_parts v (L v Hv)) as [P _]. destruct (int_crc_parts v' (L v' Hv')) as [P' _].
  unfold simple_int_hash_crc32. rewrite <- P, <- P', E. reflexivity.
Qed.
