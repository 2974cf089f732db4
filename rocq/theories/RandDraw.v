(** Integers and doubles drawn from random words (RandModel.v). *)
From Coq Require Import NArith ZArith List Bool Lia.
From Coq Require Import ZifyBool ZifyNat ZifyN.
From Verif Require Import Base BaseFacts RandModel RandSpec RandFacts.
Import ListNotations.
Open Scope N_scope.

Lemma to_signed_mod : forall w z, 0 < w -> (- 2 ^ (Z.of_N w - 1) <= z < 2 ^ (Z.of_N w - 1))%Z ->
  to_signed w (Z.to_N (z mod 2 ^ Z.of_N w)) = z.
Proof.
  intros w z W Z.
  assert (2 ^ Z.of_N w = 2 * 2 ^ (Z.of_N w - 1))%Z as E.
  { rewrite <- Z.pow_succ_r by lia. f_equal. lia. }
  assert (Z.of_N (2 ^ (w - 1)) = 2 ^ (Z.of_N w - 1))%Z as E2.
  { rewrite N2Z.inj_pow. f_equal. lia. }
  unfold to_signed. rewrite E. remember (2 ^ (Z.of_N w - 1))%Z as h. remember (2 ^ (w - 1)) as k.
  assert (0 < h)%Z as HP by lia. clear Heqh Heqk E W.
  destruct (Z.lt_ge_cases z 0) as [L|L].
  - replace (z mod (2 * h))%Z with (z + 2 * h)%Z.
    + destruct (Z.to_N (z + 2 * h) <? k) eqn:B; lia.
    + apply (Z.mod_unique z (2 * h) (-1)); lia.
  - rewrite Z.mod_small by lia. destruct (Z.to_N z <? k) eqn:B; lia.
Qed.

Lemma next_signed_ok : forall w draw a b, 0 < w ->
  (- 2 ^ (Z.of_N w - 1) <= a < 2 ^ (Z.of_N w - 1))%Z -> (- 2 ^ (Z.of_N w - 1) <= b < 2 ^ (Z.of_N w - 1))%Z ->
  (Z.max a b - Z.min a b + 1 < 2 ^ (Z.of_N w - 1))%Z ->
  next_signed w draw a b = Ok (Z.min a b + Z.of_N draw mod (Z.max a b - Z.min a b + 1))%Z.
Proof.
  intros w draw a b W A B R. unfold next_signed. cbv zeta.
  remember (2 ^ (Z.of_N w - 1))%Z as h eqn:Eh. remember (Z.max a b) as hi. remember (Z.min a b) as lo.
  replace (hi - lo + 1 <? h)%Z with true by lia.
  rewrite N2Z.inj_mod. rewrite Z2N.id by lia.
  assert (0 <= Z.of_N draw mod (hi - lo + 1) < hi - lo + 1)%Z as M by (apply Z.mod_pos_bound; lia).
  remember (Z.of_N draw mod (hi - lo + 1))%Z as r. rewrite to_signed_mod; [reflexivity|exact W|]. rewrite <- Eh. lia.
Qed.

Lemma next_signed_undefined : forall w draw a b,
  (2 ^ (Z.of_N w - 1) <= Z.max a b - Z.min a b + 1)%Z -> next_signed w draw a b = Err EUndef.
Proof.
  intros w draw a b R. unfold next_signed. cbv zeta.
  replace (Z.max a b - Z.min a b + 1 <? 2 ^ (Z.of_N w - 1))%Z with false by lia. reflexivity.
Qed.

Lemma next_unsigned_ok : forall w draw a b, a < 2 ^ w -> b < 2 ^ w ->
  N.max a b - N.min a b + 1 < 2 ^ w ->
  next_unsigned w draw a b = Ok (N.min a b + draw mod (N.max a b - N.min a b + 1)).
Proof.
  intros w draw a b A B R. unfold next_unsigned. cbv zeta. rewrite (N.mod_small (_ + 1)) by exact R.
  remember (N.max a b) as hi. remember (N.min a b) as lo. replace (hi - lo + 1 =? 0) with false by lia.
  assert (draw mod (hi - lo + 1) < hi - lo + 1) as M by (apply N.mod_lt; lia).
  remember (draw mod (hi - lo + 1)) as r. rewrite N.mod_small by lia. reflexivity.
Qed.

Lemma next_unsigned_undefined : forall w draw a b, a < 2 ^ w -> b < 2 ^ w ->
  2 ^ w <= N.max a b - N.min a b + 1 -> next_unsigned w draw a b = Err EUndef.
Proof.
  intros w draw a b A B R. unfold next_unsigned. cbv zeta.
  replace (N.max a b - N.min a b + 1) with (2 ^ w) by lia.
  rewrite N.mod_same by (apply N.pow_nonzero; discriminate). reflexivity.
Qed.

(** The statements of C137. *)
Lemma signed_in_range : forall w draw a b, 0 < w ->
  (- 2 ^ (Z.of_N w - 1) <= a < 2 ^ (Z.of_N w - 1))%Z -> (- 2 ^ (Z.of_N w - 1) <= b < 2 ^ (Z.of_N w - 1))%Z ->
  (Z.abs (a - b) + 1 < 2 ^ (Z.of_N w - 1))%Z ->
  (exists v, next_signed w draw a b = Ok v /\ (Z.min a b <= v <= Z.max a b)%Z) /\
  (forall v, (Z.min a b <= v <= Z.max a b)%Z -> exists d, d < 2 ^ w /\ next_signed w d a b = Ok v).
Proof.
  intros w draw a b W A B R. split.
  - rewrite next_signed_ok by (auto; lia). eexists. split; [reflexivity|].
    assert (0 <= Z.of_N draw mod (Z.max a b - Z.min a b + 1) < Z.max a b - Z.min a b + 1)%Z as M
      by (apply Z.mod_pos_bound; lia).
    remember (Z.of_N draw mod (Z.max a b - Z.min a b + 1))%Z as r. lia.
  - intros v V. exists (Z.to_N (v - Z.min a b)). split.
    + assert (2 ^ Z.of_N w = 2 * 2 ^ (Z.of_N w - 1))%Z as E by (rewrite <- Z.pow_succ_r by lia; f_equal; lia).
      assert (Z.of_N (2 ^ w) = 2 ^ Z.of_N w)%Z as E2 by apply N2Z.inj_pow. lia.
    + rewrite next_signed_ok by (auto; lia). rewrite Z2N.id by lia. rewrite Z.mod_small by lia. f_equal. lia.
Qed.

Lemma unsigned_in_range : forall w draw a b, a < 2 ^ w -> b < 2 ^ w ->
  N.max a b - N.min a b + 1 < 2 ^ w ->
  (exists v, next_unsigned w draw a b = Ok v /\ N.min a b <= v <= N.max a b) /\
  (forall v, N.min a b <= v <= N.max a b -> exists d, d < 2 ^ w /\ next_unsigned w d a b = Ok v).
Proof.
  intros w draw a b A B R. split.
  - rewrite next_unsigned_ok by auto. eexists. split; [reflexivity|].
    assert (draw mod (N.max a b - N.min a b + 1) < N.max a b - N.min a b + 1) as M by (apply N.mod_lt; lia).
    remember (draw mod (N.max a b - N.min a b + 1)) as r. lia.
  - intros v V. exists (v - N.min a b). split; [lia|].
    rewrite next_unsigned_ok by auto. rewrite N.mod_small by lia. f_equal. lia.
Qed.

Lemma integers_undefined :
  (forall w draw a b, 0 < w ->
     (- 2 ^ (Z.of_N w - 1) <= a < 2 ^ (Z.of_N w - 1))%Z -> (- 2 ^ (Z.of_N w - 1) <= b < 2 ^ (Z.of_N w - 1))%Z ->
     (next_signed w draw a b = Err EUndef <-> (2 ^ (Z.of_N w - 1) <= Z.abs (a - b) + 1)%Z)) /\
  (forall w draw a b, a < 2 ^ w -> b < 2 ^ w ->
     (next_unsigned w draw a b = Err EUndef <-> N.min a b = 0 /\ N.max a b = 2 ^ w - 1)).
Proof.
  split.
  - intros w draw a b W A B. split; [|intro R; apply next_signed_undefined; lia].
    intro E. destruct (Z.lt_ge_cases (Z.max a b - Z.min a b + 1) (2 ^ (Z.of_N w - 1))) as [L|L]; [|lia].
    rewrite next_signed_ok in E by auto. discriminate.
  - intros w draw a b A B. split; [|intros [H1 H2]; apply next_unsigned_undefined; auto; lia].
    intro E. destruct (N.lt_ge_cases (N.max a b - N.min a b + 1) (2 ^ w)) as [L|L]; [|lia].
    rewrite next_unsigned_ok in E by auto. discriminate.
Qed.

(** ** Doubles *)

Lemma double53_ok : (forall x y, x < 2 ^ 32 -> y < 2 ^ 32 -> double53 x y < 2 ^ 53) /\
  (forall k, k < 2 ^ 53 -> exists x y, x < 2 ^ 32 /\ y < 2 ^ 32 /\ double53 x y = k).
Proof.
  unfold double53. split.
  - intros x y X Y. rewrite !N.shiftr_div_pow2.
    assert (x / 2 ^ 5 < 2 ^ 27) as A by (apply N.div_lt_upper_bound; [discriminate|exact X]).
    assert (y / 2 ^ 6 < 2 ^ 26) as B by (apply N.div_lt_upper_bound; [discriminate|exact Y]).
    remember (x / 2 ^ 5) as a. remember (y / 2 ^ 6) as b. clear - A B.
    change (2 ^ 27) with 134217728 in A. change (2 ^ 26) with 67108864 in B. change (2 ^ 53) with 9007199254740992. lia.
  - intros k K. exists (k / 2 ^ 26 * 2 ^ 5), (k mod 2 ^ 26 * 2 ^ 6).
    assert (k / 2 ^ 26 < 2 ^ 27) as A by (apply N.div_lt_upper_bound; [discriminate|exact K]).
    assert (k mod 2 ^ 26 < 2 ^ 26) as B by (apply N.mod_lt; discriminate).
    rewrite !N.shiftr_div_pow2, !N.div_mul by discriminate.
    pose proof (N.div_mod k (2 ^ 26)) as E.
    assert (k = 2 ^ 26 * (k / 2 ^ 26) + k mod 2 ^ 26) as E' by (apply E; discriminate).
    remember (k / 2 ^ 26) as a. remember (k mod 2 ^ 26) as b. clear - A B E'.
    change (2 ^ 27) with 134217728 in *. change (2 ^ 26) with 67108864 in *. change (2 ^ 32) with 4294967296.
    change (2 ^ 5) with 32. change (2 ^ 6) with 64. lia.
Qed.

(** ** LibcRand *)

Lemma lor_join : forall h l r, l < 2 ^ r -> N.lor (h * 2 ^ r) l = h * 2 ^ r + l.
Proof.
  intros h l r L. apply N.bits_inj. intro i. rewrite bit_join by exact L. rewrite N.lor_spec.
  destruct (i <? r) eqn:E.
  - rewrite N.mul_pow2_bits_low by lia. reflexivity.
  - rewrite (high_bit l r i L) by lia. rewrite orb_false_r. rewrite N.mul_pow2_bits_high by lia. reflexivity.
Qed.

Lemma w32_shift16 : forall a, a < 2 ^ 16 -> w32 (N.shiftl a 16) = a * 2 ^ 16.
Proof.
  intros a A. unfold w32, two32. rewrite N.shiftl_mul_pow2. apply N.mod_small.
  change (2 ^ 16) with 65536 in *. change (2 ^ 32) with 4294967296. lia.
Qed.

Lemma rand32_16_fields : forall a b v, a < 2 ^ 16 -> b < 2 ^ 16 ->
  (rand32_big 0xFFFF a b = v <-> v < 2 ^ 32 /\ a = v / 2 ^ 16 /\ b = v mod 2 ^ 16).
Proof.
  intros a b v A B. unfold rand32_big. change 0xFFFF with (N.ones 16). rewrite !N.land_ones, !N.mod_small by assumption.
  rewrite w32_shift16 by exact A. rewrite lor_join by exact B. split.
  - intros <-. rewrite N.div_add_l by discriminate. rewrite (N.div_small b) by exact B.
    rewrite N.add_comm with (n := a * 2 ^ 16), N.mod_add by discriminate. rewrite (N.mod_small b) by exact B.
    change (2 ^ 16) with 65536 in *. change (2 ^ 32) with 4294967296. repeat split; lia.
  - intros (V & -> & ->). rewrite N.mul_comm. symmetry. apply N.div_mod. discriminate.
Qed.

Lemma rand32_15_fields : forall a b c, a < 2 ^ 15 -> b < 2 ^ 15 -> c < 2 ^ 15 ->
  rand32_15 a b c = (a mod 4) * 2 ^ 30 + b * 2 ^ 15 + c.
Proof.
  intros a b c A B C. unfold rand32_15. change 0x7FFF with (N.ones 15). rewrite !N.land_ones, !N.mod_small by assumption.
  unfold w32, two32. rewrite !N.shiftl_mul_pow2.
  rewrite (N.mod_small (b * 2 ^ 15)) by (change (2 ^ 15) with 32768 in *; change (2 ^ 32) with 4294967296; lia).
  replace (a * 2 ^ 30 mod 2 ^ 32) with ((a mod 4) * 2 ^ 30).
  - rewrite lor_join by (change (2 ^ 15) with 32768 in *; change (2 ^ 30) with 1073741824; lia).
    replace (a mod 4 * 2 ^ 30 + b * 2 ^ 15) with ((a mod 4 * 2 ^ 15 + b) * 2 ^ 15)
      by (change (2 ^ 30) with (2 ^ 15 * 2 ^ 15); remember (a mod 4) as q; change (2 ^ 15) with 32768; lia).
    rewrite lor_join by exact C. reflexivity.
  - change (2 ^ 32) with (4 * 2 ^ 30). rewrite N.mul_mod_distr_r by discriminate. reflexivity.
Qed.

Lemma rand32_15_onto : forall v, v < 2 ^ 32 -> exists b c, b < 2 ^ 15 /\ c < 2 ^ 15 /\
  forall a b' c', a < 2 ^ 15 -> b' < 2 ^ 15 -> c' < 2 ^ 15 ->
    (rand32_15 a b' c' = v <-> a mod 4 = v / 2 ^ 30 /\ b' = b /\ c' = c).
Proof.
  intros v V. exists (v / 2 ^ 15 mod 2 ^ 15), (v mod 2 ^ 15).
  split; [apply N.mod_lt; discriminate|]. split; [apply N.mod_lt; discriminate|].
  intros a b c A B C. rewrite rand32_15_fields by assumption.
  assert (a mod 4 < 4) as Q by (apply N.mod_lt; discriminate). remember (a mod 4) as q. clear Heqq A a.
  assert (v / 2 ^ 30 = v / 2 ^ 15 / 2 ^ 15) as E by (rewrite N.div_div by discriminate; reflexivity).
  rewrite E. split.
  - intros <-. assert (q * 2 ^ 30 + b * 2 ^ 15 + c = (q * 2 ^ 15 + b) * 2 ^ 15 + c) as J
      by (change (2 ^ 30) with (2 ^ 15 * 2 ^ 15); change (2 ^ 15) with 32768; lia).
    rewrite J. rewrite N.div_add_l by discriminate. rewrite (N.div_small c) by exact C. rewrite N.add_0_r.
    rewrite N.div_add_l by discriminate. rewrite (N.div_small b) by exact B.
    rewrite (N.add_comm (q * 2 ^ 15)), N.mod_add by discriminate. rewrite (N.mod_small b) by exact B.
    rewrite (N.add_comm _ c), N.mod_add by discriminate. rewrite (N.mod_small c) by exact C. repeat split. lia.
  - intros (-> & -> & ->).
    pose proof (N.div_mod v (2 ^ 15) ltac:(discriminate)) as D1.
    pose proof (N.div_mod (v / 2 ^ 15) (2 ^ 15) ltac:(discriminate)) as D2.
    remember (v / 2 ^ 15) as v1. remember (v1 / 2 ^ 15) as v2. remember (v1 mod 2 ^ 15) as r1.
    remember (v mod 2 ^ 15) as r0. clear - D1 D2. change (2 ^ 30) with 1073741824.
    change (2 ^ 15) with 32768 in *. lia.
Qed.

Lemma rand32_31_bit : forall a b i, a < 2 ^ 31 -> b < 2 ^ 31 -> 16 <= i < 31 ->
  N.testbit (rand32_big 0x7FFFFFFF a b) i = (N.testbit a (i - 16) || N.testbit b i)%bool.
Proof.
  intros a b i A B I. unfold rand32_big. change 0x7FFFFFFF with (N.ones 31).
  rewrite !N.land_ones, !N.mod_small by assumption. rewrite N.lor_spec. f_equal.
  unfold w32, two32. rewrite bit_low. replace (i <? 32) with true by lia. rewrite andb_true_r.
  apply N.shiftl_spec_high'. lia.
Qed.

Lemma rand64_31_bit : forall a b c d i, a < 2 ^ 31 -> b < 2 ^ 31 -> c < 2 ^ 31 -> d < 2 ^ 31 -> 48 <= i < 63 ->
  N.testbit (rand64_big 0x7FFFFFFF a b c d) i = (N.testbit a (i - 48) || N.testbit b (i - 32))%bool.
Proof.
  intros a b c d i A B C D I. unfold rand64_big. change 0x7FFFFFFF with (N.ones 31).
  rewrite !N.land_ones, !N.mod_small by assumption. rewrite !N.lor_spec.
  unfold w64, two64. rewrite !bit_low. replace (i <? 64) with true by lia. rewrite !andb_true_r.
  rewrite !N.shiftl_spec_high' by lia.
  rewrite (high_bit c 31), (high_bit d 31) by (auto; lia). rewrite !orb_false_r. reflexivity.
Qed.

Lemma rand32_31_uneven : exists v1 v2, v1 < 2 ^ 32 /\ v2 < 2 ^ 32 /\
  (forall a b, a < 2 ^ 31 -> b < 2 ^ 31 -> rand32_big 0x7FFFFFFF a b = v1 -> a mod 2 ^ 16 = 0 /\ b = 0) /\
  (forall a, a < 2 ^ 31 -> 2 ^ 15 <= a mod 2 ^ 16 -> rand32_big 0x7FFFFFFF a (2 ^ 31 - 1) = v2).
Proof.
  exists 0, (2 ^ 32 - 1). split; [reflexivity|]. split; [reflexivity|].
  assert (forall a, a < 2 ^ 31 -> w32 (N.shiftl a 16) = a mod 2 ^ 16 * 2 ^ 16) as S.
  { intros a A. unfold w32, two32. rewrite N.shiftl_mul_pow2. change (2 ^ 32) with (2 ^ 16 * 2 ^ 16).
    apply N.mul_mod_distr_r; discriminate. }
  split.
  - intros a b A B E. unfold rand32_big in E. change 0x7FFFFFFF with (N.ones 31) in E.
    rewrite !N.land_ones, !N.mod_small in E by assumption. rewrite S in E by exact A.
    apply N.lor_eq_0_iff in E. destruct E as [E ->]. split; [|reflexivity].
    apply N.eq_mul_0 in E. destruct E as [E|E]; [exact E|discriminate].
  - intros a A H. unfold rand32_big. change 0x7FFFFFFF with (N.ones 31).
    rewrite !N.land_ones, !N.mod_small by (assumption || reflexivity). rewrite S by exact A.
    assert (a mod 2 ^ 16 < 2 ^ 16) as M by (apply N.mod_lt; discriminate).
    remember (a mod 2 ^ 16) as q. clear Heqq A a.
    apply N.bits_inj. intro i. rewrite N.lor_spec.
    change (2 ^ 31 - 1) with (N.ones 31). change (2 ^ 32 - 1) with (N.ones 32).
    destruct (N.lt_ge_cases i 31) as [L|L].
    + rewrite !N.ones_spec_low by lia. apply orb_true_r.
    + rewrite (N.ones_spec_high 31) by lia. rewrite orb_false_r. rewrite N.mul_pow2_bits_high by lia.
      destruct (N.eq_dec i 31) as [->|NE].
      * rewrite N.ones_spec_low by lia. change (31 - 16) with 15.
        assert (N.testbit q 15 = true) as T.
        { rewrite <- (N.add_0_l 15), <- N.div_pow2_bits, N.bit0_odd.
          replace (q / 2 ^ 15) with 1; [reflexivity|]. apply (N.div_unique _ _ _ (q - 2 ^ 15));
          change (2 ^ 16) with 65536 in *; change (2 ^ 15) with 32768 in *; lia. }
        exact T.
      * rewrite N.ones_spec_high by lia. apply (high_bit q 16); [exact M|lia].
Qed.

Lemma joined_bits : forall a b c d, a < 2 ^ 31 -> b < 2 ^ 31 -> c < 2 ^ 31 -> d < 2 ^ 31 ->
  (forall i, 16 <= i < 31 ->
     N.testbit (rand32_big 0x7FFFFFFF a b) i = (N.testbit a (i - 16) || N.testbit b i)%bool) /\
  (forall i, 48 <= i < 63 ->
     N.testbit (rand64_big 0x7FFFFFFF a b c d) i = (N.testbit a (i - 48) || N.testbit b (i - 32))%bool).
Proof. intros. split; intros; [apply rand32_31_bit|apply rand64_31_bit]; assumption. Qed.
