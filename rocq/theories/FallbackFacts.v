(** The portable bit-counting functions against their specification. *)
From Coq Require Import NArith ZArith List Bool Lia.
From Coq Require Import ZifyBool ZifyNat ZifyN.
From Verif Require Import Base BaseFacts BitsModel BitsFacts FallbackModel BitSpec.
Import ListNotations.
Open Scope N_scope.
Ltac Zify.zify_post_hook ::= Z.div_mod_to_equations.

(** ** Digits *)

Lemma testbit_small a i w : a < 2 ^ w -> w <= i -> N.testbit a i = false.
Proof.
  intros Ha Hi. destruct (N.eq_dec a 0) as [->|]; [apply N.bits_0|].
  apply N.bits_above_log2. assert (N.log2 a < w) by (apply N.log2_lt_pow2; lia). lia.
Qed.

Lemma testbit_cat w a A i : a < 2 ^ w ->
  N.testbit (a + 2 ^ w * A) i = if i <? w then N.testbit a i else N.testbit A (i - w).
Proof.
  intros Ha. destruct (N.ltb_spec i w).
  - rewrite <- (N.mod_pow2_bits_low _ w) by auto. f_equal.
    rewrite (N.mul_comm (2 ^ w)), N.mod_add by (apply N.pow_nonzero; discriminate).
    now apply N.mod_small.
  - replace i with (i - w + w) at 1 by lia. rewrite <- N.div_pow2_bits. f_equal.
    rewrite (N.mul_comm (2 ^ w)), N.div_add by (apply N.pow_nonzero; discriminate).
    rewrite N.div_small by auto. reflexivity.
Qed.

Lemma land_lt a m w : m < 2 ^ w -> N.land a m < 2 ^ w.
Proof.
  intros. destruct (N.eq_dec (N.land a m) 0) as [->|Hz]; [apply pow2_pos|].
  apply N.log2_lt_pow2; [lia|]. pose proof (N.log2_land a m).
  assert (m <> 0) by (intros ->; now rewrite N.land_0_r in Hz).
  assert (N.log2 m < w) by (apply N.log2_lt_pow2; lia). lia.
Qed.

Lemma land_shift_cat w s a A m M : a < 2 ^ w -> m < 2 ^ (w - s) -> s <= w ->
  N.land (N.shiftr (a + 2 ^ w * A) s) (m + 2 ^ w * M)
  = N.land (N.shiftr a s) m + 2 ^ w * N.land (N.shiftr A s) M.
Proof.
  intros Ha Hm Hs.
  assert (Hmw : m < 2 ^ w).
  { pose proof (pow2_le (w - s) w ltac:(lia)). lia. }
  apply N.bits_inj. intros i.
  rewrite N.land_spec, N.shiftr_spec by lia. rewrite !testbit_cat by auto using land_lt.
  destruct (N.ltb_spec i w).
  - rewrite N.land_spec, N.shiftr_spec by lia. destruct (N.ltb_spec (i + s) w); auto.
    rewrite (testbit_small m i (w - s)) by (auto; lia). now rewrite !andb_false_r.
  - replace (i + s <? w) with false by lia. rewrite N.land_spec, N.shiftr_spec by lia.
    f_equal. f_equal. lia.
Qed.

Lemma land_cat w a A m M : a < 2 ^ w -> m < 2 ^ w ->
  N.land (a + 2 ^ w * A) (m + 2 ^ w * M) = N.land a m + 2 ^ w * N.land A M.
Proof.
  intros Ha Hm. pose proof (land_shift_cat w 0 a A m M Ha) as H.
  rewrite N.sub_0_r, !N.shiftr_0_r in H. apply H; auto. lia.
Qed.

Lemma ones_double n : ones (2 * n) = ones n.
Proof. now destruct n. Qed.

Lemma ones_succ_double n : ones (2 * n + 1) = 1 + ones n.
Proof. now destruct n. Qed.

Lemma ones_cat (w : nat) : forall a A, a < 2 ^ N.of_nat w ->
  ones (a + 2 ^ N.of_nat w * A) = ones a + ones A.
Proof.
  induction w as [|w IH]; intros a A H.
  - cbn in H. replace a with 0 by lia. change (2 ^ N.of_nat 0) with 1.
    rewrite N.mul_1_l. reflexivity.
  - replace (N.of_nat (S w)) with (N.of_nat w + 1) in * by lia. rewrite N.pow_add_r in *.
    change (2 ^ 1) with 2 in *. set (q := 2 ^ N.of_nat w) in *.
    pose proof (IH (a / 2) A ltac:(lia)) as E.
    destruct (N.eq_dec (a mod 2) 0) as [Hz|Hz].
    + replace (a + q * 2 * A) with (2 * (a / 2 + q * A)) by lia.
      replace a with (2 * (a / 2)) at 2 by lia. rewrite !ones_double. exact E.
    + replace (a + q * 2 * A) with (2 * (a / 2 + q * A) + 1) by lia.
      replace a with (2 * (a / 2) + 1) at 2 by lia. rewrite !ones_succ_double. lia.
Qed.

Lemma ones_cat16 a A : a < 16 -> ones (a + 16 * A) = ones a + ones A.
Proof. apply (ones_cat 4). Qed.

Lemma ones_cat8 a A : a < 8 -> ones (a + 8 * A) = ones a + ones A.
Proof. apply (ones_cat 3). Qed.

Lemma nibbles x : x < 2 ^ 32 -> exists a b c d e f g h,
  a < 16 /\ b < 16 /\ c < 16 /\ d < 16 /\ e < 16 /\ f < 16 /\ g < 16 /\ h < 16 /\
  x = a + 16 * (b + 16 * (c + 16 * (d + 16 * (e + 16 * (f + 16 * (g + 16 * h)))))).
Proof.
  intros H. change (2 ^ 32) with 4294967296 in H.
  assert (D : forall y, exists q r, r < 16 /\ y = r + 16 * q /\ q = y / 16).
  { intros y. exists (y / 16), (y mod 16). lia. }
  destruct (D x) as (x1 & a & Ha & Ea & _). destruct (D x1) as (x2 & b & Hb & Eb & _).
  destruct (D x2) as (x3 & c & Hc & Ec & _). destruct (D x3) as (x4 & d & Hd & Ed & _).
  destruct (D x4) as (x5 & e & He & Ee & _). destruct (D x5) as (x6 & f & Hf & Ef & _).
  destruct (D x6) as (x7 & g & Hg & Eg & _).
  exists a, b, c, d, e, f, g, x7. repeat (split; [lia|]). lia.
Qed.

Definition nest16 (l : list N) : N := fold_right (fun d r => d + 16 * r) 0 l.

Definition nest (w : N) (l : list N) : N := fold_right (fun d r => d + 2 ^ w * r) 0 l.

(** Masking every digit with the same mask. *)
Lemma land_nest w s m l ms : Forall (fun d => d < 2 ^ w) l ->
  length ms = length l -> Forall (fun m => m < 2 ^ (w - s)) ms -> s <= w -> m = nest w ms ->
  N.land (N.shiftr (nest w l) s) m
  = nest w (map (fun p => N.land (N.shiftr (fst p) s) (snd p)) (combine l ms)).
Proof.
  intros HF Hl HM Hs ->. revert ms Hl HM. induction HF as [|d l Hd HF IH]; intros [|m ms] Hl HM; try discriminate.
  - cbn. apply N.land_0_r.
  - inversion HM; subst. cbn [nest fold_right combine map fst snd].
    fold (nest w l). fold (nest w ms). rewrite land_shift_cat by auto. f_equal. f_equal.
    apply IH; auto.
Qed.

Lemma two32_eq : two32 = 4294967296. Proof. reflexivity. Qed.

Lemma add32_small x y : x + y < two32 -> add32 x y = x + y.
Proof. apply N.mod_small. Qed.

Lemma sub32_small x y : y <= x -> x < two32 -> sub32 x y = x - y.
Proof.
  intros. unfold sub32, w32. rewrite (N.mod_small y) by lia.
  replace (x + (two32 - y)) with (x - y + 1 * two32) by lia.
  rewrite N.mod_add by discriminate. apply N.mod_small. lia.
Qed.

(** Checking a statement about small numbers by running through them. *)
Lemma all_below (P : N -> bool) n : forallb P (seqN n) = true -> forall x, x < n -> P x = true.
Proof. intros H x Hx. rewrite forallb_forall in H. apply H. now apply seqN_In. Qed.

(** The first step on four bits. *)
Definition half4 (n : N) : N := N.land (N.shiftr n 1) 5.
Definition pair4 (n : N) : N := n - half4 n.
Definition cnt4 (n : N) : N := N.land (N.shiftr (pair4 n) 2) 3 + N.land (pair4 n) 3.

Lemma pair4_facts n : n < 16 -> half4 n <= n /\ pair4 n < 16.
Proof.
  intros H. pose proof (all_below (fun n => (half4 n <=? n) && (pair4 n <? 16)) 16 eq_refl n H) as HH. cbv beta in HH. lia.
Qed.

Lemma cnt4_facts n : n < 16 -> cnt4 n = ones n /\ cnt4 n <= 4.
Proof.
  intros H. pose proof (all_below (fun n => (cnt4 n =? ones n) && (cnt4 n <=? 4)) 16 eq_refl n H) as HH. cbv beta in HH. lia.
Qed.

Ltac side := first [assumption | reflexivity | lia].
Ltac unnest := cbn [nest fold_right combine map fst snd repeat]; change (2 ^ 4) with 16; change (2 ^ 3) with 8.

Lemma nest4_eq a b c d e f g h :
  nest 4 [a;b;c;d;e;f;g;h]
  = a + 16 * (b + 16 * (c + 16 * (d + 16 * (e + 16 * (f + 16 * (g + 16 * h)))))).
Proof. unnest. lia. Qed.

Lemma land_nibbles s a b c d e f g h m1 m2 m : s <= 4 -> m1 < 2 ^ (4 - s) -> m2 < 2 ^ (4 - s) ->
  m = nest 4 [m1;m2;m1;m2;m1;m2;m1;m2] ->
  a < 16 -> b < 16 -> c < 16 -> d < 16 -> e < 16 -> f < 16 -> g < 16 -> h < 16 ->
  N.land (N.shiftr (nest 4 [a;b;c;d;e;f;g;h]) s) m
  = nest 4 [N.land (N.shiftr a s) m1; N.land (N.shiftr b s) m2; N.land (N.shiftr c s) m1;
            N.land (N.shiftr d s) m2; N.land (N.shiftr e s) m1; N.land (N.shiftr f s) m2;
            N.land (N.shiftr g s) m1; N.land (N.shiftr h s) m2].
Proof.
  intros Hs H1 H2 Hm. intros.
  rewrite (land_nest 4 s m _ [m1;m2;m1;m2;m1;m2;m1;m2]); auto.
  - repeat constructor; auto.
  - repeat constructor; auto.
Qed.

Lemma sub_nibbles a b c d e f g h a' b' c' d' e' f' g' h' :
  a < 16 -> b < 16 -> c < 16 -> d < 16 -> e < 16 -> f < 16 -> g < 16 -> h < 16 ->
  a' <= a -> b' <= b -> c' <= c -> d' <= d -> e' <= e -> f' <= f -> g' <= g -> h' <= h ->
  sub32 (nest 4 [a;b;c;d;e;f;g;h]) (nest 4 [a';b';c';d';e';f';g';h'])
  = nest 4 [a-a';b-b';c-c';d-d';e-e';f-f';g-g';h-h'].
Proof.
  intros. rewrite !nest4_eq. rewrite sub32_small; [lia|lia|rewrite two32_eq; lia].
Qed.

Lemma add_nibbles a b c d e f g h a' b' c' d' e' f' g' h' :
  a + a' < 16 -> b + b' < 16 -> c + c' < 16 -> d + d' < 16 -> e + e' < 16 -> f + f' < 16 ->
  g + g' < 16 -> h + h' < 16 ->
  add32 (nest 4 [a;b;c;d;e;f;g;h]) (nest 4 [a';b';c';d';e';f';g';h'])
  = nest 4 [a+a';b+b';c+c';d+d';e+e';f+f';g+g';h+h'].
Proof.
  intros. rewrite !nest4_eq. rewrite add32_small; [lia|rewrite two32_eq; lia].
Qed.

Lemma land15 n : n < 16 -> N.land n 15 = n.
Proof. intros H. pose proof (all_below (fun n => N.land n 15 =? n) 16 eq_refl n H) as HH. cbv beta in HH. lia. Qed.

Lemma shiftr4_nibbles a b c d e f g h : a < 16 ->
  N.shiftr (nest 4 [a;b;c;d;e;f;g;h]) 4 = nest 4 [b;c;d;e;f;g;h;0].
Proof.
  intros. rewrite !nest4_eq, N.shiftr_div_pow2. change (2 ^ 4) with 16. lia.
Qed.

Lemma land_mask_n n k : N.land n (2 ^ k - 1) = n mod 2 ^ k.
Proof. rewrite <- N.land_ones. f_equal. rewrite N.ones_equiv. lia. Qed.

Lemma ones_nest a b c d e f g h :
  a < 16 -> b < 16 -> c < 16 -> d < 16 -> e < 16 -> f < 16 -> g < 16 -> h < 16 ->
  ones (nest 4 [a;b;c;d;e;f;g;h])
  = ones a + ones b + ones c + ones d + ones e + ones f + ones g + ones h.
Proof.
  intros. rewrite nest4_eq. rewrite !ones_cat16 by auto. lia.
Qed.

(** After the first two steps every four bits hold the number of ones among them. *)
Lemma two_steps x : x < two32 -> exists a b c d e f g h,
  a <= 4 /\ b <= 4 /\ c <= 4 /\ d <= 4 /\ e <= 4 /\ f <= 4 /\ g <= 4 /\ h <= 4 /\
  ones x = a + b + c + d + e + f + g + h /\
  (let x := sub32 x (N.land (N.shiftr x 1) x55) in
   add32 (N.land (N.shiftr x 2) x33) (N.land x x33)) = nest 4 [a;b;c;d;e;f;g;h].
Proof.
  intros Hx. destruct (nibbles x Hx) as (a & b & c & d & e & f & g & h & Ha & Hb & Hc & Hd & He & Hf & Hg & Hh & ->).
  rewrite <- nest4_eq.
  exists (cnt4 a), (cnt4 b), (cnt4 c), (cnt4 d), (cnt4 e), (cnt4 f), (cnt4 g), (cnt4 h).
  destruct (cnt4_facts a Ha). destruct (cnt4_facts b Hb). destruct (cnt4_facts c Hc).
  destruct (cnt4_facts d Hd). destruct (cnt4_facts e He). destruct (cnt4_facts f Hf).
  destruct (cnt4_facts g Hg). destruct (cnt4_facts h Hh).
  repeat (split; [lia|]). split; [rewrite ones_nest by auto; lia|].
  cbv zeta.
  rewrite (land_nibbles 1 a b c d e f g h 5 5 x55) by side.
  fold (half4 a) (half4 b) (half4 c) (half4 d) (half4 e) (half4 f) (half4 g) (half4 h).
  destruct (pair4_facts a Ha). destruct (pair4_facts b Hb). destruct (pair4_facts c Hc).
  destruct (pair4_facts d Hd). destruct (pair4_facts e He). destruct (pair4_facts f Hf).
  destruct (pair4_facts g Hg). destruct (pair4_facts h Hh).
  rewrite sub_nibbles by assumption.
  fold (pair4 a) (pair4 b) (pair4 c) (pair4 d) (pair4 e) (pair4 f) (pair4 g) (pair4 h).
  rewrite (land_nibbles 2 _ _ _ _ _ _ _ _ 3 3 x33) by side.
  rewrite <- (N.shiftr_0_r (nest 4 [pair4 a; _; _; _; _; _; _; _])) at 1.
  rewrite (land_nibbles 0 _ _ _ _ _ _ _ _ 3 3 x33) by side.
  rewrite !N.shiftr_0_r.
  assert (B : forall n, N.land (N.shiftr (pair4 n) 2) 3 + N.land (pair4 n) 3 = cnt4 n) by reflexivity.
  rewrite add_nibbles by (rewrite B; lia). now rewrite !B.
Qed.

Lemma popcnt_sum c0 c1 c2 c3 : c0 <= 8 -> c1 <= 8 -> c2 <= 8 -> c3 <= 8 ->
  let x := c0 + 256 * c1 + 65536 * c2 + 16777216 * c3 in
  N.land (add32 (add32 x (N.shiftr x 8)) (N.shiftr (add32 x (N.shiftr x 8)) 16)) 63
  = c0 + c1 + c2 + c3.
Proof.
  intros H0 H1 H2 H3 x.
  assert (E1 : N.shiftr x 8 = c1 + 256 * c2 + 65536 * c3).
  { rewrite N.shiftr_div_pow2. change (2 ^ 8) with 256. unfold x. lia. }
  assert (E2 : add32 x (N.shiftr x 8)
     = (c0 + c1) + 256 * (c1 + c2) + 65536 * (c2 + c3) + 16777216 * c3).
  { rewrite E1. rewrite add32_small; unfold x; [lia|rewrite two32_eq; lia]. }
  rewrite E2.
  assert (E3 : N.shiftr (c0 + c1 + 256 * (c1 + c2) + 65536 * (c2 + c3) + 16777216 * c3) 16
     = c2 + c3 + 256 * c3).
  { rewrite N.shiftr_div_pow2. change (2 ^ 16) with 65536. lia. }
  rewrite E3, add32_small by (rewrite two32_eq; lia).
  change 63 with (2 ^ 6 - 1). rewrite land_mask_n. change (2 ^ 6) with 64.
  replace (c0 + c1 + 256 * (c1 + c2) + 65536 * (c2 + c3) + 16777216 * c3 + (c2 + c3 + 256 * c3))
    with (c0 + c1 + c2 + c3 + (4 * (c1 + c2) + 1024 * (c2 + c3) + 262144 * c3 + 4 * c3) * 64) by lia.
  rewrite N.mod_add by discriminate. apply N.mod_small. lia.
Qed.

Lemma popcnt_fast_spec x : x < two32 -> popcnt_fast x = ones x.
Proof.
  intros Hx. destruct (two_steps x Hx) as (a & b & c & d & e & f & g & h & Ha & Hb & Hc & Hd & He & Hf & Hg & Hh & Ho & E).
  unfold popcnt_fast. cbv zeta in *. rewrite E. clear E.
  rewrite shiftr4_nibbles by lia. rewrite add_nibbles by lia.
  rewrite <- (N.shiftr_0_r (nest 4 [_; _; _; _; _; _; _; _])).
  rewrite (land_nibbles 0 _ _ _ _ _ _ _ _ 15 0 x0F) by side.
  rewrite !N.shiftr_0_r, !N.land_0_r. rewrite !land15 by lia. rewrite Ho, nest4_eq.
  replace (b + a + 16 * (0 + 16 * (d + c + 16 * (0 + 16 * (f + e + 16 * (0 + 16 * (h + g + 16 * 0)))))))
    with ((a + b) + 256 * (c + d) + 65536 * (e + f) + 16777216 * (g + h)) by lia.
  rewrite popcnt_sum by lia. lia.
Qed.

(** ** The other two 32-bit counters *)

Definition slow4 (n : N) : N := N.land n 5 + N.land (N.shiftr n 1) 5.
Definition slowcnt4 (n : N) : N := N.land (slow4 n) 3 + N.land (N.shiftr (slow4 n) 2) 3.

Lemma slow4_facts n : n < 16 -> slow4 n < 16 /\ slowcnt4 n = ones n /\ slowcnt4 n <= 4.
Proof.
  intros H. pose proof (all_below (fun n => (slow4 n <? 16) && (slowcnt4 n =? ones n) && (slowcnt4 n <=? 4)) 16 eq_refl n H) as HH.
  cbv beta in HH. lia.
Qed.

Lemma wadd_nibbles a b c d e f g h a' b' c' d' e' f' g' h' :
  a + a' < 16 -> b + b' < 16 -> c + c' < 16 -> d + d' < 16 -> e + e' < 16 -> f + f' < 16 ->
  g + g' < 16 -> h + h' < 16 ->
  w32 (wadd (nest 4 [a;b;c;d;e;f;g;h]) (nest 4 [a';b';c';d';e';f';g';h']))
  = nest 4 [a+a';b+b';c+c';d+d';e+e';f+f';g+g';h+h'].
Proof.
  intros. rewrite <- add_nibbles by auto. unfold add32. f_equal.
  apply wadd_small. rewrite !nest4_eq. change two64 with 18446744073709551616. lia.
Qed.

Lemma land_nibbles0 a b c d e f g h m1 m2 m : m1 < 16 -> m2 < 16 ->
  m = nest 4 [m1;m2;m1;m2;m1;m2;m1;m2] ->
  a < 16 -> b < 16 -> c < 16 -> d < 16 -> e < 16 -> f < 16 -> g < 16 -> h < 16 ->
  N.land (nest 4 [a;b;c;d;e;f;g;h]) m
  = nest 4 [N.land a m1; N.land b m2; N.land c m1; N.land d m2;
            N.land e m1; N.land f m2; N.land g m1; N.land h m2].
Proof.
  intros. rewrite <- (N.shiftr_0_r (nest 4 [a;b;c;d;e;f;g;h])).
  rewrite (land_nibbles 0 a b c d e f g h m1 m2 m) by side. now rewrite !N.shiftr_0_r.
Qed.

Lemma two_steps_slow x : x < two32 -> exists a b c d e f g h,
  a <= 4 /\ b <= 4 /\ c <= 4 /\ d <= 4 /\ e <= 4 /\ f <= 4 /\ g <= 4 /\ h <= 4 /\
  ones x = a + b + c + d + e + f + g + h /\
  (let x := w32 (wadd (N.land x x55) (N.land (N.shiftr x 1) x55)) in
   w32 (wadd (N.land x x33) (N.land (N.shiftr x 2) x33))) = nest 4 [a;b;c;d;e;f;g;h].
Proof.
  intros Hx. destruct (nibbles x Hx) as (a & b & c & d & e & f & g & h & Ha & Hb & Hc & Hd & He & Hf & Hg & Hh & ->).
  rewrite <- nest4_eq.
  exists (slowcnt4 a), (slowcnt4 b), (slowcnt4 c), (slowcnt4 d), (slowcnt4 e), (slowcnt4 f), (slowcnt4 g), (slowcnt4 h).
  destruct (slow4_facts a Ha) as (?&?&?). destruct (slow4_facts b Hb) as (?&?&?).
  destruct (slow4_facts c Hc) as (?&?&?). destruct (slow4_facts d Hd) as (?&?&?).
  destruct (slow4_facts e He) as (?&?&?). destruct (slow4_facts f Hf) as (?&?&?).
  destruct (slow4_facts g Hg) as (?&?&?). destruct (slow4_facts h Hh) as (?&?&?).
  repeat (split; [assumption|]). split; [rewrite ones_nest by auto; lia|].
  cbv zeta.
  rewrite (land_nibbles 1 a b c d e f g h 5 5 x55) by side.
  rewrite (land_nibbles0 a b c d e f g h 5 5 x55) by side.
  assert (B1 : forall n, N.land n 5 + N.land (N.shiftr n 1) 5 = slow4 n) by reflexivity.
  assert (B2 : forall n, N.land (slow4 n) 3 + N.land (N.shiftr (slow4 n) 2) 3 = slowcnt4 n) by reflexivity.
  rewrite wadd_nibbles by (rewrite B1; assumption). rewrite !B1.
  rewrite (land_nibbles 2 _ _ _ _ _ _ _ _ 3 3 x33) by side.
  rewrite (land_nibbles0 _ _ _ _ _ _ _ _ 3 3 x33) by side.
  rewrite wadd_nibbles by (rewrite B2; lia). now rewrite !B2.
Qed.

Lemma popcnt_slow_spec x : x < two32 -> popcnt_slow x = ones x.
Proof.
  intros Hx. destruct (two_steps_slow x Hx) as (a & b & c & d & e & f & g & h & Ha & Hb & Hc & Hd & He & Hf & Hg & Hh & Ho & E).
  unfold popcnt_slow. cbv zeta in *. rewrite E. clear E.
  rewrite shiftr4_nibbles by lia.
  rewrite !(land_nibbles0 _ _ _ _ _ _ _ _ 15 0 x0F) by side.
  rewrite !N.land_0_r, !land15 by lia. rewrite wadd_nibbles by lia. rewrite Ho, nest4_eq.
  replace (a + b + 16 * (0 + 0 + 16 * (c + d + 16 * (0 + 0 + 16 * (e + f + 16 * (0 + 0 + 16 * (g + h + 16 * (0 + 0))))))))
    with ((a + b) + 256 * (c + d) + 65536 * ((e + f) + 256 * (g + h))) by lia.
  replace (a + b + c + d + e + f + g + h) with ((a + b) + (c + d) + (e + f) + (g + h)) by lia.
  set (c0 := a + b). set (c1 := c + d). set (c2 := e + f). set (c3 := g + h).
  assert (H0 : c0 <= 8) by (unfold c0; lia). assert (H1 : c1 <= 8) by (unfold c1; lia).
  assert (H2 : c2 <= 8) by (unfold c2; lia). assert (H3 : c3 <= 8) by (unfold c3; lia).
  clearbody c0 c1 c2 c3. clear - H0 H1 H2 H3.
  assert (A : forall u v, u < 65536 -> v < 65536 -> N.land (u + 65536 * v) x00FF = u mod 256 + 65536 * (v mod 256)).
  { intros u v Hu Hv. change x00FF with (255 + 2 ^ 16 * 255). change 65536 with (2 ^ 16).
    rewrite land_cat by side. change 255 with (2 ^ 8 - 1). now rewrite !land_mask_n. }
  rewrite (A (c0 + 256 * c1)) by lia.
  assert (S8 : N.shiftr (c0 + 256 * c1 + 65536 * (c2 + 256 * c3)) 8 = (c1 + 256 * c2) + 65536 * c3).
  { rewrite N.shiftr_div_pow2. change (2 ^ 8) with 256. lia. }
  rewrite S8, A by lia.
  assert (E1 : w32 (wadd ((c0 + 256 * c1) mod 256 + 65536 * ((c2 + 256 * c3) mod 256))
       ((c1 + 256 * c2) mod 256 + 65536 * (c3 mod 256))) = (c0 + c1) + 65536 * (c2 + c3)).
  { rewrite wadd_small by (change two64 with 18446744073709551616; lia).
    unfold w32. rewrite (N.mod_small _ two32) by (rewrite two32_eq; lia). lia. }
  rewrite E1.
  assert (S16 : N.shiftr (c0 + c1 + 65536 * (c2 + c3)) 16 = c2 + c3).
  { rewrite N.shiftr_div_pow2. change (2 ^ 16) with 65536. lia. }
  rewrite S16. change xFFFF with (2 ^ 16 - 1). rewrite !land_mask_n. change (2 ^ 16) with 65536.
  rewrite wadd_small by (change two64 with 18446744073709551616; lia).
  unfold w32. rewrite (N.mod_small _ two32) by (rewrite two32_eq; lia). lia.
Qed.

(** ** hakmem *)

Definition oct1 (n : N) : N := N.land (N.shiftr n 1) 3.
Definition oct2 (n : N) : N := N.land (N.shiftr n 2) 1.
Definition cnt3 (n : N) : N := n - oct1 n - oct2 n.

Lemma cnt3_facts n : n < 8 -> oct1 n <= n /\ oct2 n <= n - oct1 n /\ cnt3 n = ones n /\ cnt3 n <= 3.
Proof.
  intros H. pose proof (all_below (fun n => (oct1 n <=? n) && (oct2 n <=? n - oct1 n)
     && (cnt3 n =? ones n) && (cnt3 n <=? 3)) 8 eq_refl n H) as HH. cbv beta in HH. lia.
Qed.

Definition nest3 (l : list N) : N := nest 3 l.

Lemma octets x : x < two32 -> exists l k, length l = 10%nat /\ Forall (fun d => d < 8) l /\ k < 4 /\
  x = nest 3 (l ++ [k]).
Proof.
  intros H. rewrite two32_eq in H.
  assert (D : forall y, exists q r, r < 8 /\ y = r + 8 * q).
  { intros y. exists (y / 8), (y mod 8). lia. }
  assert (G : forall (n : nat) y, exists l q, length l = n /\ Forall (fun d => d < 8) l
    /\ y = nest 3 (l ++ [q])).
  { induction n as [|n IH]; intros y.
    - exists [], y. split; auto. split; auto. cbn. lia.
    - destruct (D y) as (q & r & Hr & ->). destruct (IH q) as (l & q' & Hl & HF & ->).
      exists (r :: l), q'. split; [cbn; lia|]. split; auto. }
  destruct (G 10%nat x) as (l & q & Hl & HF & ->). exists l, q. split; auto. split; auto. split; auto.
  do 10 (destruct l as [|? l]; [discriminate|]). destruct l; [|discriminate].
  cbn [app nest fold_right] in H. change (2 ^ 3) with 8 in H. lia.
Qed.

Lemma nest_sub w l : forall l', length l' = length l ->
  Forall (fun p => fst p <= snd p) (combine l' l) ->
  nest w l' <= nest w l /\ nest w l - nest w l' = nest w (map (fun p => snd p - fst p) (combine l' l)).
Proof.
  induction l as [|d l IH]; intros [|d' l'] Hl HF; try discriminate; [cbn; lia|].
  inversion HF; subst. cbn [fst snd] in *. injection Hl as Hl.
  destruct (IH l' Hl H2) as [Hle E].
  cbn [combine map fst snd nest fold_right]. fold (nest w l) (nest w l').
  fold (nest w (map (fun p => snd p - fst p) (combine l' l))). rewrite <- E.
  pose proof (pow2_pos w). nia.
Qed.

Lemma nest_lt w l : Forall (fun d => d < 2 ^ w) l -> nest w l < 2 ^ (w * N.of_nat (length l)).
Proof.
  induction 1 as [|d l Hd HF IH].
  - rewrite N.mul_0_r. reflexivity.
  - cbn [nest fold_right length]. fold (nest w l).
    replace (w * N.of_nat (S (length l))) with (w + w * N.of_nat (length l)) by lia.
    rewrite N.pow_add_r. pose proof (pow2_pos w). nia.
Qed.

Lemma Forall_combine {A B} (P : A -> Prop) (l : list A) (f : A -> B) (Q : A * B -> Prop) :
  Forall P l -> (forall a, P a -> Q (a, f a)) -> Forall Q (combine l (map f l)).
Proof. induction 1; intros HQ; cbn; constructor; auto. Qed.

Lemma hakmem_tmp l x : Forall (fun d => d < 8) l -> length l = 11%nat -> x = nest 3 l -> x < two32 ->
  sub32 (sub32 x (N.land (N.shiftr x 1) o333)) (N.land (N.shiftr x 2) o111) = nest 3 (map cnt3 l).
Proof.
  intros HF Hl -> Hx.
  rewrite (land_nest 3 1 o333 l (repeat 3 11)); [|exact HF|now rewrite repeat_length| |lia|reflexivity].
  2:{ repeat constructor. }
  rewrite (land_nest 3 2 o111 l (repeat 1 11)); [|exact HF|now rewrite repeat_length| |lia|reflexivity].
  2:{ repeat constructor. }
  assert (C : forall (m : N) (f : N -> N -> N), map (fun p => f (fst p) (snd p)) (combine l (repeat m 11)) = map (fun d => f d m) l).
  { intros m f. rewrite <- Hl. clear. induction l as [|d l IH]; cbn; [reflexivity|]. now rewrite IH. }
  rewrite (C 3 (fun a b => N.land (N.shiftr a 1) b)), (C 1 (fun a b => N.land (N.shiftr a 2) b)).
  change (fun d => N.land (N.shiftr d 1) 3) with oct1. change (fun d => N.land (N.shiftr d 2) 1) with oct2.
  assert (S1 : sub32 (nest 3 l) (nest 3 (map oct1 l)) = nest 3 (map (fun d => d - oct1 d) l)).
  { destruct (nest_sub 3 l (map oct1 l)) as [Hle E].
    - now rewrite map_length.
    - clear - HF. induction HF as [|d l Hd HF IH]; cbn; constructor; auto. cbn. now apply cnt3_facts.
    - rewrite sub32_small by (auto; lia). rewrite E. f_equal.
      clear. induction l as [|d l IH]; cbn; [reflexivity|]. now rewrite IH. }
  rewrite S1.
  destruct (nest_sub 3 (map (fun d => d - oct1 d) l) (map oct2 l)) as [Hle E].
  - now rewrite !map_length.
  - clear - HF. induction HF as [|d l Hd HF IH]; cbn; constructor; auto. cbn. now apply cnt3_facts.
  - rewrite sub32_small; [|exact Hle|].
    + rewrite E. f_equal. clear. induction l as [|d l IH]; cbn; [reflexivity|]. now rewrite IH.
    + rewrite <- S1. unfold sub32, w32. apply N.mod_lt. discriminate.
Qed.

Lemma popcnt_hakmem_spec x : x < two32 -> popcnt_hakmem x = ones x.
Proof.
  intros Hx. destruct (octets x Hx) as (l & k & Hl & HF & Hk & E).
  assert (HF' : Forall (fun d => d < 8) (l ++ [k])).
  { apply Forall_app. split; auto. constructor; [lia|constructor]. }
  unfold popcnt_hakmem. cbv zeta.
  rewrite (hakmem_tmp (l ++ [k]) x HF') by (auto; rewrite app_length, Hl; reflexivity).
  assert (Ho : ones x = fold_right N.add 0 (map cnt3 (l ++ [k]))).
  { rewrite E. revert HF'. generalize (l ++ [k]). clear. intros m HF.
    induction HF as [|d m Hd HF IH]; [reflexivity|].
    cbn [nest fold_right map]. fold (nest 3 m). change (2 ^ 3) with 8. rewrite ones_cat8 by auto. rewrite IH. f_equal. symmetry. now apply cnt3_facts. }
  rewrite Ho. rewrite map_app. cbn [map].
  assert (Hc : Forall (fun d => d <= 3) (map cnt3 l)).
  { clear - HF. induction HF; cbn; constructor; auto. now apply cnt3_facts. }
  assert (Hck : cnt3 k <= 2).
  { pose proof (all_below (fun n => cnt3 n <=? 2) 4 eq_refl k Hk) as HH. cbv beta in HH. lia. }
  assert (Hlc : length (map cnt3 l) = 10%nat) by now rewrite map_length.
  revert Hck Hc Hlc. generalize (cnt3 k) (map cnt3 l). clear. intros k l Hk HF Hl.
  do 10 (destruct l as [|? l]; [discriminate|]). destruct l; [|discriminate]. clear Hl.
  repeat match goal with H : Forall _ (_ :: _) |- _ => inversion H; clear H; subst end.
  cbn [app fold_right].
  assert (E : add32 (nest 3 [n; n0; n1; n2; n3; n4; n5; n6; n7; n8; k])
                 (N.shiftr (nest 3 [n; n0; n1; n2; n3; n4; n5; n6; n7; n8; k]) 3)
     = nest 3 [n+n0; n0+n1; n1+n2; n2+n3; n3+n4; n4+n5; n5+n6; n6+n7; n7+n8; n8+k; k]).
  { rewrite N.shiftr_div_pow2. unnest.
    replace ((n + 8 * (n0 + 8 * (n1 + 8 * (n2 + 8 * (n3 + 8 * (n4 + 8 * (n5 + 8 * (n6 + 8 * (n7 + 8 * (n8 + 8 * (k + 8 * 0))))))))))) / 8)
      with (n0 + 8 * (n1 + 8 * (n2 + 8 * (n3 + 8 * (n4 + 8 * (n5 + 8 * (n6 + 8 * (n7 + 8 * (n8 + 8 * (k + 8 * 0)))))))))).
    2:{ apply (N.div_unique _ 8 _ n); lia. }
    rewrite add32_small by (rewrite two32_eq; lia). lia. }
  rewrite E. clear E. rewrite <- (N.shiftr_0_r (nest 3 _)).
  rewrite (land_nest 3 0 o307 _ [7;0;7;0;7;0;7;0;7;0;3]);
    [| |reflexivity| |lia|reflexivity].
  2:{ repeat constructor; lia. }
  2:{ repeat constructor. }
  cbn [combine map fst snd]. rewrite !N.shiftr_0_r, !N.land_0_r.
  assert (M7 : forall u, u < 8 -> N.land u 7 = u).
  { intros u Hu. change 7 with (2 ^ 3 - 1). rewrite land_mask_n. now apply N.mod_small. }
  assert (M3 : forall u, u < 4 -> N.land u 3 = u).
  { intros u Hu. change 3 with (2 ^ 2 - 1). rewrite land_mask_n. now apply N.mod_small. }
  rewrite !M7 by lia. rewrite M3 by lia. unnest.
  match goal with |- ?a mod 63 = ?b => 
    replace a with (b + (n1 + n2 + 65 * (n3 + n4) + 4161 * (n5 + n6) + 266305 * (n7 + n8) + 17043521 * k) * 63) by lia
  end.
  rewrite N.mod_add by discriminate. apply N.mod_small. lia.
Qed.
