(** Properties of the random generators (RandModel.v); definition of the Mersenne
    Twister in RandSpec.v. *)
From Coq Require Import NArith ZArith List Bool.
From Verif Require Import Base RandModel RandSpec RandDraw RandWitness RandLoop64.
Import ListNotations.
Open Scope N_scope.

(** C132: rand() of MT19937_32 gives the terms of MT19937. *)
Theorem c132_rand_refuted : exists now seed libc x, seed <> 0 /\ seeded mt19937 seed x /\ recurrence mt19937 x /\
  ~ (exists g, rand p32 libc (construct p32 now seed) = Ok (g, tempered mt19937 (x 624%nat))).
Proof. exact rand_wrong. Qed.
Print Assumptions c132_rand_refuted.

Theorem c132_first_call_always_undefined : forall p, p = p32 \/ p = p64 -> forall libc now seed key,
  rand p libc (construct p now seed) = Err EUndef /\
  (forall g, construct_keys p now seed key = Ok g -> rand p libc g = Err EUndef) /\
  (forall g, srand p now seed g = Err EUndef) /\
  (forall g, srand_keys p now seed key g = Err EUndef).
Proof. exact rand_always_undefined. Qed.
Print Assumptions c132_first_call_always_undefined.

Theorem c132_first_loop_partial : forall now seed x, seed <> 0 -> seeded mt19937 seed x -> recurrence mt19937 x ->
  exists st, twist_loop p32 (mt_m p32) (N.to_nat (mt_n p32 - mt_m p32)) 0 (init p32 now seed) = Ok st /\
    forall i, (i < 227)%nat -> nth_error st i = Some (x (624 + i)%nat).
Proof. exact first_words. Qed.
Print Assumptions c132_first_loop_partial.

(** 64 bits: the first loop applies the recurrence with r = 63 (C134) to any state. *)
Theorem c132_first_loop_64_partial : forall st, length st = 312%nat -> Forall (fun w => w < 2 ^ 64) st ->
  exists st', twist_loop p64 (mt_m p64) (N.to_nat (mt_n p64 - mt_m p64)) 0 st = Ok st' /\ length st' = 312%nat /\
    (forall i, (i < 156)%nat -> nth_error st' i =
       Some (N.lxor (nth (i + 156) st 0)
         (twisted (Twister 64 312 156 63 0xB5026F5AA96619E9 29 0x5555555555555555 17 0x71D67FFFEDA60000 37
                           0xFFF7EEE000000000 43 6364136223846793005) (nth i st 0) (nth (S i) st 0)))) /\
    (forall i, (156 <= i)%nat -> nth_error st' i = nth_error st i).
Proof. exact first_words64. Qed.
Print Assumptions c132_first_loop_64_partial.

(** The sequences exist, and the definition meets the value that the C++ standard
    requires of the 10000th number of std::mt19937 and std::mt19937_64. *)
Theorem c132_sequences_exist : forall seed,
  (exists x, seeded mt19937 seed x /\ recurrence mt19937 x) /\
  (exists x, seeded mt19937_64 seed x /\ recurrence mt19937_64 x).
Proof. exact sequence_exists. Qed.
Print Assumptions c132_sequences_exist.

Example c132_example : tempered mt19937 (term mt19937 5489 (N.to_nat 10623)) = 4123659995 /\
  tempered mt19937_64 (term mt19937_64 5489 (N.to_nat 10311)) = 9981545732273789042.
Proof. vm_compute. split; reflexivity. Qed.

(** C133: seeding gives the first n terms. *)
Theorem c133_seeding_32_partial : forall now seed x, seed <> 0 -> seeded mt19937 seed x ->
  forall i, (i < 624)%nat -> nth_error (init p32 now seed) i = Some (x i).
Proof. exact RandFacts.init_seeded. Qed.
Print Assumptions c133_seeding_32_partial.

Theorem c133_seeding_64_refuted : exists now seed x, seed <> 0 /\ seed < 2 ^ 64 /\ seeded mt19937_64 seed x /\
  nth_error (init p64 now seed) 1 <> Some (x 1%nat).
Proof. exact init64_wrong. Qed.
Print Assumptions c133_seeding_64_refuted.

(** What it gives: the shift is 30 where the definition has 62. *)
Theorem c133_seeding_64_exactly : forall now seed s, seed <> 0 -> s = init p64 now seed ->
  length s = 312%nat /\ nth 0 s 0 = seed mod 2 ^ 64 /\
  forall i, (S i < 312)%nat ->
    nth (S i) s 0 = (6364136223846793005 * N.lxor (nth i s 0) (nth i s 0 / 2 ^ 30) + N.of_nat (S i)) mod 2 ^ 64.
Proof. exact init64_exact. Qed.
Print Assumptions c133_seeding_64_exactly.

Example c133_example : nth_error (init p32 0 5489) 1 = Some 1301868182 /\
  seeded mt19937 5489 (term mt19937 5489) /\ term mt19937 5489 1 = 1301868182.
Proof.
  split; [vm_compute; reflexivity|]. split; [|vm_compute; reflexivity].
  apply term_seeded. cbn [tn mt19937]. do 2 apply le_n_S. apply Nat.le_0_l.
Qed.

(** C134: twist is the product with the matrix of the definition. *)
Theorem c134_twist_32_partial : forall u v, u < 2 ^ 32 -> twist p32 u v = twisted mt19937 u v.
Proof. exact RandFacts.twist_twisted. Qed.
Print Assumptions c134_twist_32_partial.

Theorem c134_twist_64_refuted : exists u v, u < 2 ^ 64 /\ v < 2 ^ 64 /\ twist p64 u v <> twisted mt19937_64 u v.
Proof. exact twist64_wrong. Qed.
Print Assumptions c134_twist_64_refuted.

(** With r = 63 in place of 31. *)
Theorem c134_twist_64_exactly : forall u v, u < 2 ^ 64 ->
  twist p64 u v = twisted (Twister 64 312 156 63 0xB5026F5AA96619E9 29 0x5555555555555555 17 0x71D67FFFEDA60000 37
                                   0xFFF7EEE000000000 43 6364136223846793005) u v.
Proof. exact twist64_exact. Qed.
Print Assumptions c134_twist_64_exactly.

Example c134_example : twist p32 0x80000001 0x12345677 = 0xD0129BE4.
Proof. vm_compute. reflexivity. Qed.

(** C135: the tempering is that of the definition and a permutation of the words. *)
Theorem c135_tempering : forall p T, (p = p32 /\ T = mt19937) \/ (p = p64 /\ T = mt19937_64) ->
  (forall y, temper p y = tempered T y) /\
  (forall y, y < 2 ^ tw T -> temper p y < 2 ^ tw T) /\
  (forall v, v < 2 ^ tw T -> exists y, y < 2 ^ tw T /\ temper p y = v /\
     forall z, z < 2 ^ tw T -> temper p z = v -> z = y).
Proof. exact temper_both. Qed.
Print Assumptions c135_tempering.

Example c135_example : temper p32 (term mt19937 5489 624) = 3499211612 /\ temper p64 1 <> temper p64 2.
Proof. vm_compute. split; [reflexivity|discriminate]. Qed.

(** C136: seeding with keys stays inside the arrays and never gives the zero state. *)
Theorem c136_keys_partial : forall p T, (p = p32 /\ T = mt19937) \/ (p = p64 /\ T = mt19937_64) ->
  forall now seed key, key <> [] -> exists st, construct_keys p now seed key = Ok (Gen None 1 st) /\
    length st = tn T /\ Forall (fun x => x < 2 ^ tw T) st /\ nth_error st 0 = Some (2 ^ (tw T - 1)).
Proof. exact keys_ok. Qed.
Print Assumptions c136_keys_partial.

Theorem c136_no_keys_refuted : exists now seed,
  construct_keys p32 now seed [] = Err EUndef /\ construct_keys p64 now seed [] = Err EUndef.
Proof. exact keys_wrong. Qed.
Print Assumptions c136_no_keys_refuted.

(** The keys and the seed of mt19937ar.c; the first word after the first loop of
    next_state gives the first number listed in mt19937ar.out. *)
Example c136_example : exists st, construct_keys p32 0 19650218 [0x123; 0x234; 0x345; 0x456] = Ok (Gen None 1 st) /\
  match twist_loop p32 397 1 0 st with Ok (x :: _) => temper p32 x = 1067595299 | _ => False end.
Proof. eexists. split; [vm_compute; reflexivity|]. vm_compute. reflexivity. Qed.

(** C137: integers in a range. *)
Theorem c137_signed_range_partial : forall w draw a b, 0 < w ->
  (- 2 ^ (Z.of_N w - 1) <= a < 2 ^ (Z.of_N w - 1))%Z -> (- 2 ^ (Z.of_N w - 1) <= b < 2 ^ (Z.of_N w - 1))%Z ->
  (Z.abs (a - b) + 1 < 2 ^ (Z.of_N w - 1))%Z ->
  (exists v, next_signed w draw a b = Ok v /\ (Z.min a b <= v <= Z.max a b)%Z) /\
  (forall v, (Z.min a b <= v <= Z.max a b)%Z -> exists d, d < 2 ^ w /\ next_signed w d a b = Ok v).
Proof. exact signed_in_range. Qed.
Print Assumptions c137_signed_range_partial.

Theorem c137_unsigned_range_partial : forall w draw a b, a < 2 ^ w -> b < 2 ^ w ->
  N.max a b - N.min a b + 1 < 2 ^ w ->
  (exists v, next_unsigned w draw a b = Ok v /\ N.min a b <= v <= N.max a b) /\
  (forall v, N.min a b <= v <= N.max a b -> exists d, d < 2 ^ w /\ next_unsigned w d a b = Ok v).
Proof. exact unsigned_in_range. Qed.
Print Assumptions c137_unsigned_range_partial.

(** With one bound that is not negative. *)
Theorem c137_nextInt32_partial : forall draw b, (0 <= b)%Z -> (b + 1 < 2 ^ 31)%Z ->
  (exists v, nextInt32_max draw b = Ok v /\ (0 <= v <= b)%Z) /\
  (forall v, (0 <= v <= b)%Z -> exists d, d < 2 ^ 32 /\ nextInt32_max d b = Ok v).
Proof. exact nextInt32_bound. Qed.
Print Assumptions c137_nextInt32_partial.

Theorem c137_nextInt_partial : forall draw b, (0 <= b < 2 ^ 63)%Z ->
  (exists v, nextInt_max draw b = Ok v /\ (0 <= v <= b)%Z) /\
  (forall v, (0 <= v <= b)%Z -> exists d, d < 2 ^ 64 /\ nextInt_max d b = Ok v).
Proof. exact nextInt_bound. Qed.
Print Assumptions c137_nextInt_partial.

Theorem c137_undefined_exactly :
  (forall w draw a b, 0 < w ->
     (- 2 ^ (Z.of_N w - 1) <= a < 2 ^ (Z.of_N w - 1))%Z -> (- 2 ^ (Z.of_N w - 1) <= b < 2 ^ (Z.of_N w - 1))%Z ->
     (next_signed w draw a b = Err EUndef <-> (2 ^ (Z.of_N w - 1) <= Z.abs (a - b) + 1)%Z)) /\
  (forall w draw a b, a < 2 ^ w -> b < 2 ^ w ->
     (next_unsigned w draw a b = Err EUndef <-> N.min a b = 0 /\ N.max a b = 2 ^ w - 1)).
Proof. exact integers_undefined. Qed.
Print Assumptions c137_undefined_exactly.

Theorem c137_wide_range_refuted : exists d a b c e,
  ((- 2 ^ 31 <= a < 2 ^ 31)%Z /\ (- 2 ^ 31 <= b < 2 ^ 31)%Z /\ (a <= b)%Z /\ next_signed 32 d a b = Err EUndef) /\
  (c < 2 ^ 64 /\ e < 2 ^ 64 /\ next_unsigned 64 d c e = Err EUndef).
Proof. exact integers_wrong. Qed.
Print Assumptions c137_wide_range_refuted.

(** nextInt(maxValue) with a negative bound, against nextInt32(maxValue). *)
Theorem c137_nextInt_refuted : exists d1 d2 b v, (- 2 ^ 63 <= b < 0)%Z /\ d1 < 2 ^ 64 /\ d2 < 2 ^ 64 /\
  nextInt_max d1 b = Ok v /\ ~ (b <= v <= 0)%Z /\
  (exists u, nextInt32_max d1 b = Ok u /\ (b <= u <= 0)%Z) /\
  nextInt_max d2 (-1) = Err EUndef.
Proof. exact nextInt_wrong. Qed.
Print Assumptions c137_nextInt_refuted.

Example c137_example : next_signed 32 4294967295 (-7) 12 = Ok 8%Z /\ next_signed 32 4294967295 12 (-7) = Ok 8%Z /\
  next_unsigned 64 (2 ^ 64 - 1) 10 19 = Ok 15.
Proof. vm_compute. repeat split. Qed.

(** C138: nextDouble53() lies in [0, 1) and takes every multiple of 2^-53. *)
Theorem c138_double53 : (forall x y, x < 2 ^ 32 -> y < 2 ^ 32 -> double53 x y < 2 ^ 53) /\
  (forall k, k < 2 ^ 53 -> exists x y, x < 2 ^ 32 /\ y < 2 ^ 32 /\ double53 x y = k).
Proof. exact double53_ok. Qed.
Print Assumptions c138_double53.

Example c138_example : double53 4294967295 4294967295 = 2 ^ 53 - 1.
Proof. vm_compute. reflexivity. Qed.

(** C139: rand32() of LibcRand takes every word equally often. *)
Theorem c139_rand32_15_bits_partial : forall v, v < 2 ^ 32 -> exists b c, b < 2 ^ 15 /\ c < 2 ^ 15 /\
  forall a b' c', a < 2 ^ 15 -> b' < 2 ^ 15 -> c' < 2 ^ 15 ->
    (rand32_15 a b' c' = v <-> a mod 4 = v / 2 ^ 30 /\ b' = b /\ c' = c).
Proof. exact rand32_15_onto. Qed.
Print Assumptions c139_rand32_15_bits_partial.

Theorem c139_rand32_16_bits_partial : forall a b v, a < 2 ^ 16 -> b < 2 ^ 16 ->
  (rand32_big 0xFFFF a b = v <-> v < 2 ^ 32 /\ a = v / 2 ^ 16 /\ b = v mod 2 ^ 16).
Proof. exact rand32_16_fields. Qed.
Print Assumptions c139_rand32_16_bits_partial.

(** RAND_MAX = 2^31 - 1: at most 2^15 pairs give [v1], at least 2^30 give [v2]. *)
Theorem c139_rand32_31_bits_refuted : exists v1 v2, v1 < 2 ^ 32 /\ v2 < 2 ^ 32 /\
  (forall a b, a < 2 ^ 31 -> b < 2 ^ 31 -> rand32_big 0x7FFFFFFF a b = v1 -> a mod 2 ^ 16 = 0 /\ b = 0) /\
  (forall a, a < 2 ^ 31 -> 2 ^ 15 <= a mod 2 ^ 16 -> rand32_big 0x7FFFFFFF a (2 ^ 31 - 1) = v2).
Proof. exact rand32_31_uneven. Qed.
Print Assumptions c139_rand32_31_bits_refuted.

Theorem c139_joined_bits : forall a b c d, a < 2 ^ 31 -> b < 2 ^ 31 -> c < 2 ^ 31 -> d < 2 ^ 31 ->
  (forall i, 16 <= i < 31 ->
     N.testbit (rand32_big 0x7FFFFFFF a b) i = (N.testbit a (i - 16) || N.testbit b i)%bool) /\
  (forall i, 48 <= i < 63 ->
     N.testbit (rand64_big 0x7FFFFFFF a b c d) i = (N.testbit a (i - 48) || N.testbit b (i - 32))%bool).
Proof. exact joined_bits. Qed.
Print Assumptions c139_joined_bits.

Example c139_example : rand32_15 3 4 5 = 3 * 2 ^ 30 + 4 * 2 ^ 15 + 5 /\ rand32_big 0x7FFFFFFF 1 65536 = 65536.
Proof. vm_compute. split; reflexivity. Qed.
