(** The 64-bit Mersenne Twister: what seeding and the first loop of next_state do; integers below a
    bound. *)
From Coq Require Import NArith ZArith List Bool Lia.
From Coq Require Import ZifyBool ZifyNat ZifyN.
From Verif Require Import Base BaseFacts RandModel RandSpec RandFacts RandDraw RandWitness.
Import ListNotations.
Open Scope N_scope.

Lemma loop1_words64 : forall T st0 cnt q st,
  (forall u v, u < 2 ^ 64 -> twist p64 u v = twisted T u v) ->
  Forall (fun w => w < 2 ^ 64) st0 -> length st0 = 312%nat ->
  (q + cnt <= 156)%nat -> length st = 312%nat ->
  (forall i, (q <= i)%nat -> nth_error st i = nth_error st0 i) ->
  exists st', twist_loop p64 156 cnt (N.of_nat q) st = Ok st' /\ length st' = 312%nat /\
    (forall i, (i < q)%nat -> nth_error st' i = nth_error st i) /\
    (forall i, (q <= i < q + cnt)%nat ->
       nth_error st' i = Some (N.lxor (nth (i + 156) st0 0) (twisted T (nth i st0 0) (nth (S i) st0 0)))) /\
    (forall i, (q + cnt <= i)%nat -> nth_error st' i = nth_error st0 i).
Proof.
  intros T st0. induction cnt as [|cnt IH]; intros q st TW F L0 B LS H.
  - exists st. rewrite Nat.add_0_r. repeat split; auto. intros i I. lia.
  - assert (forall i, (q <= i < 312)%nat -> nth_error st i = Some (nth i st0 0)) as G.
    { intros i I. rewrite H by lia. apply nth_error_nth'. lia. }
    cbn [twist_loop]. unfold rd, geti.
    replace (N.to_nat (N.of_nat q + 156)) with (q + 156)%nat by lia.
    replace (N.to_nat (N.of_nat q)) with q by lia. replace (N.to_nat (N.of_nat q + 1)) with (S q) by lia.
    rewrite (G (q + 156)%nat), (G q), (G (S q)) by lia. cbn [rbind].
    rewrite wr_ok by lia. cbn [rbind]. replace (N.to_nat (N.of_nat q)) with q by lia.
    assert (nth q st0 0 < 2 ^ 64) as W by (apply (proj1 (Forall_forall _ _) F), nth_In; lia).
    rewrite (TW _ _ W). replace (N.of_nat q + 1) with (N.of_nat (S q)) by lia.
    set (y := N.lxor _ _).
    destruct (IH (S q) (upd st q y)) as (st' & A & C & D & E & K); auto; try lia.
    + rewrite upd_len. exact LS.
    + intros i I. rewrite upd_nth by lia. destruct (Nat.eqb_spec i q) as [->|NE]; [lia|]. apply H. lia.
    + exists st'. split; [exact A|]. split; [exact C|]. split; [|split].
      * intros i I. rewrite D by lia. rewrite upd_nth by lia. destruct (Nat.eqb_spec i q) as [->|NE]; [lia|reflexivity].
      * intros i I. destruct (Nat.eq_dec i q) as [->|NE]; [|apply E; lia].
        rewrite D by lia. rewrite upd_nth by lia. rewrite Nat.eqb_refl. reflexivity.
      * intros i I. apply K. lia.
Qed.

Lemma first_words64 : forall st, length st = 312%nat -> Forall (fun w => w < 2 ^ 64) st ->
  exists st', twist_loop p64 (mt_m p64) (N.to_nat (mt_n p64 - mt_m p64)) 0 st = Ok st' /\ length st' = 312%nat /\
    (forall i, (i < 156)%nat -> nth_error st' i =
       Some (N.lxor (nth (i + 156) st 0)
         (twisted (Twister 64 312 156 63 0xB5026F5AA96619E9 29 0x5555555555555555 17 0x71D67FFFEDA60000 37
                           0xFFF7EEE000000000 43 6364136223846793005) (nth i st 0) (nth (S i) st 0)))) /\
    (forall i, (156 <= i)%nat -> nth_error st' i = nth_error st i).
Proof.
  intros st L F. destruct (loop1_words64 _ st 156 0 st twist64_exact F L) as (st' & A & B & _ & C & D); auto.
  exists st'. split; [|split; [exact B|split; [intros i I; apply C; lia|intros i I; apply D; lia]]].
  change (N.of_nat 0) with 0 in A. change (mt_m p64) with 156.
  replace (N.to_nat (mt_n p64 - 156)) with 156%nat by (vm_compute; reflexivity). exact A.
Qed.

Lemma init_from_nth : forall cnt j x k, (k < cnt)%nat ->
  nth k (init_from p64 cnt j x) 0 =
    (let y := nth k (x :: init_from p64 cnt j x) 0 in
     (6364136223846793005 * N.lxor y (y / 2 ^ 30) + (j + N.of_nat k)) mod 2 ^ 64).
Proof.
  induction cnt as [|c IH]; intros j x k K; [lia|]. cbn [init_from]. destruct k as [|k].
  - cbn [nth]. unfold word. rewrite N.shiftr_div_pow2. change (mt_f p64) with 6364136223846793005.
    change (mt_w p64) with 64. change (N.of_nat 0) with 0. rewrite N.add_0_r. reflexivity.
  - cbn [nth]. rewrite IH by lia. cbn zeta. replace (j + 1 + N.of_nat k) with (j + N.of_nat (S k)) by lia.
    reflexivity.
Qed.

Lemma init64_list : forall now seed, seed <> 0 ->
  init p64 now seed = (seed mod 2 ^ 64) :: init_from p64 311 1 (seed mod 2 ^ 64).
Proof.
  intros now seed Z. unfold init. replace (seed =? 0) with false by lia.
  replace (N.to_nat (mt_n p64) - 1)%nat with 311%nat by (vm_compute; reflexivity). reflexivity.
Qed.

Lemma init_from_len : forall cnt j x, length (init_from p64 cnt j x) = cnt.
Proof. induction cnt as [|c IH]; intros j x; cbn [init_from length]; [reflexivity|]. rewrite IH. reflexivity. Qed.

Lemma init64_any : forall cnt x s, s = x :: init_from p64 cnt 1 x ->
  length s = S cnt /\ nth 0 s 0 = x /\
  forall i, (i < cnt)%nat ->
    nth (S i) s 0 = (6364136223846793005 * N.lxor (nth i s 0) (nth i s 0 / 2 ^ 30) + N.of_nat (S i)) mod 2 ^ 64.
Proof.
  intros cnt x s E. pose proof (fun i => init_from_nth cnt 1 x i) as H. cbn zeta in H. rewrite <- E in H.
  split; [rewrite E; cbn [length]; rewrite init_from_len; reflexivity|]. split; [rewrite E; reflexivity|].
  intros i I. replace (N.of_nat (S i)) with (1 + N.of_nat i) by lia. rewrite <- H by exact I. rewrite E at 1. reflexivity.
Qed.

Lemma init64_exact : forall now seed s, seed <> 0 -> s = init p64 now seed ->
  length s = 312%nat /\ nth 0 s 0 = seed mod 2 ^ 64 /\
  forall i, (S i < 312)%nat ->
    nth (S i) s 0 = (6364136223846793005 * N.lxor (nth i s 0) (nth i s 0 / 2 ^ 30) + N.of_nat (S i)) mod 2 ^ 64.
Proof.
  intros now seed s Z E. rewrite init64_list in E by exact Z.
  destruct (init64_any 311 _ s E) as (A & B & C).
  split; [exact A|]. split; [exact B|]. intros i I. apply C. lia.
Qed.

(** ** nextInt32(maxValue) and nextInt(maxValue) of bounds that are not negative *)

Lemma nextInt32_bound : forall draw b, (0 <= b)%Z -> (b + 1 < 2 ^ 31)%Z ->
  (exists v, nextInt32_max draw b = Ok v /\ (0 <= v <= b)%Z) /\
  (forall v, (0 <= v <= b)%Z -> exists d, d < 2 ^ 32 /\ nextInt32_max d b = Ok v).
Proof.
  intros draw b B L. unfold nextInt32_max.
  destruct (signed_in_range 32 draw 0 b) as [A C]; try (cbn; lia).
  rewrite Z.min_l, Z.max_r in A, C by exact B. split; assumption.
Qed.

Lemma nextInt_bound : forall draw b, (0 <= b < 2 ^ 63)%Z ->
  (exists v, nextInt_max draw b = Ok v /\ (0 <= v <= b)%Z) /\
  (forall v, (0 <= v <= b)%Z -> exists d, d < 2 ^ 64 /\ nextInt_max d b = Ok v).
Proof.
  intros draw b B. unfold nextInt_max. change (2 ^ 63)%Z with 9223372036854775808%Z in B.
  assert (b mod 2 ^ 64 = b)%Z as E by (apply Z.mod_small; lia). rewrite E.
  assert (forall x, x <= Z.to_N b -> to_signed 64 x = Z.of_N x) as S.
  { intros x X. unfold to_signed. change (2 ^ (64 - 1)) with 9223372036854775808.
    replace (x <? _) with true by lia. reflexivity. }
  destruct (unsigned_in_range 64 draw 0 (Z.to_N b)) as [(v & A & V) C];
    try (change (2 ^ 64) with 18446744073709551616; lia).
  split.
  - exists (Z.of_N v). rewrite A. cbn [rbind]. rewrite S by lia. split; [reflexivity|lia].
  - intros x X. destruct (C (Z.to_N x)) as (d & D & F); [lia|]. exists d. split; [exact D|].
    rewrite F. cbn [rbind]. rewrite S by lia. f_equal. lia.
Qed.
