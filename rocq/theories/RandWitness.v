(** The sequences of the definition exist, and the statements of PropertiesRand.v. *)
From Coq Require Import NArith ZArith List Bool Lia.
From Coq Require Import ZifyBool ZifyNat ZifyN.
From Verif Require Import Base BaseFacts RandModel RandSpec RandFacts RandDraw.
Import ListNotations.
Open Scope N_scope.

(** ** The sequence of the definition, as a moving window of n terms *)

Fixpoint first_terms (T : twister) (cnt : nat) (i x : N) : list N :=
  match cnt with
  | O => []
  | S c => x :: first_terms T c (i + 1) ((tf T * N.lxor x (x / 2 ^ (tw T - 2)) + (i + 1)) mod 2 ^ tw T)
  end.

Definition slide (T : twister) (w : list N) : list N :=
  List.tl w ++ [N.lxor (nth (tm T) w 0) (twisted T (nth 0 w 0) (nth 1 w 0))].

Definition window (T : twister) (seed : N) (i : nat) : list N :=
  Nat.iter i (slide T) (first_terms T (tn T) 0 (seed mod 2 ^ tw T)).

Definition term (T : twister) (seed : N) (i : nat) : N := nth 0 (window T seed i) 0.

Lemma first_terms_length : forall T cnt i x, length (first_terms T cnt i x) = cnt.
Proof. induction cnt as [|c IH]; intros i x; cbn [first_terms length]; [reflexivity|]. rewrite IH. reflexivity. Qed.

Lemma slide_length : forall T w, (0 < length w)%nat -> length (slide T w) = length w.
Proof. intros T [|a w] H; cbn [length] in H; [lia|]. unfold slide. cbn [List.tl]. rewrite app_length. cbn [length]. lia. Qed.

Lemma window_length : forall T seed i, (0 < tn T)%nat -> length (window T seed i) = tn T.
Proof.
  intros T seed i H. unfold window. induction i as [|i IH]; cbn [Nat.iter nat_rect]; [apply first_terms_length|].
  change (length (slide T (Nat.iter i (slide T) (first_terms T (tn T) 0 (seed mod 2 ^ tw T)))) = tn T).
  rewrite slide_length; rewrite IH; [reflexivity|exact H].
Qed.

Lemma window_S : forall T seed i, window T seed (S i) = slide T (window T seed i).
Proof. reflexivity. Qed.

Lemma window_nth : forall T seed j i, (j < tn T)%nat -> nth j (window T seed i) 0 = term T seed (i + j).
Proof.
  intros T seed. induction j as [|j IH]; intros i H; [rewrite Nat.add_0_r; reflexivity|].
  replace (i + S j)%nat with (S i + j)%nat by lia. rewrite <- IH by lia. rewrite window_S. unfold slide.
  pose proof (window_length T seed i ltac:(lia)) as L. destruct (window T seed i) as [|a w]; cbn [length] in L; [lia|].
  cbn [List.tl nth]. rewrite app_nth1 by lia. reflexivity.
Qed.

Lemma term_recurrence : forall T seed, (1 < tn T)%nat -> (tm T < tn T)%nat -> recurrence T (term T seed).
Proof.
  intros T seed H M i. replace (i + tn T)%nat with (S i + (tn T - 1))%nat by lia.
  rewrite <- window_nth by lia. rewrite window_S. unfold slide.
  pose proof (window_length T seed i ltac:(lia)) as L.
  rewrite <- (window_nth T seed (tm T) i) by exact M.
  replace (term T seed (S i)) with (nth 1 (window T seed i) 0) by (rewrite window_nth by lia; f_equal; lia).
  destruct (window T seed i) as [|a w] eqn:E; cbn [length] in L; [lia|]. cbn [List.tl].
  rewrite app_nth2 by lia. replace (tn T - 1 - length w)%nat with 0%nat by lia.
  unfold term. rewrite E. reflexivity.
Qed.

Lemma first_terms_nth : forall T cnt i x k, (S k < cnt)%nat ->
  nth (S k) (first_terms T cnt i x) 0 =
  (tf T * N.lxor (nth k (first_terms T cnt i x) 0) (nth k (first_terms T cnt i x) 0 / 2 ^ (tw T - 2)) + (i + N.of_nat (S k)))
    mod 2 ^ tw T.
Proof.
  induction cnt as [|c IH]; intros i x k K; [lia|]. cbn [first_terms]. destruct k as [|k].
  - destruct c as [|c]; [lia|]. cbn [first_terms nth]. reflexivity.
  - cbn [nth]. rewrite IH by lia. replace (i + 1 + N.of_nat (S k)) with (i + N.of_nat (S (S k))) by lia. reflexivity.
Qed.

Lemma term_seeded : forall T seed, (1 < tn T)%nat -> seeded T seed (term T seed).
Proof.
  intros T seed H. split.
  - unfold term, window. cbn [Nat.iter nat_rect]. destruct (tn T); [lia|reflexivity].
  - intros i I. rewrite <- (Nat.add_0_l (S i)), <- (Nat.add_0_l i) at 1.
    rewrite <- !(window_nth T seed _ 0) by lia.
    replace (term T seed i) with (nth i (window T seed 0) 0) by (rewrite window_nth by lia; reflexivity).
    change (window T seed 0) with (first_terms T (tn T) 0 (seed mod 2 ^ tw T)).
    rewrite first_terms_nth by exact I. rewrite N.add_0_l. reflexivity.
Qed.

Lemma sequence_exists : forall seed,
  (exists x, seeded mt19937 seed x /\ recurrence mt19937 x) /\
  (exists x, seeded mt19937_64 seed x /\ recurrence mt19937_64 x).
Proof.
  intro seed. split; eexists; (split; [apply term_seeded|apply term_recurrence]); cbn [tn tm mt19937 mt19937_64]; lia.
Qed.

Lemma terms_lt : forall seed x, seeded mt19937 seed x -> recurrence mt19937 x -> forall i, x i < 2 ^ 32.
Proof.
  intros seed x [H0 H] R. apply (well_founded_induction lt_wf). intros i IH.
  destruct (Nat.lt_ge_cases i 624) as [L|L].
  - destruct i as [|i]; [rewrite H0; apply N.mod_lt; discriminate|].
    rewrite (H i) by exact L. apply N.mod_lt. discriminate.
  - pose proof (R (i - 624)%nat) as E. change (tn mt19937) with 624%nat in E. change (tm mt19937) with 397%nat in E.
    replace (i - 624 + 624)%nat with i in E by lia. rewrite E. apply lxor_lt; [apply IH; lia|].
    apply twisted_lt, IH. lia.
Qed.

(** ** C132 *)

Lemma rand_always_undefined : forall p, p = p32 \/ p = p64 -> forall libc now seed key,
  rand p libc (construct p now seed) = Err EUndef /\
  (forall g, construct_keys p now seed key = Ok g -> rand p libc g = Err EUndef) /\
  (forall g, srand p now seed g = Err EUndef) /\
  (forall g, srand_keys p now seed key g = Err EUndef).
Proof.
  intros p P libc now seed key. assert (fit p) as F by (destruct P as [-> | ->]; [apply fit32|apply fit64]).
  split; [apply rand_undefined; exact F|]. split; [intros g; apply rand_keys_undefined; exact F|].
  split; intro g; [apply srand_undefined|apply srand_keys_undefined]; exact F.
Qed.

Lemma rand_wrong : exists now seed libc x, seed <> 0 /\ seeded mt19937 seed x /\ recurrence mt19937 x /\
  ~ (exists g, rand p32 libc (construct p32 now seed) = Ok (g, tempered mt19937 (x 624%nat))).
Proof.
  destruct (sequence_exists 5489) as [(x & S & R) _]. exists 0, 5489, 0, x. split; [discriminate|].
  split; [exact S|]. split; [exact R|]. intros (g & E). rewrite rand_undefined in E by apply fit32. discriminate.
Qed.

Lemma first_words : forall now seed x, seed <> 0 -> seeded mt19937 seed x -> recurrence mt19937 x ->
  exists st, twist_loop p32 (mt_m p32) (N.to_nat (mt_n p32 - mt_m p32)) 0 (init p32 now seed) = Ok st /\
    forall i, (i < 227)%nat -> nth_error st i = Some (x (624 + i)%nat).
Proof.
  intros now seed x Z S R.
  destruct (loop1_words x 227 0 (init p32 now seed)) as (st & E & _ & H & _).
  - exact R.
  - apply (terms_lt seed); assumption.
  - lia.
  - pose proof (init_length p32 now seed ltac:(vm_compute; reflexivity)) as L. change (mt_n p32) with 624 in L. lia.
  - intros i I. lia.
  - intros i I. apply (init_seeded now seed x Z S). lia.
  - exists st. split; [|intros i I; apply H; exact I].
    change (N.of_nat 0) with 0 in E. change (mt_m p32) with 397.
    replace (N.to_nat (mt_n p32 - 397)) with 227%nat by (vm_compute; reflexivity). exact E.
Qed.

(** ** C133, C134 *)

Lemma init64_wrong : exists now seed x, seed <> 0 /\ seed < 2 ^ 64 /\ seeded mt19937_64 seed x /\
  nth_error (init p64 now seed) 1 <> Some (x 1%nat).
Proof.
  exists 0, (2 ^ 40), (term mt19937_64 (2 ^ 40)). split; [discriminate|]. split; [reflexivity|].
  assert (seeded mt19937_64 (2 ^ 40) (term mt19937_64 (2 ^ 40))) as S by (apply term_seeded; cbn [tn mt19937_64]; lia).
  split; [exact S|]. destruct S as [S0 S]. rewrite (S 0%nat) by (cbn [tn mt19937_64]; lia). rewrite S0.
  vm_compute. discriminate.
Qed.

Lemma twist64_wrong : exists u v, u < 2 ^ 64 /\ v < 2 ^ 64 /\ twist p64 u v <> twisted mt19937_64 u v.
Proof. exists (2 ^ 40), 0. split; [reflexivity|]. split; [reflexivity|]. vm_compute. discriminate. Qed.

Lemma twist64_exact : forall u v, u < 2 ^ 64 ->
  twist p64 u v = twisted (Twister 64 312 156 63 0xB5026F5AA96619E9 29 0x5555555555555555 17 0x71D67FFFEDA60000 37
                                   0xFFF7EEE000000000 43 6364136223846793005) u v.
Proof.
  intros u v U. unfold twist, twisted, joined. cbn [tr ta]. rewrite (mix_joined p64 63) by (reflexivity || exact U).
  rewrite odd_joined by lia. rewrite N.shiftr_div_pow2. change (2 ^ 1) with 2.
  destruct (N.land v 1 =? 0); reflexivity.
Qed.

(** ** C135 *)

Lemma temper_both : forall p T, (p = p32 /\ T = mt19937) \/ (p = p64 /\ T = mt19937_64) ->
  (forall y, temper p y = tempered T y) /\
  (forall y, y < 2 ^ tw T -> temper p y < 2 ^ tw T) /\
  (forall v, v < 2 ^ tw T -> exists y, y < 2 ^ tw T /\ temper p y = v /\
     forall z, z < 2 ^ tw T -> temper p z = v -> z = y).
Proof.
  intros p T P.
  assert (tw T = mt_w p) as W by (destruct P as [[-> ->]|[-> ->]]; reflexivity).
  assert (shifts p) as S by (destruct P as [[-> ->]|[-> ->]]; repeat split; vm_compute; reflexivity).
  rewrite W. split; [|split].
  - intro y. destruct P as [[-> ->]|[-> ->]]; apply temper_tempered.
  - intros y Y. apply temper_lt. exact Y.
  - intros v V. destruct (temper_bijective p S v V) as (y & Y & E). exists y. split; [exact Y|]. split; [exact E|].
    intros z Z E2. apply (temper_inj p); auto. congruence.
Qed.

(** ** C136 *)

Lemma keys_ok : forall p T, (p = p32 /\ T = mt19937) \/ (p = p64 /\ T = mt19937_64) ->
  forall now seed key, key <> [] -> exists st, construct_keys p now seed key = Ok (Gen None 1 st) /\
    length st = tn T /\ Forall (fun x => x < 2 ^ tw T) st /\ nth_error st 0 = Some (2 ^ (tw T - 1)).
Proof.
  intros p T P now seed key K.
  assert (fit p) as F by (destruct P as [[-> _]|[-> _]]; [apply fit32|apply fit64]).
  destruct F as (N & M & B & _).
  destruct (init_keys_ok p key (init p now seed)) as (st & E & [L W] & H); auto; [apply init_words; lia|].
  exists st. unfold construct_keys. rewrite E. cbn [rbind]. split; [reflexivity|].
  destruct P as [[-> ->]|[-> ->]]; (split; [|split; [exact W|exact H]]);
    [change (mt_n p32) with 624 in L; change (tn mt19937) with 624%nat
    |change (mt_n p64) with 312 in L; change (tn mt19937_64) with 312%nat]; lia.
Qed.

Lemma keys_wrong : exists now seed, construct_keys p32 now seed [] = Err EUndef /\ construct_keys p64 now seed [] = Err EUndef.
Proof.
  exists 0, 19650218. unfold construct_keys. split; change (N.of_nat (length (@nil N))) with 0; rewrite init_keys_empty;
    first [reflexivity | apply init_words; vm_compute; reflexivity | vm_compute; reflexivity].
Qed.

(** ** C137 *)

Lemma integers_wrong : exists d a b c e,
  ((- 2 ^ 31 <= a < 2 ^ 31)%Z /\ (- 2 ^ 31 <= b < 2 ^ 31)%Z /\ (a <= b)%Z /\ next_signed 32 d a b = Err EUndef) /\
  (c < 2 ^ 64 /\ e < 2 ^ 64 /\ next_unsigned 64 d c e = Err EUndef).
Proof.
  exists 7, 0%Z, 2147483647%Z, 0, (2 ^ 64 - 1). repeat split; vm_compute; congruence.
Qed.

Lemma nextInt_wrong : exists d1 d2 b v, (- 2 ^ 63 <= b < 0)%Z /\ d1 < 2 ^ 64 /\ d2 < 2 ^ 64 /\
  nextInt_max d1 b = Ok v /\ ~ (b <= v <= 0)%Z /\
  (exists u, nextInt32_max d1 b = Ok u /\ (b <= u <= 0)%Z) /\
  nextInt_max d2 (-1) = Err EUndef.
Proof.
  exists 10, 10, (-5)%Z, 10%Z. split; [lia|]. split; [reflexivity|]. split; [reflexivity|].
  split; [vm_compute; reflexivity|]. split; [lia|]. split; [|vm_compute; reflexivity].
  eexists. split; [vm_compute; reflexivity|]. lia.
Qed.
