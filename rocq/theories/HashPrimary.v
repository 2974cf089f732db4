(** primaryHash_aligned. *)
From Coq Require Import Arith NArith ZArith List Bool Lia.
From Coq Require Import ZifyBool ZifyNat ZifyN.
From Verif Require Import Base BitsModel Crc32Model HashModel HashSpec HashFacts HashData
  HashData2 HashCrc.
Import ListNotations.
Open Scope N_scope.

Definition pm (n : nat) : N := N.land 4141704638370195347 (2 ^ (8 * N.of_nat n) - 1).
Definition pstart (n : nat) (len seed : N) : N :=
  N.lxor (seed mod 2 ^ (8 * N.of_nat n))
         ((pm n * (len mod 2 ^ (8 * N.of_nat n))) mod 2 ^ (8 * N.of_nat n)).
Definition pmix (n : nat) (h val : N) : N :=
  let x := (((h + val) mod 2 ^ (8 * N.of_nat n)) * pm n) mod 2 ^ (8 * N.of_nat n) in
  N.lxor x (N.shiftr x (8 * N.of_nat n / 2)).

Definition opt_tail (tail : list N) : list (list N) :=
  match tail with [] => [] | _ => [tail] end.

Lemma primary_form : forall n k data extra cs tail seed,
  (0 < n)%nat -> k < 64 -> N.of_nat n = 2 ^ k -> lenN data < 2 ^ 64 -> is_bytes data ->
  data = concat cs ++ tail -> Forall (fun c => length c = n) cs -> (length tail < n)%nat ->
  primaryHash_aligned n (data ++ extra) 0 (lenN data) seed =
  if ((n - length data mod n) mod n <=? length extra)%nat
  then Ok (fold_left (fun h w => pmix n h (le w)) (cs ++ opt_tail tail)
             (pstart n (lenN data) seed))
  else Err EUndef.
Proof.
  intros n k data extra cs tail seed Hp Hk Hn Ld H E F T.
  unfold primaryHash_aligned, primary_value.
  pose proof (tail_mod n data cs tail E F T) as Hmod. rewrite Hmod.
  replace (wsub (two64 - 1) (N.of_nat n - 1)) with (wsub (two64 - 1) (2 ^ k - 1))
    by (rewrite Hn; reflexivity).
  rewrite (align_limit k n data cs tail) by auto.
  fold (pm n). fold (pstart n (lenN data) seed).
  change (0, pstart n (lenN data) seed) with (lenN (@nil N), pstart n (lenN data) seed).
  pose proof H as H'. rewrite E in H'. apply bytes_app in H'. destruct H' as [Hc Ht].
  assert (L : lenN data = lenN (concat cs) + lenN tail)
    by (rewrite E at 1; rewrite app_length; lia).
  rewrite (while_chunks N (fun h w => pmix n h (le w)) _ _ n (lenN (concat cs)) data)
    with (cs := cs) (post := tail); [|exact Hp| | | |exact E|exact F|cbn [length]; lia| ].
  - cbn [rbind fst snd].
    replace (lenN data - lenN (concat cs)) with (lenN tail) by lia.
    destruct (Nat.eq_dec (length tail) 0) as [Z|Z].
    + destruct tail; [|discriminate]. change (lenN [] =? 0) with true.
      cbn [length opt_tail]. rewrite Nat.sub_0_r, Nat.mod_same by lia.
      cbn [Nat.leb]. rewrite app_nil_r. reflexivity.
    + replace (lenN tail =? 0) with false by lia.
      rewrite (Nat.mod_small (n - length tail)) by lia.
      rewrite E at 1. rewrite N.add_0_l, ld_tail by lia.
      destruct (Nat.leb_spec (n - length tail) (length extra)) as [Hx|Hx]; [|reflexivity].
      cbn [rbind].
      rewrite mask_tail by (auto; rewrite firstn_length; lia).
      rewrite fold_left_app. destruct tail; [cbn in Z; lia|]. reflexivity.
  - intros pre w post h E' Hw. cbn [fst snd].
    rewrite (ld0_ext data extra pre w post n) by (auto; lia).
    reflexivity.
  - intros. cbn [fst]. lia.
  - intros. cbn [fst]. lia.
  - rewrite E, app_length, (concat_length n) by exact F. nia.
Qed.

(** What lies behind the data is read when its length is not a multiple of the word, and
    has no influence. *)
Lemma primary_correct : forall n data extra seed, n = 4%nat \/ n = 8%nat ->
  is_bytes data -> lenN data < 2 ^ 64 ->
  primaryHash_aligned n (data ++ extra) 0 (lenN data) seed =
  if ((n - length data mod n) mod n <=? length extra)%nat
  then primaryHash_aligned n (zero_pad n data) 0 (lenN data) seed
  else Err EUndef.
Proof.
  intros n data extra seed Hn H L.
  assert (Hk : exists k, k < 64 /\ N.of_nat n = 2 ^ k)
    by (destruct Hn as [-> | ->]; [exists 2 | exists 3]; split; (lia || reflexivity)).
  destruct Hk as (k & Hk & Hnk).
  assert (Hp : (0 < n)%nat) by lia.
  destruct (chunks_exist n data Hp) as (cs & tail & E & F & T).
  rewrite (primary_form n k data extra cs tail) by auto.
  unfold zero_pad.
  rewrite (primary_form n k data (repeat 0 _) cs tail) by auto.
  rewrite repeat_length, Nat.leb_refl. reflexivity.
Qed.

Lemma primary_ok : forall n data seed, n = 4%nat \/ n = 8%nat ->
  is_bytes data -> lenN data < 2 ^ 64 ->
  exists h, primaryHash_aligned n (zero_pad n data) 0 (lenN data) seed = Ok h.
Proof.
  intros n data seed Hn H L.
  assert (Hk : exists k, k < 64 /\ N.of_nat n = 2 ^ k)
    by (destruct Hn as [-> | ->]; [exists 2 | exists 3]; split; (lia || reflexivity)).
  destruct Hk as (k & Hk & Hnk).
  assert (Hp : (0 < n)%nat) by lia.
  destruct (chunks_exist n data Hp) as (cs & tail & E & F & T).
  unfold zero_pad.
  rewrite (primary_form n k data (repeat 0 _) cs tail) by auto.
  rewrite repeat_length, Nat.leb_refl. eexists; reflexivity.
Qed.
