(** The CRC32 functions of hash_crc32.h. *)
From Coq Require Import Arith NArith ZArith List Bool Lia.
From Coq Require Import ZifyBool ZifyNat ZifyN.
From Verif Require Import Base BitsModel Crc32Model HashModel HashSpec HashFacts HashData
  HashData2.
Import ListNotations.
Open Scope N_scope.

Lemma crc_bit_spec : forall c, crc_bit c = crc32c_bit c.
Proof.
  intros c. unfold crc_bit, crc32c_bit. rewrite N.bit0_odd, N.div2_div. reflexivity.
Qed.

Lemma crc_bits_iter : forall n c, crc_bits n c = Nat.iter n crc32c_bit c.
Proof.
  assert (H : forall n c, Nat.iter n crc32c_bit (crc32c_bit c) =
                          crc32c_bit (Nat.iter n crc32c_bit c)).
  { induction n as [|n IH]; intros c; [reflexivity|].
    change (crc32c_bit (Nat.iter n crc32c_bit (crc32c_bit c)) =
            crc32c_bit (crc32c_bit (Nat.iter n crc32c_bit c))).
    rewrite IH. reflexivity. }
  induction n as [|n IH]; intros c; cbn [crc_bits]; [reflexivity|].
  rewrite IH, crc_bit_spec. apply H.
Qed.

Lemma crc_bytes_spec : forall w c, is_bytes w ->
  crc_bytes (length w) c (le w) = fold_left crc32c_byte w c.
Proof.
  induction w as [|b w IH]; intros c H; [reflexivity|].
  inversion H as [|? ? Hb Hw]; subst. unfold is_byte in Hb.
  cbn [length crc_bytes le fold_left].
  replace (b + 256 * le w) with (b + le w * 256) by lia.
  rewrite N.mod_add, N.div_add, N.mod_small, N.div_small, N.add_0_l by lia.
  rewrite crc_bits_iter. apply IH. exact Hw.
Qed.

Lemma crc32c_bit_lt : forall c, c < 2 ^ 32 -> crc32c_bit c < 2 ^ 32.
Proof.
  intros c H. unfold crc32c_bit.
  assert (D : c / 2 < 2 ^ 32) by (apply N.div_lt_upper_bound; lia).
  destruct (N.testbit c 0); [|exact D].
  apply lxor_lt; [exact D|vm_compute; reflexivity].
Qed.

Lemma crc32c_byte_lt : forall c b, c < 2 ^ 32 -> is_byte b -> crc32c_byte c b < 2 ^ 32.
Proof.
  intros c b Hc Hb. unfold crc32c_byte.
  cbn [Nat.iter nat_rect]. repeat apply crc32c_bit_lt.
  apply lxor_lt; [exact Hc|apply byte_lt32; exact Hb].
Qed.

Lemma crc32c_fold_lt : forall w c, is_bytes w -> c < 2 ^ 32 ->
  fold_left crc32c_byte w c < 2 ^ 32.
Proof.
  intros w c H. revert c. induction H as [|b w Hb H IH]; intros c Hc; cbn [fold_left];
    [exact Hc|]. apply IH, crc32c_byte_lt; assumption.
Qed.

(** The step of the word loops. *)
Definition crc_word (n : nat) (c v : N) : N :=
  if (n =? 4)%nat then crc32_u32 c v else crc32_u64 c v.

Definition crc_start (n : nat) : N := if (n =? 4)%nat then two32 - 1 else two64 - 1.

Lemma crc_word_spec : forall n c w, n = 4%nat \/ n = 8%nat -> length w = n -> is_bytes w ->
  (n = 4%nat -> c < 2 ^ 32) ->
  crc_word n c (le w) = fold_left crc32c_byte w (w32 c).
Proof.
  intros n c w [-> | ->] Hl Hw Hc; unfold crc_word; cbn [Nat.eqb].
  - unfold crc32_u32. rewrite w32_small by auto. rewrite <- Hl. apply crc_bytes_spec, Hw.
  - unfold crc32_u64. rewrite <- Hl. apply crc_bytes_spec, Hw.
Qed.

Lemma crc_start_ok : forall n, n = 4%nat \/ n = 8%nat ->
  w32 (crc_start n) = 2 ^ 32 - 1 /\ (n = 4%nat -> crc_start n < 2 ^ 32).
Proof. intros n [-> | ->]; split; try reflexivity; try discriminate. Qed.

Lemma crc_fold : forall n cs c, n = 4%nat \/ n = 8%nat ->
  Forall (fun w => length w = n) cs -> is_bytes (concat cs) ->
  (n = 4%nat -> c < 2 ^ 32) ->
  w32 (fold_left (fun c w => crc_word n c (le w)) cs c) =
  fold_left crc32c_byte (concat cs) (w32 c) /\
  (n = 4%nat -> fold_left (fun c w => crc_word n c (le w)) cs c < 2 ^ 32).
Proof.
  intros n cs c Hn F. revert c. induction F as [|w cs Hw F IH]; intros c B Hc;
    cbn [fold_left concat].
  - split; [reflexivity|exact Hc].
  - cbn [concat] in B. apply bytes_app in B. destruct B as [Bw B].
    rewrite crc_word_spec by auto.
    assert (L : fold_left crc32c_byte w (w32 c) < 2 ^ 32)
      by (apply crc32c_fold_lt; [exact Bw|apply w32_lt]).
    destruct (IH (fold_left crc32c_byte w (w32 c)) B ltac:(auto)) as [E1 E2].
    rewrite E1, fold_left_app, (w32_small _ L). split; [reflexivity|exact E2].
Qed.

Lemma crc_simple_correct : forall n data, n = 4%nat \/ n = 8%nat -> is_bytes data ->
  intel_crc32_simple n data 0 (lenN data) = Ok (crc32c data).
Proof.
  intros n data Hn H. unfold intel_crc32_simple.
  assert (Hp : (0 < n)%nat) by lia.
  destruct (chunks_exist n data Hp) as (cs & tail & E & F & T).
  assert (Lim : lenN data / N.of_nat n * N.of_nat n = lenN (concat cs)).
  { rewrite E at 1. rewrite app_length, (concat_length n) by exact F.
    replace (N.of_nat (n * length cs + length tail))
      with (lenN tail + lenN cs * N.of_nat n) by lia.
    rewrite N.div_add, N.div_small by lia. lia. }
  rewrite Lim.
  change (if (n =? 4)%nat then two32 - 1 else two64 - 1) with (crc_start n).
  change (0, crc_start n) with (lenN (@nil N), crc_start n).
  pose proof H as H'. rewrite E in H'. apply bytes_app in H'. destruct H' as [Hc Ht].
  destruct (crc_start_ok n Hn) as [S1 S2].
  destruct (crc_fold n cs (crc_start n) Hn F Hc S2) as [E1 _].
  rewrite (while_chunks N (fun c w => crc_word n c (le w)) _ _ n (lenN (concat cs)) data)
    with (cs := cs) (post := tail); [|exact Hp| | | |exact E|exact F|cbn [length]; lia| ].
  - cbn [rbind fst snd].
    rewrite (while_bytes N crc32_u8 _ _ (lenN data) data)
      with (l := tail) (pre := concat cs) (post := []).
    + cbn [rbind snd]. f_equal. unfold crc32c, crc32c_reg.
      rewrite E1, S1.
      replace (fold_left crc32_u8 tail (fold_left crc32c_byte (concat cs) (2 ^ 32 - 1)))
        with (fold_left crc32c_byte data (2 ^ 32 - 1)).
      * reflexivity.
      * rewrite E, fold_left_app.
        generalize (fold_left crc32c_byte (concat cs) (2 ^ 32 - 1)).
        clear - Ht. induction Ht as [|b t Hb Ht IH]; intros s; cbn [fold_left]; [reflexivity|].
        unfold crc32_u8 at 2.
        rewrite <- (le_one b) at 2. change 1%nat with (length [b]).
        rewrite crc_bytes_spec by (constructor; [exact Hb|constructor]).
        cbn [fold_left]. apply IH.
    + intros pre c post h E'. cbn [fst snd].
      rewrite (ld0' data _ pre [c] post 1) by (auto; lia).
      cbn [rbind]. rewrite le_one. reflexivity.
    + intros. cbn [fst]. lia.
    + intros. cbn [fst]. lia.
    + rewrite app_nil_r. exact E.
    + rewrite E at 1. rewrite app_length. lia.
    + rewrite E, app_length. lia.
  - intros pre w post h E' Hw. cbn [fst snd].
    rewrite (ld0' data _ pre w post n) by (auto; lia).
    reflexivity.
  - intros. cbn [fst]. lia.
  - intros. cbn [fst]. lia.
  - rewrite E, app_length, (concat_length n) by exact F. nia.
Qed.

(** ** The last, masked word *)
Lemma mask_tail : forall n tail ex,
  is_bytes tail -> (length tail + length ex = n)%nat ->
  N.land (le (tail ++ ex))
    (N.shiftr (2 ^ (8 * N.of_nat n) - 1) ((N.of_nat n - lenN tail) * 8)) = le tail.
Proof.
  intros n tail ex Ht Hn.
  replace (2 ^ (8 * N.of_nat n) - 1) with (N.ones (8 * N.of_nat n))
    by (rewrite N.ones_equiv; lia).
  assert (S : N.shiftr (N.ones (8 * N.of_nat n)) ((N.of_nat n - lenN tail) * 8) =
              N.ones (8 * lenN tail)).
  { apply N.bits_inj. intro i. rewrite N.shiftr_spec by lia.
    destruct (N.lt_ge_cases i (8 * lenN tail)) as [Hi|Hi].
    - rewrite !N.ones_spec_low by lia. reflexivity.
    - rewrite !N.ones_spec_high by lia. reflexivity. }
  rewrite S, N.land_ones, le_app.
  rewrite N.mul_comm, N.mod_add by (apply N.pow_nonzero; lia).
  apply N.mod_small. apply le_lt. exact Ht.
Qed.

(** [ld] of the word that starts with the last bytes of the data. *)
Lemma ld_tail : forall n pre tail extra, (length tail <= n)%nat ->
  ld n ((pre ++ tail) ++ extra) (lenN pre) =
  if (n - length tail <=? length extra)%nat
  then Ok (le (tail ++ firstn (n - length tail) extra))
  else Err EUndef.
Proof.
  intros n pre tail extra Hn.
  destruct (Nat.leb_spec (n - length tail) (length extra)) as [H|H].
  - rewrite <- app_assoc.
    rewrite <- (firstn_skipn (n - length tail) extra) at 1.
    rewrite (app_assoc tail). apply ld0.
    rewrite app_length, firstn_length. lia.
  - apply ld_out. rewrite !app_length. lia.
Qed.

Lemma ld0_ext : forall data extra pre w post n i, data = pre ++ w ++ post ->
  length w = n -> i = lenN pre -> ld n (data ++ extra) i = Ok (le w).
Proof.
  intros data extra pre w post n i E Hn ->. subst data.
  replace ((pre ++ w ++ post) ++ extra) with (pre ++ w ++ (post ++ extra))
    by (rewrite <- !app_assoc; reflexivity).
  apply ld0. exact Hn.
Qed.

Lemma tail_mod : forall n (data : list N) cs tail, data = concat cs ++ tail ->
  Forall (fun c => length c = n) cs -> (length tail < n)%nat ->
  (length data mod n = length tail)%nat.
Proof.
  intros n data cs tail E F T.
  rewrite E, app_length, (concat_length n) by exact F.
  replace (n * length cs + length tail)%nat with (length tail + length cs * n)%nat by lia.
  rewrite Nat.mod_add by lia. apply Nat.mod_small. exact T.
Qed.

Lemma crc_correct : forall n data extra, n = 4%nat \/ n = 8%nat -> is_bytes data ->
  intel_crc32 n (data ++ extra) 0 (lenN data) =
  if ((n - length data mod n) mod n <=? length extra)%nat
  then Ok (crc32c_reg (zero_pad n data))
  else Err EUndef.
Proof.
  intros n data extra Hn H. unfold intel_crc32.
  assert (Hp : (0 < n)%nat) by lia.
  destruct (chunks_exist n data Hp) as (cs & tail & E & F & T).
  pose proof (tail_mod n data cs tail E F T) as Hmod. unfold zero_pad. rewrite Hmod.
  change (if (n =? 4)%nat then two32 - 1 else two64 - 1) with (crc_start n).
  change (0, crc_start n) with (lenN (@nil N), crc_start n).
  pose proof H as H'. rewrite E in H'. apply bytes_app in H'. destruct H' as [Hc Ht].
  destruct (crc_start_ok n Hn) as [S1 S2].
  destruct (crc_fold n cs (crc_start n) Hn F Hc S2) as [E1 E2].
  assert (L : lenN data = lenN (concat cs) + lenN tail) by (rewrite E at 1; rewrite app_length; lia).
  rewrite (while_chunks N (fun c w => crc_word n c (le w)) _ _ n (lenN (concat cs)) data)
    with (cs := cs) (post := tail); [|exact Hp| | | |exact E|exact F|cbn [length]; lia| ].
  - cbn [rbind fst snd].
    replace (lenN data - lenN (concat cs)) with (lenN tail) by lia.
    destruct (Nat.eq_dec (length tail) 0) as [Z|Z].
    + destruct tail; [|discriminate]. change (0 <? lenN []) with false. cbn [rbind]. rewrite E1, S1.
      cbn [length]. rewrite Nat.sub_0_r, Nat.mod_same by lia.
      cbn [Nat.leb repeat]. rewrite app_nil_r. unfold crc32c_reg.
      rewrite E, app_nil_r. reflexivity.
    + replace (0 <? lenN tail) with true by lia.
      rewrite (Nat.mod_small (n - length tail)) by lia.
      rewrite E at 1. rewrite N.add_0_l, ld_tail by lia.
      destruct (Nat.leb_spec (n - length tail) (length extra)) as [Hx|Hx]; [|reflexivity].
      cbn [rbind]. f_equal.
      fold (crc_word n (fold_left (fun c w => crc_word n c (le w)) cs (crc_start n))
             (N.land (le (tail ++ firstn (n - length tail) extra))
               (N.shiftr (2 ^ (8 * N.of_nat n) - 1) ((N.of_nat n - lenN tail) * 8)))).
      rewrite mask_tail by (auto; rewrite firstn_length; lia).
      rewrite <- (le_zeros tail (n - length tail)).
      assert (Bz : is_bytes (tail ++ repeat 0 (n - length tail))).
      { apply bytes_app. split; [exact Ht|]. apply Forall_forall. intros x Hx'.
        apply repeat_spec in Hx'. subst. unfold is_byte. lia. }
      rewrite crc_word_spec;
        [|exact Hn|rewrite app_length, repeat_length; lia|exact Bz|exact E2].
      rewrite E1, S1. unfold crc32c_reg.
      rewrite <- fold_left_app.
      replace (concat cs ++ tail ++ repeat 0 (n - length tail))
        with (data ++ repeat 0 (n - length tail)) by (rewrite E, <- app_assoc; reflexivity).
      apply w32_small, crc32c_fold_lt; [|vm_compute; reflexivity].
      apply bytes_app. split; [exact H|]. apply bytes_app in Bz. apply Bz.
  - intros pre w post h E' Hw. cbn [fst snd].
    rewrite (ld0_ext data extra pre w post n) by (auto; lia).
    reflexivity.
  - intros. cbn [fst]. lia.
  - intros. cbn [fst]. lia.
  - rewrite E, app_length, (concat_length n) by exact F. nia.
Qed.
