(** itoa of a signed 64-bit number. *)
From Coq Require Import NArith ZArith List Bool Lia.
From Coq Require Import ZifyBool ZifyNat ZifyN.
From Verif Require Import Base FormatModel FormatSpec FormatFacts FormatWitness.
Import ListNotations.
Open Scope N_scope.

Lemma itoa_i64_exact : forall str z s, (- 2 ^ 63 < z < 2 ^ 63)%Z -> numeral s (Z.abs_N z) ->
  let sign := if (z <? 0)%Z then [45] else [] in
  (length s = 1%nat -> itoa_i64 1 str z = Err EUndef) /\
  ((2 <= length s)%nat -> itoa_i64 1 str z =
     Ok (str ++ sign ++ firstn (length s - 2) s, N.of_nat (length sign + (length s - 2)))).
Proof.
  intros str z s H N0. cbv zeta. change (2 ^ 63)%Z with 9223372036854775808%Z in H.
  assert (B : Z.abs_N z < 2 ^ 64) by (change (2 ^ 64) with 18446744073709551616; lia).
  unfold itoa_i64. destruct (Z.leb_spec 0 z) as [G|G].
  - replace (z <? 0)%Z with false by lia. replace (Z.to_N z) with (Z.abs_N z) by lia.
    destruct (itoa64_exact str _ s B N0) as (A1 & A2 & _). split; intros L; [now apply A1|]. now rewrite A2.
  - replace (z <? 0)%Z with true by lia.
    rewrite negated_ok by (change (- 2 ^ (64 - 1))%Z with (-9223372036854775808)%Z; lia). cbn [rbind].
    replace (Z.to_N (- z)) with (Z.abs_N z) by lia.
    destruct (itoa64_exact (str ++ [45]) _ s B N0) as (A1 & A2 & _). split; intros L.
    + destruct (A1 L) as [-> _]. reflexivity.
    + rewrite A2 by exact L. cbn [rbind]. apply numeral_decimal in N0. pose proof (digits_u64 _ B) as D.
      rewrite <- N0 in D. rewrite wadd_small by (change (2 ^ 64) with 18446744073709551616; lia).
      rewrite <- app_assoc. cbn [app length]. do 2 f_equal. lia.
Qed.

Lemma itoa_i64_least : forall str, itoa_i64 1 str (- 2 ^ 63) = Err EUndef.
Proof. reflexivity. Qed.

(** -1234567890123 is appended as -12345678901. *)
Lemma itoa_i64_wrong : exists z s t n, (- 2 ^ 63 < z < 2 ^ 63)%Z /\ numeralZ s z /\ itoa_i64 1 [] z = Ok (t, n)
  /\ t <> s /\ n <> N.of_nat (length s).
Proof.
  exists (-1234567890123)%Z, (45 :: decimal 1234567890123), (45 :: decimal 12345678901), 12.
  split; [lia|]. split.
  - split; [lia|]. intros _. exists (decimal 1234567890123). split; [reflexivity|]. apply decimal_numeral.
  - split; [vm_compute; reflexivity|]. split; vm_compute; discriminate.
Qed.

(** ** Booleans, addresses and other arguments *)

Lemma count_bool : forall (b : bool) s, numeral s (if b then 1 else 0) -> count_digits_bool 0 b = Z.of_nat (length s).
Proof. intros b s H. apply numeral_decimal in H. subst s. destruct b; reflexivity. Qed.

Lemma count_bool_delta : exists delta (b : bool) s, numeral s (if b then 1 else 0)
  /\ count_digits_bool delta b <> (Z.of_nat (length s) - delta)%Z.
Proof. exists 1%Z, true, (decimal 1). split; [apply decimal_numeral|]. vm_compute. discriminate. Qed.

Lemma count_ptr : forall delta u s, u < 2 ^ 64 -> numeral s u ->
  count_digits_ptr delta u = Ok (Z.of_nat (length s) + 2 - delta)%Z.
Proof.
  intros delta u s H N0. unfold count_digits_ptr. destruct (count_unsigned delta u s N0) as (_ & _ & A & _).
  rewrite (A H). cbn [rbind]. f_equal. lia.
Qed.

Lemma itoa_any_text : forall str, exists t, itoa_any str = (str ++ t, N.of_nat (length t)) /\ t <> []
  /\ forall c, In c t -> c = 63.
Proof.
  intros str. exists (repeat 63 8). split; [reflexivity|]. split; [discriminate|].
  intros c H. now apply repeat_spec in H.
Qed.
