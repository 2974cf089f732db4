(** Hashes of integral keys and of strings by pointer. *)
From Coq Require Import NArith ZArith List Bool Lia.
From Coq Require Import ZifyBool ZifyNat ZifyN.
From Verif Require Import Base BaseFacts HashModel HashSpec StrModel StrSpec StrFacts StrViews HashKeyModel.
Import ListNotations.
Open Scope N_scope.
Ltac Zify.zify_post_hook ::= Z.div_mod_to_equations.

Lemma integral_collide a b :
  integral_getHashCode a = integral_getHashCode b <-> exists q, (a - b = q * 2 ^ 32)%Z.
Proof.
  unfold integral_getHashCode. change (2 ^ 32)%Z with 4294967296%Z. split.
  - intros H. exists (a / 4294967296 - b / 4294967296)%Z. lia.
  - intros [q H]. f_equal. replace a with (b + q * 4294967296)%Z by lia. apply Z.mod_add. lia.
Qed.

Lemma integral_narrow lo a b : (lo <= a < lo + 2 ^ 32)%Z -> (lo <= b < lo + 2 ^ 32)%Z ->
  integral_getHashCode a = integral_getHashCode b -> a = b.
Proof.
  intros Ha Hb H. apply integral_collide in H. destruct H as [q H].
  change (2 ^ 32)%Z with 4294967296%Z in *. assert (q = 0 \/ q <= -1 \/ 1 <= q)%Z by lia. lia.
Qed.

Lemma integral_bound a : integral_getHashCode a < 2 ^ 32.
Proof. unfold integral_getHashCode. change (2 ^ 32)%Z with 4294967296%Z. change (2 ^ 32) with 4294967296. lia. Qed.

Lemma integral_long a : (- 2 ^ 63 <= a < 2 ^ 63)%Z ->
  exists b, (- 2 ^ 63 <= b < 2 ^ 63)%Z /\ b <> a /\ integral_getHashCode b = integral_getHashCode a.
Proof.
  change (2 ^ 63)%Z with 9223372036854775808%Z. intros H.
  assert (E : forall q, integral_getHashCode (a + q * 2 ^ 32) = integral_getHashCode a).
  { intros q. apply integral_collide. exists q. lia. }
  destruct (Z.ltb_spec a 0).
  - exists (a + 1 * 2 ^ 32)%Z. split; [|split; [|apply E]]; change (2 ^ 32)%Z with 4294967296%Z; lia.
  - exists (a + -1 * 2 ^ 32)%Z. split; [|split; [|apply E]]; change (2 ^ 32)%Z with 4294967296%Z; lia.
Qed.

Lemma filter_ok h : h < 2 ^ 32 ->
  hash_filter h <> 2 ^ 32 - 1 /\ (h <> 2 ^ 32 - 1 -> hash_filter h = h).
Proof.
  unfold hash_filter, kInvalidHash. change (2 ^ 32 - 1) with 4294967295. intros H.
  destruct (N.eqb_spec h 4294967295); cbn [negb]; split; try lia; auto.
Qed.

(** A string with a terminator. *)
Lemma same_hash ct f s e : 0 < csz ct -> is_string (csz ct) s -> ~ In 0 s -> s <> [] ->
  let m := Some (encode (csz ct) (s ++ [0]) ++ e) in
  let n := N.of_nat (length s) in
  cstr_getHashCode f ct m = str_getHashCode f ct m n
  /\ chars_getHashCode f ct m n = str_getHashCode f ct m n.
Proof.
  intros H S Z Hne m n. unfold cstr_getHashCode, chars_getHashCode, str_getHashCode, m, n.
  rewrite (StrLen_spec ct s e H S Z). cbn [rbind]. split; [reflexivity|].
  destruct s as [|x s]; [contradiction|].
  destruct (N.eqb_spec (N.of_nat (length (x :: s))) 0) as [H0|H0]; [cbn [length] in H0; lia|reflexivity].
Qed.

Lemma empty_hash ct f m : 0 < csz ct ->
  chars_getHashCode f ct (Some m) 0 = Ok 0
  /\ str_getHashCode f ct (Some m) 0 = Ok (match f with HashFunc_CRC32C => 4294967295 | _ => 0 end)
  /\ str_getHashCode f ct None 0 = Ok 0.
Proof.
  intros H. split; [reflexivity|]. split; [|reflexivity]. unfold str_getHashCode.
  replace (wmul 0 (csz ct)) with 0 by (unfold wmul; now rewrite N.mul_0_l).
  destruct f; unfold bytes_hash; vm_compute; reflexivity.
Qed.

Lemma empty_hash_differs :
  exists f m, chars_getHashCode f ct_char (Some m) 0 <> str_getHashCode f ct_char (Some m) 0
    /\ str_getHashCode f ct_char None 0 <> str_getHashCode f ct_char (Some m) 0
    /\ defined (str_getHashCode f ct_char (Some m) 0) <> None.
Proof.
  exists HashFunc_CRC32C, [0; 0; 0; 0; 0; 0; 0; 0].
  vm_compute. split; [discriminate|]. split; discriminate.
Qed.
