(** sha1.h: keys with the same hash. *)
From Coq Require Import Arith NArith ZArith List Bool Lia.
From Coq Require Import ZifyBool ZifyNat ZifyN.
From Verif Require Import Base HashModel HashSpec HashFacts FnvFacts FnvWitness
  Sha1Spec Sha1Model Sha1Data Sha1Msg2.
Import ListNotations.
Open Scope N_scope.

Lemma x86_key_correct : forall x64 data, is_bytes data -> N.of_nat (length data) < 2 ^ 63 ->
  sha1_x86_key x64 data 0 (N.of_nat (length data)) =
  Ok (let '(a, b, _, _, _) := compress_blocks (length (zero_pad 64 data) / 64) sha1_start
                                (zero_pad 64 data) in
      if x64 then N.lxor b a else a).
Proof. intros x64 data B H. apply (sha1_x86_correct x64 sha1_start data B H). Qed.

Lemma repeat_snoc : forall n, [0] ++ repeat 0 n = repeat (0 : N) (S n).
Proof. reflexivity. Qed.

Lemma zero_pad_snoc : forall n data, (0 < n)%nat -> (length data mod n <> 0)%nat ->
  zero_pad n (data ++ [0]) = zero_pad n data.
Proof.
  intros n data Hn H. unfold zero_pad. rewrite <- app_assoc, repeat_snoc. f_equal. f_equal.
  rewrite app_length. cbn [length].
  pose proof (Nat.div_mod (length data) n ltac:(lia)) as D.
  pose proof (Nat.mod_upper_bound (length data) n ltac:(lia)) as M.
  set (m := (length data mod n)%nat) in *. set (k := (length data / n)%nat) in *.
  rewrite (Nat.mod_small (n - m)) by lia.
  destruct (Nat.eq_dec (m + 1) n) as [E|E].
  - replace (length data + 1)%nat with (0 + (k + 1) * n)%nat by nia.
    rewrite Nat.mod_add by lia. rewrite (Nat.mod_small 0) by lia.
    rewrite Nat.sub_0_r, Nat.mod_same by lia. lia.
  - replace (length data + 1)%nat with (m + 1 + k * n)%nat by nia.
    rewrite Nat.mod_add by lia. rewrite (Nat.mod_small (m + 1)) by lia.
    rewrite Nat.mod_small by lia. lia.
Qed.

Lemma bytes_snoc : forall data, is_bytes data -> is_bytes (data ++ [0]).
Proof.
  intros data B. apply bytes_app. split; [exact B|]. constructor; [|constructor].
  vm_compute. reflexivity.
Qed.

Lemma x86_trailing_zero : forall x64 h data, is_bytes data -> N.of_nat (length data) + 1 < 2 ^ 63 ->
  (length data mod 64 <> 0)%nat ->
  sha1_x86 x64 h (data ++ [0]) 0 (N.of_nat (length data) + 1) =
  sha1_x86 x64 h data 0 (N.of_nat (length data)).
Proof.
  intros x64 h data B L H.
  assert (E : N.of_nat (length data) + 1 = N.of_nat (length (data ++ [0])))
    by (rewrite app_length; cbn [length]; lia).
  rewrite E. rewrite (sha1_x86_correct x64 h (data ++ [0]));
    [|apply bytes_snoc, B|rewrite <- E; exact L].
  rewrite (sha1_x86_correct x64 h data) by (auto; lia).
  rewrite zero_pad_snoc by (auto; lia). reflexivity.
Qed.

Lemma x86_length_collides : forall x64 h, exists data r, is_bytes data /\
  sha1_x86 x64 h data 0 (N.of_nat (length data)) = Ok r /\
  sha1_x86 x64 h (data ++ [0]) 0 (N.of_nat (length data) + 1) = Ok r.
Proof.
  intros x64 h. exists [97; 98; 99].
  assert (B : is_bytes [97; 98; 99]) by (apply (bytes_dec [97; 98; 99]); reflexivity).
  pose proof (sha1_x86_correct x64 h [97; 98; 99] B eq_refl) as E.
  eexists. split; [exact B|]. split; [exact E|]. rewrite <- E.
  apply (x86_trailing_zero x64 h [97; 98; 99] B eq_refl). discriminate.
Qed.

Lemma msg2_over_reads : forall x64, exists data, is_bytes data /\
  sha1_msg2 x64 data 0 (N.of_nat (length data)) = Err EUndef.
Proof.
  intros x64. exists [97; 98; 99]. split; [apply (bytes_dec [97; 98; 99]); reflexivity|].
  destruct x64; vm_compute; reflexivity.
Qed.

Lemma msg2_ignores_behind : forall x64 data e e', is_bytes data -> is_bytes e -> is_bytes e' ->
  (15 <= length e)%nat -> (15 <= length e')%nat ->
  sha1_msg2 x64 (data ++ e) 0 (N.of_nat (length data)) =
  sha1_msg2 x64 (data ++ e') 0 (N.of_nat (length data)) /\
  exists h, sha1_msg2 x64 (data ++ e) 0 (N.of_nat (length data)) = Ok h.
Proof.
  intros x64 data e e' B Be Be' L L'. destruct data as [|b t].
  { destruct x64; (split; [reflexivity|]); eexists; reflexivity. }
  assert (Ne : b :: t <> []) by discriminate.
  pose proof (round16_spec (length (b :: t))) as [R _].
  assert (Z : (length (zero_pad 16 (b :: t)) - length (b :: t) <= 15)%nat)
    by (rewrite pad16, app_length, repeat_length; lia).
  destruct (msg2_zero_pad x64 (b :: t) e B Be Ne ltac:(lia)) as [E1 X].
  destruct (msg2_zero_pad x64 (b :: t) e' B Be' Ne ltac:(lia)) as [E2 _].
  split; [rewrite E1, E2; reflexivity|exact X].
Qed.

Lemma msg2_defined_iff : forall x64 data e, is_bytes data -> is_bytes e -> data <> [] ->
  (exists h, sha1_msg2 x64 (data ++ e) 0 (N.of_nat (length data)) = Ok h) <->
  (exists k, length data <= 16 * k <= length (data ++ e))%nat.
Proof.
  intros x64 data e B Be Ne.
  assert (Lz : length (zero_pad 16 data) = round16 (length data)).
  { pose proof (round16_spec (length data)) as [R _].
    rewrite pad16, app_length, repeat_length. lia. }
  pose proof (round16_spec (length data)) as [R _].
  rewrite app_length. split.
  - intros [h Eh]. exists ((length data + 15) / 16)%nat.
    fold (round16 (length data)).
    destruct (Nat.lt_ge_cases (length e) (length (zero_pad 16 data) - length data)) as [C|C].
    + rewrite (msg2_over x64 data e Ne C) in Eh. discriminate.
    + lia.
  - intros [k [K1 K2]].
    apply (msg2_zero_pad x64 data e B Be Ne). rewrite Lz.
    enough (round16 (length data) <= 16 * k)%nat by lia.
    unfold round16. apply Nat.mul_le_mono_l.
    replace k with ((k * 16 + 15) / 16)%nat.
    + apply Nat.div_le_mono; lia.
    + rewrite Nat.add_comm, Nat.div_add by lia. reflexivity.
Qed.

Lemma msg2_trailing_zero : forall x64 data e, is_bytes data -> is_bytes e ->
  (length data mod 16 <> 0)%nat -> (15 <= length e)%nat ->
  sha1_msg2 x64 (data ++ [0] ++ e) 0 (N.of_nat (length data) + 1) =
  sha1_msg2 x64 (data ++ [0] ++ e) 0 (N.of_nat (length data)).
Proof.
  intros x64 data e B Be H L.
  assert (Ne : data <> []) by (intros ->; apply H; reflexivity).
  pose proof (round16_spec (length data)) as [R _].
  pose proof (round16_spec (length (data ++ [0]))) as [R' _].
  assert (E : N.of_nat (length data) + 1 = N.of_nat (length (data ++ [0])))
    by (rewrite app_length; cbn [length]; lia).
  rewrite E. rewrite app_assoc at 1.
  destruct (msg2_zero_pad x64 (data ++ [0]) e (bytes_snoc _ B) Be) as [E1 _].
  { destruct data; discriminate. }
  { rewrite pad16, app_length, repeat_length. lia. }
  rewrite E1.
  destruct (msg2_zero_pad x64 data ([0] ++ e) B) as [E2 _].
  { apply bytes_app. split; [apply (bytes_snoc [] (Forall_nil _))|exact Be]. }
  { exact Ne. }
  { rewrite pad16, app_length, repeat_length. cbn [app length]. lia. }
  rewrite E2. rewrite zero_pad_snoc by (auto; lia). reflexivity.
Qed.

Lemma msg2_collides : forall x64, exists pre a mid b post i j r,
  let data := pre ++ a :: mid ++ b :: post in
  let data' := pre ++ N.lxor a (2 ^ i) :: mid ++ N.lxor b (2 ^ j) :: post in
  is_bytes data /\ i < 8 /\ j < 8 /\
  sha1_msg2 x64 data 0 (N.of_nat (length data)) = Ok r /\
  sha1_msg2 x64 data' 0 (N.of_nat (length data')) = Ok r.
Proof.
  intros x64. exists [], 97, (repeat 97 35), 97, (repeat 97 27), 0, 1.
  destruct x64; eexists; cbv zeta;
    (split; [apply (bytes_dec ([] ++ 97 :: repeat 97 35 ++ 97 :: repeat 97 27)); reflexivity|]);
    (split; [reflexivity|]); (split; [reflexivity|]); split; vm_compute; reflexivity.
Qed.
