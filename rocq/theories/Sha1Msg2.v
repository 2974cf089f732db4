(** sha1.h: sha1_msg2. *)
From Coq Require Import Arith NArith ZArith List Bool Lia.
From Coq Require Import ZifyBool ZifyNat ZifyN.
From Verif Require Import Base HashModel HashSpec HashFacts HashData HashData2 HashCrc HashSens
  HashSens2 FnvFacts FnvWitness Sha1Spec Sha1Model Sha1Facts Sha1Data.
Import ListNotations.
Open Scope N_scope.

Definition mask_of (x64 : bool) : N -> N := if x64 then mask_x64 else mask_x86.

Lemma mask_ones : forall x64 rest, rest < 16 ->
  mask_of x64 rest = N.ones (8 * (16 - rest)).
Proof.
  intros x64 rest H.
  assert (C : forallb (fun n => (mask_x64 (N.of_nat n) =? N.ones (8 * (16 - N.of_nat n))) &&
                                (mask_x86 (N.of_nat n) =? N.ones (8 * (16 - N.of_nat n))))
                (seq 0 16) = true) by (vm_compute; reflexivity).
  rewrite forallb_forall in C. specialize (C (N.to_nat rest)). rewrite N2Nat.id in C.
  specialize (C ltac:(apply in_seq; lia)). apply andb_true_iff in C.
  destruct C as [C1 C2]. apply N.eqb_eq in C1, C2. destruct x64; assumption.
Qed.

Lemma land_mask : forall x64 rest w, rest < 16 -> is_bytes w -> length w = 16%nat ->
  N.land (le w) (mask_of x64 rest) = le (firstn (16 - N.to_nat rest) w).
Proof.
  intros x64 rest w H B E. rewrite mask_ones by exact H. rewrite N.land_ones.
  rewrite <- (firstn_skipn (16 - N.to_nat rest) w) at 1.
  rewrite le_app, firstn_length, E, Nat.min_l by lia.
  replace (8 * N.of_nat (16 - N.to_nat rest)) with (8 * (16 - rest)) by lia.
  rewrite N.mul_comm, N.mod_add by (apply N.pow_nonzero; discriminate).
  apply N.mod_small. eapply N.lt_le_trans; [apply le_lt, bytes_firstn, B|].
  apply N.pow_le_mono_r; [discriminate|]. rewrite firstn_length. lia.
Qed.

Definition round16 (n : nat) : nat := (16 * ((n + 15) / 16))%nat.

Lemma round16_spec : forall n, (n <= round16 n < n + 16 /\ round16 n mod 16 = 0)%nat.
Proof.
  intros n. unfold round16.
  pose proof (Nat.div_mod (n + 15) 16 ltac:(lia)).
  pose proof (Nat.mod_upper_bound (n + 15) 16 ltac:(lia)).
  split; [lia|]. rewrite Nat.mul_comm. apply Nat.mod_mul. lia.
Qed.

Lemma round16_add : forall n k, round16 (16 * k + n) = (16 * k + round16 n)%nat.
Proof.
  intros n k. unfold round16. replace (16 * k + n + 15)%nat with (n + 15 + k * 16)%nat by lia.
  rewrite Nat.div_add by lia. lia.
Qed.

Lemma round16_small : forall n, (0 < n <= 16)%nat -> round16 n = 16%nat.
Proof.
  intros n H. destruct (round16_spec n) as [A M].
  apply Nat.mod_divides in M; [|lia]. destruct M as [k M]. lia.
Qed.

Lemma round16_mid : forall n, (16 < n <= 32)%nat -> round16 n = 32%nat.
Proof.
  intros n H. replace n with (16 * 1 + (n - 16))%nat by lia.
  rewrite round16_add, round16_small by lia. reflexivity.
Qed.

Lemma ld_same : forall n a b b' i, i + N.of_nat n <= lenN a -> ld n (a ++ b) i = ld n (a ++ b') i.
Proof.
  intros n a b b' i H.
  replace i with (N.of_nat (N.to_nat i)) by lia.
  rewrite !ld_skipn by (rewrite app_length; lia). f_equal. f_equal.
  rewrite !skipn_app, !firstn_app, !skipn_length.
  replace (n - (length a - N.to_nat i))%nat with 0%nat by lia.
  rewrite !firstn_O. reflexivity.
Qed.

(** The last load: [n] bytes of the key are kept. *)
Lemma ld_masked : forall x64 data extra q n, is_bytes data -> is_bytes extra ->
  (0 < n <= 16)%nat -> (q + n = length data)%nat -> (16 - n <= length extra)%nat ->
  rbind (ld 16 (data ++ extra) (N.of_nat q))
    (fun d => Ok (N.land d (mask_of x64 (16 - N.of_nat n)))) = Ok (le (skipn q data)).
Proof.
  intros x64 data extra q n B Be Hn Hq He.
  rewrite ld_skipn by (rewrite app_length; lia). cbn [rbind].
  rewrite land_mask.
  - f_equal. f_equal. rewrite firstn_firstn, Nat.min_l by lia.
    rewrite skipn_app, firstn_app, skipn_length.
    replace (16 - N.to_nat (16 - N.of_nat n))%nat with n by lia.
    replace (n - (length data - q))%nat with 0%nat by lia.
    rewrite firstn_O, app_nil_r, firstn_all2; [reflexivity|rewrite skipn_length; lia].
  - lia.
  - apply bytes_firstn, bytes_skipn, bytes_app. auto.
  - rewrite firstn_length, skipn_length, app_length. lia.
Qed.

Lemma repeat_bytes : forall z, is_bytes (repeat 0 z).
Proof.
  intros z. apply Forall_forall. intros x Hx. apply repeat_spec in Hx. subst x.
  vm_compute. reflexivity.
Qed.

Lemma le_pad : forall l z, le (l ++ repeat 0 z) = le l.
Proof.
  intros l z. rewrite le_app, (le_zero (repeat 0 z)) by apply (zero_skipn 0 z).
  rewrite N.mul_0_r, N.add_0_r. reflexivity.
Qed.

Lemma rbind_assoc1 : forall (A : Type) (r : res N) (f : N -> N) (k : N -> res A),
  rbind r (fun d => k (f d)) = rbind (rbind r (fun d => Ok (f d))) k.
Proof. intros A [d|e] f k; reflexivity. Qed.

Lemma msg2_pad : forall fuel x64 data extra q m1 m2, is_bytes data -> is_bytes extra ->
  (q < length data)%nat -> (q mod 16 = 0)%nat ->
  (length data - q <= 32 * fuel)%nat ->
  (round16 (length data) - length data <= length extra)%nat ->
  msg2_loop fuel (mask_of x64) (data ++ extra) (N.of_nat q) (N.of_nat (length data - q)) m1 m2 =
  msg2_loop fuel (mask_of x64) (data ++ repeat 0 (round16 (length data) - length data))
    (N.of_nat q) (N.of_nat (round16 (length data) - q)) m1 m2 /\
  exists r, msg2_loop fuel (mask_of x64) (data ++ extra) (N.of_nat q)
              (N.of_nat (length data - q)) m1 m2 = Ok r.
Proof.
  induction fuel as [|fuel IH]; intros x64 data extra q m1 m2 B Be Hq Hm Hf He; [lia|].
  apply Nat.mod_divides in Hm; [|lia]. destruct Hm as [k Hk].
  set (z := (round16 (length data) - length data)%nat) in *.
  assert (Rd : round16 (length data) = (q + round16 (length data - q))%nat).
  { replace (length data) with (16 * k + (length data - q))%nat at 1 by lia.
    rewrite round16_add. lia. }
  pose proof (round16_spec (length data)) as [R1 _].
  cbn [msg2_loop].
  destruct (N.leb_spec (N.of_nat (length data - q)) 16) as [H|H].
  - rewrite (round16_small (length data - q)) in Rd by lia.
    replace (N.of_nat (round16 (length data) - q)) with 16 by lia.
    change (16 <=? 16) with true. cbn iota.
    rewrite (rbind_assoc1 _ (ld 16 (data ++ extra) (N.of_nat q))
               (fun d => N.land d (mask_of x64 (16 - N.of_nat (length data - q))))
               (fun v => Ok (sha1msg2 (x4_of v) m1, m2))).
    rewrite (ld_masked x64 data extra q (length data - q)) by (auto; lia).
    rewrite (rbind_assoc1 _ (ld 16 (data ++ repeat 0 z) (N.of_nat q))
               (fun d => N.land d (mask_of x64 (16 - 16)))
               (fun v => Ok (sha1msg2 (x4_of v) m1, m2))).
    rewrite <- (app_nil_r (data ++ repeat 0 z)).
    change (16 - 16) with (16 - N.of_nat 16).
    rewrite (ld_masked x64 (data ++ repeat 0 z) [] q 16);
      [|apply bytes_app; split; [exact B|apply repeat_bytes]|constructor|lia
       |rewrite app_length, repeat_length; unfold z; lia|cbn [length]; lia].
    rewrite skipn_app, skipn_O || rewrite skipn_app.
    replace (q - length data)%nat with 0%nat by lia. rewrite ?skipn_O.
    rewrite le_pad. cbn [rbind]. split; [reflexivity|eexists; reflexivity].
  - destruct (N.leb_spec (N.of_nat (length data - q)) 32) as [H'|H'].
    + rewrite (round16_mid (length data - q)) in Rd by lia.
      replace (N.of_nat (round16 (length data) - q)) with 32 by lia.
      change (32 <=? 16) with false. change (32 <=? 32) with true. cbn iota.
      rewrite (ld_same 16 data (repeat 0 z) extra) by lia.
      destruct (ld_in 16 (data ++ extra) (N.of_nat q)) as [v Ev]; [rewrite app_length; lia|].
      rewrite Ev. cbn [rbind].
      replace (N.of_nat q + 16) with (N.of_nat (q + 16)) by lia.
      rewrite (rbind_assoc1 _ (ld 16 (data ++ extra) (N.of_nat (q + 16)))
               (fun d => N.land d (mask_of x64 (32 - N.of_nat (length data - q))))
               (fun u => Ok (sha1msg2 (x4_of v) m1, sha1msg2 (x4_of u) m2))).
      replace (32 - N.of_nat (length data - q)) with (16 - N.of_nat (length data - (q + 16))) by lia.
      rewrite (ld_masked x64 data extra (q + 16) (length data - (q + 16))) by (auto; lia).
      rewrite (rbind_assoc1 _ (ld 16 (data ++ repeat 0 z) (N.of_nat (q + 16)))
               (fun d => N.land d (mask_of x64 (32 - 32)))
               (fun u => Ok (sha1msg2 (x4_of v) m1, sha1msg2 (x4_of u) m2))).
      rewrite <- (app_nil_r (data ++ repeat 0 z)).
      change (32 - 32) with (16 - N.of_nat 16).
      rewrite (ld_masked x64 (data ++ repeat 0 z) [] (q + 16) 16);
        [|apply bytes_app; split; [exact B|apply repeat_bytes]|constructor|lia
         |rewrite app_length, repeat_length; unfold z; lia|cbn [length]; lia].
      rewrite skipn_app. replace (q + 16 - length data)%nat with 0%nat by lia. rewrite ?skipn_O.
      rewrite le_pad. cbn [rbind]. split; [reflexivity|eexists; reflexivity].
    + destruct (N.leb_spec (N.of_nat (round16 (length data) - q)) 16) as [?|_]; [lia|].
      destruct (N.leb_spec (N.of_nat (round16 (length data) - q)) 32) as [?|_]; [lia|].
      rewrite !(ld_same 16 data (repeat 0 z) extra) by lia.
      destruct (ld_in 16 (data ++ extra) (N.of_nat q)) as [v Ev]; [rewrite app_length; lia|].
      rewrite Ev. cbn [rbind].
      destruct (ld_in 16 (data ++ extra) (N.of_nat q + 16)) as [u Eu]; [rewrite app_length; lia|].
      rewrite Eu. cbn [rbind].
      replace (N.of_nat q + 32) with (N.of_nat (q + 32)) by lia.
      replace (N.of_nat (length data - q) - 32) with (N.of_nat (length data - (q + 32))) by lia.
      replace (N.of_nat (round16 (length data) - q) - 32)
        with (N.of_nat (round16 (length data) - (q + 32))) by lia.
      apply IH; auto; try lia.
Qed.

Lemma msg2_fuel : forall fuel fuel' mask mem q rem m1 m2, 0 < rem ->
  rem <= 32 * N.of_nat fuel -> rem <= 32 * N.of_nat fuel' ->
  msg2_loop fuel mask mem q rem m1 m2 = msg2_loop fuel' mask mem q rem m1 m2.
Proof.
  induction fuel as [|fuel IH]; intros fuel' mask mem q rem m1 m2 Hp H H'; [lia|].
  destruct fuel' as [|fuel']; [lia|]. cbn [msg2_loop].
  destruct (rem <=? 16); [reflexivity|]. destruct (N.leb_spec rem 32) as [C|C]; [reflexivity|].
  destruct (ld 16 mem q) as [v|e]; [|reflexivity]. cbn [rbind].
  destruct (ld 16 mem (q + 16)) as [u|e]; [|reflexivity]. cbn [rbind].
  apply IH; lia.
Qed.

Definition msg2_value (x64 : bool) (s : x4 * x4) : N :=
  let m := msg2_end (fst s) (snd s) in if x64 then N.lxor (l1 m) (l0 m) else l0 m.

Lemma msg2_unfold : forall x64 mem p len, 0 < len ->
  sha1_msg2 x64 mem p len =
  rbind (msg2_loop (S (N.to_nat (len / 32))) (mask_of x64) mem p len setzero setzero)
    (fun s => Ok (msg2_value x64 s)).
Proof.
  intros x64 mem p len H.
  destruct x64; unfold sha1_msg2, sha1_msg2_x64, sha1_msg2_x86;
    (destruct (N.ltb_spec 0 len) as [_|C]; [|lia]); reflexivity.
Qed.

Lemma pad16 : forall data, zero_pad 16 data = data ++ repeat 0 (round16 (length data) - length data).
Proof.
  intros data. unfold zero_pad. f_equal. f_equal. unfold round16.
  pose proof (Nat.div_mod (length data) 16 ltac:(lia)) as D.
  pose proof (Nat.mod_upper_bound (length data) 16 ltac:(lia)) as M.
  set (m := (length data mod 16)%nat) in *. set (k := (length data / 16)%nat) in *.
  destruct (Nat.eq_dec m 0) as [E|E].
  - rewrite E. replace (length data + 15)%nat with (15 + k * 16)%nat by lia.
    rewrite Nat.div_add by lia. rewrite (Nat.div_small 15) by lia.
    change ((16 - 0) mod 16)%nat with 0%nat. lia.
  - replace (length data + 15)%nat with (m - 1 + (k + 1) * 16)%nat by lia.
    rewrite Nat.div_add by lia. rewrite (Nat.div_small (m - 1)) by lia.
    rewrite (Nat.mod_small (16 - m)) by lia. lia.
Qed.

Lemma fuel_enough : forall len, len <= 32 * N.of_nat (S (N.to_nat (len / 32))).
Proof.
  intros len. pose proof (N.div_mod len 32 ltac:(lia)). pose proof (N.mod_lt len 32 ltac:(lia)).
  lia.
Qed.

(** The value is that of the key filled up with zeros. *)
Lemma msg2_zero_pad : forall x64 data extra, is_bytes data -> is_bytes extra -> data <> [] ->
  (length (zero_pad 16 data) - length data <= length extra)%nat ->
  sha1_msg2 x64 (data ++ extra) 0 (lenN data) =
  sha1_msg2 x64 (zero_pad 16 data) 0 (lenN (zero_pad 16 data)) /\
  exists h, sha1_msg2 x64 (data ++ extra) 0 (lenN data) = Ok h.
Proof.
  intros x64 data extra B Be Ne He.
  assert (Hp : (0 < length data)%nat) by (destruct data; [congruence|cbn [length]; lia]).
  pose proof (round16_spec (length data)) as [R _].
  assert (Lz : length (zero_pad 16 data) = round16 (length data))
    by (rewrite pad16, app_length, repeat_length; lia).
  assert (Ln : lenN (zero_pad 16 data) = N.of_nat (round16 (length data))) by lia.
  rewrite Ln. rewrite Lz in He. rewrite pad16.
  rewrite !msg2_unfold by lia.
  rewrite (msg2_fuel (S (N.to_nat (lenN data / 32)))
             (S (N.to_nat (N.of_nat (round16 (length data)) / 32))));
    [|lia|apply fuel_enough
     |pose proof (fuel_enough (N.of_nat (round16 (length data)))); lia].
  pose proof (fuel_enough (N.of_nat (round16 (length data)))) as F.
  destruct (msg2_pad (S (N.to_nat (N.of_nat (round16 (length data)) / 32))) x64 data extra 0
              setzero setzero B Be Hp eq_refl ltac:(lia) ltac:(lia)) as [E [r Er]].
  rewrite (Nat.sub_0_r (length data)) in E, Er.
  rewrite (Nat.sub_0_r (round16 (length data))) in E.
  change (N.of_nat 0) with 0 in E, Er.
  rewrite <- E. split; [reflexivity|]. rewrite Er. eexists; reflexivity.
Qed.

(** Fewer readable bytes are not enough. *)
Lemma msg2_short : forall fuel mask data extra q m1 m2, (q < length data)%nat ->
  (q mod 16 = 0)%nat -> (length extra < round16 (length data) - length data)%nat ->
  (length data - q <= 32 * fuel)%nat ->
  msg2_loop fuel mask (data ++ extra) (N.of_nat q) (N.of_nat (length data - q)) m1 m2 = Err EUndef.
Proof.
  induction fuel as [|fuel IH]; intros mask data extra q m1 m2 Hq Hm He Hf; [lia|].
  apply Nat.mod_divides in Hm; [|lia]. destruct Hm as [k Hk].
  assert (Rd : round16 (length data) = (q + round16 (length data - q))%nat).
  { replace (length data) with (16 * k + (length data - q))%nat at 1 by lia.
    rewrite round16_add. lia. }
  cbn [msg2_loop].
  destruct (N.leb_spec (N.of_nat (length data - q)) 16) as [H|H].
  - rewrite (round16_small (length data - q)) in Rd by lia.
    rewrite ld_out by (rewrite app_length; lia). reflexivity.
  - destruct (N.leb_spec (N.of_nat (length data - q)) 32) as [H'|H'].
    + rewrite (round16_mid (length data - q)) in Rd by lia.
      destruct (ld_in 16 (data ++ extra) (N.of_nat q)) as [v Ev]; [rewrite app_length; lia|].
      rewrite Ev. cbn [rbind]. rewrite ld_out by (rewrite app_length; lia). reflexivity.
    + destruct (ld_in 16 (data ++ extra) (N.of_nat q)) as [v Ev]; [rewrite app_length; lia|].
      rewrite Ev. cbn [rbind].
      destruct (ld_in 16 (data ++ extra) (N.of_nat q + 16)) as [u Eu]; [rewrite app_length; lia|].
      rewrite Eu. cbn [rbind].
      replace (N.of_nat q + 32) with (N.of_nat (q + 32)) by lia.
      replace (N.of_nat (length data - q) - 32) with (N.of_nat (length data - (q + 32))) by lia.
      apply IH; auto; try lia.
Qed.

Lemma msg2_over : forall x64 data extra, data <> [] ->
  (length extra < length (zero_pad 16 data) - length data)%nat ->
  sha1_msg2 x64 (data ++ extra) 0 (lenN data) = Err EUndef.
Proof.
  intros x64 data extra Ne He.
  assert (Hp : (0 < length data)%nat) by (destruct data; [congruence|cbn [length]; lia]).
  pose proof (round16_spec (length data)) as [R _].
  rewrite pad16, app_length, repeat_length in He.
  rewrite msg2_unfold by lia.
  pose proof (fuel_enough (lenN data)) as F.
  pose proof (msg2_short (S (N.to_nat (lenN data / 32))) (mask_of x64) data extra 0 setzero setzero
                Hp eq_refl ltac:(lia) ltac:(lia)) as E.
  rewrite Nat.sub_0_r in E. change (N.of_nat 0) with 0 in E. rewrite E. reflexivity.
Qed.

(** ** Two flipped bits *)
Lemma rol1_bit : forall x i, x < 2 ^ 32 -> N.testbit (rol x 1) i =
  if i <? 32 then (if i =? 0 then N.testbit x 31 else N.testbit x (i - 1)) else false.
Proof.
  intros x i H. unfold rol, shl32, w32. change two32 with (2 ^ 32).
  rewrite N.lor_spec, N.shiftr_spec'. change (32 - 1) with 31.
  assert (Hx : forall j, 32 <= j -> N.testbit x j = false) by (apply lt_pow2_bits, H).
  destruct (N.ltb_spec i 32) as [L|L].
  - rewrite N.mod_pow2_bits_low by exact L.
    destruct (N.eqb_spec i 0) as [->|E0].
    + rewrite N.shiftl_spec_low by lia. reflexivity.
    + rewrite N.shiftl_spec_high' by lia. rewrite (Hx (i + 31)) by lia. apply orb_false_r.
  - rewrite N.mod_pow2_bits_high by exact L. rewrite (Hx (i + 31)) by lia. reflexivity.
Qed.

Lemma rol1_lxor : forall x y, x < 2 ^ 32 -> y < 2 ^ 32 ->
  rol (N.lxor x y) 1 = N.lxor (rol x 1) (rol y 1).
Proof.
  intros x y Hx Hy. apply N.bits_inj. intros i. rewrite N.lxor_spec, !rol1_bit by
    (try apply lxor_lt; assumption). rewrite !N.lxor_spec.
  destruct (i <? 32), (i =? 0); reflexivity.
Qed.

Lemma le_flip : forall b t c, is_byte b -> is_byte c -> le (N.lxor b c :: t) = N.lxor (le (b :: t)) c.
Proof.
  intros b t c Hb Hc. cbn [le].
  assert (S : forall x y, x < 256 -> x + 256 * y = N.lxor x (N.shiftl y 8)).
  { intros x y H. rewrite N.shiftl_mul_pow2. change (2 ^ 8) with 256. rewrite (N.mul_comm y).
    apply N.add_nocarry_lxor. apply N.bits_inj. intros i. rewrite N.land_spec, N.bits_0.
    change 256 with (2 ^ 8) in *.
    destruct (N.lt_ge_cases i 8) as [L|L].
    - rewrite N.mul_comm, N.mul_pow2_bits_low by exact L. apply andb_false_r.
    - rewrite (proj1 (lt_pow2_bits 8 x) H i L). reflexivity. }
  unfold is_byte in *.
  rewrite !S; [|exact Hb|change 256 with (2 ^ 8) in *; apply lxor_lt; assumption].
  rewrite !N.lxor_assoc. f_equal. apply N.lxor_comm.
Qed.

Definition flip0 (x : x4) (c : N) : x4 := X4 (l3 x) (l2 x) (l1 x) (N.lxor (l0 x) c).
Definition flip1 (x : x4) (c : N) : x4 := X4 (l3 x) (l2 x) (N.lxor (l1 x) c) (l0 x).

Lemma msg2_flip : forall x y, lanes_ok x ->
  sha1msg2 y (sha1msg2 (flip0 x 1) setzero) = sha1msg2 (flip1 y 2) (sha1msg2 x setzero).
Proof.
  intros [a b c d] [e f g h] (Ha & _ & _ & Hd). cbn [l3 l2 l1 l0] in *.
  unfold sha1msg2, flip0, flip1, setzero. cbn [l3 l2 l1 l0].
  rewrite (N.lxor_0_r a). f_equal. f_equal.
  rewrite !N.lxor_assoc. f_equal.
  rewrite (N.lxor_comm 1), <- N.lxor_assoc.
  assert (R : rol a 1 < 2 ^ 32) by (apply lt_pow2_bits; intros i Hi; rewrite rol1_bit by exact Ha;
    destruct (N.ltb_spec i 32); [lia|reflexivity]).
  rewrite (rol1_lxor _ 1) by (try apply lxor_lt; try assumption; vm_compute; reflexivity).
  change (rol 1 1) with 2. apply N.lxor_comm.
Qed.

Lemma lanes_load : forall w, is_bytes w -> length w = 16%nat -> lanes_ok (x4_of (le w)).
Proof.
  intros w B E. unfold lanes_ok, x4_of, lane32. cbn [l3 l2 l1 l0].
  repeat split; apply N.mod_lt; vm_compute; discriminate.
Qed.

Lemma load_flip0 : forall b t, is_byte b -> is_bytes t -> length t = 15%nat ->
  x4_of (le (N.lxor b 1 :: t)) = flip0 (x4_of (le (b :: t))) 1.
Proof.
  intros b t Hb B E.
  do 15 (destruct t as [|? t]; [discriminate|]). destruct t; [|discriminate].
  match goal with |- context [le [N.lxor b 1;?b0;?c;?d;?e;?f;?g;?h;?i;?j;?k;?l;?m;?n;?o;?p]] =>
      change (le [N.lxor b 1;b0;c;d;e;f;g;h;i;j;k;l;m;n;o;p])
        with (le ([N.lxor b 1;b0;c;d] ++ [e;f;g;h] ++ [i;j;k;l] ++ [m;n;o;p]));
      change (le [b;b0;c;d;e;f;g;h;i;j;k;l;m;n;o;p])
        with (le ([b;b0;c;d] ++ [e;f;g;h] ++ [i;j;k;l] ++ [m;n;o;p])) end.
  repeat match goal with H : is_bytes (_ :: _) |- _ => inversion H; subst; clear H
      | H : Forall is_byte (_ :: _) |- _ => inversion H; subst; clear H end.
  assert (Hb1 : is_byte (N.lxor b 1)).
  { unfold is_byte in *. change 256 with (2 ^ 8) in *. apply lxor_lt; [exact Hb|].
    vm_compute; reflexivity. }
  rewrite !x4_load by (try reflexivity; repeat constructor; assumption).
  unfold flip0. cbn [l3 l2 l1 l0]. f_equal. apply le_flip; [exact Hb|vm_compute; reflexivity].
Qed.

Lemma load_flip4 : forall pre b t, is_byte b -> is_bytes pre -> is_bytes t ->
  length pre = 4%nat -> length t = 11%nat ->
  x4_of (le (pre ++ N.lxor b 2 :: t)) = flip1 (x4_of (le (pre ++ b :: t))) 2.
Proof.
  intros pre b t Hb Bp B Ep E.
  do 11 (destruct t as [|? t]; [discriminate|]). destruct t; [|discriminate].
  match goal with |- context [le (pre ++ [N.lxor b 2;?b0;?c;?d;?e;?f;?g;?h;?i;?j;?k;?l])] =>
      change (le (pre ++ [N.lxor b 2;b0;c;d;e;f;g;h;i;j;k;l]))
        with (le (pre ++ [N.lxor b 2;b0;c;d] ++ [e;f;g;h] ++ [i;j;k;l]));
      change (le (pre ++ [b;b0;c;d;e;f;g;h;i;j;k;l]))
        with (le (pre ++ [b;b0;c;d] ++ [e;f;g;h] ++ [i;j;k;l])) end.
  repeat match goal with
      | H : is_bytes (?x :: _) |- _ => inversion H; subst; clear H
      | H : Forall is_byte (?x :: _) |- _ => inversion H; subst; clear H end.
  assert (Hb1 : is_byte (N.lxor b 2)).
  { unfold is_byte in *. change 256 with (2 ^ 8) in *. apply lxor_lt; [exact Hb|].
    vm_compute; reflexivity. }
  rewrite !x4_load by (try reflexivity; try assumption; repeat constructor; assumption).
  unfold flip1. cbn [l3 l2 l1 l0]. f_equal. apply le_flip; [exact Hb|vm_compute; reflexivity].
Qed.

Lemma msg2_64 : forall x64 d0 d1 d2 d3, is_bytes d3 ->
  length d0 = 16%nat -> length d1 = 16%nat -> length d2 = 16%nat -> length d3 = 16%nat ->
  sha1_msg2 x64 (d0 ++ d1 ++ d2 ++ d3) 0 64 =
  Ok (msg2_value x64
       (sha1msg2 (x4_of (le d2)) (sha1msg2 (x4_of (le d0)) setzero),
        sha1msg2 (x4_of (le d3)) (sha1msg2 (x4_of (le d1)) setzero))).
Proof.
  intros x64 d0 d1 d2 d3 B L0 L1 L2 L3. rewrite msg2_unfold by lia.
  change (S (N.to_nat (64 / 32))) with 3%nat. cbn [msg2_loop].
  change (64 <=? 16) with false. change (64 <=? 32) with false. cbn iota.
  rewrite (ld0' (d0 ++ d1 ++ d2 ++ d3) 0 [] d0 (d1 ++ d2 ++ d3) 16) by (try reflexivity; assumption).
  cbn [rbind].
  rewrite (ld0' (d0 ++ d1 ++ d2 ++ d3) (0 + 16) d0 d1 (d2 ++ d3) 16)
    by (try reflexivity; rewrite ?L0; try reflexivity; assumption).
  cbn [rbind]. change (64 - 32) with 32. change (32 <=? 16) with false.
  change (32 <=? 32) with true. cbn iota.
  rewrite (ld0' (d0 ++ d1 ++ d2 ++ d3) (0 + 32) (d0 ++ d1) d2 d3 16)
    by (rewrite <- ?app_assoc, ?app_length, ?L0, ?L1; try reflexivity; assumption).
  cbn [rbind].
  rewrite (ld0' (d0 ++ d1 ++ d2 ++ d3) (0 + 32 + 16) (d0 ++ d1 ++ d2) d3 [] 16)
    by (rewrite ?app_nil_r, <- ?app_assoc, ?app_length, ?L0, ?L1, ?L2; try reflexivity; assumption).
  cbn [rbind]. rewrite land_mask by (try assumption; lia).
  rewrite firstn_all2 by (rewrite L3; lia). reflexivity.
Qed.

Lemma msg2_two_bits : forall x64 b0 mid b36 post,
  is_bytes (b0 :: mid ++ b36 :: post) -> length mid = 35%nat -> length post = 27%nat ->
  sha1_msg2 x64 (N.lxor b0 1 :: mid ++ N.lxor b36 2 :: post) 0 64 =
  sha1_msg2 x64 (b0 :: mid ++ b36 :: post) 0 64.
Proof.
  intros x64 b0 mid b36 post B Lm Lp.
  inversion B as [|? ? Hb0 B1]; subst. apply bytes_app in B1. destruct B1 as [Bm B2].
  inversion B2 as [|? ? Hb36 Bp]; subst.
  set (d0 := firstn 15 mid). set (d1 := firstn 16 (skipn 15 mid)). set (d2 := skipn 31 mid).
  set (e2 := firstn 11 post). set (d3 := skipn 11 post).
  assert (Em : mid = d0 ++ d1 ++ d2).
  { unfold d0, d1, d2. rewrite <- (firstn_skipn 15 mid) at 1. f_equal.
    rewrite <- (firstn_skipn 16 (skipn 15 mid)) at 1. f_equal. rewrite skipn_skipn'. reflexivity. }
  assert (Ep : post = e2 ++ d3) by (unfold e2, d3; symmetry; apply firstn_skipn).
  assert (K : forall x y, x :: mid ++ y :: post = (x :: d0) ++ d1 ++ (d2 ++ y :: e2) ++ d3).
  { intros x y. rewrite Em, Ep. cbn [app]. rewrite <- !app_assoc. reflexivity. }
  assert (L0 : length d0 = 15%nat) by (unfold d0; rewrite firstn_length; lia).
  assert (L1 : length d1 = 16%nat) by (unfold d1; rewrite firstn_length, skipn_length; lia).
  assert (L2 : length d2 = 4%nat) by (unfold d2; rewrite skipn_length; lia).
  assert (Le : length e2 = 11%nat) by (unfold e2; rewrite firstn_length; lia).
  assert (L3 : length d3 = 16%nat) by (unfold d3; rewrite skipn_length; lia).
  assert (B0 : is_bytes d0) by (apply bytes_firstn, Bm).
  assert (Bd2 : is_bytes d2) by (apply bytes_skipn, Bm).
  assert (Be : is_bytes e2) by (apply bytes_firstn, Bp).
  assert (B3 : is_bytes d3) by (apply bytes_skipn, Bp).
  rewrite !K.
  rewrite !msg2_64 by (try assumption; rewrite ?app_length; cbn [length]; lia).
  f_equal. f_equal. f_equal.
  rewrite load_flip0, load_flip4 by assumption.
  rewrite msg2_flip by (apply lanes_load; [constructor; assumption|cbn [length]; lia]).
  unfold flip1. cbn [l3 l2 l1 l0].
  rewrite N.lxor_assoc, N.lxor_nilpotent, N.lxor_0_r.
  destruct (x4_of (le (d2 ++ b36 :: e2))). reflexivity.
Qed.
