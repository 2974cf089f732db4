(** Proofs about FormatModel.v: the integer logarithm, the number of digits, the digits. *)
From Coq Require Import NArith ZArith List Bool Lia ZifyBool ZifyNat ZifyN.
From Verif Require Import Base BitsModel FormatModel FormatSpec.
Import ListNotations.
Open Scope N_scope.

(** * Decimal numerals *)

Fixpoint dec_fuel (f : nat) (n : N) : list N :=
  if n <? 10 then [48 + n]
  else match f with
       | O => []
       | S f' => dec_fuel f' (n / 10) ++ [48 + n mod 10]
       end.
Definition decimal (n : N) : list N := dec_fuel (N.to_nat (N.size n)) n.

Lemma div10_pow : forall n f, n < 2 ^ N.of_nat (S f) -> 10 <= n -> n / 10 < 2 ^ N.of_nat f.
Proof.
  intros n f H H10. apply N.div_lt_upper_bound; [lia|].
  rewrite Nat2N.inj_succ, N.pow_succ_r' in H. lia.
Qed.

Lemma dec_fuel_enough : forall f g n, n < 2 ^ N.of_nat f -> n < 2 ^ N.of_nat g ->
  dec_fuel f n = dec_fuel g n.
Proof.
  induction f as [|f IH]; intros g n Hf Hg.
  - change (2 ^ N.of_nat 0) with 1 in Hf. assert (n = 0) by lia. subst n.
    destruct g; reflexivity.
  - destruct (n <? 10) eqn:E.
    + assert (n <? 10 = true) by exact E. cbn [dec_fuel]. rewrite E.
      destruct g; cbn [dec_fuel]; rewrite E; reflexivity.
    + destruct g as [|g].
      * change (2 ^ N.of_nat 0) with 1 in Hg. lia.
      * cbn [dec_fuel]. rewrite E. f_equal. apply IH; apply div10_pow; lia.
Qed.

Lemma decimal_small : forall n, n < 10 -> decimal n = [48 + n].
Proof.
  intros n H. unfold decimal. destruct (N.to_nat (N.size n)); cbn [dec_fuel];
    replace (n <? 10) with true by lia; reflexivity.
Qed.

Lemma size_bound : forall n, n < 2 ^ N.of_nat (N.to_nat (N.size n)).
Proof. intros n. rewrite N2Nat.id. apply N.size_gt. Qed.

Lemma decimal_step : forall n, 10 <= n -> decimal n = decimal (n / 10) ++ [48 + n mod 10].
Proof.
  intros n H. unfold decimal at 1. pose proof (size_bound n) as B.
  destruct (N.to_nat (N.size n)) as [|f] eqn:E.
  - change (2 ^ N.of_nat 0) with 1 in B. lia.
  - cbn [dec_fuel]. replace (n <? 10) with false by lia. f_equal.
    apply dec_fuel_enough; [apply div10_pow; lia|apply size_bound].
Qed.

Lemma decimal_ind : forall P : N -> Prop,
  (forall n, n < 10 -> P n) -> (forall n, 10 <= n -> P (n / 10) -> P n) -> forall n, P n.
Proof.
  intros P H0 H1 n. induction n as [n IH] using (well_founded_induction N.lt_wf_0).
  destruct (N.lt_ge_cases n 10) as [L|L]; [apply H0; exact L|].
  apply H1; [exact L|]. apply IH. apply N.div_lt; lia.
Qed.

Lemma value_snoc : forall s c, value (s ++ [c]) = value s * 10 + (c - 48).
Proof. intros. unfold value. rewrite fold_left_app. reflexivity. Qed.

Lemma decimal_nil : forall n, decimal n <> [].
Proof.
  intros n. destruct (N.lt_ge_cases n 10) as [L|L].
  - rewrite decimal_small by exact L. discriminate.
  - rewrite decimal_step by exact L. destruct (decimal (n / 10)); discriminate.
Qed.

Lemma nth0_app : forall (s t : list N) d, s <> [] -> nth 0 (s ++ t) d = nth 0 s d.
Proof. intros [|a s] t d H; [congruence|reflexivity]. Qed.

Lemma decimal_head : forall n, nth 0 (decimal n) 0 = 48 -> n = 0.
Proof.
  intros n. induction n as [n L|n L IH] using decimal_ind.
  - rewrite decimal_small by exact L. cbn [nth]. lia.
  - rewrite decimal_step by exact L. rewrite nth0_app by apply decimal_nil.
    intros E. apply IH in E. apply N.div_small_iff in E; lia.
Qed.

Lemma decimal_numeral : forall n, numeral (decimal n) n.
Proof.
  intros n. split; [apply decimal_nil|]. split; [|split].
  - induction n as [n L|n L IH] using decimal_ind.
    + rewrite decimal_small by exact L. repeat constructor; lia.
    + rewrite decimal_step by exact L. apply Forall_app. split; [exact IH|].
      pose proof (N.mod_lt n 10 ltac:(lia)) as M. repeat constructor; clear - M; lia.
  - induction n as [n L|n L IH] using decimal_ind.
    + rewrite decimal_small by exact L. unfold value. cbn [fold_left]. lia.
    + rewrite decimal_step by exact L. rewrite value_snoc, IH.
      pose proof (N.div_mod n 10 ltac:(lia)) as D. remember (n mod 10) as r.
      remember (n / 10) as q. clear - D. lia.
  - intros E. apply decimal_head in E. subst n. reflexivity.
Qed.

(** Two numerals of one number are the same text. *)
Lemma value_bound : forall s, Forall (fun c => 48 <= c <= 57) s -> value s < 10 ^ N.of_nat (length s).
Proof.
  intros s. induction s as [|c s IH] using rev_ind; intros F.
  - reflexivity.
  - apply Forall_app in F. destruct F as [F1 F2]. inversion F2; subst.
    rewrite value_snoc, app_length. cbn [length]. rewrite Nat.add_1_r, Nat2N.inj_succ, N.pow_succ_r'.
    specialize (IH F1). lia.
Qed.

Lemma value_low : forall c s, Forall (fun c => 48 <= c <= 57) (c :: s) -> c <> 48 ->
  10 ^ N.of_nat (length s) <= value (c :: s).
Proof.
  intros c s. induction s as [|d s IH] using rev_ind; intros F C.
  - inversion F; subst. cbn [length N.of_nat]. unfold value. cbn [fold_left].
    change (10 ^ 0) with 1. lia.
  - change (c :: s ++ [d]) with ((c :: s) ++ [d]) in *. apply Forall_app in F. destruct F as [F1 F2].
    rewrite value_snoc, app_length. cbn [length]. rewrite Nat.add_1_r, Nat2N.inj_succ, N.pow_succ_r'.
    specialize (IH F1 C). lia.
Qed.

Lemma numeral_bounds : forall s n, numeral s n ->
  n < 10 ^ N.of_nat (length s) /\ (length s <> 1%nat -> 10 ^ N.of_nat (length s - 1) <= n).
Proof.
  intros s n (NE & F & V & Z). split.
  - rewrite <- V. apply value_bound. exact F.
  - intros L. destruct s as [|c s]; [congruence|]. rewrite <- V.
    replace (length (c :: s) - 1)%nat with (length s) by (cbn [length]; lia).
    apply value_low; [exact F|]. intros C. apply L. apply Z. exact C.
Qed.

Lemma pow10_lt : forall a b, 10 ^ a < 10 ^ b -> a < b.
Proof. intros a b H. apply N.pow_lt_mono_r_iff with (a := 10); lia. Qed.

Lemma numeral_length : forall s n k, numeral s n -> n < 10 ^ (N.of_nat k + 1) ->
  (k = 0%nat \/ 10 ^ N.of_nat k <= n) -> length s = S k.
Proof.
  intros s n k H U L. pose proof (numeral_bounds s n H) as [B1 B2].
  destruct H as (NE & F & V & Z).
  assert (N.of_nat k < N.of_nat (length s)) as A1.
  { destruct L as [L|L].
    - destruct s; [congruence|]. subst k. cbn [length]. lia.
    - apply pow10_lt. lia. }
  destruct (Nat.eq_dec (length s) 1) as [E|E]; [lia|].
  specialize (B2 E).
  assert (N.of_nat (length s - 1) < N.of_nat k + 1) as A2 by (apply pow10_lt; lia).
  lia.
Qed.

Lemma value_unique : forall s t, length s = length t ->
  Forall (fun c => 48 <= c <= 57) s -> Forall (fun c => 48 <= c <= 57) t -> value s = value t -> s = t.
Proof.
  intros s. induction s as [|c s IH] using rev_ind; intros t L Fs Ft V.
  - destruct t; [reflexivity|discriminate].
  - destruct t as [|d t _] using rev_ind.
    + rewrite app_length in L. cbn [length] in L. lia.
    + rewrite !app_length in L. cbn [length] in L. apply Forall_app in Fs, Ft.
      destruct Fs as [Fs Fc], Ft as [Ft Fd]. inversion Fc; subst. inversion Fd; subst.
      rewrite !value_snoc in V.
      assert (value s = value t /\ c = d) as [E1 E2] by lia. subst d.
      f_equal. apply IH; try assumption; lia.
Qed.

Lemma numeral_unique : forall s t n, numeral s n -> numeral t n -> s = t.
Proof.
  intros s t n Hs Ht.
  assert (length s = length t) as L.
  { pose proof (numeral_bounds t n Ht) as [B1 B2].
    assert (length t <> 0%nat) as NZ by (destruct Ht as (NE & _); destruct t; [congruence|discriminate]).
    rewrite (numeral_length s n (length t - 1)); [lia|exact Hs| |].
    - replace (N.of_nat (length t - 1) + 1) with (N.of_nat (length t)) by lia. exact B1.
    - destruct (Nat.eq_dec (length t) 1) as [E|E]; [left; lia|right; apply B2; exact E]. }
  destruct Hs as (_ & Fs & Vs & _), Ht as (_ & Ft & Vt & _).
  apply value_unique; try assumption. congruence.
Qed.

Lemma numeral_decimal : forall s n, numeral s n -> s = decimal n.
Proof. intros s n H. eapply numeral_unique; [exact H|apply decimal_numeral]. Qed.

Lemma numeralZ_unique : forall s t z, numeralZ s z -> numeralZ t z -> s = t.
Proof.
  intros s t z [A B] [A' B']. destruct (Z.lt_ge_cases z 0) as [L|L].
  - destruct (B L) as (s' & -> & Hs), (B' L) as (t' & -> & Ht). f_equal. eapply numeral_unique; eauto.
  - eapply numeral_unique; [apply A; exact L|apply A'; exact L].
Qed.

Definition decimalZ (z : Z) : list N :=
  if (0 <=? z)%Z then decimal (Z.to_N z) else 45 :: decimal (Z.to_N (- z)).

Lemma decimalZ_numeral : forall z, numeralZ (decimalZ z) z.
Proof.
  intros z. unfold decimalZ, numeralZ. split; intros H.
  - replace (0 <=? z)%Z with true by lia. apply decimal_numeral.
  - replace (0 <=? z)%Z with false by lia. eexists. split; [reflexivity|apply decimal_numeral].
Qed.

Lemma numeralZ_decimal : forall s z, numeralZ s z -> s = decimalZ z.
Proof. intros s z H. eapply numeralZ_unique; [exact H|apply decimalZ_numeral]. Qed.

(** * The integer logarithm *)

Definition log_check (table : list N) (top e : N) : bool :=
  let x := N.shiftr (w32 (e * 2525222)) 23 in
  match geti table x with
  | Some p => (10 ^ x <=? 2 ^ e) && (2 ^ (e + 1) <=? 10 ^ (x + 2)) && (x <? 100)
              && ((p + 1 =? 10 ^ (x + 1)) || ((p + 1 =? top) && (top <=? 10 ^ (x + 1))))
  | None => false
  end.

Lemma w32_small : forall x, x < 4294967296 -> w32 x = x.
Proof. intros x H. unfold w32, two32. apply N.mod_small. exact H. Qed.

Lemma log10_with_spec : forall table bits, forallb (log_check table (2 ^ bits)) (seqN bits) = true ->
  forall v, v < 2 ^ bits -> exists e, log10_with table v = Ok e /\ e < 200 /\
    v < 10 ^ (e + 1) /\ (e = 0 \/ 10 ^ e <= v).
Proof.
  intros table bits C v V. unfold log10_with. destruct (10 <=? v) eqn:E.
  - assert (0 < v) as P by lia. destruct (N.log2_spec v P) as [L1 L2].
    assert (N.log2 v < bits) as Lb.
    { apply N.pow_lt_mono_r_iff with (a := 2); [lia|]. lia. }
    rewrite forallb_forall in C. specialize (C (N.log2 v)).
    assert (In (N.log2 v) (seqN bits)) as I.
    { unfold seqN. apply in_map_iff. exists (N.to_nat (N.log2 v)). split; [lia|]. apply in_seq. lia. }
    specialize (C I). unfold log_check in C. unfold bsr. cbv zeta.
    remember (N.shiftr (w32 (N.log2 v * 2525222)) 23) as x. clear Heqx.
    destruct (geti table x) as [p|]; [|discriminate].
    rewrite <- N.add_1_r in L2.
    remember (2 ^ N.log2 v) as lo. remember (2 ^ (N.log2 v + 1)) as hi. remember (2 ^ bits) as top.
    assert (10 ^ (x + 1) = 10 * 10 ^ x) as Q1 by (rewrite N.add_1_r, N.pow_succ_r'; reflexivity).
    assert (10 ^ (x + 2) = 10 * 10 ^ (x + 1)) as Q2.
    { replace (x + 2) with (N.succ (x + 1)) by lia. rewrite N.pow_succ_r'. reflexivity. }
    destruct (p <? v) eqn:Ep.
    + exists (x + 1). rewrite w32_small by lia. split; [reflexivity|]. split; [lia|].
      replace (x + 1 + 1) with (x + 2) by lia. split; [lia|right; lia].
    + exists x. split; [reflexivity|]. split; [lia|]. split; [lia|right; lia].
  - exists 0. split; [reflexivity|]. split; [lia|]. split; [change (10 ^ (0 + 1)) with 10; lia|left; reflexivity].
Qed.

Lemma log10_u32_spec : forall v, v < 2 ^ 32 -> exists e, jm_log10_u32 v = Ok e /\ e < 200 /\
  v < 10 ^ (e + 1) /\ (e = 0 \/ 10 ^ e <= v).
Proof. apply log10_with_spec. vm_compute. reflexivity. Qed.

Lemma log10_u64_spec : forall v, v < 2 ^ 64 -> exists e, jm_log10_u64 v = Ok e /\ e < 200 /\
  v < 10 ^ (e + 1) /\ (e = 0 \/ 10 ^ e <= v).
Proof. apply log10_with_spec. vm_compute. reflexivity. Qed.

(** * The number of digits *)

Lemma decimal_length : forall n e, n < 10 ^ (e + 1) -> (e = 0 \/ 10 ^ e <= n) ->
  N.of_nat (length (decimal n)) = e + 1.
Proof.
  intros n e U L. rewrite (numeral_length (decimal n) n (N.to_nat e)).
  - lia.
  - apply decimal_numeral.
  - rewrite N2Nat.id. exact U.
  - rewrite N2Nat.id. destruct L as [L|L]; [left; lia|right; exact L].
Qed.

Lemma count_digits_u32_ok : forall delta u, u < 2 ^ 32 ->
  count_digits_u32 delta u = Ok (zlen (decimal u) - delta)%Z.
Proof.
  intros delta u H. destruct (log10_u32_spec u H) as (e & E & B & U & L).
  unfold count_digits_u32. rewrite E. cbn [rbind]. rewrite w32_small by lia.
  pose proof (decimal_length u e U L) as D. unfold zlen. f_equal. lia.
Qed.

Lemma count_digits_u64_ok : forall delta u, u < 2 ^ 64 ->
  count_digits_u64 delta u = Ok (zlen (decimal u) - delta)%Z.
Proof.
  intros delta u H. destruct (log10_u64_spec u H) as (e & E & B & U & L).
  unfold count_digits_u64. rewrite E. cbn [rbind]. rewrite w32_small by lia.
  pose proof (decimal_length u e U L) as D. unfold zlen. f_equal. lia.
Qed.

Lemma count_small : forall delta u, u < 1000 -> count_digits_u8 delta u = (zlen (decimal u) - delta)%Z.
Proof.
  intros delta u H. unfold count_digits_u8, zlen.
  destruct (u <? 10) eqn:E1; [|destruct (u <? 100) eqn:E2].
  - pose proof (decimal_length u 0 ltac:(change (10 ^ (0 + 1)) with 10; lia) ltac:(left; reflexivity)). lia.
  - pose proof (decimal_length u 1 ltac:(change (10 ^ (1 + 1)) with 100; lia)
      ltac:(right; change (10 ^ 1) with 10; lia)). lia.
  - pose proof (decimal_length u 2 ltac:(change (10 ^ (2 + 1)) with 1000; lia)
      ltac:(right; change (10 ^ 2) with 100; lia)). lia.
Qed.

Lemma count_u64_other : forall delta u, u < 2 ^ 64 ->
  count_digits_u64_other delta u = (zlen (decimal u) - delta)%Z.
Proof.
  intros delta u H. unfold count_digits_u64_other, zlen.
  repeat match goal with |- context [if ?b then _ else _] => destruct b eqn:? end;
  match goal with |- (?k - delta)%Z = _ =>
    let e := eval vm_compute in (Z.to_N k - 1) in
    let p := eval vm_compute in (10 ^ e) in let q := eval vm_compute in (10 ^ (e + 1)) in
    pose proof (decimal_length u e ltac:(change (10 ^ (e + 1)) with q; change (2 ^ 64) with 18446744073709551616 in H; lia)
      ltac:(first [left; reflexivity | right; change (10 ^ e) with p; lia])) end; lia.
Qed.

Lemma decimalZ_length : forall z, zlen (decimalZ z) = (neg1 z + zlen (decimal (Z.to_N (Z.abs z))))%Z.
Proof.
  intros z. unfold decimalZ, neg1, zlen. destruct (0 <=? z)%Z eqn:E.
  - replace (z <? 0)%Z with false by lia. replace (Z.abs z) with z by lia. lia.
  - replace (z <? 0)%Z with true by lia. replace (Z.abs z) with (- z)%Z by lia. cbn [length]. lia.
Qed.

Lemma magnitude_ok : forall bits z, (0 < bits)%Z -> (- 2 ^ (bits - 1) < z)%Z -> magnitude bits z = Ok (Z.to_N (Z.abs z)).
Proof.
  intros bits z B H. unfold magnitude, negated. destruct (0 <=? z)%Z eqn:E.
  - do 2 f_equal. lia.
  - replace (z =? - 2 ^ (bits - 1))%Z with false by lia. do 2 f_equal. lia.
Qed.

Lemma count_digits_i32_ok : forall delta z, (- 2 ^ 31 < z < 2 ^ 31)%Z ->
  count_digits_i32 delta z = Ok (zlen (decimalZ z) - delta)%Z.
Proof.
  intros delta z H. unfold count_digits_i32. rewrite magnitude_ok by (cbn; lia). cbn [rbind].
  rewrite count_digits_u32_ok.
  - cbn [rbind]. rewrite decimalZ_length. f_equal. lia.
  - change (2 ^ 32) with 4294967296. change (2 ^ 31)%Z with 2147483648%Z in H. lia.
Qed.

Lemma count_digits_i64_ok : forall delta z, (- 2 ^ 63 < z < 2 ^ 63)%Z ->
  count_digits_i64 delta z = Ok (zlen (decimalZ z) - delta)%Z.
Proof.
  intros delta z H. unfold count_digits_i64. rewrite magnitude_ok by (cbn; lia). cbn [rbind].
  rewrite count_digits_u64_ok.
  - cbn [rbind]. rewrite decimalZ_length. f_equal. lia.
  - change (2 ^ 64) with 18446744073709551616. change (2 ^ 63)%Z with 9223372036854775808%Z in H. lia.
Qed.

Lemma count_digits_i8_ok : forall delta z, (- 2 ^ 7 <= z < 2 ^ 7)%Z ->
  count_digits_i8 delta z = (zlen (decimalZ z) - delta)%Z.
Proof.
  intros delta z H. change (2 ^ 7)%Z with 128%Z in H. unfold count_digits_i8.
  rewrite N.mod_small by (change (2 ^ 8) with 256; lia). rewrite count_small by lia.
  rewrite decimalZ_length. lia.
Qed.

(** * Writing the digits *)

Lemma zlen_app : forall A (a b : list A), zlen (a ++ b) = (zlen a + zlen b)%Z.
Proof. intros. unfold zlen. rewrite app_length. lia. Qed.

Lemma upd_app : forall A (a b : list A) x y, upd (a ++ x :: b) (length a) y = a ++ y :: b.
Proof. induction a as [|c a IH]; intros; cbn [app length upd]; [reflexivity|]. rewrite IH. reflexivity. Qed.

Lemma poke_app : forall csz (a b : buffer) x n i, i = zlen a ->
  poke csz (a ++ x :: b) i n = Ok (a ++ Some (chr0 csz n) :: b).
Proof.
  intros csz a b x n i ->. unfold poke, zlen.
  replace ((0 <=? Z.of_nat (length a))%Z && (Z.of_nat (length a) <? Z.of_nat (length (a ++ x :: b)))%Z)
    with true by (rewrite app_length; cbn [length]; lia).
  rewrite Nat2Z.id, upd_app. reflexivity.
Qed.

Lemma chr0_digit : forall csz n, 0 < csz -> n < 10 -> chr0 csz n = 48 + n.
Proof.
  intros csz n C H. unfold chr0.
  assert (256 <= 2 ^ (8 * csz)) as B.
  { change 256 with (2 ^ 8). apply N.pow_le_mono_r; lia. }
  rewrite (N.mod_small n) by lia. rewrite N.mod_small by lia. lia.
Qed.

Lemma mod10 : forall n, n mod 10 < 10.
Proof. intros. apply N.mod_lt. discriminate. Qed.

Lemma snoc_length : forall (m : buffer) k, length m = S k -> exists m' x, m = m' ++ [x] /\ length m' = k.
Proof.
  intros m k. destruct m as [|x m _] using rev_ind; intros L; [discriminate|].
  exists m, x. split; [reflexivity|]. rewrite app_length in L. cbn [length] in L. lia.
Qed.

Lemma last_digit : forall n, 10 <= n -> length (decimal n) = S (length (decimal (n / 10))).
Proof. intros. rewrite decimal_step by assumption. rewrite app_length. cbn [length]. lia. Qed.

Lemma fall_step : forall csz k u b last, fall csz (S (S k)) u b last =
  rbind (poke csz b last (u mod 10)) (fun b1 => fall csz (S k) (u / 10) b1 (last - 1)).
Proof. reflexivity. Qed.

Lemma fall_ok : forall csz, 0 < csz -> forall u pre mid post last,
  length mid = length (decimal u) -> last = (zlen pre + zlen mid - 1)%Z ->
  fall csz (length (decimal u)) u (pre ++ mid ++ post) last
  = Ok (pre ++ map Some (decimal u) ++ post, zlen pre).
Proof.
  intros csz C u. induction u as [u L|u L IH] using decimal_ind; intros pre mid post last Lm Ll.
  - rewrite decimal_small in * by exact L. destruct mid as [|x [|]]; try discriminate.
    cbn [length fall map app]. assert (last = zlen pre) as -> by (unfold zlen in *; cbn [length] in *; lia).
    rewrite poke_app by reflexivity. cbn [rbind]. rewrite chr0_digit by assumption. reflexivity.
  - rewrite last_digit in * by exact L. destruct (snoc_length _ _ Lm) as (m' & x & -> & Lm').
    rewrite <- app_assoc. cbn [app].
    destruct (length (decimal (u / 10))) as [|k] eqn:Ek.
    { destruct (decimal (u / 10)) eqn:Ed; [exfalso; apply (decimal_nil (u / 10)); exact Ed|discriminate]. }
    rewrite fall_step. rewrite app_assoc. rewrite poke_app.
    + cbn [rbind]. rewrite chr0_digit by (assumption || apply mod10).
      rewrite <- app_assoc.
      rewrite (IH pre m' (Some (48 + u mod 10) :: post)).
      * rewrite (decimal_step u) by exact L. rewrite map_app. cbn [map]. rewrite <- app_assoc. reflexivity.
      * lia.
      * subst last. rewrite zlen_app. unfold zlen. cbn [length]. lia.
    + subst last. rewrite !zlen_app. unfold zlen. cbn [length]. lia.
Qed.

Lemma two_digits_step : forall fuel csz u b last, two_digits (S fuel) csz u b last =
  if 100 <=? u then
    rbind (poke csz b last (u mod 10)) (fun b1 =>
    rbind (poke csz b1 (last - 1) (u / 10 mod 10)) (fun b2 =>
    two_digits fuel csz (u / 10 / 10) b2 (last - 2)))
  else Ok (u, b, last).
Proof. reflexivity. Qed.

Lemma two_digits_ok : forall csz, 0 < csz -> forall fuel u pre mid post last,
  u < 100 ^ (N.of_nat fuel + 1) -> length mid = length (decimal u) -> last = (zlen pre + zlen mid - 1)%Z ->
  exists u1 mid1 t, u1 < 100 /\ decimal u = decimal u1 ++ t /\ length mid1 = length (decimal u1) /\
    two_digits fuel csz u (pre ++ mid ++ post) last
    = Ok (u1, pre ++ mid1 ++ map Some t ++ post, (zlen pre + zlen mid1 - 1)%Z).
Proof.
  intros csz C. induction fuel as [|fuel IH]; intros u pre mid post last U Lm Ll.
  - change (100 ^ (N.of_nat 0 + 1)) with 100 in U. exists u, mid, []. split; [exact U|].
    split; [rewrite app_nil_r; reflexivity|]. split; [exact Lm|].
    cbn [two_digits]. replace (100 <=? u) with false by lia. subst last. reflexivity.
  - rewrite two_digits_step. destruct (100 <=? u) eqn:E.
    2:{ exists u, mid, []. split; [lia|].
        split; [rewrite app_nil_r; reflexivity|]. split; [exact Lm|]. subst last. reflexivity. }
    assert (10 <= u) as L1 by lia.
    assert (10 <= u / 10) as L2 by (apply N.div_le_lower_bound; lia).
    rewrite last_digit in Lm by exact L1. rewrite last_digit in Lm by exact L2.
    destruct (snoc_length _ _ Lm) as (m1 & x & -> & Lm1).
    destruct (snoc_length _ _ Lm1) as (m2 & y & -> & Lm2).
    rewrite <- !app_assoc. cbn [app].
    replace (pre ++ m2 ++ y :: x :: post) with ((pre ++ m2 ++ [y]) ++ x :: post)
      by (rewrite <- !app_assoc; reflexivity).
    rewrite poke_app by (subst last; rewrite !zlen_app; unfold zlen; cbn [length]; lia).
    cbn [rbind]. rewrite chr0_digit by (assumption || apply mod10).
    replace ((pre ++ m2 ++ [y]) ++ Some (48 + u mod 10) :: post)
      with ((pre ++ m2) ++ y :: Some (48 + u mod 10) :: post) by (rewrite <- !app_assoc; reflexivity).
    rewrite poke_app by (subst last; rewrite !zlen_app; unfold zlen; cbn [length]; lia).
    cbn [rbind]. rewrite chr0_digit by (assumption || apply mod10).
    rewrite <- app_assoc.
    destruct (IH (u / 10 / 10) pre m2 (Some (48 + u / 10 mod 10) :: Some (48 + u mod 10) :: post) (last - 2)%Z)
      as (u1 & mid1 & t & H1 & H2 & H3 & H4).
    + rewrite N.div_div by lia. apply N.div_lt_upper_bound; [lia|].
      replace (N.of_nat (S fuel) + 1) with (N.succ (N.of_nat fuel + 1)) in U by lia.
      rewrite N.pow_succ_r' in U. exact U.
    + exact Lm2.
    + subst last. rewrite !zlen_app. unfold zlen. cbn [length]. lia.
    + exists u1, mid1, (t ++ [48 + u / 10 mod 10; 48 + u mod 10]).
      split; [exact H1|]. split.
      { rewrite (decimal_step u) by exact L1. rewrite (decimal_step (u / 10)) by exact L2. rewrite H2.
        rewrite <- !app_assoc. reflexivity. }
      split; [exact H3|]. rewrite H4. rewrite map_app. cbn [map]. rewrite <- app_assoc. reflexivity.
Qed.

Lemma all_digits_ok : forall csz, 0 < csz -> forall u pre mid post last,
  u < 2 ^ 64 -> length mid = length (decimal u) -> last = (zlen pre + zlen mid - 1)%Z ->
  all_digits csz u (pre ++ mid ++ post) last = Ok (pre ++ map Some (decimal u) ++ post, zlen pre).
Proof.
  intros csz C u pre mid post last U Lm Ll. unfold all_digits.
  destruct (two_digits_ok csz C 64 u pre mid post last) as (u1 & mid1 & t & H1 & H2 & H3 & H4).
  - eapply N.lt_trans; [exact U|]. vm_compute. reflexivity.
  - exact Lm.
  - exact Ll.
  - rewrite H4. cbn [rbind]. destruct (10 <=? u1) eqn:E.
    + assert (u1 / 10 < 10) as D by (apply N.div_lt_upper_bound; lia).
      rewrite last_digit in H3 by lia. rewrite (decimal_small (u1 / 10)) in H3 by exact D.
      destruct mid1 as [|y [|x [|]]]; try discriminate.
      replace (pre ++ [y; x] ++ map Some t ++ post) with ((pre ++ [y]) ++ x :: map Some t ++ post)
        by (rewrite <- app_assoc; reflexivity).
      rewrite poke_app by (rewrite zlen_app; unfold zlen; cbn [length]; lia).
      cbn [rbind]. rewrite <- app_assoc. cbn [app].
      replace (zlen pre + zlen [y; x] - 1 - 1)%Z with (zlen pre) by (unfold zlen; cbn [length]; lia).
      rewrite poke_app by reflexivity. cbn [rbind].
      rewrite !chr0_digit by (assumption || apply mod10).
      rewrite H2, (decimal_step u1) by lia. rewrite (decimal_small (u1 / 10)) by exact D.
      rewrite !map_app. cbn [map app]. reflexivity.
    + rewrite decimal_small in H3 by lia. destruct mid1 as [|y [|]]; try discriminate.
      cbn [rbind]. replace (zlen pre + zlen [y] - 1)%Z with (zlen pre) by (unfold zlen; cbn [length]; lia).
      cbn [app]. rewrite poke_app by reflexivity. cbn [rbind].
      rewrite chr0_digit by (assumption || lia). rewrite H2, (decimal_small u1) by lia.
      rewrite map_app. cbn [map app]. reflexivity.
Qed.

Lemma written_some : forall s, written (map Some s) = Ok s.
Proof. induction s as [|c s IH]; cbn [map written]; [reflexivity|]. rewrite IH. reflexivity. Qed.

(** The first [k] of the characters that were written. *)
Lemma append_range_ok : forall str (pre : buffer) s post k last, (k <= length s)%nat ->
  last = (zlen pre + Z.of_nat k)%Z ->
  append_range str (pre ++ map Some s ++ post) (zlen pre) last = Ok (str ++ firstn k s).
Proof.
  intros str pre s post k last K ->. unfold append_range.
  replace ((0 <=? zlen pre)%Z && (zlen pre <=? zlen pre + Z.of_nat k)%Z &&
    (zlen pre + Z.of_nat k <=? Z.of_nat (length (pre ++ map Some s ++ post)))%Z) with true
    by (unfold zlen; rewrite !app_length, map_length; lia).
  replace (Z.to_nat (zlen pre + Z.of_nat k - zlen pre)) with k by lia.
  unfold zlen. rewrite Nat2Z.id. rewrite skipn_app, skipn_all, Nat.sub_diag. cbn [skipn app].
  rewrite firstn_app, map_length. replace (k - length s)%nat with 0%nat by lia.
  cbn [firstn]. rewrite app_nil_r, firstn_map, written_some. reflexivity.
Qed.

Lemma append_range_bad : forall str (b : buffer) first last, (last < first)%Z ->
  append_range str b first last = Err EUndef.
Proof.
  intros. unfold append_range. replace (first <=? last)%Z with false by lia.
  rewrite andb_false_r. reflexivity.
Qed.

Lemma repeat_split : forall A (x : A) a b c n, (a + b + c = n)%nat ->
  repeat x n = repeat x a ++ repeat x b ++ repeat x c.
Proof. intros. subst n. rewrite !repeat_app, <- app_assoc. reflexivity. Qed.

Lemma digits_u32 : forall u, u < 2 ^ 32 -> (1 <= length (decimal u) <= 10)%nat.
Proof.
  intros u H. pose proof (numeral_bounds _ _ (decimal_numeral u)) as [_ B].
  pose proof (decimal_nil u). destruct (decimal u) as [|c s] eqn:E; [congruence|]. split; [cbn [length]; lia|].
  destruct (Nat.eq_dec (length (c :: s)) 1) as [L|L]; [lia|]. specialize (B L).
  assert (N.of_nat (length (c :: s) - 1) < 10); [|lia].
  apply pow10_lt. change (10 ^ 10) with 10000000000. change (2 ^ 32) with 4294967296 in H. lia.
Qed.

Lemma digits_u64 : forall u, u < 2 ^ 64 -> (1 <= length (decimal u) <= 20)%nat.
Proof.
  intros u H. pose proof (numeral_bounds _ _ (decimal_numeral u)) as [_ B].
  pose proof (decimal_nil u). destruct (decimal u) as [|c s] eqn:E; [congruence|]. split; [cbn [length]; lia|].
  destruct (Nat.eq_dec (length (c :: s)) 1) as [L|L]; [lia|]. specialize (B L).
  assert (N.of_nat (length (c :: s) - 1) < 20); [|lia].
  apply pow10_lt. change (10 ^ 20) with 100000000000000000000.
  change (2 ^ 64) with 18446744073709551616 in H. lia.
Qed.

Lemma zsize_small : forall n, (0 <= n < 2 ^ 64)%Z -> zsize n = Z.to_N n.
Proof. intros n H. unfold zsize. rewrite Z.mod_small by exact H. reflexivity. Qed.

Lemma zlen_repeat : forall A (x : A) n, zlen (repeat x n) = Z.of_nat n.
Proof. intros. unfold zlen. rewrite repeat_length. reflexivity. Qed.

Lemma itoa_u32_ok : forall str u, u < 2 ^ 32 ->
  itoa_u32 1 str u = Ok (str ++ decimal u, N.of_nat (length (decimal u))).
Proof.
  intros str u H. pose proof (digits_u32 u H) as D. unfold itoa_u32. cbv zeta.
  rewrite (repeat_split _ None (11 - length (decimal u)) (length (decimal u)) 5 16) by lia.
  rewrite all_digits_ok.
  - cbn [rbind]. rewrite (append_range_ok _ _ _ _ (length (decimal u))).
    + cbn [rbind]. rewrite firstn_all. do 2 f_equal. rewrite zlen_repeat.
      change (16 * Z.of_N 1 - 5)%Z with 11%Z. rewrite zsize_small by lia. lia.
    + lia.
    + rewrite zlen_repeat. change (16 * Z.of_N 1 - 5)%Z with 11%Z. lia.
  - lia.
  - eapply N.lt_trans; [exact H|reflexivity].
  - rewrite repeat_length. reflexivity.
  - rewrite !zlen_repeat. change (16 * Z.of_N 1 - 6)%Z with 10%Z. lia.
Qed.

Lemma itoa_u64_exact : forall str u, u < 2 ^ 64 ->
  itoa_u64 1 str u =
  if (length (decimal u) <? 2)%nat then Err EUndef
  else Ok (str ++ firstn (length (decimal u) - 2) (decimal u), N.of_nat (length (decimal u) - 2)).
Proof.
  intros str u H. pose proof (digits_u64 u H) as D. unfold itoa_u64. cbv zeta.
  rewrite (repeat_split _ None (20 - length (decimal u)) (length (decimal u)) 12 32) by lia.
  rewrite all_digits_ok.
  - cbn [rbind]. change (32 * Z.of_N 1 - 14)%Z with 18%Z.
    destruct (length (decimal u) <? 2)%nat eqn:E.
    + apply Nat.ltb_lt in E. rewrite append_range_bad; [reflexivity|]. rewrite zlen_repeat. lia.
    + apply Nat.ltb_ge in E. rewrite (append_range_ok _ _ _ _ (length (decimal u) - 2)).
      * cbn [rbind]. do 2 f_equal. rewrite zlen_repeat, zsize_small by lia. lia.
      * lia.
      * rewrite zlen_repeat. lia.
  - lia.
  - exact H.
  - rewrite repeat_length. reflexivity.
  - rewrite !zlen_repeat. change (32 * Z.of_N 1 - 13)%Z with 19%Z. lia.
Qed.

Lemma negated_ok : forall bits z, (- 2 ^ (bits - 1) < z)%Z -> negated bits z = Ok (Z.to_N (- z)).
Proof. intros bits z H. unfold negated. replace (z =? - 2 ^ (bits - 1))%Z with false by lia. reflexivity. Qed.

Lemma wadd_small : forall x y, x + y < 2 ^ 64 -> wadd x y = x + y.
Proof. intros x y H. unfold wadd, w64. apply N.mod_small. exact H. Qed.

Lemma itoa_i32_ok : forall str z, (- 2 ^ 31 < z < 2 ^ 31)%Z ->
  itoa_i32 1 str z = Ok (str ++ decimalZ z, N.of_nat (length (decimalZ z))).
Proof.
  intros str z H. change (2 ^ 31)%Z with 2147483648%Z in H. unfold itoa_i32, decimalZ.
  destruct (0 <=? z)%Z eqn:E.
  - apply itoa_u32_ok. change (2 ^ 32) with 4294967296. lia.
  - rewrite negated_ok by (change (- 2 ^ (32 - 1))%Z with (-2147483648)%Z; lia). cbn [rbind].
    assert (Z.to_N (- z) < 2 ^ 32) as B by (change (2 ^ 32) with 4294967296; lia).
    rewrite itoa_u32_ok by exact B. cbn [rbind]. pose proof (digits_u32 _ B) as D.
    rewrite wadd_small by (change (2 ^ 64) with 18446744073709551616; lia).
    rewrite <- app_assoc. cbn [app length]. do 2 f_equal. lia.
Qed.

(** A wide character: the first digit is already outside the array. *)
Lemma poke_out : forall csz b i n, (Z.of_nat (length b) <= i)%Z -> poke csz b i n = Err EUndef.
Proof.
  intros. unfold poke. replace (i <? Z.of_nat (length b))%Z with false by lia.
  rewrite andb_false_r. reflexivity.
Qed.

Lemma all_digits_out : forall csz u b last, (Z.of_nat (length b) <= last)%Z ->
  all_digits csz u b last = Err EUndef.
Proof.
  intros csz u b last H. unfold all_digits. change (two_digits 64) with (two_digits (S 63)).
  rewrite two_digits_step. destruct (100 <=? u) eqn:E1.
  - rewrite poke_out by exact H. reflexivity.
  - cbn [rbind]. destruct (10 <=? u); cbn [rbind]; rewrite poke_out by exact H; reflexivity.
Qed.

Lemma itoa_wide : forall csz str u, 2 <= csz ->
  itoa_u32 csz str u = Err EUndef /\ itoa_u64 csz str u = Err EUndef.
Proof.
  intros csz str u C. unfold itoa_u32, itoa_u64. cbv zeta.
  split; rewrite all_digits_out by (rewrite repeat_length; lia); reflexivity.
Qed.

(** With the number of digits given. *)
Lemma itoad_u32_ok : forall str u, u < 2 ^ 32 ->
  itoad_u32 1 str u (N.of_nat (length (decimal u))) = Ret (str ++ decimal u) (N.of_nat (length (decimal u))).
Proof.
  intros str u H. pose proof (digits_u32 u H) as D. unfold itoad_u32. cbv zeta.
  replace ((N.of_nat (length (decimal u)) =? 0) || (10 <? N.of_nat (length (decimal u)))) with false by lia.
  rewrite Nat2N.id.
  rewrite (repeat_split _ None (11 - length (decimal u)) (length (decimal u)) 5 16) by lia.
  rewrite fall_ok.
  - cbn [rbind]. rewrite (append_range_ok _ _ _ _ (length (decimal u))).
    + cbn [rbind lift]. rewrite firstn_all. reflexivity.
    + lia.
    + rewrite zlen_repeat. change (16 * Z.of_N 1 - 5)%Z with 11%Z. lia.
  - lia.
  - rewrite repeat_length. reflexivity.
  - rewrite !zlen_repeat. change (16 * Z.of_N 1 - 6)%Z with 10%Z. lia.
Qed.

Lemma itoad_u64_exact : forall str u, u < 2 ^ 64 ->
  itoad_u64 1 str u (N.of_nat (length (decimal u))) =
  if (length (decimal u) <? 2)%nat then Fail EUndef
  else if (19 <? length (decimal u))%nat then Throw str
  else Ret (str ++ firstn (length (decimal u) - 2) (decimal u)) (N.of_nat (length (decimal u))).
Proof.
  intros str u H. pose proof (digits_u64 u H) as D. unfold itoad_u64. cbv zeta.
  destruct (19 <? length (decimal u))%nat eqn:E19.
  - apply Nat.ltb_lt in E19.
    replace ((N.of_nat (length (decimal u)) =? 0) || (19 <? N.of_nat (length (decimal u)))) with true by lia.
    replace (length (decimal u) <? 2)%nat with false by lia. reflexivity.
  - apply Nat.ltb_ge in E19.
    replace ((N.of_nat (length (decimal u)) =? 0) || (19 <? N.of_nat (length (decimal u)))) with false by lia.
    rewrite Nat2N.id.
    rewrite (repeat_split _ None (20 - length (decimal u)) (length (decimal u)) 12 32) by lia.
    rewrite fall_ok.
    + cbn [rbind]. change (32 * Z.of_N 1 - 14)%Z with 18%Z.
      destruct (length (decimal u) <? 2)%nat eqn:E.
      * apply Nat.ltb_lt in E. rewrite append_range_bad; [reflexivity|]. rewrite zlen_repeat. lia.
      * apply Nat.ltb_ge in E. rewrite (append_range_ok _ _ _ _ (length (decimal u) - 2)); [reflexivity|lia|].
        rewrite zlen_repeat. lia.
    + lia.
    + rewrite repeat_length. reflexivity.
    + rewrite !zlen_repeat. change (32 * Z.of_N 1 - 13)%Z with 19%Z. lia.
Qed.

Lemma itoad_i32_ok : forall str z, (- 2 ^ 31 < z < 2 ^ 31)%Z ->
  itoad_i32 1 str z (N.of_nat (length (decimalZ z))) = Ret (str ++ decimalZ z) (N.of_nat (length (decimalZ z))).
Proof.
  intros str z H. change (2 ^ 31)%Z with 2147483648%Z in H. unfold itoad_i32, decimalZ.
  destruct (0 <=? z)%Z eqn:E.
  - apply itoad_u32_ok. change (2 ^ 32) with 4294967296. lia.
  - rewrite negated_ok by (change (- 2 ^ (32 - 1))%Z with (-2147483648)%Z; lia).
    assert (Z.to_N (- z) < 2 ^ 32) as B by (change (2 ^ 32) with 4294967296; lia).
    pose proof (digits_u32 _ B) as D. cbn [length].
    replace (wsub (N.of_nat (S (length (decimal (Z.to_N (- z)))))) 1)
      with (N.of_nat (length (decimal (Z.to_N (- z))))).
    2:{ unfold wsub. replace (two64 - w64 1) with 18446744073709551615 by reflexivity.
        unfold w64. change two64 with 18446744073709551616.
        replace (N.of_nat (S (length (decimal (Z.to_N (- z))))) + 18446744073709551615)
          with (N.of_nat (length (decimal (Z.to_N (- z)))) + 1 * 18446744073709551616) by lia.
        rewrite N.mod_add by lia. rewrite N.mod_small by lia. reflexivity. }
    rewrite itoad_u32_ok by exact B. cbn [obind]. rewrite <- app_assoc. reflexivity.
Qed.

(** On a view: the digits replace what the view points to. *)
Lemma w_store_in : forall a b x c d s i, i = zlen a ->
  w_store (W (a ++ x :: b) d s) i c = Ok (W (a ++ c :: b) d s).
Proof.
  intros a b x c d s i ->. unfold w_store. cbn [w_mem w_data w_size].
  replace ((0 <=? zlen a)%Z && (zlen a <? Z.of_nat (length (a ++ x :: b)))%Z) with true
    by (unfold zlen; rewrite app_length; cbn [length]; lia).
  unfold zlen. rewrite Nat2Z.id, upd_app. reflexivity.
Qed.

Lemma w_fall_step : forall csz k u w last, w_fall csz (S (S k)) u w last =
  rbind (w_store w last (chr0 csz (u mod 10))) (fun w1 => w_fall csz (S k) (u / 10) w1 (last - 1)).
Proof. reflexivity. Qed.

Lemma w_fall_ok : forall csz, 0 < csz -> forall u pre mid post d s last,
  length mid = length (decimal u) -> last = (zlen pre + zlen mid - 1)%Z ->
  w_fall csz (length (decimal u)) u (W (pre ++ mid ++ post) d s) last
  = Ok (W (pre ++ decimal u ++ post) d s).
Proof.
  intros csz C u. induction u as [u L|u L IH] using decimal_ind; intros pre mid post d s last Lm Ll.
  - rewrite decimal_small in * by exact L. destruct mid as [|x [|]]; try discriminate.
    cbn [length w_fall app]. assert (last = zlen pre) as -> by (unfold zlen in *; cbn [length] in *; lia).
    rewrite w_store_in by reflexivity. rewrite chr0_digit by assumption. reflexivity.
  - rewrite last_digit in * by exact L.
    destruct mid as [|x mid _] using rev_ind; [discriminate|].
    assert (length mid = length (decimal (u / 10))) as Lm'
      by (rewrite app_length in Lm; cbn [length] in Lm; lia).
    rewrite <- app_assoc. cbn [app].
    destruct (length (decimal (u / 10))) as [|k] eqn:Ek.
    { destruct (decimal (u / 10)) eqn:Ed; [exfalso; apply (decimal_nil (u / 10)); exact Ed|discriminate]. }
    rewrite w_fall_step. rewrite app_assoc. rewrite w_store_in.
    + cbn [rbind]. rewrite chr0_digit by (assumption || apply mod10).
      rewrite <- app_assoc.
      rewrite (IH pre mid ((48 + u mod 10) :: post)).
      * rewrite (decimal_step u) by exact L. rewrite <- app_assoc. reflexivity.
      * lia.
      * subst last. rewrite zlen_app. unfold zlen. cbn [length]. lia.
    + subst last. rewrite !zlen_app. unfold zlen. cbn [length]. lia.
Qed.

Lemma itoav_u_ok : forall most csz u pre mid post s, 0 < csz ->
  length mid = length (decimal u) -> N.of_nat (length (decimal u)) <= most ->
  itoav_u most csz (W (pre ++ mid ++ post) (N.of_nat (length pre)) s) u (N.of_nat (length (decimal u)))
  = Ret (W (pre ++ decimal u ++ post) (N.of_nat (length (pre ++ decimal u))) s) (N.of_nat (length (decimal u))).
Proof.
  intros most csz u pre mid post s C Lm M. unfold itoav_u. cbn [w_data].
  assert (length (decimal u) <> 0%nat) as NZ.
  { intros Z. apply (decimal_nil u). destruct (decimal u); [reflexivity|discriminate]. }
  replace ((N.of_nat (length (decimal u)) =? 0) || (most <? N.of_nat (length (decimal u)))) with false by lia.
  rewrite Nat2N.id. rewrite w_fall_ok.
  - unfold w_commit. cbn [rbind wlift w_mem w_data w_size]. rewrite app_length, Nat2N.inj_add. reflexivity.
  - exact C.
  - exact Lm.
  - unfold zlen. lia.
Qed.
