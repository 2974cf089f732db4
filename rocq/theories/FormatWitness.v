(** The statements of PropertiesFormat.v about the formatter, and their counterexamples. *)
From Coq Require Import NArith ZArith List Bool Lia ZifyBool ZifyNat ZifyN.
From Verif Require Import Base BitsModel FormatModel FormatSpec FormatFacts FormatPrint.
Import ListNotations.
Open Scope N_scope.

Lemma log10_both : forall v,
  (v < 2 ^ 32 -> exists e, jm_log10_u32 v = Ok e /\ (v = 0 -> e = 0) /\ (0 < v -> 10 ^ e <= v < 10 ^ (e + 1))) /\
  (v < 2 ^ 64 -> exists e, jm_log10_u64 v = Ok e /\ (v = 0 -> e = 0) /\ (0 < v -> 10 ^ e <= v < 10 ^ (e + 1))).
Proof.
  intros v. split; intros H.
  - destruct (log10_u32_spec v H) as (e & E & _ & U & L). exists e. split; [exact E|].
    split; [intros ->; cbn in E; congruence|]. intros P. split; [|exact U].
    destruct L as [->|L]; [change (10 ^ 0) with 1; lia|exact L].
  - destruct (log10_u64_spec v H) as (e & E & _ & U & L). exists e. split; [exact E|].
    split; [intros ->; cbn in E; congruence|]. intros P. split; [|exact U].
    destruct L as [->|L]; [change (10 ^ 0) with 1; lia|exact L].
Qed.

Lemma count_unsigned : forall delta u s, numeral s u ->
  (u < 2 ^ 8 -> count_digits_u8 delta u = (Z.of_nat (length s) - delta)%Z) /\
  (u < 2 ^ 32 -> count_digits_u32 delta u = Ok (Z.of_nat (length s) - delta)%Z) /\
  (u < 2 ^ 64 -> count_digits_u64 delta u = Ok (Z.of_nat (length s) - delta)%Z) /\
  (u < 2 ^ 64 -> count_digits_u64_other delta u = (Z.of_nat (length s) - delta)%Z).
Proof.
  intros delta u s N0. apply numeral_decimal in N0. subst s. split; [|split; [|split]]; intros H.
  - apply count_small. change (2 ^ 8) with 256 in H. lia.
  - apply count_digits_u32_ok. exact H.
  - apply count_digits_u64_ok. exact H.
  - apply count_u64_other. exact H.
Qed.

Lemma count_signed : forall delta z s, numeralZ s z ->
  ((- 2 ^ 7 <= z < 2 ^ 7)%Z -> count_digits_i8 delta z = (Z.of_nat (length s) - delta)%Z) /\
  ((- 2 ^ 31 < z < 2 ^ 31)%Z -> count_digits_i32 delta z = Ok (Z.of_nat (length s) - delta)%Z) /\
  ((- 2 ^ 63 < z < 2 ^ 63)%Z -> count_digits_i64 delta z = Ok (Z.of_nat (length s) - delta)%Z).
Proof.
  intros delta z s N0. apply numeralZ_decimal in N0. subst s. split; [|split]; intros H.
  - apply count_digits_i8_ok. exact H.
  - apply count_digits_i32_ok. exact H.
  - apply count_digits_i64_ok. exact H.
Qed.

(** 1000 has four digits. *)
Lemma count_u16_wrong : exists u s, u < 2 ^ 16 /\ numeral s u /\
  count_digits_u16 0 u <> Z.of_nat (length s) /\ count_digits_i16 0 (Z.of_N u) <> Z.of_nat (length s).
Proof.
  exists 1000, (decimal 1000). split; [reflexivity|]. split; [apply decimal_numeral|].
  split; vm_compute; discriminate.
Qed.

(** The numbers of two bytes with the right count are those below 1000. *)
Lemma count_u16_exact : forall u s, u < 2 ^ 16 -> numeral s u ->
  (count_digits_u16 0 u = Z.of_nat (length s) <-> u < 1000).
Proof.
  intros u s H N0. apply numeral_decimal in N0. subst s. split.
  - intros E. destruct (N.lt_ge_cases u 1000) as [L|L]; [exact L|exfalso].
    pose proof (numeral_bounds _ _ (decimal_numeral u)) as [B _].
    assert (count_digits_u16 0 u = 3%Z) as E3.
    { unfold count_digits_u16. replace (u <? 10) with false by lia. replace (u <? 100) with false by lia.
      reflexivity. }
    assert (length (decimal u) = 3%nat) as L3 by lia. rewrite L3 in B.
    change (10 ^ N.of_nat 3) with 1000 in B. lia.
  - intros L. change count_digits_u16 with count_digits_u8. rewrite count_small by exact L. unfold zlen. lia.
Qed.

Lemma least_undefined : exists z32 z64,
  ((- 2 ^ 31 <= z32 < 2 ^ 31)%Z /\ count_digits_i32 0 z32 = Err EUndef /\ itoa_i32 1 [] z32 = Err EUndef) /\
  ((- 2 ^ 63 <= z64 < 2 ^ 63)%Z /\ count_digits_i64 0 z64 = Err EUndef).
Proof.
  exists (- 2 ^ 31)%Z, (- 2 ^ 63)%Z. split; [split; [lia|split; reflexivity]|split; [lia|reflexivity]].
Qed.

Lemma itoa32_text : forall str z s, numeralZ s z ->
  ((0 <= z < 2 ^ 32)%Z -> itoa_u32 1 str (Z.to_N z) = Ok (str ++ s, N.of_nat (length s))) /\
  ((- 2 ^ 31 < z < 2 ^ 31)%Z -> itoa_i32 1 str z = Ok (str ++ s, N.of_nat (length s))) /\
  ((0 <= z < 2 ^ 32)%Z -> itoad_u32 1 str (Z.to_N z) (N.of_nat (length s)) = Ret (str ++ s) (N.of_nat (length s))) /\
  ((- 2 ^ 31 < z < 2 ^ 31)%Z -> itoad_i32 1 str z (N.of_nat (length s)) = Ret (str ++ s) (N.of_nat (length s))).
Proof.
  intros str z s N0. apply numeralZ_decimal in N0. subst s.
  change (2 ^ 32)%Z with 4294967296%Z. change (2 ^ 31)%Z with 2147483648%Z.
  split; [|split; [|split]]; intros H.
  - rewrite decimalZ_nonneg by lia. apply itoa_u32_ok. change (2 ^ 32) with 4294967296. lia.
  - apply itoa_i32_ok. exact H.
  - rewrite decimalZ_nonneg by lia. apply itoad_u32_ok. change (2 ^ 32) with 4294967296. lia.
  - apply itoad_i32_ok. exact H.
Qed.

(** The digits on a view replace the characters that it points to, and the view is moved behind
    them. *)
Lemma itoav32_text : forall u s pre old post sz, u < 2 ^ 32 -> numeral s u -> length old = length s ->
  itoav_u32 1 (W (pre ++ old ++ post) (N.of_nat (length pre)) sz) u (N.of_nat (length s))
  = Ret (W (pre ++ s ++ post) (N.of_nat (length (pre ++ s))) sz) (N.of_nat (length s)).
Proof.
  intros u s pre old post sz H N0 L. apply numeral_decimal in N0. subst s. apply itoav_u_ok.
  - lia.
  - exact L.
  - pose proof (digits_u32 u H). lia.
Qed.

Lemma itoa_wide_undefined : exists u str, u < 2 ^ 32 /\ itoa_u32 4 str u = Err EUndef.
Proof. exists 7, []. split; reflexivity. Qed.

Lemma itoa64_exact : forall str u s, u < 2 ^ 64 -> numeral s u ->
  (length s = 1%nat -> itoa_u64 1 str u = Err EUndef /\ itoad_u64 1 str u 1 = Fail EUndef) /\
  ((2 <= length s)%nat ->
     itoa_u64 1 str u = Ok (str ++ firstn (length s - 2) s, N.of_nat (length s - 2))) /\
  ((2 <= length s <= 19)%nat ->
     itoad_u64 1 str u (N.of_nat (length s)) = Ret (str ++ firstn (length s - 2) s) (N.of_nat (length s))) /\
  (length s = 20%nat -> itoad_u64 1 str u 20 = Throw str).
Proof.
  intros str u s H N0. apply numeral_decimal in N0. subst s.
  pose proof (itoa_u64_exact str u H) as E1. pose proof (itoad_u64_exact str u H) as E2.
  split; [|split; [|split]]; intros L.
  - rewrite L in E1, E2. split; [exact E1|exact E2].
  - replace (length (decimal u) <? 2)%nat with false in E1 by lia. exact E1.
  - replace (length (decimal u) <? 2)%nat with false in E2 by lia.
    replace (19 <? length (decimal u))%nat with false in E2 by lia. exact E2.
  - rewrite L in E2. exact E2.
Qed.

(** 1234567890123 is appended as 12345678901, and 5 is outside the definition. *)
Lemma itoa64_wrong : exists u s t n, u < 2 ^ 64 /\ numeral s u /\ itoa_u64 1 [] u = Ok (t, n) /\ t <> s /\
  exists v, v < 2 ^ 64 /\ itoa_u64 1 [] v = Err EUndef.
Proof.
  exists 1234567890123, (decimal 1234567890123), (decimal 12345678901), 11.
  split; [reflexivity|]. split; [apply decimal_numeral|]. split; [vm_compute; reflexivity|].
  split; [vm_compute; discriminate|]. exists 5. split; vm_compute; reflexivity.
Qed.

(** On a view 64-bit numbers of 20 digits throw. *)
Lemma itoav64_wrong : exists u s w, u < 2 ^ 64 /\ numeral s u /\ length (w_mem w) = length s /\
  itoav_u64 1 w u (N.of_nat (length s)) = Throw w.
Proof.
  exists 10000000000000000000, (decimal 10000000000000000000), (W (repeat 0 20) 0 20).
  split; [reflexivity|]. split; [apply decimal_numeral|]. split; vm_compute; reflexivity.
Qed.

(** The hexadecimal text of a byte: two hexadecimal digits that denote it. *)
Definition hex_digit (base c v : N) : Prop := (v < 10 /\ c = 48 + v) \/ (10 <= v < 16 /\ c = base + (v - 10)).
Definition hex_text (base : N) (s : list N) (b : N) : Prop :=
  exists c1 c2 v1 v2, s = [c1; c2] /\ hex_digit base c1 v1 /\ hex_digit base c2 v2 /\ b = v1 * 16 + v2.

Lemma to_hex_exact : forall b, b < 256 ->
  (exists c, hex_digit 65 c (b mod 16) /\ to_hex b = repeat 1 (length (to_hex b) - 1) ++ [c] /\
     (49 <= length (to_hex b) <= 71)%nat) /\
  (exists c, hex_digit 97 c (b mod 16) /\ to_lower_hex b = repeat 1 (length (to_lower_hex b) - 1) ++ [c] /\
     (49 <= length (to_lower_hex b) <= 103)%nat).
Proof.
  intros b H.
  assert (b / 16 < 16) as D by (apply N.div_lt_upper_bound; lia).
  assert (b mod 16 < 16) as M by (apply N.mod_lt; discriminate).
  assert (forall base v, v < 16 -> exists c, hex_digit base c v /\ (if 10 <=? v then v - 10 + base else v + 48) = c) as HD.
  { intros base v V. eexists. split; [|reflexivity]. unfold hex_digit. destruct (10 <=? v) eqn:E; [right|left]; lia. }
  assert (forall k c, repeat 1 k ++ [c] = repeat 1 (length (repeat 1 k ++ [c]) - 1) ++ [c]) as HR.
  { intros k c. rewrite app_length, repeat_length. cbn [length]. rewrite Nat.add_sub. reflexivity. }
  unfold to_hex, to_lower_hex. split.
  - destruct (HD 65 (b mod 16) M) as (c & Hc & Ec). exists c. split; [exact Hc|]. unfold to_hex_char at 2 4 6.
    rewrite Ec. split; [apply HR|].
    rewrite !app_length, !repeat_length. unfold to_hex_char. cbn [length]. remember (b / 16) as q eqn:Q. clear - D.
    destruct (10 <=? q) eqn:E; lia.
  - destruct (HD 97 (b mod 16) M) as (c & Hc & Ec). exists c. split; [exact Hc|]. unfold to_lower_hex_char at 2 4 6.
    rewrite Ec. split; [apply HR|].
    rewrite !app_length, !repeat_length. unfold to_lower_hex_char. cbn [length]. remember (b / 16) as q eqn:Q. clear - D.
    destruct (10 <=? q) eqn:E; lia.
Qed.

Lemma to_hex_wrong : exists b, b < 256 /\ ~ hex_text 65 (to_hex b) b /\ ~ hex_text 97 (to_lower_hex b) b.
Proof.
  exists 175. split; [reflexivity|].
  split; intros (c1 & c2 & v1 & v2 & E & _); vm_compute in E; discriminate.
Qed.

(** ["%c"] prints the number of the character, ["%i"] and ["%x"] print nothing. *)
Lemma no_prepare_wrong : exists v,
  sprintf_no_prepare 1 [] (Some [37; 99]) [Arg A_small v] <> Ret [Z.to_N v] 1 /\
  sprintf_no_prepare 1 [] (Some [37; 105]) [Arg A_int v] = Ret [] 0 /\
  sprintf_no_prepare 1 [] (Some [37; 120]) [Arg A_int v] = Ret [] 0 /\
  sprintf_no_prepare 1 [] (Some [37; 99]) [Arg A_small v] = Ret [54; 53] 2.
Proof. exists 65%Z. vm_compute. split; [discriminate|]. split; [|split]; reflexivity. Qed.

(** "a%%b%d" with 7: the text ends at the first '%'.  "%d" with 4294967295 as unsigned: another
    text than that of sprintf_no_prepare.  "%d" and a new line with 42 as long. *)
Lemma direct_wrong : exists l1 l2 l3, Forall item_ok l1 /\
  (exists s n, sprintf_direct 1 [] (Some (format_of l1)) (args_of l1) = Ret s n /\ ~ prints l1 s) /\
  (exists s n, sprintf_direct 1 [] (Some (format_of l2)) (args_of l2) = Ret s n /\ ~ prints l2 s /\
     sprintf_no_prepare 1 [] (Some (format_of l2)) (args_of l2) <> Ret s n) /\
  Forall item_ok l3 /\
  (exists s n, sprintf_direct 1 [] (Some (format_of l3)) (args_of l3) = Ret s n /\ ~ prints l3 s).
Proof.
  exists [Text 97; Percent; Text 98; Dec A_int 7], [Dec A_uint 4294967295], [Dec A_long 42; Text 10].
  split; [|split; [|split; [|split]]].
  - repeat constructor; cbn; try discriminate; lia.
  - eexists _, _. split; [vm_compute; reflexivity|]. intros P. apply prints_only in P. vm_compute in P. discriminate.
  - eexists _, _. split; [vm_compute; reflexivity|]. split.
    + intros P. apply prints_only in P. vm_compute in P. discriminate.
    + vm_compute. discriminate.
  - repeat constructor; cbn; try discriminate; lia.
  - eexists _, _. split; [vm_compute; reflexivity|]. intros P. apply prints_only in P. vm_compute in P. discriminate.
Qed.

(** The length that sprintf_direct announces for a format with "%%". *)
Lemma prepare_wrong : exists l s nodes n, Forall item_ok l /\ prints l s /\
  prepare_space (args_of l) (format_of l) [] = Ok (nodes, Some n) /\ n <> N.of_nat (length s).
Proof.
  exists [Text 97; Percent; Text 98; Dec A_int 7], (shown [Text 97; Percent; Text 98; Dec A_int 7]).
  eexists _, _. split; [repeat constructor; cbn; try discriminate; lia|]. split; [apply prints_shown|].
  split; [vm_compute; reflexivity|]. vm_compute. discriminate.
Qed.

(** "n=%d\n" with 5 is undefined, "%d" throws. *)
Lemma sprintf_wrong : exists l1 l2, Forall item_plain l1 /\ Forall item_plain l2 /\
  sprintf 1 [] (Some (format_of l1)) (args_of l1) = Fail EUndef /\
  sprintf 1 [] (Some (format_of l2)) (args_of l2) = Throw (shown l2).
Proof.
  exists [Text 110; Text 61; Dec A_int 5; Text 10], [Dec A_int 5].
  split; [|split; [|split]].
  - repeat constructor; cbn; try discriminate; lia.
  - repeat constructor; cbn; try discriminate; lia.
  - vm_compute. reflexivity.
  - vm_compute. reflexivity.
Qed.

(** A specifier for another type than the argument's: 's' and 'p' for any number, 'd' and
    'u' for a floating-point number, 'f' for an integer. *)
Definition mismatch (sp : N) (t : atype) : Prop :=
  sp = 115 \/ sp = 112 \/ (sp = 100 \/ sp = 117) /\ t = A_float \/ sp = 102 /\ t <> A_float.

Lemma mismatch_not_taken sp t : mismatch sp t -> taken (spec_kind sp) t = false /\ spec_kind sp <> KUnknown /\ (sp =? pct) = false.
Proof.
  intros [-> |[-> |[[[-> | ->] ->]|[-> H]]]]; (split; [|split; [discriminate|reflexivity]]); try reflexivity.
  destruct t; auto. congruence.
Qed.

Lemma calc0_text text : Forall (fun c => c <> pct) text -> forall scan rest,
  calc0 text scan rest = Some (zsize (scan + zlen text + rest)).
Proof.
  induction 1 as [|c text H HF IH]; intros scan rest.
  - cbn [calc0 zlen length]. do 2 f_equal. unfold zlen. cbn [length]. lia.
  - cbn [calc0]. destruct (N.eqb_spec c pct); [contradiction|]. rewrite IH. do 2 f_equal.
    unfold zlen. cbn [length]. lia.
Qed.

Lemma plain0_text text : Forall (fun c => c <> pct) text -> forall str seg,
  plain0 str text seg = Ret (str ++ seg ++ text) tt.
Proof.
  induction 1 as [|c text H HF IH]; intros str seg; cbn [plain0].
  - now rewrite app_nil_r.
  - destruct (N.eqb_spec c pct); [contradiction|]. rewrite IH. now rewrite <- !app_assoc.
Qed.

(** The letter stays in the text and nothing is printed for the argument. *)
Lemma mismatch_copied : forall sp a text str, mismatch sp (a_type a) -> Forall (fun c => c <> pct) text ->
  calc_space [a] (pct :: sp :: text) = Ok (Some (N.of_nat (length (sp :: text)) mod 2 ^ 64))
  /\ sprintf_no_prepare 1 str (Some (pct :: sp :: text)) [a]
     = Ret (str ++ sp :: text) (N.of_nat (length (sp :: text)) mod 2 ^ 64).
Proof.
  intros sp a text str M HT. destruct (mismatch_not_taken _ _ M) as (MT & MU & MP).
  assert (HT' : Forall (fun c => c <> pct) (sp :: text)).
  { constructor; auto. now apply N.eqb_neq. }
  assert (HS : handle_size a (sp :: text) = Ok (CDone (sp :: text) 0)).
  { unfold handle_size. destruct (spec_kind sp); rewrite ?MT; congruence. }
  assert (HX : handle_text 1 (str ++ []) a (sp :: text) = Ok (str ++ [], CDone (sp :: text) tt)).
  { unfold handle_text. destruct (spec_kind sp); rewrite ?MT; congruence. }
  split.
  - cbn [calc_space calc1]. rewrite N.eqb_refl, MP, HS. cbn [rbind]. rewrite calc0_text by auto. do 2 f_equal.
    unfold zsize, zlen. cbn [length]. change (2 ^ 64) with 18446744073709551616.
    change (2 ^ 64)%Z with 18446744073709551616%Z. lia.
  - unfold sprintf_no_prepare. cbn [plain plain1]. rewrite N.eqb_refl, MP, HX. rewrite plain0_text by auto.
    cbn [obind]. f_equal; [now rewrite app_nil_r|]. rewrite !app_nil_r. cbn [app]. rewrite app_length.
    unfold wsub, w64, two64. cbn [length]. change (2 ^ 64) with 18446744073709551616. lia.
Qed.
