(** Properties of the formatter and the integer logarithm (FormatModel.v). *)
From Coq Require Import NArith ZArith List.
From Verif Require Import Base FormatModel FormatSpec FormatPrint FormatWitness FormatSigned.
Import ListNotations.
Open Scope N_scope.

(** C124: jm_log10_u32 and jm_log10_u64 are the integer part of the decimal logarithm. *)
Theorem c124_integer_logarithm : forall v,
  (v < 2 ^ 32 -> exists e, jm_log10_u32 v = Ok e /\ (v = 0 -> e = 0) /\ (0 < v -> 10 ^ e <= v < 10 ^ (e + 1))) /\
  (v < 2 ^ 64 -> exists e, jm_log10_u64 v = Ok e /\ (v = 0 -> e = 0) /\ (0 < v -> 10 ^ e <= v < 10 ^ (e + 1))).
Proof. exact log10_both. Qed.
Print Assumptions c124_integer_logarithm.

Example c124_example : jm_log10_u32 999999999 = Ok 8 /\ jm_log10_u32 1000000000 = Ok 9 /\
  jm_log10_u64 9999999999999999999 = Ok 18 /\ jm_log10_u64 10000000000000000000 = Ok 19.
Proof. vm_compute. repeat split. Qed.

(** C125: count_digits is the length of the decimal numeral, except for two bytes and for the
    least integers. *)
Theorem c125_digits_of_unsigned_partial : forall delta u s, numeral s u ->
  (u < 2 ^ 8 -> count_digits_u8 delta u = (Z.of_nat (length s) - delta)%Z) /\
  (u < 2 ^ 32 -> count_digits_u32 delta u = Ok (Z.of_nat (length s) - delta)%Z) /\
  (u < 2 ^ 64 -> count_digits_u64 delta u = Ok (Z.of_nat (length s) - delta)%Z) /\
  (u < 2 ^ 64 -> count_digits_u64_other delta u = (Z.of_nat (length s) - delta)%Z).
Proof. exact count_unsigned. Qed.
Print Assumptions c125_digits_of_unsigned_partial.

Theorem c125_digits_of_signed_partial : forall delta z s, numeralZ s z ->
  ((- 2 ^ 7 <= z < 2 ^ 7)%Z -> count_digits_i8 delta z = (Z.of_nat (length s) - delta)%Z) /\
  ((- 2 ^ 31 < z < 2 ^ 31)%Z -> count_digits_i32 delta z = Ok (Z.of_nat (length s) - delta)%Z) /\
  ((- 2 ^ 63 < z < 2 ^ 63)%Z -> count_digits_i64 delta z = Ok (Z.of_nat (length s) - delta)%Z).
Proof. exact count_signed. Qed.
Print Assumptions c125_digits_of_signed_partial.

Theorem c125_digits_of_booleans_partial : forall (b : bool) s, numeral s (if b then 1 else 0) ->
  count_digits_bool 0 b = Z.of_nat (length s).
Proof. exact count_bool. Qed.
Print Assumptions c125_digits_of_booleans_partial.

(** Missing above: other values of the template parameter delta. *)
Theorem c125_digits_of_booleans_refuted : exists delta (b : bool) s, numeral s (if b then 1 else 0)
  /\ count_digits_bool delta b <> (Z.of_nat (length s) - delta)%Z.
Proof. exact count_bool_delta. Qed.
Print Assumptions c125_digits_of_booleans_refuted.

Theorem c125_digits_of_addresses : forall delta u s, u < 2 ^ 64 -> numeral s u ->
  count_digits_ptr delta u = Ok (Z.of_nat (length s) + 2 - delta)%Z.
Proof. exact count_ptr. Qed.
Print Assumptions c125_digits_of_addresses.

Theorem c125_digits_of_two_bytes_refuted : exists u s, u < 2 ^ 16 /\ numeral s u /\
  count_digits_u16 0 u <> Z.of_nat (length s) /\ count_digits_i16 0 (Z.of_N u) <> Z.of_nat (length s).
Proof. exact count_u16_wrong. Qed.
Print Assumptions c125_digits_of_two_bytes_refuted.

Theorem c125_digits_of_two_bytes_exactly : forall u s, u < 2 ^ 16 -> numeral s u ->
  (count_digits_u16 0 u = Z.of_nat (length s) <-> u < 1000).
Proof. exact count_u16_exact. Qed.
Print Assumptions c125_digits_of_two_bytes_exactly.

Theorem c125_least_integers_refuted : exists z32 z64,
  ((- 2 ^ 31 <= z32 < 2 ^ 31)%Z /\ count_digits_i32 0 z32 = Err EUndef /\ itoa_i32 1 [] z32 = Err EUndef) /\
  ((- 2 ^ 63 <= z64 < 2 ^ 63)%Z /\ count_digits_i64 0 z64 = Err EUndef).
Proof. exact least_undefined. Qed.
Print Assumptions c125_least_integers_refuted.

Example c125_example : numeralZ [45; 49; 50] (-12) /\ count_digits_i32 0 (-12) = Ok 3%Z /\
  count_digits_u64 0 18446744073709551615 = Ok 20%Z.
Proof.
  split; [|split; reflexivity]. split; intros H; [exfalso; apply H; reflexivity|].
  exists [49; 50]. split; [reflexivity|]. repeat split; try discriminate; repeat constructor; discriminate.
Qed.

(** C126: itoa appends the decimal numeral of a 32-bit number. *)
Theorem c126_itoa_32_partial : forall str z s, numeralZ s z ->
  ((0 <= z < 2 ^ 32)%Z -> itoa_u32 1 str (Z.to_N z) = Ok (str ++ s, N.of_nat (length s))) /\
  ((- 2 ^ 31 < z < 2 ^ 31)%Z -> itoa_i32 1 str z = Ok (str ++ s, N.of_nat (length s))) /\
  ((0 <= z < 2 ^ 32)%Z -> itoad_u32 1 str (Z.to_N z) (N.of_nat (length s)) = Ret (str ++ s) (N.of_nat (length s))) /\
  ((- 2 ^ 31 < z < 2 ^ 31)%Z -> itoad_i32 1 str z (N.of_nat (length s)) = Ret (str ++ s) (N.of_nat (length s))).
Proof. exact itoa32_text. Qed.
Print Assumptions c126_itoa_32_partial.

Theorem c126_itoa_32_on_a_view : forall u s pre old post sz, u < 2 ^ 32 -> numeral s u -> length old = length s ->
  itoav_u32 1 (W (pre ++ old ++ post) (N.of_nat (length pre)) sz) u (N.of_nat (length s))
  = Ret (W (pre ++ s ++ post) (N.of_nat (length (pre ++ s))) sz) (N.of_nat (length s)).
Proof. exact itoav32_text. Qed.
Print Assumptions c126_itoa_32_on_a_view.

Theorem c126_wide_characters_refuted : exists u str, u < 2 ^ 32 /\ itoa_u32 4 str u = Err EUndef.
Proof. exact itoa_wide_undefined. Qed.
Print Assumptions c126_wide_characters_refuted.

Theorem c126_wide_characters_always_undefined : forall csz str u, 2 <= csz ->
  itoa_u32 csz str u = Err EUndef /\ itoa_u64 csz str u = Err EUndef.
Proof. exact FormatFacts.itoa_wide. Qed.
Print Assumptions c126_wide_characters_always_undefined.

Example c126_example : itoa_i32 1 [120] (-2147483647) = Ok ([120; 45; 50; 49; 52; 55; 52; 56; 51; 54; 52; 55], 11).
Proof. vm_compute. reflexivity. Qed.

(** C127: itoa of a 64-bit number. *)
Theorem c127_itoa_64_refuted : exists u s t n, u < 2 ^ 64 /\ numeral s u /\ itoa_u64 1 [] u = Ok (t, n) /\ t <> s /\
  exists v, v < 2 ^ 64 /\ itoa_u64 1 [] v = Err EUndef.
Proof. exact itoa64_wrong. Qed.
Print Assumptions c127_itoa_64_refuted.

Theorem c127_itoa_64_exactly : forall str u s, u < 2 ^ 64 -> numeral s u ->
  (length s = 1%nat -> itoa_u64 1 str u = Err EUndef /\ itoad_u64 1 str u 1 = Fail EUndef) /\
  ((2 <= length s)%nat ->
     itoa_u64 1 str u = Ok (str ++ firstn (length s - 2) s, N.of_nat (length s - 2))) /\
  ((2 <= length s <= 19)%nat ->
     itoad_u64 1 str u (N.of_nat (length s)) = Ret (str ++ firstn (length s - 2) s) (N.of_nat (length s))) /\
  (length s = 20%nat -> itoad_u64 1 str u 20 = Throw str).
Proof. exact itoa64_exact. Qed.
Print Assumptions c127_itoa_64_exactly.

Theorem c127_itoa_64_on_a_view_refuted : exists u s w, u < 2 ^ 64 /\ numeral s u /\ length (w_mem w) = length s /\
  itoav_u64 1 w u (N.of_nat (length s)) = Throw w.
Proof. exact itoav64_wrong. Qed.
Print Assumptions c127_itoa_64_on_a_view_refuted.

Theorem c127_itoa_signed_64_refuted : exists z s t n, (- 2 ^ 63 < z < 2 ^ 63)%Z /\ numeralZ s z /\
  itoa_i64 1 [] z = Ok (t, n) /\ t <> s /\ n <> N.of_nat (length s).
Proof. exact itoa_i64_wrong. Qed.
Print Assumptions c127_itoa_signed_64_refuted.

(** The sign is kept, the last two digits are lost. *)
Theorem c127_itoa_signed_64_exactly : forall str z s, (- 2 ^ 63 < z < 2 ^ 63)%Z -> numeral s (Z.abs_N z) ->
  let sign := if (z <? 0)%Z then [45] else [] in
  (length s = 1%nat -> itoa_i64 1 str z = Err EUndef) /\
  ((2 <= length s)%nat -> itoa_i64 1 str z =
     Ok (str ++ sign ++ firstn (length s - 2) s, N.of_nat (length sign + (length s - 2)))).
Proof. exact itoa_i64_exact. Qed.
Print Assumptions c127_itoa_signed_64_exactly.

Theorem c127_itoa_of_the_least_number : forall str, itoa_i64 1 str (- 2 ^ 63) = Err EUndef.
Proof. exact itoa_i64_least. Qed.
Print Assumptions c127_itoa_of_the_least_number.

(** Arguments that no overload takes are question marks. *)
Theorem c127_itoa_of_other_arguments : forall str,
  exists t, itoa_any str = (str ++ t, N.of_nat (length t)) /\ t <> [] /\ forall c, In c t -> c = 63.
Proof. exact itoa_any_text. Qed.
Print Assumptions c127_itoa_of_other_arguments.

Example c127_example : itoa_u64 1 [] 18446744073709551615 =
  Ok ([49; 56; 52; 52; 54; 55; 52; 52; 48; 55; 51; 55; 48; 57; 53; 53; 49; 54], 18).
Proof. vm_compute. reflexivity. Qed.

(** C128: to_hex is the hexadecimal text of a byte. *)
Theorem c128_hexadecimal_text_refuted : exists b, b < 256 /\
  ~ hex_text 65 (to_hex b) b /\ ~ hex_text 97 (to_lower_hex b) b.
Proof. exact to_hex_wrong. Qed.
Print Assumptions c128_hexadecimal_text_refuted.

Theorem c128_hexadecimal_text_exactly : forall b, b < 256 ->
  (exists c, hex_digit 65 c (b mod 16) /\ to_hex b = repeat 1 (length (to_hex b) - 1) ++ [c] /\
     (49 <= length (to_hex b) <= 71)%nat) /\
  (exists c, hex_digit 97 c (b mod 16) /\ to_lower_hex b = repeat 1 (length (to_lower_hex b) - 1) ++ [c] /\
     (49 <= length (to_lower_hex b) <= 103)%nat).
Proof. exact to_hex_exact. Qed.
Print Assumptions c128_hexadecimal_text_exactly.

Example c128_example : to_hex 10 = repeat 1 48 ++ [65] /\ hex_text 65 [48; 65] 10.
Proof.
  split; [vm_compute; reflexivity|]. exists 48, 65, 0, 10. split; [reflexivity|].
  split; [left; split; reflexivity|]. split; [right; split; [split; [discriminate|reflexivity]|reflexivity]|reflexivity].
Qed.

(** C129: sprintf_no_prepare appends what printf prints. *)
Theorem c129_sprintf_no_prepare_partial : forall l extra str s, Forall item_ok l -> prints l s ->
  sprintf_no_prepare 1 str (Some (format_of l)) (args_of l ++ extra)
  = Ret (str ++ s) (N.of_nat (length s) mod 2 ^ 64).
Proof. exact no_prepare_ok. Qed.
Print Assumptions c129_sprintf_no_prepare_partial.

Theorem c129_other_specifiers_refuted : exists v,
  sprintf_no_prepare 1 [] (Some [37; 99]) [Arg A_small v] <> Ret [Z.to_N v] 1 /\
  sprintf_no_prepare 1 [] (Some [37; 105]) [Arg A_int v] = Ret [] 0 /\
  sprintf_no_prepare 1 [] (Some [37; 120]) [Arg A_int v] = Ret [] 0 /\
  sprintf_no_prepare 1 [] (Some [37; 99]) [Arg A_small v] = Ret [54; 53] 2.
Proof. exact no_prepare_wrong. Qed.
Print Assumptions c129_other_specifiers_refuted.

Example c129_example : Forall item_ok [Text 97; Percent; Dec A_long (-30); Text 47; Uns A_uint 4294967295] /\
  sprintf_no_prepare 1 [33] (Some (format_of [Text 97; Percent; Dec A_long (-30); Text 47; Uns A_uint 4294967295]))
    (args_of [Text 97; Percent; Dec A_long (-30); Text 47; Uns A_uint 4294967295])
  = Ret [33; 97; 37; 45; 51; 48; 47; 52; 50; 57; 52; 57; 54; 55; 50; 57; 53] 16.
Proof.
  split; [|vm_compute; reflexivity].
  repeat constructor; try discriminate; cbn [item_ok]; vm_compute; reflexivity.
Qed.

(** C130: sprintf_calc_space is the length of the text, and sprintf_direct appends it. *)
Theorem c130_sprintf_calc_space : forall l extra s, Forall item_ok l -> prints l s ->
  calc_space (args_of l ++ extra) (format_of l) = Ok (Some (N.of_nat (length s) mod 2 ^ 64)).
Proof. exact calc_space_ok. Qed.
Print Assumptions c130_sprintf_calc_space.

Theorem c130_sprintf_direct_partial : forall l str s, Forall item_plain l -> prints l s ->
  sprintf_direct 1 str (Some (format_of l)) (args_of l) = Ret (str ++ s) (N.of_nat (length s) mod 2 ^ 64).
Proof. exact direct_ok. Qed.
Print Assumptions c130_sprintf_direct_partial.

Theorem c130_sprintf_direct_refuted : exists l1 l2 l3, Forall item_ok l1 /\
  (exists s n, sprintf_direct 1 [] (Some (format_of l1)) (args_of l1) = Ret s n /\ ~ prints l1 s) /\
  (exists s n, sprintf_direct 1 [] (Some (format_of l2)) (args_of l2) = Ret s n /\ ~ prints l2 s /\
     sprintf_no_prepare 1 [] (Some (format_of l2)) (args_of l2) <> Ret s n) /\
  Forall item_ok l3 /\
  (exists s n, sprintf_direct 1 [] (Some (format_of l3)) (args_of l3) = Ret s n /\ ~ prints l3 s).
Proof. exact direct_wrong. Qed.
Print Assumptions c130_sprintf_direct_refuted.

Theorem c130_announced_length_refuted : exists l s nodes n, Forall item_ok l /\ prints l s /\
  prepare_space (args_of l) (format_of l) [] = Ok (nodes, Some n) /\ n <> N.of_nat (length s).
Proof. exact prepare_wrong. Qed.
Print Assumptions c130_announced_length_refuted.

Example c130_example : Forall item_plain [Text 97; Dec A_int (-30); Text 47; Uns A_uint 4294967295] /\
  sprintf_direct 1 [33] (Some (format_of [Text 97; Dec A_int (-30); Text 47; Uns A_uint 4294967295]))
    (args_of [Text 97; Dec A_int (-30); Text 47; Uns A_uint 4294967295])
  = Ret [33; 97; 45; 51; 48; 47; 52; 50; 57; 52; 57; 54; 55; 50; 57; 53] 15.
Proof.
  split; [|vm_compute; reflexivity].
  repeat constructor; try discriminate; cbn [item_ok]; vm_compute; reflexivity.
Qed.

(** A specifier for another type than the argument's is copied into the text without its
    '%', and the argument is not printed. *)
Theorem c129_mismatched_specifiers_are_copied : forall sp a text str, mismatch sp (a_type a) ->
  Forall (fun c => c <> 37) text ->
  calc_space [a] (37 :: sp :: text) = Ok (Some (N.of_nat (length (sp :: text)) mod 2 ^ 64))
  /\ sprintf_no_prepare 1 str (Some (37 :: sp :: text)) [a]
     = Ret (str ++ sp :: text) (N.of_nat (length (sp :: text)) mod 2 ^ 64).
Proof. exact mismatch_copied. Qed.
Print Assumptions c129_mismatched_specifiers_are_copied.

Example c129_mismatch_example : mismatch 115 A_int
  /\ sprintf_no_prepare 1 [] (Some [37; 115; 33]) [Arg A_int 5] = Ret [115; 33] 2.
Proof. split; [left; reflexivity|vm_compute; reflexivity]. Qed.

(** C131: sprintf appends what printf prints: it never returns. *)
Theorem c131_sprintf_never_returns : forall csz str fmt args s n, Forall (fun c => c <> 0) fmt ->
  sprintf csz str (Some fmt) args <> Ret s n.
Proof. exact sprintf_never_returns. Qed.
Print Assumptions c131_sprintf_never_returns.

Theorem c131_sprintf_refuted : exists l1 l2, Forall item_plain l1 /\ Forall item_plain l2 /\
  sprintf 1 [] (Some (format_of l1)) (args_of l1) = Fail EUndef /\
  sprintf 1 [] (Some (format_of l2)) (args_of l2) = Throw (shown l2).
Proof. exact sprintf_wrong. Qed.
Print Assumptions c131_sprintf_refuted.
