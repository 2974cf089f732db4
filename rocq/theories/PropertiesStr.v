(** Properties C95 to C102: string comparison and string views. *)
From Coq Require Import NArith ZArith List Bool.
From Verif Require Import Base HashModel HashSpec StrModel StrSpec StrWords StrViews StrWitness StrClaims StrMore.
Import ListNotations.
Open Scope N_scope.

(** ** C95 *)

(** All character types, whatever lies behind the strings. *)
Theorem c95_memcmp_variant_decides_equality :
  forall ct lib s1 s2 e1 e2, conforming lib ->
  is_string (csz ct) s1 -> is_string (csz ct) s2 -> N.of_nat (length s1) * csz ct < 2 ^ 64 ->
  exists b, is_equal4 ct lib ModeSTL (encode (csz ct) s1 ++ e1) (N.of_nat (length s1))
      (encode (csz ct) s2 ++ e2) (N.of_nat (length s2)) = Ok b
    /\ (b = true <-> s1 = s2).
Proof. exact stl_equal4. Qed.
Print Assumptions c95_memcmp_variant_decides_equality.

(** Only for char, and only if the last word of 8 bytes can be read. *)
Theorem c95_word_variant_decides_equality_partial :
  forall lib s1 s2 e1 e2,
  is_bytes (s1 ++ e1) -> is_bytes (s2 ++ e2) ->
  (N.of_nat (length s1) + 7) / 8 * 8 <= N.of_nat (length s1) + N.of_nat (length e1) ->
  (N.of_nat (length s2) + 7) / 8 * 8 <= N.of_nat (length s2) + N.of_nat (length e2) ->
  exists b, is_equal4 ct_char lib ModeU64 (s1 ++ e1) (N.of_nat (length s1)) (s2 ++ e2) (N.of_nat (length s2)) = Ok b
    /\ (b = true <-> s1 = s2).
Proof. exact (u64_equal4 ct_char). Qed.
Print Assumptions c95_word_variant_decides_equality_partial.

(** Only if the last 16 bytes can be read and the length is an int. *)
Theorem c95_sse_variant_decides_equality_partial :
  forall ct lib s1 s2 e1 e2,
  In ct [ct_char; ct_uchar; ct_short; ct_ushort; ct_wchar_win] ->
  is_string (csz ct) s1 -> is_string (csz ct) s2 -> is_bytes e1 -> is_bytes e2 ->
  (N.of_nat (length s1) * csz ct + 15) / 16 * 16 <= N.of_nat (length s1) * csz ct + N.of_nat (length e1) ->
  (N.of_nat (length s2) * csz ct + 15) / 16 * 16 <= N.of_nat (length s2) * csz ct + N.of_nat (length e2) ->
  N.of_nat (length s1) < 2 ^ 31 ->
  exists b, is_equal4 ct lib ModeSSE42 (encode (csz ct) s1 ++ e1) (N.of_nat (length s1))
      (encode (csz ct) s2 ++ e2) (N.of_nat (length s2)) = Ok b
    /\ (b = true <-> s1 = s2).
Proof. exact sse_equality. Qed.
Print Assumptions c95_sse_variant_decides_equality_partial.

(** For char and wchar_t only if the first string has no zero. *)
Theorem c95_libc_variant_decides_equality_partial :
  forall ct lib s1 s2 e1 e2, conforming lib ->
  is_string (csz ct) s1 -> is_string (csz ct) s2 -> (cspecial ct = true -> ~ In 0 s1) ->
  exists b, is_equal4 ct lib ModeLIBC (encode (csz ct) s1 ++ e1) (N.of_nat (length s1))
      (encode (csz ct) s2 ++ e2) (N.of_nat (length s2)) = Ok b
    /\ (b = true <-> s1 = s2).
Proof. exact libc_equal4. Qed.
Print Assumptions c95_libc_variant_decides_equality_partial.

Theorem c95_libc_variant_decides_equality_refuted :
  forall lib, exists s1 s2, is_string 1 s1 /\ is_string 1 s2 /\ s1 <> s2 /\
  is_equal4 ct_char lib ModeLIBC s1 (N.of_nat (length s1)) s2 (N.of_nat (length s2)) = Ok true.
Proof. exact libc_zero_wrong. Qed.
Print Assumptions c95_libc_variant_decides_equality_refuted.

(** Strings that end with a zero, by the functions without lengths of string_libc.h. *)
Theorem c95_c_strings :
  forall ct lib s1 s2 e1 e2, conforming lib ->
  In ct [ct_char; ct_uchar; ct_wchar; ct_wchar_win; ct_short; ct_ushort; ct_char16] ->
  let value := order_of (csz ct) (csigned ct) in
  is_string (csz ct) s1 -> is_string (csz ct) s2 ->
  Forall (fun c => 0 < value c)%Z s1 -> Forall (fun c => 0 < value c)%Z s2 ->
  let m1 := encode (csz ct) (s1 ++ [0]) ++ e1 in
  let m2 := encode (csz ct) (s2 ++ [0]) ++ e2 in
  StrLen ct m1 = Ok (N.of_nat (length s1))
  /\ (exists r, libc_StrCmp0 ct lib m1 m2 = Ok r /\ tells r (lex value s1 s2))
  /\ (exists b, libc_StrEqual0 ct lib m1 m2 = Ok b /\ (b = true <-> s1 = s2)).
Proof. exact c_strings. Qed.
Print Assumptions c95_c_strings.

(** stl::StrEqual with two lengths ends without a return whenever the lengths are equal. *)
Theorem c95_string_stl_equality_has_no_result :
  forall ct lib m1 m2 n, stl_StrEqual4 ct lib m1 n m2 n = Err EUndef.
Proof. exact stl_equal_no_return. Qed.
Print Assumptions c95_string_stl_equality_has_no_result.

Example c95_example :
  is_equal4 ct_char Z.sub ModeSTL [97; 0; 98] 3 [97; 0; 99] 3 = Ok false
  /\ is_equal4 ct_ushort Z.sub ModeSTL (encode 2 [1000; 2]) 2 (encode 2 [1000; 2]) 2 = Ok true
  /\ is_equal4 ct_char Z.sub ModeU64 ([97; 98] ++ repeat 1 6) 2 ([97; 98] ++ repeat 2 6) 2 = Ok true
  /\ is_equal4 ct_char Z.sub ModeSSE42 (repeat 97 20 ++ repeat 1 12) 20 (repeat 97 20 ++ repeat 2 12) 20 = Ok true
  /\ is_equal4 ct_char Z.sub ModeSSE42 (repeat 97 20 ++ repeat 1 12) 20 (repeat 97 19 ++ repeat 2 13) 20 = Ok false
  /\ is_equal4 ct_wchar_win Z.sub ModeSSE42 (encode 2 (repeat 1000 8 ++ [7]) ++ repeat 1 14) 9
       (encode 2 (repeat 1000 8 ++ [8]) ++ repeat 1 14) 9 = Ok false
  /\ is_equal4 ct_char Z.sub ModeLIBC [97; 98] 2 [97; 99] 2 = Ok false
  /\ libc_StrCmp0 ct_char Z.sub [97; 98; 0] [97; 0] = Ok 98%Z /\ StrLen ct_char [97; 98; 0; 5] = Ok 2.
Proof. vm_compute. repeat split; reflexivity. Qed.

Theorem c95_string_stl_equality_refuted :
  forall lib, exists s, is_string 1 s /\
  stl_StrEqual4 ct_char lib s (N.of_nat (length s)) s (N.of_nat (length s)) = Err EUndef.
Proof. exact stl_no_return_wrong. Qed.
Print Assumptions c95_string_stl_equality_refuted.

(** ** C96 *)

(** The memory is the two strings and nothing more. *)
Theorem c96_memcmp_variant_reads_the_strings_only :
  forall ct lib s1 s2 n, length s1 = n -> length s2 = n -> N.of_nat n * csz ct < 2 ^ 64 ->
  (exists b, is_equal3 ct lib ModeSTL (encode (csz ct) s1) (encode (csz ct) s2) (N.of_nat n) = Ok b)
  /\ (exists r, compare3 ct lib ModeSTL (encode (csz ct) s1) (encode (csz ct) s2) (N.of_nat n) = Ok r).
Proof. exact stl_reads. Qed.
Print Assumptions c96_memcmp_variant_reads_the_strings_only.

Theorem c96_libc_variant_reads_the_strings_only :
  forall ct lib s1 s2 n, length s1 = n -> length s2 = n ->
  is_string (csz ct) s1 -> is_string (csz ct) s2 ->
  (exists b, is_equal3 ct lib ModeLIBC (encode (csz ct) s1) (encode (csz ct) s2) (N.of_nat n) = Ok b)
  /\ (exists r, compare3 ct lib ModeLIBC (encode (csz ct) s1) (encode (csz ct) s2) (N.of_nat n) = Ok r).
Proof. exact libc_reads. Qed.
Print Assumptions c96_libc_variant_reads_the_strings_only.

(** Every string whose length is no multiple of 8, compared with an equal one. *)
Theorem c96_word_variant_reads_behind_the_strings :
  forall ct lib s, N.of_nat (length s) mod 8 <> 0 ->
  is_equal3 ct lib ModeU64 s s (N.of_nat (length s)) = Err EUndef.
Proof. exact u64_reads. Qed.
Print Assumptions c96_word_variant_reads_behind_the_strings.

Theorem c96_sse_variant_reads_behind_the_strings :
  forall ct lib s,
  In ct [ct_char; ct_uchar; ct_short; ct_ushort; ct_wchar_win] ->
  is_string (csz ct) s -> N.of_nat (length s) < 2 ^ 31 -> (N.of_nat (length s) * csz ct) mod 16 <> 0 ->
  is_equal3 ct lib ModeSSE42 (encode (csz ct) s) (encode (csz ct) s) (N.of_nat (length s)) = Err EUndef
  /\ compare3 ct lib ModeSSE42 (encode (csz ct) s) (encode (csz ct) s) (N.of_nat (length s)) = Err EUndef.
Proof. exact sse_over_reads. Qed.
Print Assumptions c96_sse_variant_reads_behind_the_strings.

Example c96_example :
  is_equal3 ct_char Z.sub ModeU64 [97; 98; 99] [97; 98; 99] 3 = Err EUndef
  /\ is_equal3 ct_char Z.sub ModeU64 (repeat 97 8) (repeat 97 8) 8 = Ok true
  /\ is_equal3 ct_char Z.sub ModeSSE42 [97; 98; 99] [97; 98; 99] 3 = Err EUndef
  /\ is_equal3 ct_char Z.sub ModeSTL [97; 98; 99] [97; 98; 99] 3 = Ok true
  /\ is_equal3 ct_wchar Z.sub ModeLIBC (encode 4 [70000]) (encode 4 [70000]) 1 = Ok true.
Proof. vm_compute. repeat split; reflexivity. Qed.

Theorem c96_word_variant_reads_the_strings_only_refuted :
  forall lib, exists s, is_string 1 s /\
  is_equal3 ct_char lib ModeU64 s s (N.of_nat (length s)) = Err EUndef.
Proof. exact u64_reads_wrong. Qed.
Print Assumptions c96_word_variant_reads_the_strings_only_refuted.

Theorem c96_sse_variant_reads_the_strings_only_refuted :
  forall lib, exists s, is_string 1 s /\
  is_equal3 ct_char lib ModeSSE42 s s (N.of_nat (length s)) = Err EUndef
  /\ compare3 ct_char lib ModeSSE42 s s (N.of_nat (length s)) = Err EUndef.
Proof. exact sse_reads_wrong. Qed.
Print Assumptions c96_sse_variant_reads_the_strings_only_refuted.

(** ** C97 *)

Theorem c97_sse_variant_looks_at_long_strings_refuted :
  forall lib k, 2 ^ 31 <= k < 2 ^ 32 -> exists s1 s2,
  is_string 1 s1 /\ is_string 1 s2 /\ s1 <> s2 /\ N.of_nat (length s1) = k /\ N.of_nat (length s2) = k /\
  forall e1 e2,
  is_equal4 ct_char lib ModeSSE42 (s1 ++ e1) (N.of_nat (length s1)) (s2 ++ e2) (N.of_nat (length s2)) = Ok true
  /\ compare4 ct_char lib ModeSSE42 (s1 ++ e1) (N.of_nat (length s1)) (s2 ++ e2) (N.of_nat (length s2)) = Ok 0%Z.
Proof. exact sse_long_wrong. Qed.
Print Assumptions c97_sse_variant_looks_at_long_strings_refuted.

(** Whatever the memory is. *)
Theorem c97_sse_variant_reads_nothing_of_long_strings :
  forall ct lib m1 m2 n, 2 ^ 31 <= n < 2 ^ 32 ->
  is_equal4 ct lib ModeSSE42 m1 n m2 n = Ok true /\ compare4 ct lib ModeSSE42 m1 n m2 n = Ok 0%Z.
Proof. exact sse_long. Qed.
Print Assumptions c97_sse_variant_reads_nothing_of_long_strings.

Example c97_example :
  2 ^ 31 <= 3000000000 < 2 ^ 32 /\ to_int 3000000000 = (-1294967296)%Z /\ to_int 2147483647 = 2147483647%Z.
Proof. vm_compute. repeat split; try reflexivity; discriminate. Qed.

(** ** C98 *)

(** Of two characters, the second one is not looked at. *)
Theorem c98_word_variant_ignores_wide_characters :
  forall ct lib c d1 d2 e1 e2, 2 <= csz ct -> is_bytes e1 -> is_bytes e2 ->
  8 <= N.of_nat (length (encode (csz ct) [c; d1] ++ e1)) ->
  8 <= N.of_nat (length (encode (csz ct) [c; d2] ++ e2)) ->
  is_equal4 ct lib ModeU64 (encode (csz ct) [c; d1] ++ e1) 2 (encode (csz ct) [c; d2] ++ e2) 2 = Ok true.
Proof. exact u64_wide. Qed.
Print Assumptions c98_word_variant_ignores_wide_characters.

(** wchar_t of 4 bytes, and char16_t. *)
Theorem c98_sse_variant_decides_equality_of_wide_strings_refuted :
  forall lib,
  (exists s1 s2, is_string 4 s1 /\ is_string 4 s2 /\ s1 <> s2 /\ length s1 = length s2 /\
    is_equal4 ct_wchar lib ModeSSE42 (encode 4 s1) (N.of_nat (length s1)) (encode 4 s2) (N.of_nat (length s2)) = Ok true)
  /\ (exists s1 s2, is_string 2 s1 /\ is_string 2 s2 /\ s1 <> s2 /\ length s1 = length s2 /\
    is_equal4 ct_char16 lib ModeSSE42 (encode 2 s1) (N.of_nat (length s1)) (encode 2 s2) (N.of_nat (length s2)) = Ok true).
Proof. exact sse_wide_wrong. Qed.
Print Assumptions c98_sse_variant_decides_equality_of_wide_strings_refuted.

(** Any two strings with the same first 16 bytes: [d1] and [d2] are not looked at. *)
Theorem c98_sse_variant_ignores_half_of_wide_strings :
  forall ct lib p d1 d2,
  In ct [ct_wchar; ct_char16] ->
  N.of_nat (length p) * csz ct = 16 -> N.of_nat (length p) + N.of_nat (length d1) = cmax ct -> length d1 = length d2 ->
  is_equal4 ct lib ModeSSE42 (encode (csz ct) (p ++ d1)) (cmax ct) (encode (csz ct) (p ++ d2)) (cmax ct) = Ok true
  /\ compare4 ct lib ModeSSE42 (encode (csz ct) (p ++ d1)) (cmax ct) (encode (csz ct) (p ++ d2)) (cmax ct) = Ok 0%Z.
Proof. exact sse_half. Qed.
Print Assumptions c98_sse_variant_ignores_half_of_wide_strings.

Example c98_example :
  is_equal4 ct_wchar Z.sub ModeU64 (encode 4 [97; 98]) 2 (encode 4 [97; 99]) 2 = Ok true
  /\ is_equal4 ct_wchar Z.sub ModeSTL (encode 4 [97; 98]) 2 (encode 4 [97; 99]) 2 = Ok false
  /\ is_equal4 ct_wchar Z.sub ModeSSE42 (encode 4 [1; 2; 3; 4; 5; 6; 7; 8]) 8 (encode 4 [1; 2; 3; 4; 8; 7; 6; 5]) 8 = Ok true
  /\ is_equal4 ct_wchar Z.sub ModeSSE42 (encode 4 [1; 2; 3; 4; 5; 6; 7; 8]) 8 (encode 4 [1; 2; 3; 5; 8; 7; 6; 5]) 8 = Ok false.
Proof. vm_compute. repeat split; reflexivity. Qed.

Theorem c98_word_variant_decides_equality_of_wide_strings_refuted :
  forall lib, exists s1 s2, is_string 4 s1 /\ is_string 4 s2 /\ s1 <> s2 /\ length s1 = length s2 /\
  is_equal4 ct_wchar lib ModeU64 (encode 4 s1) (N.of_nat (length s1)) (encode 4 s2) (N.of_nat (length s2)) = Ok true.
Proof. exact u64_wide_wrong. Qed.
Print Assumptions c98_word_variant_decides_equality_of_wide_strings_refuted.

(** ** C99 *)

(** char and unsigned char. *)
Theorem c99_memcmp_variant_orders_strings :
  forall ct lib s1 s2 e1 e2, conforming lib -> csz ct = 1 ->
  is_string 1 s1 -> is_string 1 s2 -> N.of_nat (length s1) < 2 ^ 64 ->
  exists r, compare4 ct lib ModeSTL (s1 ++ e1) (N.of_nat (length s1)) (s2 ++ e2) (N.of_nat (length s2)) = Ok r
    /\ tells r (lex Z.of_N s1 s2).
Proof. exact stl_compare4. Qed.
Print Assumptions c99_memcmp_variant_orders_strings.

Theorem c99_memcmp_variant_orders_wide_strings_refuted :
  forall lib, conforming lib -> exists s1 s2 r,
  is_string 2 s1 /\ is_string 2 s2 /\
  compare4 ct_ushort lib ModeSTL (encode 2 s1) (N.of_nat (length s1)) (encode 2 s2) (N.of_nat (length s2)) = Ok r
  /\ lex (order_of 2 false) s1 s2 = Gt /\ tells r Lt.
Proof. exact stl_order_wrong. Qed.
Print Assumptions c99_memcmp_variant_orders_wide_strings_refuted.

(** By the unsigned values of the characters. *)
Theorem c99_sse_variant_orders_strings_partial :
  forall ct lib s1 s2 e1 e2,
  In ct [ct_char; ct_uchar; ct_short; ct_ushort; ct_wchar_win] ->
  is_string (csz ct) s1 -> is_string (csz ct) s2 -> is_bytes e1 -> is_bytes e2 ->
  (N.of_nat (length s1) * csz ct + 15) / 16 * 16 <= N.of_nat (length s1) * csz ct + N.of_nat (length e1) ->
  (N.of_nat (length s2) * csz ct + 15) / 16 * 16 <= N.of_nat (length s2) * csz ct + N.of_nat (length e2) ->
  N.of_nat (length s1) < 2 ^ 31 ->
  exists r, compare4 ct lib ModeSSE42 (encode (csz ct) s1 ++ e1) (N.of_nat (length s1))
      (encode (csz ct) s2 ++ e2) (N.of_nat (length s2)) = Ok r
    /\ tells r (lex Z.of_N s1 s2) /\ (-1 <= r <= 1)%Z.
Proof. exact sse_order. Qed.
Print Assumptions c99_sse_variant_orders_strings_partial.

Theorem c99_sse_variant_orders_strings_of_short_refuted :
  forall lib, exists s1 s2 e,
  is_string 2 s1 /\ is_string 2 s2 /\ is_bytes e /\
  compare4 ct_short lib ModeSSE42 (encode 2 s1 ++ e) (N.of_nat (length s1)) (encode 2 s2 ++ e) (N.of_nat (length s2)) = Ok 1%Z
  /\ lex (order_of 2 true) s1 s2 = Lt.
Proof. exact sse_order_wrong. Qed.
Print Assumptions c99_sse_variant_orders_strings_of_short_refuted.

(** For char and wchar_t only if the first string has no zero. *)
Theorem c99_libc_variant_orders_strings_partial :
  forall ct lib s1 s2 e1 e2, conforming lib ->
  In ct [ct_char; ct_uchar; ct_wchar; ct_wchar_win; ct_short; ct_ushort; ct_char16] ->
  is_string (csz ct) s1 -> is_string (csz ct) s2 -> (cspecial ct = true -> ~ In 0 s1) ->
  exists r, compare4 ct lib ModeLIBC (encode (csz ct) s1 ++ e1) (N.of_nat (length s1))
      (encode (csz ct) s2 ++ e2) (N.of_nat (length s2)) = Ok r
    /\ tells r (lex (order_of (csz ct) (csigned ct)) s1 s2).
Proof. exact libc_order. Qed.
Print Assumptions c99_libc_variant_orders_strings_partial.

Theorem c99_libc_variant_orders_strings_refuted :
  forall lib, exists s1 s2,
  is_string 1 s1 /\ is_string 1 s2 /\
  compare4 ct_char lib ModeLIBC s1 (N.of_nat (length s1)) s2 (N.of_nat (length s2)) = Ok 0%Z
  /\ lex (order_of 1 true) s1 s2 = Lt.
Proof. exact libc_order_wrong. Qed.
Print Assumptions c99_libc_variant_orders_strings_refuted.

Example c99_example :
  compare4 ct_char Z.sub ModeSTL [97; 200] 2 [97; 98; 5] 3 = Ok 102%Z
  /\ lex (order_of 1 true) [97; 200] [97; 98; 5] = Gt
  /\ compare4 ct_char Z.sub ModeSTL [97] 1 [97; 98] 2 = Ok (-1)%Z
  /\ compare4 ct_char Z.sub ModeSSE42 (repeat 97 17 ++ repeat 1 15) 17 (repeat 97 16 ++ repeat 200 16) 17 = Ok (-1)%Z
  /\ compare4 ct_short Z.sub ModeLIBC (encode 2 [65535]) 1 (encode 2 [1]) 1 = Ok (-1)%Z.
Proof. vm_compute. repeat split; reflexivity. Qed.

(** ** C100 *)

(** The second line is what is wrong with <= and >=. *)
Theorem c100_less_and_greater_with_sse_partial :
  forall ct lib s1 s2 e1 e2,
  In ct [ct_char; ct_uchar; ct_short; ct_ushort; ct_wchar_win] ->
  is_string (csz ct) s1 -> is_string (csz ct) s2 -> is_bytes e1 -> is_bytes e2 ->
  (N.of_nat (length s1) * csz ct + 15) / 16 * 16 <= N.of_nat (length s1) * csz ct + N.of_nat (length e1) ->
  (N.of_nat (length s2) * csz ct + 15) / 16 * 16 <= N.of_nat (length s2) * csz ct + N.of_nat (length e2) ->
  N.of_nat (length s1) < 2 ^ 31 ->
  let a := View (Some (encode (csz ct) s1 ++ e1)) (N.of_nat (length s1)) in
  let b := View (Some (encode (csz ct) s2 ++ e2)) (N.of_nat (length s2)) in
  let smaller := match lex Z.of_N s1 s2 with Lt => true | _ => false end in
  let greater := match lex Z.of_N s1 s2 with Gt => true | _ => false end in
  v_lt ct lib ModeSSE42 a b = Ok smaller /\ v_gt ct lib ModeSSE42 a b = Ok greater
  /\ v_le ct lib ModeSSE42 a b = Ok greater /\ v_ge ct lib ModeSSE42 a b = Ok smaller.
Proof. exact sse_ops. Qed.
Print Assumptions c100_less_and_greater_with_sse_partial.

(** If memcmp returns -1, 0 and 1 only. *)
Theorem c100_less_and_greater_with_memcmp_partial :
  forall lib s1 s2 e1 e2, conforming lib ->
  (forall x y, x <> y -> (-1 <= lib x y <= 1)%Z) ->
  is_string 1 s1 -> is_string 1 s2 -> N.of_nat (length s1) < 2 ^ 64 ->
  let a := View (Some (s1 ++ e1)) (N.of_nat (length s1)) in
  let b := View (Some (s2 ++ e2)) (N.of_nat (length s2)) in
  v_lt ct_char lib ModeSTL a b = Ok (match lex Z.of_N s1 s2 with Lt => true | _ => false end)
  /\ v_gt ct_char lib ModeSTL a b = Ok (match lex Z.of_N s1 s2 with Gt => true | _ => false end).
Proof. exact stl_ops. Qed.
Print Assumptions c100_less_and_greater_with_memcmp_partial.

Theorem c100_less_and_greater_with_memcmp_refuted :
  exists lib, conforming lib /\ exists s1 s2,
  let a := View (Some s1) (N.of_nat (length s1)) in
  let b := View (Some s2) (N.of_nat (length s2)) in
  lex Z.of_N s1 s2 = Lt /\ v_lt ct_char lib ModeSTL a b = Ok false /\ v_gt ct_char lib ModeSTL b a = Ok false.
Proof. exact less_wrong. Qed.
Print Assumptions c100_less_and_greater_with_memcmp_refuted.

Theorem c100_at_most_is_reflexive_refuted :
  forall lib md, exists s e,
  let v := View (Some (s ++ e)) (N.of_nat (length s)) in
  v_eq ct_char lib md v v = Ok true /\ v_le ct_char lib md v v = Ok false /\ v_ge ct_char lib md v v = Ok false.
Proof. exact at_most_wrong. Qed.
Print Assumptions c100_at_most_is_reflexive_refuted.

Theorem c100_at_most_follows_the_order_refuted :
  forall lib md, exists s1 s2 e,
  let a := View (Some (s1 ++ e)) (N.of_nat (length s1)) in
  let b := View (Some (s2 ++ e)) (N.of_nat (length s2)) in
  lex Z.of_N s1 s2 = Lt /\ v_le ct_char lib md a b = Ok false /\ v_le ct_char lib md b a = Ok true.
Proof. exact at_most_turned. Qed.
Print Assumptions c100_at_most_follows_the_order_refuted.

Theorem c100_not_equal_with_memcmp :
  forall ct lib s1 s2 e1 e2, conforming lib ->
  is_string (csz ct) s1 -> is_string (csz ct) s2 -> N.of_nat (length s1) * csz ct < 2 ^ 64 ->
  exists b, v_ne ct lib ModeSTL (View (Some (encode (csz ct) s1 ++ e1)) (N.of_nat (length s1)))
              (View (Some (encode (csz ct) s2 ++ e2)) (N.of_nat (length s2))) = Ok b /\ (b = true <-> s1 <> s2).
Proof. exact ne_stl. Qed.
Print Assumptions c100_not_equal_with_memcmp.

Theorem c100_not_equal_with_sse_partial :
  forall ct lib s1 s2 e1 e2, fits ct ->
  is_string (csz ct) s1 -> is_string (csz ct) s2 -> is_bytes e1 -> is_bytes e2 ->
  padded ct (N.of_nat (length s1)) e1 -> padded ct (N.of_nat (length s2)) e2 -> N.of_nat (length s1) < 2 ^ 31 ->
  exists b, v_ne ct lib ModeSSE42 (View (Some (encode (csz ct) s1 ++ e1)) (N.of_nat (length s1)))
              (View (Some (encode (csz ct) s2 ++ e2)) (N.of_nat (length s2))) = Ok b /\ (b = true <-> s1 <> s2).
Proof. exact ne_sse. Qed.
Print Assumptions c100_not_equal_with_sse_partial.

Example c100_example :
  let v s := View (Some (s ++ repeat 0 16)) (N.of_nat (length s)) in
  v_lt ct_char Z.sub ModeSSE42 (v [97; 98]) (v [97; 99]) = Ok true
  /\ v_gt ct_char Z.sub ModeSSE42 (v [97; 98; 1]) (v [97; 98]) = Ok true
  /\ v_lt ct_char (fun x y => Z.sgn (x - y)) ModeSTL (v [97]) (v [99]) = Ok true
  /\ v_lt ct_char Z.sub ModeSTL (v [97]) (v [99]) = Ok false
  /\ v_ne ct_char Z.sub ModeSTL (v [97]) (v [99]) = Ok true /\ v_ne ct_char Z.sub ModeSSE42 (v [97]) (v [97]) = Ok false.
Proof. vm_compute. repeat split; reflexivity. Qed.

(** ** C101 *)

(** If pos + count is a size_t, or count is npos. *)
Theorem c101_substr_partial :
  forall ct s e pos count,
  pos <= N.of_nat (length s) -> N.of_nat (length s) < 2 ^ 64 ->
  pos + count < 2 ^ 64 \/ count = 2 ^ 64 - 1 ->
  exists e', v_substr ct (View (Some (encode (csz ct) s ++ e)) (N.of_nat (length s))) pos count
    = Ok (Some (View (Some (encode (csz ct) (sub s pos count) ++ e')) (N.of_nat (length (sub s pos count))))).
Proof. exact substr_spec. Qed.
Print Assumptions c101_substr_partial.

Theorem c101_substr_refuted :
  exists s pos count v,
  pos <= N.of_nat (length s) /\ count < 2 ^ 64 /\
  v_substr ct_char (View (Some s) (N.of_nat (length s))) pos count = Ok (Some v) /\ N.of_nat (length s) < v_size v.
Proof. exact substr_wrong. Qed.
Print Assumptions c101_substr_refuted.

(** If both sums are. *)
Theorem c101_equality_of_parts_partial :
  forall ct lib s1 s2 e1 e2 pos1 count1 pos2 count2, conforming lib ->
  is_string (csz ct) s1 -> is_string (csz ct) s2 ->
  N.of_nat (length s1) * csz ct < 2 ^ 64 -> N.of_nat (length s1) < 2 ^ 64 -> N.of_nat (length s2) < 2 ^ 64 ->
  pos1 <= N.of_nat (length s1) -> pos2 <= N.of_nat (length s2) ->
  pos1 + count1 < 2 ^ 64 -> pos2 + count2 < 2 ^ 64 ->
  exists b, v_equal_parts ct lib ModeSTL (View (Some (encode (csz ct) s1 ++ e1)) (N.of_nat (length s1))) pos1 count1
      (View (Some (encode (csz ct) s2 ++ e2)) (N.of_nat (length s2))) pos2 count2 = Ok (Some b)
    /\ (b = true <-> sub s1 pos1 count1 = sub s2 pos2 count2).
Proof. exact parts_equal. Qed.
Print Assumptions c101_equality_of_parts_partial.

Theorem c101_order_of_parts_partial :
  forall lib s1 s2 e1 e2 pos1 count1 pos2 count2, conforming lib ->
  is_string 1 s1 -> is_string 1 s2 -> N.of_nat (length s1) < 2 ^ 64 -> N.of_nat (length s2) < 2 ^ 64 ->
  pos1 <= N.of_nat (length s1) -> pos2 <= N.of_nat (length s2) ->
  pos1 + count1 < 2 ^ 64 -> pos2 + count2 < 2 ^ 64 ->
  exists r, v_compare_parts ct_char lib ModeSTL (View (Some (s1 ++ e1)) (N.of_nat (length s1))) pos1 count1
      (View (Some (s2 ++ e2)) (N.of_nat (length s2))) pos2 count2 = Ok (Some r)
    /\ tells r (lex Z.of_N (sub s1 pos1 count1) (sub s2 pos2 count2)).
Proof. exact parts_order. Qed.
Print Assumptions c101_order_of_parts_partial.

Theorem c101_one_part_is_cut_at_the_end_refuted :
  forall lib, exists s1 s2 count,
  v_equal_at ct_char lib ModeSTL (View (Some s1) (N.of_nat (length s1))) 0 count
    (View (Some s2) (N.of_nat (length s2))) = Err EUndef
  /\ v_compare_at ct_char lib ModeSTL (View (Some s1) (N.of_nat (length s1))) 0 count
    (View (Some s2) (N.of_nat (length s2))) = Err EUndef
  /\ sub s1 0 count = sub s2 0 count.
Proof. exact equal_at_wrong. Qed.
Print Assumptions c101_one_part_is_cut_at_the_end_refuted.

Theorem c101_one_part_is_compared_with_all_of_the_other_refuted :
  forall lib, exists s1 s2,
  is_string 1 s1 /\ is_string 1 s2 /\ s1 <> s2 /\
  v_equal_at ct_char lib ModeSTL (View (Some s1) (N.of_nat (length s1))) 0 (N.of_nat (length s1))
    (View (Some s2) (N.of_nat (length s2))) = Ok (Some true).
Proof. exact equal_at_prefix. Qed.
Print Assumptions c101_one_part_is_compared_with_all_of_the_other_refuted.

(** Without zeros copy copies the part of the string, but always returns 0. *)
Theorem c101_copy_copies_and_returns_zero :
  forall s e dest pos count, is_string 1 s -> ~ In 0 s ->
  pos <= N.of_nat (length s) -> N.of_nat (length s) < 2 ^ 64 -> pos + count < 2 ^ 64 ->
  (length (sub s pos count) <= length dest)%nat ->
  v_copy ct_char (View (Some (s ++ e)) (N.of_nat (length s))) dest count pos
  = Ok (Some (sub s pos count ++ skipn (length (sub s pos count)) dest, 0)).
Proof. exact copy_wrong. Qed.
Print Assumptions c101_copy_copies_and_returns_zero.

Theorem c101_copy_copies_zeros_refuted :
  exists s dest d n,
  is_string 1 s /\ length dest = length s /\
  v_copy ct_char (View (Some s) (N.of_nat (length s))) dest (N.of_nat (length s)) 0 = Ok (Some (d, n))
  /\ d <> s /\ n <> N.of_nat (length s).
Proof. exact copy_zero_wrong. Qed.
Print Assumptions c101_copy_copies_zeros_refuted.

(** Other characters are not copied at all to a destination filled with zeros. *)
Theorem c101_copy_leaves_zeros :
  forall s e n, is_string 2 s -> (n <= length s)%nat -> (0 < n)%nat ->
  v_copy ct_ushort (View (Some (encode 2 s ++ e)) (N.of_nat (length s))) (repeat 0 n) (N.of_nat n) 0
  = Ok (Some (repeat 0 n, 0)).
Proof. exact copy_other_wrong. Qed.
Print Assumptions c101_copy_leaves_zeros.

Example c101_example :
  let v := View (Some [97; 98; 99; 100]) 4 in
  v_substr ct_char v 1 2 = Ok (Some (View (Some [98; 99; 100]) 2))
  /\ v_substr ct_char v 1 9 = Ok (Some (View (Some [98; 99; 100]) 3))
  /\ v_substr ct_char v 5 1 = Ok None /\ sub [97; 98; 99; 100] 1 2 = [98; 99]
  /\ v_equal_parts ct_char Z.sub ModeSTL v 1 2 (View (Some [98; 99]) 2) 0 7 = Ok (Some true)
  /\ v_equal_parts ct_char Z.sub ModeSTL v 1 3 (View (Some [98; 99]) 2) 0 7 = Ok (Some false)
  /\ v_compare_parts ct_char Z.sub ModeSTL v 1 3 (View (Some [98; 100]) 2) 0 7 = Ok (Some (-1)%Z)
  /\ v_copy ct_char v [1; 1; 1; 1; 1] 2 1 = Ok (Some ([98; 99; 1; 1; 1], 0))
  /\ v_copy ct_ushort (View (Some (encode 2 [98; 99])) 2) [0; 0] 2 0 = Ok (Some ([0; 0], 0)).
Proof. vm_compute. repeat split; reflexivity. Qed.

Theorem c101_copy_returns_the_number_refuted :
  exists s dest d n,
  is_string 1 s /\ ~ In 0 s /\
  v_copy ct_char (View (Some s) (N.of_nat (length s))) dest (N.of_nat (length s)) 0 = Ok (Some (d, n))
  /\ n <> N.of_nat (length s).
Proof. exact copy_number_wrong. Qed.
Print Assumptions c101_copy_returns_the_number_refuted.

Theorem c101_copy_to_zeros_refuted :
  exists s d n, is_string 2 s /\
  v_copy ct_ushort (View (Some (encode 2 s)) (N.of_nat (length s))) (repeat 0 (length s)) (N.of_nat (length s)) 0
  = Ok (Some (d, n)) /\ d <> s.
Proof. exact copy_zeros_wrong. Qed.
Print Assumptions c101_copy_to_zeros_refuted.

(** ** C102 *)

(** A default view is smaller than itself, and not equal to a view of the empty string. *)
Theorem c102_default_views :
  forall ct lib md,
  v_eq ct lib md v_none v_none = Ok true
  /\ v_compare ct lib md v_none v_none = Ok (-1)%Z
  /\ v_lt ct lib md v_none v_none = Ok true
  /\ (forall m, v_eq ct lib md v_none (View (Some m) 0) = Ok false
      /\ v_lt ct lib md v_none (View (Some m) 0) = Ok true).
Proof. exact null_wrong. Qed.
Print Assumptions c102_default_views.

(** Views of strings of length 0. *)
Theorem c102_empty_strings_are_equal :
  forall ct lib md m1 m2,
  v_eq ct lib md (View (Some m1) 0) (View (Some m2) 0) = Ok true
  /\ v_compare ct lib md (View (Some m1) 0) (View (Some m2) 0) = Ok 0%Z.
Proof. exact empty_same. Qed.
Print Assumptions c102_empty_strings_are_equal.

Example c102_example :
  v_eq ct_char Z.sub ModeSTL v_none (View (Some [0]) 0) = Ok false
  /\ v_eq ct_char Z.sub ModeSTL (View (Some [97]) 0) (View (Some [0]) 0) = Ok true
  /\ v_from ct_char (Some [97; 0]) = Ok (View (Some [97; 0]) 1) /\ v_from ct_char None = Ok v_none.
Proof. vm_compute. repeat split; reflexivity. Qed.

Theorem c102_empty_views_are_equal_refuted :
  forall lib md, exists a b, v_size a = 0 /\ v_size b = 0 /\
  v_eq ct_char lib md a b = Ok false /\ v_lt ct_char lib md a a = Ok true.
Proof. exact empty_wrong. Qed.
Print Assumptions c102_empty_views_are_equal_refuted.
