(** Hashes of integral keys (C165) and of strings given in different ways (C166).  The model is
    HashKeyModel.v; [is_string] and [encode] (StrSpec.v) are strings of characters of some
    size and their bytes. *)
From Coq Require Import NArith ZArith List Bool.
From Verif Require Import Base HashModel HashSpec StrModel StrSpec HashKeyModel HashKeyFacts MiscMore.
Import ListNotations.
Open Scope N_scope.

(** ** C165 *)

(** For the types of at most 32 bits. *)
Theorem c165_integers_have_different_hashes_partial :
  forall lo a b, (lo <= a < lo + 2 ^ 32)%Z -> (lo <= b < lo + 2 ^ 32)%Z ->
  integral_getHashCode a = integral_getHashCode b -> a = b.
Proof. exact integral_narrow. Qed.
Print Assumptions c165_integers_have_different_hashes_partial.

(** Missing above: the types of 64 bits.  Every number has another with the same hash. *)
Theorem c165_integers_have_different_hashes_refuted :
  forall a, (- 2 ^ 63 <= a < 2 ^ 63)%Z ->
  exists b, (- 2 ^ 63 <= b < 2 ^ 63)%Z /\ b <> a /\ integral_getHashCode b = integral_getHashCode a.
Proof. exact integral_long. Qed.
Print Assumptions c165_integers_have_different_hashes_refuted.

Theorem c165_collisions :
  forall a b, integral_getHashCode a = integral_getHashCode b <-> exists q, (a - b = q * 2 ^ 32)%Z.
Proof. exact integral_collide. Qed.
Print Assumptions c165_collisions.

Theorem c165_filtered_hashes_are_valid :
  forall h, h < 2 ^ 32 -> hash_filter h <> 2 ^ 32 - 1 /\ (h <> 2 ^ 32 - 1 -> hash_filter h = h).
Proof. exact filter_ok. Qed.
Print Assumptions c165_filtered_hashes_are_valid.

Example c165_example : integral_getHashCode (-1) = 4294967295 /\ integral_getHashCode 7 = 7
  /\ integral_getHashCode 4294967303 = 7 /\ hash_filter (integral_getHashCode (-1)) = 0
  /\ (- 2 ^ 31 <= -1 < - 2 ^ 31 + 2 ^ 32)%Z.
Proof. vm_compute. repeat split; discriminate. Qed.

(** ** C166 *)

Theorem c166_one_hash_for_one_string_partial :
  forall ct f s e, 0 < csz ct -> is_string (csz ct) s -> ~ In 0 s -> s <> [] ->
  let m := Some (encode (csz ct) (s ++ [0]) ++ e) in
  let n := N.of_nat (length s) in
  cstr_getHashCode f ct m = str_getHashCode f ct m n
  /\ chars_getHashCode f ct m n = str_getHashCode f ct m n.
Proof. exact same_hash. Qed.
Print Assumptions c166_one_hash_for_one_string_partial.

(** Missing above: the empty string.  With the CRC function its hash depends on how it is
    given: a pointer and a length, a string, or a view without a pointer. *)
Theorem c166_one_hash_for_one_string_refuted :
  exists f m, chars_getHashCode f ct_char (Some m) 0 <> str_getHashCode f ct_char (Some m) 0
    /\ str_getHashCode f ct_char None 0 <> str_getHashCode f ct_char (Some m) 0
    /\ defined (str_getHashCode f ct_char (Some m) 0) <> None.
Proof. exact empty_hash_differs. Qed.
Print Assumptions c166_one_hash_for_one_string_refuted.

Theorem c166_hashes_of_the_empty_string :
  forall ct f m, 0 < csz ct ->
  chars_getHashCode f ct (Some m) 0 = Ok 0
  /\ str_getHashCode f ct (Some m) 0 = Ok (match f with HashFunc_CRC32C => 4294967295 | _ => 0 end)
  /\ str_getHashCode f ct None 0 = Ok 0.
Proof. exact empty_hash. Qed.
Print Assumptions c166_hashes_of_the_empty_string.

Theorem c166_hash_without_a_pointer :
  forall f ct, cstr_getHashCode f ct None = Ok 0
  /\ chars_getHashCode f ct None 0 = Ok 0 /\ str_getHashCode f ct None 0 = Ok 0.
Proof. exact null_hash. Qed.
Print Assumptions c166_hash_without_a_pointer.

Example c166_example :
  cstr_getHashCode HashFunc_Time31 ct_char (Some [97; 98; 0; 1]) = Ok 3105
  /\ str_getHashCode HashFunc_Time31 ct_char (Some [97; 98; 0; 1]) 2 = Ok 3105
  /\ cstr_getHashCode HashFunc_Time31 ct_wchar (Some (encode 4 [97; 98; 0])) <> Ok 3105
  /\ defined (cstr_getHashCode HashFunc_CRC32C ct_char (Some [97; 98; 0; 0; 0; 0; 0; 0])) <> None.
Proof. vm_compute. repeat split; discriminate. Qed.
