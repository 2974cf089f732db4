(** Model of the vector helpers of /repo/src/jstd/support/BitVec.h ([BV] below) for x86-64
    with gcc or clang, and of the intrinsics that they call.  A vector is the list of
    its bytes, the lowest first.  The intrinsics are as in Intel's guide. *)
From Coq Require Import NArith ZArith List Bool.
Import ListNotations.
Open Scope N_scope.

(** ** Words of a vector *)

(** IntVec128 and IntVec256, BV:293-315: the [w] bytes from position [w * i], read as a
    little-endian number, and written. *)
Fixpoint le_num (l : list N) : N :=
  match l with [] => 0 | b :: r => b + 256 * le_num r end.

Fixpoint le_list (w : nat) (x : N) : list N :=
  match w with O => [] | S w' => x mod 256 :: le_list w' (x / 256) end.

Definition lane (w i : nat) (v : list N) : N := le_num (firstn w (skipn (w * i) v)).

Definition with_lane (w i : nat) (x : N) (v : list N) : list N :=
  firstn (w * i) v ++ le_list w x ++ skipn (w * i + w) v.

(** ** The intrinsics used (BV:350-903) *)

(** _mm256_castsi256_si128, BV:499. *)
Definition cast_low (v : list N) : list N := firstn 16 v.

(** _mm256_castsi128_si256, BV:551: the upper half is undefined, here [junk]. *)
Definition cast_up (junk v : list N) : list N := v ++ junk.

(** _mm256_extracti128_si256 and _mm256_extractf128_si256, BV:504. *)
Definition half (v : list N) (i : nat) : list N := firstn 16 (skipn (16 * i) v).

(** _mm256_inserti128_si256 and _mm256_insertf128_si256, BV:567. *)
Definition set_half (v x : list N) (i : nat) : list N :=
  match i with O => x ++ skipn 16 v | _ => firstn 16 v ++ x end.

(** _mm_cvtsi32_si128 and _mm_cvtsi64_si128, BV:676 and BV:798: the rest is 0. *)
Definition from_int (w : nat) (x : N) : list N := le_list w x ++ repeat 0 (16 - w).

(** _mm256_broadcastq_epi64, BV:683: the lowest eight bytes, four times. *)
Definition broadcast8 (v : list N) : list N :=
  firstn 8 v ++ firstn 8 v ++ firstn 8 v ++ firstn 8 v.

(** _mm256_blend_epi32, BV:552: bit n of the mask selects the n-th four bytes of the
    second vector. *)
Definition blend4 (a b : list N) (mask : N) : list N :=
  flat_map (fun n => firstn 4 (skipn (4 * n) (if N.testbit mask (N.of_nat n) then b else a)))
           (seq 0 8).

(** _mm_shuffle_epi32(v, 0), BV:392, and _mm_unpacklo_epi64(v, v), BV:400. *)
Definition shuffle0 (v : list N) : list N :=
  firstn 4 v ++ firstn 4 v ++ firstn 4 v ++ firstn 4 v.
Definition unpacklo8 (a b : list N) : list N := firstn 8 a ++ firstn 8 b.

(** ** Extraction *)

(** mm256_extract_epi16, BV:492-531, with AVX2 or AVX: the same intrinsics but for the
    name of the one that gives the upper half. *)
Definition extract16 (i : nat) (v : list N) : N :=
  if Nat.ltb i 8 then lane 2 (Nat.modulo i 8) (cast_low v)
  else lane 2 (Nat.modulo i 8) (half v (Nat.div i 8)).

(** mm256_extract_epi32, BV:605-630 (SSE4.1), as an unsigned number. *)
Definition extract32 (i : nat) (v : list N) : N :=
  match i with
  | 0 => le_num (firstn 4 (cast_low v))
  | 1 | 2 | 3 => lane 4 (Nat.modulo i 4) (cast_low v)
  | 4 => le_num (firstn 4 (half v (Nat.div i 4)))
  | _ => lane 4 (Nat.modulo i 4) (half v (Nat.div i 4))
  end%nat.

(** mm256_extract_epi64, BV:717-742 (SSE4.1), as an unsigned number. *)
Definition extract64 (i : nat) (v : list N) : N :=
  match i with
  | 0 => le_num (firstn 8 (cast_low v))
  | 1 => lane 8 (Nat.modulo i 2) (cast_low v)
  | 2 => le_num (firstn 8 (half v (Nat.div i 2)))
  | _ => lane 8 (Nat.modulo i 2) (half v (Nat.div i 2))
  end%nat.

(** ** Insertion.  [avx2] selects the branch; values are taken modulo the size of the
    word. *)

(** mm256_insert_epi16, BV:540-593. *)
Definition insert16 (avx2 : bool) (junk : list N) (i : nat) (v : list N) (x : N) : list N :=
  if Nat.ltb i 8 then
    let low := with_lane 2 (Nat.modulo i 8) x (cast_low v) in
    if avx2 then blend4 (cast_up junk low) v 240 else set_half v low (Nat.div i 8)
  else set_half v (with_lane 2 (Nat.modulo i 8) x (half v (Nat.div i 8))) (Nat.div i 8).

(** mm256_insert_epi16_gcc, BV:595-603. *)
Definition insert16_gcc (i : nat) (v : list N) (x : N) : list N :=
  set_half v (with_lane 2 (Nat.modulo i 8) x (half v (Nat.div i 8))) (Nat.div i 8).

(** mm256_insert_epi32, BV:668-710. *)
Definition insert32 (avx2 : bool) (junk : list N) (i : nat) (v : list N) (x : N) : list N :=
  if avx2 then
    match i with
    | O => blend4 v (cast_up junk (from_int 4 x)) 1
    | _ => blend4 v (broadcast8 (from_int 4 x)) (N.shiftl 1 (N.of_nat i))
    end
  else if Nat.ltb i 4 then set_half v (with_lane 4 (Nat.modulo i 4) x (cast_low v)) (Nat.div i 4)
  else set_half v (with_lane 4 (Nat.modulo i 4) x (half v (Nat.div i 4))) (Nat.div i 4).

(** mm256_insert_epi64, BV:790-832. *)
Definition insert64 (avx2 : bool) (junk : list N) (i : nat) (v : list N) (x : N) : list N :=
  if avx2 then
    match i with
    | O => blend4 v (cast_up junk (from_int 8 x)) 3
    | _ => blend4 v (broadcast8 (from_int 8 x)) (N.shiftl 3 (N.of_nat i * 2))
    end
  else if Nat.ltb i 2 then set_half v (with_lane 8 (Nat.modulo i 2) x (cast_low v)) (Nat.div i 2)
  else set_half v (with_lane 8 (Nat.modulo i 2) x (half v (Nat.div i 2))) (Nat.div i 2).

(** ** Halves of the lowest 32 bits *)

(** _mm_cvtsi128_si32 and _mm256_cvtsi256_si32, BV:377 and BV:258-261: a signed number. *)
Definition low_int (v : list N) : Z :=
  let x := le_num (firstn 4 v) in
  if x <? 2 ^ 31 then Z.of_N x else (Z.of_N x - 2 ^ 32)%Z.

(** Conversion to std::uint32_t. *)
Definition to_u32 (x : Z) : N := Z.to_N (x mod 2 ^ 32).

(** mm_cvtsi128_si32_low and mm_cvtsi128_si32_high, BV:374-386; mm_cvtsi128_si16,
    BV:870-874, is the same as the first. *)
Definition low_half (v : list N) : N := N.land (to_u32 (low_int v)) 65535.
Definition high_half (v : list N) : N := N.shiftr (to_u32 (low_int v)) 16.

(** mm256_cvtsi256_si32_low and mm256_cvtsi256_si32_high, BV:480-490.  The first
    operand of & becomes unsigned, the first operand of >> does not. *)
Definition low_half256 (v : list N) : N := to_u32 (Z.of_N (N.land (to_u32 (low_int v)) 65535)).
Definition high_half256 (v : list N) : N := to_u32 (Z.shiftr (low_int v) 16).

(** ** Repeating a number *)

(** mm_set1_epi32, BV:388-394, and mm_set1_epi64, BV:396-402. *)
Definition set1_32 (x : N) : list N := shuffle0 (from_int 4 x).
Definition set1_64 (x : N) : list N := unpacklo8 (from_int 8 x) (from_int 8 x).

(** ** Comparison of signed bytes *)

Definition sbyte (b : N) : Z := if b <? 128 then Z.of_N b else (Z.of_N b - 256)%Z.
Definition ubyte (x : Z) : N := Z.to_N (x mod 256).

(** _mm_subs_epi8, BV:354: the difference of signed bytes, saturated. *)
Definition subs (a b : N) : N :=
  ubyte (Z.max (-128) (Z.min 127 (sbyte a - sbyte b))).

(** One instruction on two vectors. *)
Definition bytewise (f : N -> N -> N) (a b : list N) : list N :=
  map (fun p => f (fst p) (snd p)) (combine a b).

(** _mm_cmpeq_epi8, BV:355. *)
Definition cmpeq8 (a b : N) : N := if a =? b then 255 else 0.

(** _mm_cmpgt_epi8_fixed, BV:350-359, and _mm_cmplt_epi8_fixed, BV:361-370, where char is
    unsigned. *)
Definition cmpgt_fixed (a b : list N) : list N :=
  let mask := repeat 128 16 in
  let diff := bytewise subs b a in
  bytewise cmpeq8 (bytewise N.land diff mask) mask.
Definition cmplt_fixed (a b : list N) : list N :=
  let mask := repeat 128 16 in
  let diff := bytewise subs a b in
  bytewise cmpeq8 (bytewise N.land diff mask) mask.
