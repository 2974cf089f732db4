(** Model of /repo/src/jstd/string/string_libc.h ([L] below), string_stl.h ([T]),
    string_utils.h ([U]), string_traits.h ([R]), string_view.h ([W]) and support/SSEHelper.h
    ([H]).  A pointer is the list of bytes that may be read from it on, or None for nullptr;
    loads are those of HashModel.v.  assert does nothing (NDEBUG). *)
From Coq Require Import NArith ZArith List Bool.
From Verif Require Import Base HashModel.
Import ListNotations.
Open Scope N_scope.

(** A character type: its size in bytes, kMaxSize and kWordSize of SSEHelper (H:12-39),
    whether it is signed, and whether string_libc.h has specialisations for it (L:49-59,
    90-104, 124-138, 234-248, 271-281: char and wchar_t). *)
Record ctype := CT { csz : N; cmax : N; cword : N; csigned : bool; cspecial : bool }.

(** char and wchar_t on x86 Linux, wchar_t on Windows, short, unsigned short; char16_t is not
    unsigned short and takes the general SSEHelper. *)
Definition ct_char := CT 1 16 1 true true.
Definition ct_uchar := CT 1 16 1 false false.
Definition ct_wchar := CT 4 8 2 true true.
Definition ct_wchar_win := CT 2 8 2 false true.
Definition ct_short := CT 2 8 2 true false.
Definition ct_ushort := CT 2 8 2 false false.
Definition ct_char16 := CT 2 16 1 false false.

(** CompareResult, string_def.h:11-17. *)
Definition IsSmaller : Z := (-1)%Z.
Definition IsEqual : Z := 0%Z.
Definition IsBigger : Z := 1%Z.

(** str[i], as an unsigned number. *)
Definition chr (ct : ctype) (m : list N) (i : N) : res N := ld (N.to_nat (csz ct)) m (i * csz ct).

(** The value of a character as CharTy. *)
Definition cval (ct : ctype) (c : N) : Z :=
  if csigned ct && (2 ^ (8 * csz ct - 1) <=? c) then (Z.of_N c - 2 ^ (8 * Z.of_N (csz ct)))%Z
  else Z.of_N c.

Section Strings.

Variable ct : ctype.

(** What strcmp, strncmp, wcscmp, wcsncmp and memcmp return for two characters that differ.
    The standard only says which sign it has. *)
Variable lib : Z -> Z -> Z.

(** How strcmp and wcscmp order characters: char as unsigned char, wchar_t as wchar_t. *)
Definition libval (c : N) : Z := if csz ct =? 1 then Z.of_N c else cval ct c.

(** *str1 > *str2 after *str1 != *str2. *)
Definition bigger (x y : Z) : Z := if (y <? x)%Z then IsBigger else IsSmaller.

(** ** string_libc.h *)

(** StrLen, L:38-47; strlen and wcslen, L:49-59, do the same. *)
Fixpoint StrLen_loop (fuel : nat) (m : list N) (i : N) : res N :=
  match fuel with
  | O => Err ELoop
  | S f => do c <- chr ct m i; if c =? 0 then Ok i else StrLen_loop f m (i + 1)
  end.
Definition StrLen (m : list N) : res N := StrLen_loop (S (length m)) m 0.

(** StrEqual(str1, str2, count), L:106-122. *)
Fixpoint eq_loop (n : nat) (m1 m2 : list N) (i : N) : res bool :=
  match n with
  | O => Ok true
  | S n' =>
      do c1 <- chr ct m1 i; do c2 <- chr ct m2 i;
      if negb (c1 =? c2) then Ok false else eq_loop n' m1 m2 (i + 1)
  end.

(** strncmp and wcsncmp. *)
Fixpoint strncmp (n : nat) (m1 m2 : list N) (i : N) : res Z :=
  match n with
  | O => Ok 0%Z
  | S n' =>
      do c1 <- chr ct m1 i; do c2 <- chr ct m2 i;
      if negb (c1 =? c2) then Ok (lib (libval c1) (libval c2))
      else if c1 =? 0 then Ok 0%Z else strncmp n' m1 m2 (i + 1)
  end.

(** L:106-138. *)
Definition libc_StrEqual (m1 m2 : list N) (count : N) : res bool :=
  if cspecial ct then do r <- strncmp (N.to_nat count) m1 m2 0; Ok (r =? 0)%Z
  else eq_loop (N.to_nat count) m1 m2 0.

(** StrCmp(str1, str2, count), L:250-269. *)
Fixpoint cmp_loop (n : nat) (m1 m2 : list N) (i : N) : res Z :=
  match n with
  | O => Ok IsEqual
  | S n' =>
      do c1 <- chr ct m1 i; do c2 <- chr ct m2 i;
      if negb (c1 =? c2) then Ok (bigger (cval ct c1) (cval ct c2)) else cmp_loop n' m1 m2 (i + 1)
  end.

(** L:250-281. *)
Definition libc_StrCmp (m1 m2 : list N) (count : N) : res Z :=
  if cspecial ct then strncmp (N.to_nat count) m1 m2 0 else cmp_loop (N.to_nat count) m1 m2 0.

(** StrCmp(str1, str2), L:214-248, and StrEqual(str1, str2), L:73-104: [n] bounds the number
    of rounds, each of which reads one more character. *)
Fixpoint strcmp_loop (n : nat) (m1 m2 : list N) (i : N) : res Z :=
  match n with
  | O => Err ELoop
  | S n' =>
      do c1 <- chr ct m1 i; do c2 <- chr ct m2 i;
      if negb (c1 =? c2)
      then Ok (if cspecial ct then lib (libval c1) (libval c2) else bigger (cval ct c1) (cval ct c2))
      else if c1 =? 0 then Ok IsEqual else strcmp_loop n' m1 m2 (i + 1)
  end.
Definition libc_StrCmp0 (m1 m2 : list N) : res Z := strcmp_loop (S (length m1)) m1 m2 0.
Definition libc_StrEqual0 (m1 m2 : list N) : res bool :=
  do r <- libc_StrCmp0 m1 m2; Ok (r =? 0)%Z.

(** The part behind the comparison of the common length, L:294-301, T:176-183, U:532-537,
    U:571-576, U:636-641. *)
Definition by_length (r : Z) (len1 len2 : N) : Z :=
  if negb (r =? 0)%Z then r
  else if len2 <? len1 then IsBigger else if len1 <? len2 then IsSmaller else IsEqual.

(** ** string_stl.h *)

(** memcmp: both objects have [n] bytes. *)
Fixpoint memcmp_from (b1 b2 : list N) : Z :=
  match b1, b2 with
  | c1 :: r1, c2 :: r2 => if c1 =? c2 then memcmp_from r1 r2 else lib (Z.of_N c1) (Z.of_N c2)
  | _, _ => 0%Z
  end.
Definition memcmp (m1 m2 : list N) (n : N) : res Z :=
  if (n <=? N.of_nat (length m1)) && (n <=? N.of_nat (length m2))
  then Ok (memcmp_from (firstn (N.to_nat n) m1) (firstn (N.to_nat n) m2))
  else Err EUndef.

(** StrEqual and StrCmp with a count, T:43-49 and 143-149.  count * sizeof(CharTy) is a
    size_t. *)
Definition stl_StrEqual (m1 m2 : list N) (count : N) : res bool :=
  do r <- memcmp m1 m2 (wmul count (csz ct)); Ok (r =? 0)%Z.
Definition stl_StrCmp (m1 m2 : list N) (count : N) : res Z := memcmp m1 m2 (wmul count (csz ct)).

(** StrEqual with two lengths, T:65-81: the result of the call at line 74 is not returned, and
    flowing off the end of the function is undefined. *)
Definition stl_StrEqual4 (m1 : list N) (len1 : N) (m2 : list N) (len2 : N) : res bool :=
  if negb (len1 =? len2) then Ok false
  else do _ <- stl_StrEqual m1 m2 len1; Err EUndef.

(** ** string_utils.h: the SSE 4.2 variant *)

(** A size_t converted to int. *)
Definition to_int (n : N) : Z :=
  let x := Z.of_N (w32 n) in if (x <? 2 ^ 31)%Z then x else (x - 2 ^ 32)%Z.

(** Element [j] of a 128-bit register. *)
Definition elem (v j : N) : N := N.shiftr v (8 * cword ct * j) mod 2 ^ (8 * cword ct).

(** IntRes1 of the string instructions with _SIDD_CMP_EQUAL_EACH, bit [j]; then negated
    (_SIDD_NEGATIVE_POLARITY). *)
Definition estr_bit (a : N) (la : Z) (b : N) (lb : Z) (j : N) : bool :=
  negb (match (Z.of_N j <? la)%Z, (Z.of_N j <? lb)%Z with
        | true, true => elem a j =? elem b j
        | false, false => true
        | _, _ => false
        end).

(** _mm_cmpestrc: some bit is set; _mm_cmpestri with _SIDD_LEAST_SIGNIFICANT: the lowest. *)
Definition cmpestrc (a : N) (la : Z) (b : N) (lb : Z) : bool :=
  existsb (estr_bit a la b lb) (seqN (16 / cword ct)).
Definition cmpestri (a : N) (la : Z) (b : N) (lb : Z) : N :=
  match find (estr_bit a la b lb) (seqN (16 / cword ct)) with
  | Some j => j
  | None => 16 / cword ct
  end.

(** is_equal, U:181-215.  [i] is the number of characters passed. *)
Fixpoint sse_equal (fuel : nat) (m1 m2 : list N) (i : N) (slength : Z) : res bool :=
  if negb (0 <? slength)%Z then Ok true else
  match fuel with
  | O => Err ELoop
  | S f =>
      do a <- ld 16 m1 (i * csz ct);
      do b <- ld 16 m2 (i * csz ct);
      let len := if (Z.of_N (cmax ct) <=? slength)%Z then Z.of_N (cmax ct) else slength in
      if cmpestrc a len b len then Ok false
      else sse_equal f m1 m2 (i + cmax ct) (slength - Z.of_N (cmax ct))
  end.
Definition sse_is_equal (m1 m2 : list N) (length : N) : res bool :=
  sse_equal (S (N.to_nat (length / cmax ct))) m1 m2 0 (to_int length).

(** compare, U:417-468, and the same loop in U:482-529. *)
Fixpoint sse_compare (fuel : nat) (m1 m2 : list N) (i : N) (slen : Z) : res Z :=
  if negb (0 <? slen)%Z then Ok IsEqual else
  match fuel with
  | O => Err ELoop
  | S f =>
      do a <- ld 16 m1 (i * csz ct);
      do b <- ld 16 m2 (i * csz ct);
      let len := if (Z.of_N (cmax ct) <=? slen)%Z then Z.of_N (cmax ct) else slen in
      let full_matched := cmpestrc a len b len in
      let matched_index := cmpestri a len b len in
      if negb full_matched then sse_compare f m1 m2 (i + cmax ct) (slen - Z.of_N (cmax ct))
      else
        do ch1 <- chr ct m1 (i + matched_index);
        do ch2 <- chr ct m2 (i + matched_index);
        Ok (if ch2 <? ch1 then IsBigger else IsSmaller)
  end.
Definition sse_compare3 (m1 m2 : list N) (count : N) : res Z :=
  sse_compare (S (N.to_nat (count / cmax ct))) m1 m2 0 (to_int count).

(** ** The variant with 64-bit words *)

(** is_equal, U:219-274.  [p] is an offset in bytes; [length] counts characters in the call and
    is counted down in bytes. *)
Fixpoint u64_equal (fuel : nat) (m1 m2 : list N) (p length : N) : res bool :=
  if length =? 0 then Ok true else
  match fuel with
  | O => Err ELoop
  | S f =>
      if 8 <=? length then
        do v1 <- ld 8 m1 p; do v2 <- ld 8 m2 p;
        if v1 =? v2 then u64_equal f m1 m2 (p + 8) (length - 8) else Ok false
      else
        let mask64 := N.shiftr 0xFFFFFFFFFFFFFFFF ((8 - length) * 8) in
        do v1 <- ld 8 m1 p; do v2 <- ld 8 m2 p;
        Ok (N.land v1 mask64 =? N.land v2 mask64)
  end.
Definition u64_is_equal (m1 m2 : list N) (length : N) : res bool :=
  u64_equal (S (N.to_nat (length / 8))) m1 m2 0 length.

(** ** string_utils.h: the choice *)

(** STRING_UTILS_MODE.  If it is not defined, neither are the names it is compared with, so
    that all comparisons are 0 == 0 and the first variant that the compiler supports is
    taken. *)
Inductive mode := ModeSTL | ModeU64 | ModeSSE42 | ModeLIBC.
Variable md : mode.

(** is_equal(str1, str2, count), U:140-294. *)
Definition is_equal3 (m1 m2 : list N) (count : N) : res bool :=
  match md with
  | ModeSTL => stl_StrEqual m1 m2 count
  | ModeU64 => u64_is_equal m1 m2 count
  | ModeSSE42 => sse_is_equal m1 m2 count
  | ModeLIBC => libc_StrEqual m1 m2 count
  end.

(** is_equal with two lengths, U:296-313, is_equal_unsafe, U:323-340; kAssumeAlwaysNotEqual is
    true. *)
Definition is_equal4 (m1 : list N) (len1 : N) (m2 : list N) (len2 : N) : res bool :=
  if negb (len1 =? len2) then Ok false else is_equal3 m1 m2 len1.

(** is_equal_safe, U:351-368 and 378-395. *)
Definition is_equal_safe3 (p1 p2 : option (list N)) (count : N) : res bool :=
  match p1, p2 with
  | Some m1, Some m2 => is_equal3 m1 m2 count
  | Some _, None => Ok false
  | None, _ => Ok (match p2 with None => true | Some _ => false end)
  end.
Definition is_equal_safe4 (p1 : option (list N)) (len1 : N) (p2 : option (list N)) (len2 : N)
  : res bool :=
  if negb (len1 =? len2) then Ok false else is_equal_safe3 p1 p2 len1.

(** compare(str1, str2, count), U:417-478. *)
Definition compare3 (m1 m2 : list N) (count : N) : res Z :=
  match md with
  | ModeSSE42 => sse_compare3 m1 m2 count
  | ModeSTL => stl_StrCmp m1 m2 count
  | _ => libc_StrCmp m1 m2 count
  end.

(** compare with two lengths, U:480-547 (L:283-302, T:165-184), and compare_unsafe,
    U:561-587. *)
Definition compare4 (m1 : list N) (len1 : N) (m2 : list N) (len2 : N) : res Z :=
  do r <- compare3 m1 m2 (if len1 <=? len2 then len1 else len2); Ok (by_length r len1 len2).

(** compare_safe_impl, U:596-612, and compare_safe, U:614-624 and 626-653. *)
Definition compare_safe3 (p1 p2 : option (list N)) (count : N) : res Z :=
  match p1, p2 with
  | Some m1, Some m2 => compare3 m1 m2 count
  | Some _, None => Ok IsBigger
  | None, _ => Ok IsSmaller
  end.
Definition compare_safe4 (p1 : option (list N)) (len1 : N) (p2 : option (list N)) (len2 : N)
  : res Z :=
  do r <- compare_safe3 p1 p2 (if len1 <=? len2 then len1 else len2); Ok (by_length r len1 len2).

(** ** string_view.h *)

(** data_ and size_, W:57-58. *)
Record view := View { v_data : option (list N); v_size : N }.

(** The default constructor, W:61-62. *)
Definition v_none : view := View None 0.

(** basic_string_view(data), W:64-66. *)
Definition v_from (p : option (list N)) : res view :=
  match p with
  | Some m => do n <- StrLen m; Ok (View p n)
  | None => Ok (View p 0)
  end.

(** data() + pos.  nullptr + 0 is nullptr, other sums with nullptr are undefined. *)
Definition v_at (v : view) (pos : N) : res (option (list N)) :=
  match v_data v with
  | Some m => Ok (Some (skipn (N.to_nat (pos * csz ct)) m))
  | None => if pos =? 0 then Ok None else Err EUndef
  end.

(** The number of characters from [pos], W:330, 342, 402-403, 480-481. *)
Definition v_count (size pos count : N) : N :=
  if wadd pos count <=? size then count else wsub size pos.

Definition npos : N := two64 - 1.

(** substr, W:335-346.  None is std::out_of_range. *)
Definition v_substr (v : view) (pos count : N) : res (option view) :=
  if v_size v <? pos then Ok None
  else
    let rcount := if negb (count =? npos) then v_count (v_size v) pos count
                  else wsub (v_size v) pos in
    do p <- v_at v pos; Ok (Some (View p rcount)).

(** is_equal(rhs), W:363-365, and compare(rhs), W:442-444. *)
Definition v_equal (a b : view) : res bool := is_equal_safe4 (v_data a) (v_size a) (v_data b) (v_size b).
Definition v_compare (a b : view) : res Z := compare_safe4 (v_data a) (v_size a) (v_data b) (v_size b).

(** is_equal(pos, count, sv), W:371-378, and compare(pos, count, sv), W:450-457. *)
Definition v_equal_at (a : view) (pos count : N) (b : view) : res (option bool) :=
  if v_size a <? pos then Ok None
  else do p <- v_at a pos; do r <- is_equal_safe3 p (v_data b) count; Ok (Some r).
Definition v_compare_at (a : view) (pos count : N) (b : view) : res (option Z) :=
  if v_size a <? pos then Ok None
  else do p <- v_at a pos; do r <- compare_safe3 p (v_data b) count; Ok (Some r).

(** is_equal(pos1, count1, sv, pos2, count2), W:392-407, and compare, W:470-485. *)
Definition v_equal_parts (a : view) (pos1 count1 : N) (b : view) (pos2 count2 : N)
  : res (option bool) :=
  if (v_size a <? pos1) || (v_size b <? pos2) then Ok None
  else
    do p1 <- v_at a pos1; do p2 <- v_at b pos2;
    do r <- is_equal_safe4 p1 (v_count (v_size a) pos1 count1) p2 (v_count (v_size b) pos2 count2);
    Ok (Some r).
Definition v_compare_parts (a : view) (pos1 count1 : N) (b : view) (pos2 count2 : N)
  : res (option Z) :=
  if (v_size a <? pos1) || (v_size b <? pos2) then Ok None
  else
    do p1 <- v_at a pos1; do p2 <- v_at b pos2;
    do r <- compare_safe4 p1 (v_count (v_size a) pos1 count1) p2 (v_count (v_size b) pos2 count2);
    Ok (Some r).

(** The operators, W:517-539. *)
Definition v_eq (a b : view) : res bool := v_equal a b.
Definition v_ne (a b : view) : res bool := do r <- v_equal a b; Ok (negb r).
Definition v_lt (a b : view) : res bool := do r <- v_compare a b; Ok (r =? IsSmaller)%Z.
Definition v_le (a b : view) : res bool := do r <- v_compare a b; Ok (r =? IsBigger)%Z.
Definition v_gt (a b : view) : res bool := do r <- v_compare a b; Ok (r =? IsBigger)%Z.
Definition v_ge (a b : view) : res bool := do r <- v_compare a b; Ok (r =? IsSmaller)%Z.

(** str_copy for char and wchar_t, U:122-132: strncpy and wcsncpy copy up to the first zero and
    fill up with zeros; they return dest.  Bytes of the destination, and the pointer returned
    relative to it. *)
Fixpoint strncpy_chars (n : nat) (m : list N) (i : N) : res (list N) :=
  match n with
  | O => Ok []
  | S n' =>
      do c <- chr ct m i;
      if c =? 0 then Ok (repeat 0 n) else do r <- strncpy_chars n' m (i + 1); Ok (c :: r)
  end.
Definition str_copy_lib (src : list N) (count : N) : res (list N * N) :=
  do cs <- strncpy_chars (N.to_nat count) src 0; Ok (cs, 0).

(** str_copy for other characters, U:102-115: characters of the destination before and after,
    and the distance returned. *)
Fixpoint str_copy_loop (n : nat) (dest : list N) (src : list N) (i : N) : res (list N * N) :=
  match n with
  | O => Ok (dest, 0)
  | S n' =>
      match dest with
      | [] => Err EUndef
      | d :: dest' =>
          do c <- chr ct src i;
          if N.land d c =? 0 then Ok (dest, 0)
          else do r <- str_copy_loop n' dest' src (i + 1); Ok (c :: fst r, snd r + 1)
      end
  end.

(** Traits::copy, R:30-34, of copy(dest, count, pos), W:325-332: the new characters of the
    destination and the number returned.  None is std::out_of_range. *)
Definition v_copy (v : view) (dest : list N) (count pos : N) : res (option (list N * N)) :=
  if v_size v <? pos then Ok None
  else
    let rcount := v_count (v_size v) pos count in
    do p <- v_at v pos;
    match p with
    | None => if rcount =? 0 then Ok (Some (dest, 0)) else Err EUndef
    | Some m =>
        if cspecial ct then
          if N.of_nat (length dest) <? rcount then Err EUndef
          else do r <- str_copy_lib m rcount;
               Ok (Some (fst r ++ skipn (length (fst r)) dest, snd r))
        else do r <- str_copy_loop (N.to_nat rcount) dest m 0; Ok (Some r)
    end.

End Strings.
