(** The formatter of src/jstd/string/formatter.h and the integer logarithm of
    src/jstd/math/log10_int.h.

    A format is the list of its characters before the terminating zero, and a
    pointer into it is the part of the list that is still to be read; the text
    between two pointers into the format is the list of its characters.  A
    character is the number of its bits.  A local array holds [Some c] where a
    character has been written and [None] where nothing has; a write outside
    the array, and reading a character that was never written, are [EUndef].
    [assert] does nothing (NDEBUG).  An exception is [Throw] with the string as
    it is left behind. *)
From Coq Require Import NArith ZArith List Bool.
From Verif Require Import Base BitsModel.
Import ListNotations.
Open Scope N_scope.

Notation "'do' x <- r ; k" := (rbind r (fun x => k))
  (at level 200, x pattern, r at level 100, k at level 200).

(** log10_int.h:20-34 *)
Definition s_power10 : list N :=
  [9; 99; 999; 9999; 99999; 999999; 9999999; 99999999; 999999999; 4294967295;
   0; 0; 0; 0; 0; 0].

(** log10_int.h:36-60 *)
Definition s_power10_64 : list N :=
  [9; 99; 999; 9999; 99999; 999999; 9999999; 99999999; 999999999; 9999999999;
   99999999999; 999999999999; 9999999999999; 99999999999999; 999999999999999;
   9999999999999999; 99999999999999999; 999999999999999999; 9999999999999999999;
   18446744073709551615; 0; 0; 0; 0].

(** The common body of log10_int.h:62-84 and 89-111. *)
Definition log10_with (table : list N) (val : N) : res N :=
  if 10 <=? val then
    let exponent := bsr val in
    let exp10 := N.shiftr (w32 (exponent * 2525222)) 23 in
    match geti table exp10 with
    | Some p => Ok (if p <? val then w32 (exp10 + 1) else exp10)
    | None => Err EUndef
    end
  else Ok 0.

(** log10_int.h:62-84 jm_log10_u32, 89-111 jm_log10_u64 *)
Definition jm_log10_u32 (val : N) : res N := log10_with s_power10 val.
Definition jm_log10_u64 (val : N) : res N := log10_with s_power10_64 val.

(** formatter.h:62-71 to_hex_char and to_lower_hex_char for the unsigned character types
    of the callers; [hex] is below 16 there. *)
Definition to_hex_char (hex : N) : N := if 10 <=? hex then hex - 10 + 65 else hex + 48.
Definition to_lower_hex_char (hex : N) : N := if 10 <=? hex then hex - 10 + 97 else hex + 48.

(** formatter.h:73-81, 83-91: [std::string hex(to_hex_char(high), 1)] is the constructor
    with a count and a character. *)
Definition to_hex (ch : N) : list N :=
  repeat 1 (N.to_nat (to_hex_char (ch / 16))) ++ [to_hex_char (ch mod 16)].
Definition to_lower_hex (ch : N) : list N :=
  repeat 1 (N.to_nat (to_lower_hex_char (ch / 16))) ++ [to_lower_hex_char (ch mod 16)].

(** formatter.h:93-97 *)
Definition count_digits_bool (delta : Z) (b : bool) : Z := 1.

(** formatter.h:99-108, and with the same text 121-130 for uint16_t *)
Definition count_digits_u8 (delta : Z) (u : N) : Z :=
  if u <? 10 then 1 - delta else if u <? 100 then 2 - delta else 3 - delta.
Definition count_digits_u16 (delta : Z) (u : N) : Z :=
  if u <? 10 then 1 - delta else if u <? 100 then 2 - delta else 3 - delta.

(** [std::ssize_t(i < 0)] *)
Definition neg1 (i : Z) : Z := if (i <? 0)%Z then 1%Z else 0%Z.

(** formatter.h:110-119, 132-141: the negation is done in [int]. *)
Definition count_digits_i8 (delta : Z) (i : Z) : Z :=
  neg1 i + count_digits_u8 delta (Z.to_N (Z.abs i) mod 2 ^ 8).
Definition count_digits_i16 (delta : Z) (i : Z) : Z :=
  neg1 i + count_digits_u16 delta (Z.to_N (Z.abs i) mod 2 ^ 16).

(** formatter.h:143-186 (the branch [#if 1]) *)
Definition count_digits_u32 (delta : Z) (u : N) : res Z :=
  do e <- jm_log10_u32 u; Ok (Z.of_N (w32 (e + 1)) - delta)%Z.

(** The negation of a negative [bits]-bit integer, converted to unsigned: undefined for the
    least one. *)
Definition negated (bits : Z) (i : Z) : res N :=
  if (i =? - 2 ^ (bits - 1))%Z then Err EUndef else Ok (Z.to_N (- i)).

(** formatter.h:188-199, 285-296: the conversion in front of the unsigned function *)
Definition magnitude (bits : Z) (i : Z) : res N :=
  if (0 <=? i)%Z then Ok (Z.to_N i) else negated bits i.

(** formatter.h:188-199 *)
Definition count_digits_i32 (delta : Z) (i : Z) : res Z :=
  do u <- magnitude 32 i; do n <- count_digits_u32 delta u; Ok (neg1 i + n)%Z.

(** formatter.h:201-206 (x86-64) *)
Definition count_digits_u64 (delta : Z) (u : N) : res Z :=
  do e <- jm_log10_u64 u; Ok (Z.of_N (w32 (e + 1)) - delta)%Z.

(** formatter.h:207-281 (the other targets) *)
Definition count_digits_u64_other (delta : Z) (u : N) : Z :=
  if u <? 100000000 then
    if u <? 10000 then
      if u <? 100 then (if u <? 10 then 1 - delta else 2 - delta)
      else (if u <? 1000 then 3 - delta else 4 - delta)
    else
      if u <? 1000000 then (if u <? 100000 then 5 - delta else 6 - delta)
      else (if u <? 10000000 then 7 - delta else 8 - delta)
  else if u <? 10000000000000000 then
    if u <? 1000000000000 then
      if u <? 10000000000 then (if u <? 1000000000 then 9 - delta else 10 - delta)
      else (if u <? 100000000000 then 11 - delta else 12 - delta)
    else
      if u <? 100000000000000 then (if u <? 10000000000000 then 13 - delta else 14 - delta)
      else (if u <? 1000000000000000 then 15 - delta else 16 - delta)
  else
    if u <? 1000000000000000000 then (if u <? 100000000000000000 then 17 - delta else 18 - delta)
    else (if u <? 10000000000000000000 then 19 - delta else 20 - delta).

(** formatter.h:285-296 *)
Definition count_digits_i64 (delta : Z) (i : Z) : res Z :=
  do u <- magnitude 64 i; do n <- count_digits_u64 delta u; Ok (neg1 i + n)%Z.

(** formatter.h:298-303, the address as a number *)
Definition count_digits_ptr (delta : Z) (u : N) : res Z :=
  do n <- count_digits_u64 delta u; Ok (n + 2)%Z.

(** The size of a character, formatter.h:20-30 [CharTy]: 1 for char, 4 for wchar_t. *)
Definition chr0 (csz : N) (n : N) : N := (n mod 2 ^ (8 * csz) + 48) mod 2 ^ (8 * csz).

(** A local array, and a write through a pointer into it. *)
Definition buffer := list (option N).
Definition poke (csz : N) (b : buffer) (i : Z) (n : N) : res buffer :=
  if (0 <=? i)%Z && (i <? Z.of_nat (length b))%Z
  then Ok (upd b (Z.to_nat i) (Some (chr0 csz n))) else Err EUndef.

(** [str.append(first, last)] with two pointers into a local array *)
Fixpoint written (l : buffer) : res (list N) :=
  match l with
  | [] => Ok []
  | None :: _ => Err EUndef
  | Some c :: l' => do r <- written l'; Ok (c :: r)
  end.
Definition append_range (str : list N) (b : buffer) (first last : Z) : res (list N) :=
  if (0 <=? first)%Z && (first <=? last)%Z && (last <=? Z.of_nat (length b))%Z
  then do t <- written (firstn (Z.to_nat (last - first)) (skipn (Z.to_nat first) b)); Ok (str ++ t)
  else Err EUndef.

(** formatter.h:321-331, 378-388: the loop that writes two digits a turn *)
Fixpoint two_digits (fuel : nat) (csz u : N) (b : buffer) (last : Z) : res (N * buffer * Z) :=
  if 100 <=? u then
    match fuel with
    | O => Err ELoop
    | S fuel' =>
        do b1 <- poke csz b last (u mod 10);
        do b2 <- poke csz b1 (last - 1) (u / 10 mod 10);
        two_digits fuel' csz (u / 10 / 10) b2 (last - 2)
    end
  else Ok (u, b, last).

(** formatter.h:320-340, 377-397 *)
Definition all_digits (csz u : N) (b : buffer) (last : Z) : res (buffer * Z) :=
  do (u1, b1, last1) <- two_digits 64 csz u b last;
  do (u2, b2, last2) <- (if 10 <=? u1 then do b2 <- poke csz b1 last1 (u1 mod 10);
                                            Ok (u1 / 10, b2, (last1 - 1)%Z)
                         else Ok (u1, b1, last1));
  do b3 <- poke csz b2 last2 u2;
  Ok (b3, last2).

(** [std::size_t(p - q)] *)
Definition zsize (d : Z) : N := Z.to_N (d mod 2 ^ 64).

(** formatter.h:305-311 itoa for the arguments that no other overload takes *)
Definition itoa_any (str : list N) : list N * N := (str ++ repeat 63 8, 8).

(** formatter.h:313-350; [sizeof(buf)] counts bytes *)
Definition itoa_u32 (csz : N) (str : list N) (u : N) : res (list N * N) :=
  let buf := repeat None 16 in
  let buf_end := (16 * Z.of_N csz - 5)%Z in
  do (b, last) <- all_digits csz u buf (16 * Z.of_N csz - 6);
  do str' <- append_range str b last buf_end;
  Ok (str', zsize (buf_end - last)).

(** formatter.h:370-407 *)
Definition itoa_u64 (csz : N) (str : list N) (u : N) : res (list N * N) :=
  let buf := repeat None 32 in
  let buf_end := (32 * Z.of_N csz - 14)%Z in
  do (b, last) <- all_digits csz u buf (32 * Z.of_N csz - 13);
  do str' <- append_range str b last buf_end;
  Ok (str', zsize (buf_end - last)).

(** formatter.h:352-368 *)
Definition itoa_i32 (csz : N) (str : list N) (i : Z) : res (list N * N) :=
  if (0 <=? i)%Z then itoa_u32 csz str (Z.to_N i)
  else do u <- negated 32 i; do (s, n) <- itoa_u32 csz (str ++ [45]) u; Ok (s, wadd n 1).

(** formatter.h:409-425 *)
Definition itoa_i64 (csz : N) (str : list N) (i : Z) : res (list N * N) :=
  if (0 <=? i)%Z then itoa_u64 csz str (Z.to_N i)
  else do u <- negated 64 i; do (s, n) <- itoa_u64 csz (str ++ [45]) u; Ok (s, wadd n 1).

(** formatter.h:779-836, 893-1002: the fall-through of the switch from [case k] to [case 1]
    (no case below 1) *)
Fixpoint fall (csz : N) (k : nat) (u : N) (b : buffer) (last : Z) : res (buffer * Z) :=
  match k with
  | O => Ok (b, last)
  | S O => do b1 <- poke csz b last u; Ok (b1, last)
  | S k' => do b1 <- poke csz b last (u mod 10); fall csz k' (u / 10) b1 (last - 1)
  end.

(** A result that cannot throw, as the outcome of a call on a string. *)
Definition lift {A} (str : list N) (r : res (list N * A)) : out (list N) A :=
  match r with Ok (s, a) => Ret s a | Err e => Fail e end.

(** formatter.h:768-858 *)
Definition itoad_u32 (csz : N) (str : list N) (u digits : N) : out (list N) N :=
  if (digits =? 0) || (10 <? digits) then Throw str
  else
    let buf_end := (16 * Z.of_N csz - 5)%Z in
    lift str
      (do (b, last) <- fall csz (N.to_nat digits) u (repeat None 16) (16 * Z.of_N csz - 6);
       do str' <- append_range str b last buf_end;
       Ok (str', digits)).

(** formatter.h:881-1024 *)
Definition itoad_u64 (csz : N) (str : list N) (u digits : N) : out (list N) N :=
  if (digits =? 0) || (19 <? digits) then Throw str
  else
    let buf_end := (32 * Z.of_N csz - 14)%Z in
    lift str
      (do (b, last) <- fall csz (N.to_nat digits) u (repeat None 32) (32 * Z.of_N csz - 13);
       do str' <- append_range str b last buf_end;
       Ok (str', digits)).

(** formatter.h:860-879 *)
Definition itoad_i32 (csz : N) (str : list N) (i : Z) (digits : N) : out (list N) N :=
  if (0 <=? i)%Z then itoad_u32 csz str (Z.to_N i) digits
  else match negated 32 i with
       | Err e => Fail e
       | Ok u => obind (itoad_u32 csz (str ++ [45]) u (wsub digits 1)) (fun s _ => Ret s digits)
       end.

(** formatter.h:1026-1045 *)
Definition itoad_i64 (csz : N) (str : list N) (i : Z) (digits : N) : out (list N) N :=
  if (0 <=? i)%Z then itoad_u64 csz str (Z.to_N i) digits
  else match negated 64 i with
       | Err e => Fail e
       | Ok u => obind (itoad_u64 csz (str ++ [45]) u (wsub digits 1)) (fun s _ => Ret s digits)
       end.

(** formatter.h:759-766 *)
Definition itoad_any (str : list N) (size : N) : out (list N) N :=
  Ret (str ++ repeat 63 (N.to_nat size)) size.

(** string_view.h:60-61 over the characters of a std::string: [w_mem] are the characters of the
    string, [w_data] the offset of [data_] in it. *)
Record window := W { w_mem : list N; w_data : N; w_size : N }.

(** A write through [data_]: inside the string, or a zero at its end (the only value that may
    be stored there). *)
Definition w_store (w : window) (i : Z) (c : N) : res window :=
  if (0 <=? i)%Z && (i <? Z.of_nat (length (w_mem w)))%Z
  then Ok (W (upd (w_mem w) (Z.to_nat i) c) (w_data w) (w_size w))
  else if (i =? Z.of_nat (length (w_mem w)))%Z && (c =? 0) then Ok w
  else Err EUndef.

(** string_view.h:542-546 push_back_impl *)
Definition w_push (w : window) (c : N) : res window :=
  do w1 <- w_store w (Z.of_N (w_data w + w_size w)) c;
  Ok (W (w_mem w1) (w_data w1) (w_size w1 + 1)).

(** string_view.h:281-284, 296-300 write_null *)
Definition w_null (w : window) : res window := w_store w (Z.of_N (w_data w + w_size w)) 0.

(** string_view.h:273-279 push_back *)
Definition w_push_back (w : window) (c : N) : res window :=
  do w1 <- w_store w (Z.of_N (w_data w + w_size w)) c;
  do w2 <- w_store w1 (Z.of_N (w_data w + w_size w) + 1) 0;
  Ok (W (w_mem w2) (w_data w2) (w_size w2 + 1)).

(** string_view.h:217-233 append *)
Fixpoint w_append (w : window) (t : list N) : res window :=
  match t with
  | [] => w_null w
  | c :: t' => do w1 <- w_push w c; w_append w1 t'
  end.

(** formatter.h:445-501, 602-716: the switch of the overloads on a view *)
Fixpoint w_fall (csz : N) (k : nat) (u : N) (w : window) (last : Z) : res window :=
  match k with
  | O => Ok w
  | S O => w_store w last (chr0 csz u)
  | S k' => do w1 <- w_store w last (chr0 csz (u mod 10)); w_fall csz k' (u / 10) w1 (last - 1)
  end.

(** string_view.h:136-138 commit *)
Definition w_commit (w : window) (count : N) : window := W (w_mem w) (w_data w + count) (w_size w).

(** As [lift], for a view. *)
Definition wlift (r : res window) (digits : N) : out window N :=
  match r with Ok w => Ret w digits | Err e => Fail e end.

(** formatter.h:436-526 (at most 10 digits), 593-736 (at most 19) *)
Definition itoav_u (most : N) (csz : N) (w : window) (u digits : N) : out window N :=
  if (digits =? 0) || (most <? digits) then Throw w
  else wlift (do w1 <- w_fall csz (N.to_nat digits) u w (Z.of_N (w_data w + digits) - 1);
              Ok (w_commit w1 digits)) digits.
Definition itoav_u32 := itoav_u 10.
Definition itoav_u64 := itoav_u 19.

(** formatter.h:572-591, 738-757 *)
Definition itoav_i (bits : Z) (most csz : N) (w : window) (i : Z) (digits : N) : out window N :=
  if (0 <=? i)%Z then itoav_u most csz w (Z.to_N i) digits
  else match w_push_back w 45 with
       | Err e => Fail e
       | Ok w1 => match negated bits i with
                  | Err e => Fail e
                  | Ok u => obind (itoav_u most csz w1 u (wsub digits 1)) (fun w2 _ => Ret w2 digits)
                  end
       end.
Definition itoav_i32 := itoav_i 32 10.
Definition itoav_i64 := itoav_i 64 19.

(** formatter.h:427-434 *)
Definition itoav_any (w : window) (size : N) : out window N :=
  wlift (w_append w (repeat 63 (N.to_nat size))) size.

(** The arguments.  The functions below are instantiated for the decayed type of the argument
    and all their branches are compiled for it, so that [static_cast<int>(arg)]
    (formatter.h:1303) admits arithmetic types only.  [A_int], [A_uint], [A_long], [A_ulong]
    are int, unsigned, long and unsigned long (int32_t .. uint64_t on LP64 targets, the types
    that itoa has overloads for); [A_small] are char, unsigned char, short, unsigned short and
    wchar_t (the types of formatter.h:1285-1290); [A_integer] the other integral types;
    [A_float] float, double and long double. *)
Inductive atype := A_int | A_uint | A_long | A_ulong | A_small | A_integer | A_float.
Record arg := Arg { a_type : atype; a_val : Z }.

Definition is_float (t : atype) : bool := match t with A_float => true | _ => false end.
Definition is_small (t : atype) : bool := match t with A_small => true | _ => false end.

(** [static_cast<int>(arg)], [static_cast<unsigned int>(arg)], [static_cast<unsigned char>(arg)] *)
Definition to_s32 (z : Z) : Z := ((z + 2 ^ 31) mod 2 ^ 32 - 2 ^ 31)%Z.
Definition to_u32 (z : Z) : N := Z.to_N (z mod 2 ^ 32).
Definition to_u8 (z : Z) : N := Z.to_N (z mod 2 ^ 8).

(** What is done for a specifier: formatter.h:1218-1428 and, letter by letter the same,
    1456-1660. *)
Inductive kind := KFloat | KFloatF | KInteger | KChar | KDec | KUns | KPointer | KUnknown.
Definition spec_kind (sp : N) : kind :=
  match sp with
  | 65 | 69 | 70 | 71 | 97 | 101 | 103 => KFloat    (* A E F G a e g *)
  | 102 => KFloatF                                  (* f *)
  | 88 | 105 | 110 | 111 | 120 => KInteger          (* X i n o x; n falls through to o *)
  | 99 => KChar                                     (* c *)
  | 100 => KDec                                     (* d *)
  | 117 => KUns                                     (* u *)
  | 112 | 115 => KPointer                           (* p s *)
  | _ => KUnknown
  end.

(** Whether the condition of the case holds, so that the letter is passed over
    ([std::is_integral], [std::is_same], [std::is_pointer]). *)
Definition taken (k : kind) (t : atype) : bool :=
  match k with
  | KFloat | KFloatF => is_float t
  | KInteger | KDec | KUns => negb (is_float t)
  | KChar => is_small t
  | KPointer | KUnknown => false
  end.

(** How a specifier ends: [Sprintf_Success] with the rest of the format and a value,
    [Sprintf_Reached_Endof], or a negative code. *)
Inductive code (A : Type) := CDone (fmt : list N) (a : A) | CEnd | CBad.
Arguments CDone {A} fmt a.
Arguments CEnd {A}.
Arguments CBad {A}.

(** formatter.h:1194-1431: the length of the text of an argument ([data_len] is a size_t) *)
Definition handle_size (a : arg) (fmt : list N) : res (code N) :=
  match fmt with
  | [] => Ok CEnd
  | sp :: rest =>
      match spec_kind sp with
      | KUnknown => Ok CBad
      | k =>
          if taken k (a_type a) then
            match k with
            | KFloatF => Ok (CDone rest 6)
            | KChar => Ok (CDone rest (zsize (count_digits_u8 0 (to_u8 (a_val a)))))
            | KDec => do n <- count_digits_i32 0 (to_s32 (a_val a)); Ok (CDone rest (zsize n))
            | KUns => do n <- count_digits_u32 0 (to_u32 (a_val a)); Ok (CDone rest (zsize n))
            | _ => Ok (CDone rest 0)
            end
          else Ok (CDone fmt 0)
      end
  end.

(** formatter.h:1433-1665: the text of an argument is appended to the string *)
Definition handle_text (csz : N) (str : list N) (a : arg) (fmt : list N) : res (list N * code unit) :=
  match fmt with
  | [] => Ok (str, CEnd)
  | sp :: rest =>
      match spec_kind sp with
      | KUnknown => Ok (str, CBad)
      | k =>
          if taken k (a_type a) then
            match k with
            | KChar => do (s, _) <- itoa_u32 csz str (to_u8 (a_val a)); Ok (s, CDone rest tt)
            | KDec => do (s, _) <- itoa_i32 csz str (to_s32 (a_val a)); Ok (s, CDone rest tt)
            | KUns => do (s, _) <- itoa_u32 csz str (to_u32 (a_val a)); Ok (s, CDone rest tt)
            | _ => Ok (str, CDone rest tt)
            end
          else Ok (str, CDone fmt tt)
      end
  end.

(** '%' *)
Definition pct : N := 37.

Definition zlen {A} (l : list A) : Z := Z.of_nat (length l).

(** formatter.h:1667-1704 with no argument left; [None] is an exception, [scan] is
    [fmt - fmt_first] and [rest] is [rest_size] *)
Fixpoint calc0 (fmt : list N) (scan rest : Z) : option N :=
  match fmt with
  | [] => Some (zsize (scan + rest))
  | c :: fmt1 =>
      if c =? pct then
        match fmt1 with
        | c2 :: fmt2 => if c2 =? pct then calc0 fmt2 (scan + 2) (rest - 1) else None
        | [] => None
        end
      else calc0 fmt1 (scan + 1) rest
  end.

(** formatter.h:1706-1765; [next] is the call for the remaining arguments *)
Fixpoint calc1 (a : arg) (next : list N -> res (option N)) (fmt : list N) (scan rest : Z)
  : res (option N) :=
  match fmt with
  | [] => Ok (Some (zsize (scan + rest)))
  | c :: fmt1 =>
      if c =? pct then
        match fmt1 with
        | c2 :: fmt2 =>
            if c2 =? pct then calc1 a next fmt2 (scan + 2) (rest - 1)
            else
              do r <- handle_size a fmt1;
              match r with
              | CDone fmt3 data_len =>
                  let used := (zlen fmt - zlen fmt3)%Z in
                  do r2 <- next fmt3;
                  match r2 with
                  | Some remain => Ok (Some (zsize (scan + used + (rest + (Z.of_N data_len - used)
                                                                   + Z.of_N remain))))
                  | None => Ok None
                  end
              | CEnd => Ok (Some (zsize (scan + 1 + rest)))
              | CBad => Ok None
              end
        | [] =>
            do r <- handle_size a fmt1;
            match r with
            | CEnd => Ok (Some (zsize (scan + 1 + rest)))
            | _ => Ok None
            end
        end
      else calc1 a next fmt1 (scan + 1) rest
  end.

(** formatter.h:1767-1770 sprintf_calc_space *)
Fixpoint calc_space (args : list arg) (fmt : list N) : res (option N) :=
  match args with
  | [] => Ok (calc0 fmt 0 0)
  | a :: args' => calc1 a (calc_space args') fmt 0 0
  end.

(** formatter.h:1047-1150 sprintf_fmt_node: the text from [first] to [last], whether an argument
    follows, and its length *)
Record node := Node { n_text : list N; n_arg : bool; n_size : N }.

(** formatter.h:1772-1820 with no argument left: the list of nodes, and the length or an
    exception.  [seg] is the text from [fmt_first] to [fmt]. *)
Fixpoint prep0 (fmt seg : list N) (rest : Z) (nodes : list node) : list node * option N :=
  match fmt with
  | [] => (match seg with [] => nodes | _ => nodes ++ [Node seg false 0] end,
           Some (zsize (zlen seg + rest)))
  | c :: fmt1 =>
      if c =? pct then
        match fmt1 with
        | c2 :: fmt2 =>
            if c2 =? pct then prep0 fmt2 [] (rest - 1) (nodes ++ [Node (seg ++ [pct]) false 0])
            else (nodes, None)
        | [] => (nodes, None)
        end
      else prep0 fmt1 (seg ++ [c]) rest nodes
  end.

(** formatter.h:1822-1899 *)
Fixpoint prep1 (a : arg) (next : list N -> list node -> res (list node * option N))
    (fmt seg : list N) (rest : Z) (nodes : list node) : res (list node * option N) :=
  match fmt with
  | [] => Ok (match seg with [] => nodes | _ => nodes ++ [Node seg false 0] end,
              Some (zsize (zlen seg + rest)))
  | c :: fmt1 =>
      if c =? pct then
        match fmt1 with
        | c2 :: fmt2 =>
            if c2 =? pct then prep1 a next fmt2 [] (rest - 1) (nodes ++ [Node (seg ++ [pct]) false 0])
            else
              do r <- handle_size a fmt1;
              match r with
              | CDone fmt3 data_len =>
                  let used := (zlen fmt - zlen fmt3)%Z in
                  do (nodes2, r2) <- next fmt3 (nodes ++ [Node seg true data_len]);
                  match r2 with
                  | Some remain => Ok (nodes2, Some (zsize (zlen seg + used
                                         + (rest + (Z.of_N data_len - used) + Z.of_N remain))))
                  | None => Ok (nodes2, None)
                  end
              | CEnd => Ok (nodes ++ [Node [pct] false 0], Some (zsize (zlen seg + 1 + rest)))
              | CBad => Ok (nodes, None)
              end
        | [] =>
            do r <- handle_size a fmt1;
            match r with
            | CEnd => Ok (nodes ++ [Node [pct] false 0], Some (zsize (zlen seg + 1 + rest)))
            | _ => Ok (nodes, None)
            end
        end
      else prep1 a next fmt1 (seg ++ [c]) rest nodes
  end.

(** formatter.h:2129-2134 sprintf_prepare_space *)
Fixpoint prepare_space (args : list arg) (fmt : list N) (nodes : list node)
  : res (list node * option N) :=
  match args with
  | [] => Ok (prep0 fmt [] 0 nodes)
  | a :: args' => prep1 a (prepare_space args') fmt [] 0 nodes
  end.

(** formatter.h:1902-1938 with no argument left *)
Fixpoint plain0 (str fmt seg : list N) : out (list N) unit :=
  match fmt with
  | [] => Ret (str ++ seg) tt
  | c :: fmt1 =>
      if c =? pct then
        match fmt1 with
        | c2 :: fmt2 => if c2 =? pct then plain0 (str ++ seg ++ [pct]) fmt2 [] else Throw str
        | [] => Throw str
        end
      else plain0 str fmt1 (seg ++ [c])
  end.

(** formatter.h:1940-2001 *)
Fixpoint plain1 (csz : N) (a : arg) (next : list N -> list N -> out (list N) unit)
    (str fmt seg : list N) : out (list N) unit :=
  match fmt with
  | [] => Ret (str ++ seg) tt
  | c :: fmt1 =>
      if c =? pct then
        match fmt1 with
        | c2 :: fmt2 =>
            if c2 =? pct then plain1 csz a next (str ++ seg ++ [pct]) fmt2 []
            else
              match handle_text csz (str ++ seg) a fmt1 with
              | Err e => Fail e
              | Ok (s, CDone fmt3 _) => next s fmt3
              | Ok (s, CEnd) => Ret (s ++ [pct]) tt
              | Ok (s, CBad) => Throw s
              end
        | [] =>
            match handle_text csz (str ++ seg) a fmt1 with
            | Err e => Fail e
            | Ok (s, CEnd) => Ret (s ++ [pct]) tt
            | Ok (s, _) => Throw s
            end
        end
      else plain1 csz a next str fmt1 (seg ++ [c])
  end.

Fixpoint plain (csz : N) (args : list arg) (str fmt : list N) : out (list N) unit :=
  match args with
  | [] => plain0 str fmt []
  | a :: args' => plain1 csz a (plain csz args') str fmt []
  end.

(** formatter.h:2157-2169 sprintf_no_prepare; [None] is a null pointer *)
Definition sprintf_no_prepare (csz : N) (str : list N) (fmt : option (list N)) (args : list arg)
  : out (list N) N :=
  match fmt with
  | None => Ret str 0
  | Some f => obind (plain csz args str f)
                (fun s _ => Ret s (wsub (N.of_nat (length s)) (N.of_nat (length str))))
  end.

(** The overload of itoa on a std::string for an argument and a number of digits. *)
Definition itoad (csz : N) (str : list N) (a : arg) (size : N) : out (list N) N :=
  match a_type a with
  | A_int => itoad_i32 csz str (a_val a) size
  | A_uint => itoad_u32 csz str (Z.to_N (a_val a)) size
  | A_long => itoad_i64 csz str (a_val a) size
  | A_ulong => itoad_u64 csz str (Z.to_N (a_val a)) size
  | _ => itoad_any str size
  end.

(** The overload of itoa on a view. *)
Definition itoav (csz : N) (w : window) (a : arg) (size : N) : out window N :=
  match a_type a with
  | A_int => itoav_i32 csz w (a_val a) size
  | A_uint => itoav_u32 csz w (Z.to_N (a_val a)) size
  | A_long => itoav_i64 csz w (a_val a) size
  | A_ulong => itoav_u64 csz w (Z.to_N (a_val a)) size
  | _ => itoav_any w size
  end.

(** formatter.h:2004-2024 and 2026-2061 sprintf_direct_output_impl: the nodes from [index] on *)
Fixpoint direct_output (csz : N) (str : list N) (nodes : list node) (args : list arg)
  : out (list N) N :=
  match nodes with
  | [] => Ret str 0
  | n :: nodes' =>
      let str1 := str ++ n_text n in
      let size := N.of_nat (length (n_text n)) in
      match args with
      | [] => if n_arg n then Throw str1 else Ret str1 size
      | a :: args' =>
          if n_arg n then
            obind (itoad csz str1 a (n_size n)) (fun str2 data_len =>
            obind (direct_output csz str2 nodes' args') (fun str3 remain =>
            Ret str3 (wadd (wadd size data_len) remain)))
          else match args' with [] => Ret str1 size | _ => Throw str1 end
      end
  end.

(** formatter.h:2171-2189 sprintf_direct *)
Definition sprintf_direct (csz : N) (str : list N) (fmt : option (list N)) (args : list arg)
  : out (list N) N :=
  match fmt with
  | None => Ret str 0
  | Some f =>
      match prepare_space args f [] with
      | Err e => Fail e
      | Ok (_, None) => Throw str
      | Ok (nodes, Some prepare_size) =>
          obind (direct_output csz str nodes args) (fun s _ => Ret s prepare_size)
      end
  end.

(** [if (fmt_info.fmt_length() > 0) str.append(first, last)] on a view *)
Definition w_text (w : window) (t : list N) : res window :=
  match t with [] => Ok w | _ => w_append w t end.

(** formatter.h:2064-2087 and 2089-2127 sprintf_prepare_output_impl *)
Fixpoint prepare_output (csz : N) (w : window) (nodes : list node) (args : list arg)
  : out window N :=
  match nodes with
  | [] => Throw w
  | n :: nodes' =>
      match w_text w (n_text n) with
      | Err e => Fail e
      | Ok w1 =>
          let size := N.of_nat (length (n_text n)) in
          match args with
          | [] => if n_arg n then Throw w1 else Ret w1 size
          | a :: args' =>
              if n_arg n then
                obind (itoav csz w1 a (n_size n)) (fun w2 data_len =>
                obind (prepare_output csz w2 nodes' args') (fun w3 remain =>
                Ret w3 (wadd (wadd size data_len) remain)))
              else match args' with [] => Ret w1 size | _ => Throw w1 end
          end
      end
  end.

(** formatter.h:2191-2227 sprintf (the branch [#if 1]); [str.resize] throws for sizes that no
    string reaches (std::length_error or std::bad_alloc; the bound 2^62 stands for them) *)
Definition sprintf (csz : N) (str : list N) (fmt : option (list N)) (args : list arg)
  : out (list N) N :=
  match fmt with
  | None => Ret str 0
  | Some f =>
      match prepare_space args f [] with
      | Err e => Fail e
      | Ok (_, None) => Throw str
      | Ok (nodes, Some prepare_size) =>
          let new_size := wadd (N.of_nat (length str)) prepare_size in
          if 2 ^ 62 <=? new_size then Throw str
          else
            let mem := firstn (N.to_nat new_size) str
                       ++ repeat 0 (N.to_nat new_size - length str) in
            match prepare_output csz (W mem 0 new_size) nodes args with
            | Ret w _ => Ret (w_mem w) prepare_size
            | Throw w => Throw (w_mem w)
            | Fail e => Fail e
            end
      end
  end.
