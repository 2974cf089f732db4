(** Model of the hash functions of /repo/src/jstd/hasher/hashes.h ([H] below),
    hash_crc32.h ([C]) and hash_helper.h ([HH]).
    Memory is a list of bytes; [mem] holds everything that may be read and a read that
    is not inside it is undefined.  A key is the [len] bytes of [mem] at index [p].  Words are
    little-endian.  The casts of a char pointer to a pointer to a wider word are taken
    as plain loads: alignment and type-based aliasing are not modelled. *)
From Coq Require Import NArith ZArith List Bool.
From Verif Require Import Base BitsModel Crc32Model.
Import ListNotations.
Open Scope N_scope.

(** Little-endian value of some bytes. *)
Fixpoint le (bs : list N) : N :=
  match bs with [] => 0 | b :: r => b + 256 * le r end.

(** Load of [n] bytes. *)
Definition ld (n : nat) (mem : list N) (i : N) : res N :=
  if i + N.of_nat n <=? N.of_nat (length mem)
  then Ok (le (firstn n (skipn (N.to_nat i) mem)))
  else Err EUndef.

Notation "'do' x <- a ; b" := (rbind a (fun x => b))
  (at level 200, x pattern, a at level 100, b at level 200).

(** A C loop [while (cond) body].  [fuel] bounds the number of rounds; running out of it
    is reported as [ELoop]. *)
Fixpoint while {S : Type} (fuel : nat) (cond : S -> bool) (body : S -> res S) (s : S)
  : res S :=
  if cond s then
    match fuel with
    | O => Err ELoop
    | Datatypes.S f => do s' <- body s; while f cond body s'
    end
  else Ok s.

(** Arithmetic of uint32_t. *)
Definition a32 (x y : N) : N := w32 (x + y).
Definition m32 (x y : N) : N := w32 (x * y).
Definition shl32 (x n : N) : N := w32 (N.shiftl x n).
Definition not32 (x : N) : N := N.lxor x 4294967295.

(** BKDRHash, H:304-334, and BKDRHash_31, H:341-371 (the same text with another seed;
    the loop test [src != limit] of the first is [src < limit] in the second and the two
    agree because src only meets limit from below in steps of 4).
    [w] is sizeof(CharTy) = sizeof(UCharTy); src is an index of elements. *)
Definition BKDRHash (seed : N) (w : nat) (mem : list N) (p len : N) : res N :=
  let seed_2 := m32 seed seed in
  let seed_3 := m32 seed_2 seed in
  let seed_4 := m32 seed_2 seed_2 in
  let len := wmul len (N.of_nat w) in
  let fuel := S (N.to_nat len) in
  let at_ i := ld w mem (p + i * N.of_nat w) in
  let limit := N.land len (wsub (two64 - 1) 3) in
  do s <- while fuel (fun s : N * N => negb (fst s =? limit))
    (fun s =>
       do c0 <- at_ (fst s); do c1 <- at_ (fst s + 1);
       do c2 <- at_ (fst s + 2); do c3 <- at_ (fst s + 3);
       Ok (fst s + 4,
           a32 (a32 (a32 (a32 (m32 (snd s) seed_4) (m32 (w32 c0) seed_3))
                (m32 (w32 c1) seed_2)) (m32 (w32 c2) seed)) (w32 c3)))
    (0, 0);
  do s <- while fuel (fun s : N * N => negb (fst s =? len))
    (fun s =>
       do c <- at_ (fst s);
       Ok (fst s + 1, a32 (m32 (snd s) seed) (w32 c)))
    s;
  Ok (snd s).

(** BKDRHash_31_std, H:378-397. *)
Definition BKDRHash_31_std (w : nat) (mem : list N) (p len : N) : res N :=
  let len := wmul len (N.of_nat w) in
  do s <- while (S (N.to_nat len)) (fun s : N * N => negb (fst s =? len))
    (fun s =>
       do c <- ld w mem (p + fst s * N.of_nat w);
       Ok (fst s + 1, a32 (m32 (snd s) 31) (w32 c)))
    (0, 0);
  Ok (snd s).

(** Times31, H:402-407. *)
Definition Times31 := BKDRHash 31.
(** Times31Std, H:412-417. *)
Definition Times31Std := BKDRHash_31_std.

(** The two steps of APHash, H:437-440 and 448-451. *)
Definition ap_even (h c : N) : N :=
  N.lxor h (N.lxor (N.lxor (shl32 h 7) c) (N.shiftr h 3)).
Definition ap_odd (h c : N) : N :=
  N.lxor h (not32 (N.lxor (N.lxor (shl32 h 11) c) (N.shiftr h 5))).

(** APHash, H:422-456, for CharTy = char. *)
Definition APHash (mem : list N) (p len : N) : res N :=
  let fuel := S (N.to_nat len) in
  let limit := N.land len (wsub (two64 - 1) 3) in
  do s <- while fuel (fun s : N * N => negb (fst s =? limit))
    (fun s =>
       do c0 <- ld 1 mem (p + fst s); do c1 <- ld 1 mem (p + (fst s + 1));
       do c2 <- ld 1 mem (p + (fst s + 2)); do c3 <- ld 1 mem (p + (fst s + 3));
       Ok (fst s + 4,
           ap_odd (ap_even (ap_odd (ap_even (snd s) c0) c1) c2) c3))
    (0, 0);
  do s <- while fuel (fun s : N * (N * N) => negb (fst s =? len))
    (fun s =>
       let '(src, (h, i)) := s in
       do c <- ld 1 mem (p + src);
       Ok (src + 1, ((if N.land i 1 =? 0 then ap_even h c else ap_odd h c), a32 i 1)))
    (fst s, (snd s, 0));
  Ok (fst (snd s)).

(** DJBHash, H:461-479, for CharTy = char. *)
Definition DJBHash (mem : list N) (p len : N) : res N :=
  do s <- while (S (N.to_nat len)) (fun s : N * N => negb (fst s =? len))
    (fun s =>
       do c <- ld 1 mem (p + fst s);
       Ok (fst s + 1, a32 (snd s) (a32 (shl32 (snd s) 5) c)))
    (0, 5381);
  Ok (snd s).

(** OpenSSL_Hash, H:273-296, for CharTy = char. *)
Definition OpenSSL_Hash (mem : list N) (p len : N) : res N :=
  let limit := N.land len (wsub (two64 - 1) 1) in
  do s <- while (S (N.to_nat len)) (fun s : N * (N * N) => fst s <? limit)
    (fun s =>
       let '(src, (h, i)) := s in
       do c <- ld 2 mem (p + src);
       Ok (src + 2, (N.lxor h (shl32 c (N.land i 15)), a32 i 1)))
    (0, (0, 0));
  let '(src, (h, i)) := s in
  if src =? len then Ok h
  else do c <- ld 1 mem (p + src); Ok (N.lxor h (shl32 c (N.land i 15))).

(** A char read as signed char and shifted left by [n], H:224-230.  The operand is
    promoted to int; shifting a negative int to the left is undefined before C++20 (the
    project is compiled as C++17, CMakeLists.txt:208-210). *)
Definition schar_shl (c n : N) : res N :=
  if c <? 128 then Ok (w32 (N.shiftl c n))
  else if n =? 0 then Ok (c + (two32 - 256))
  else Err EUndef.

(** rocksdb::hashes::Hash, H:190-236, for CharTy = char; [seed] < 2^32.  [n * m] is
    computed in size_t. *)
Definition rocksdb_Hash (mem : list N) (p n seed : N) : res N :=
  let m := 3332679571 in                            (* 0xc6a4a793 *)
  let h := w32 (N.lxor seed (wmul n m)) in
  do s <- while (S (N.to_nat n)) (fun s : N * N => fst s + 4 <=? n)
    (fun s =>
       do w <- ld 4 mem (p + fst s);
       let h := m32 (a32 (snd s) w) m in
       Ok (fst s + 4, N.lxor h (N.shiftr h 16)))
    (0, h);
  let '(d, h) := s in
  let rest := n - d in
  do h <- (if rest =? 3 then
             do c <- ld 1 mem (p + (d + 2)); do v <- schar_shl c 16; Ok (a32 h v)
           else Ok h);
  do h <- (if (rest =? 3) || (rest =? 2) then
             do c <- ld 1 mem (p + (d + 1)); do v <- schar_shl c 8; Ok (a32 h v)
           else Ok h);
  if (rest =? 3) || (rest =? 2) || (rest =? 1) then
    do c <- ld 1 mem (p + d); do v <- schar_shl c 0;
    let h := m32 (a32 h v) m in
    Ok (N.lxor h (N.shiftr h 24))
  else Ok h.

(** uint128_mul on ARM, H:562-577: (low, high). *)
Definition uint128_mul_arm (x y : N) : N * N :=
  let low0 := N.land x 4294967295 in let high0 := w32 (N.shiftr x 32) in
  let low1 := N.land y 4294967295 in let high1 := w32 (N.shiftr y 32) in
  let p00 := wmul low0 low1 in let p01 := wmul high0 low1 in
  let p02 := wmul low0 high1 in let p03 := wmul high0 high1 in
  let middle := wadd (wadd p02 (w32 (N.shiftr p00 32))) (N.land p01 4294967295) in
  let low64 := N.lor (N.land p00 4294967295) (w64 (N.shiftl middle 32)) in
  let high64 := wadd (wadd p03 (w32 (N.shiftr p01 32))) (w32 (N.shiftr middle 32)) in
  (low64, high64).

(** uint128_mul, last branch (__i386__ or other), H:597-612. *)
Definition uint128_mul_generic (x y : N) : N * N :=
  let low0 := N.land x 4294967295 in let high0 := w32 (N.shiftr x 32) in
  let low1 := N.land y 4294967295 in let high1 := w32 (N.shiftr y 32) in
  let p00 := wmul low0 low1 in let p01 := wmul high0 low1 in
  let p02 := wmul low0 high1 in let p03 := wmul high0 high1 in
  let middle := wadd (wadd p01 p02) (w32 (N.shiftr p00 32)) in
  let low64 := N.lor (N.land p00 4294967295) (w64 (N.shiftl middle 32)) in
  let high64 := wadd p03 (w32 (N.shiftr middle 32)) in
  (low64, high64).

(** mum_mul_mix64 without a 128-bit type, H:771-795. *)
Definition mum_mul_mix64_portable (x y : N) : N :=
  let x1 := w32 x in let x2 := N.shiftr x 32 in
  let y1 := w32 y in let y2 := N.shiftr y 32 in
  let r3 := wmul x2 y2 in
  let r2a := wmul x1 y2 in
  let r3 := wadd r3 (N.shiftr r2a 32) in
  let r2b := wmul x2 y1 in
  let r3 := wadd r3 (N.shiftr r2b 32) in
  let r1 := wmul x1 y1 in
  let r2 := wadd (wadd (N.shiftr r1 32) (w32 r2a)) (w32 r2b) in
  let r1 := wadd (w64 (N.shiftl r2 32)) (w32 r1) in
  let r3 := wadd r3 (N.shiftr r2 32) in
  N.lxor r1 r3.

(** uint128_mul with __uint128_t, H:517-523, as used by mum_hash64, H:669-674. *)
Definition mum_hash64 (x y : N) : N := N.lxor (w64 (x * y)) (N.shiftr (x * y) 64).

(** mum_hash for 64-bit words, H:676-686. *)
Definition mum_hash (v : N) : N := mum_hash64 v 11400714818402800987.

(** fibonacci_hash64, H:643-650, which fibonacci_hash, H:652-660, calls. *)
Definition fibonacci_hash64 (v : N) : N := N.shiftr (wmul v 11400714818402800987) 28.

(** The loop of msvc_fnv_1a, H:701-722: [cnt] elements of [w] bytes. *)
Fixpoint fnv_loop (w : nat) (mem : list N) (p : N) (cnt : nat) (value : N) : res N :=
  match cnt with
  | O => Ok value
  | S c => do x <- ld w mem p;
           fnv_loop w mem (p + N.of_nat w) c (wmul (N.lxor value x) 1099511628211)
  end.

(** msvc_fnv_1a, H:688-723, for 64-bit size_t. *)
Definition msvc_fnv_1a (mem : list N) (p count : N) : res N :=
  if count =? 8 then fnv_loop 4 mem p 2 14695981039346656037
  else if count =? 4 then fnv_loop 2 mem p 2 14695981039346656037
  else fnv_loop 1 mem p (N.to_nat count) 14695981039346656037.

(** HashUtils<T>::primaryHash_aligned, H:1120-1154, for sizeof(T) = [n] (4 or 8);
    [dec] is how one word of data is read. *)
Definition primary_value (n : nat) (dec : N -> res N) (len seed : N) : res N :=
  let bits := 8 * N.of_nat n in
  let wT x := x mod 2 ^ bits in
  let m := N.land 4141704638370195347 (2 ^ bits - 1) in     (* kHashInitValue_M, H:246 *)
  let hash := N.lxor (wT seed) (wT (m * wT len)) in
  let limit := N.land len (wsub (two64 - 1) (N.of_nat n - 1)) in
  let mix h val :=
    let h := wT (wT (h + val) * m) in N.lxor h (N.shiftr h (bits / 2)) in
  do s <- while (S (N.to_nat len)) (fun s : N * N => fst s <? limit)
    (fun s => do val <- dec (fst s); Ok (fst s + N.of_nat n, mix (snd s) val))
    (0, hash);
  let '(d, h) := s in
  let remain := len - d in
  if remain =? 0 then Ok h
  else
    do val <- dec d;
    Ok (mix h (N.land val (N.shiftr (2 ^ bits - 1) ((N.of_nat n - remain) * 8)))).

Definition primaryHash_aligned (n : nat) (mem : list N) (p len seed : N) : res N :=
  primary_value n (fun d => ld n mem (p + d)) len seed.

(** PrimaryHash<uint32_t,4>::decode_value<M>, H:924-967, and
    PrimaryHash<uint64_t,8>::decode_value<M>, H:985-994 and 1054-1059 ([n] = 4, 8).  The
    subtraction data - M may leave the array. *)
Definition decode_value (n : nat) (M : N) (mem : list N) (i : N) : res N :=
  let N_ := N.of_nat n in
  let mask := 2 ^ (8 * N_) - 1 in
  if M =? 0 then ld n mem i
  else if i <? M then Err EUndef
  else
    do a <- ld n mem (i - M);
    do b <- ld n mem (i + (N_ - M));
    Ok (N.lor (N.shiftl (N.land a (N.shiftr mask (M * 8))) (M * 8) mod 2 ^ (8 * N_))
              (N.land b (N.shiftr mask ((N_ - M) * 8)))).

(** HashUtils<T>::primaryHash on machines that are not x86, H:1205-1242: PrimaryHash::
    value<MissAlign>, H:875-910 and 997-1032.  [mem] starts at an address that is a multiple of
    sizeof(T), so the index modulo sizeof(T) is the misalignment. *)
Definition primaryHash_other (n : nat) (mem : list N) (p len seed : N) : res N :=
  let M := p mod N.of_nat n in
  primary_value n (fun d => decode_value n M mem (p + d)) len seed.

(** HashUtils<T>::primaryHash on x86, H:1196-1203. *)
Definition primaryHash_x86 := primaryHash_aligned.

(** _mm_crc32_u32 and _mm_crc32_u8. *)
Definition crc32_u32 (crc v : N) : N := crc_bytes 4 crc v.
Definition crc32_u8 (crc v : N) : N := crc_bytes 1 crc v.

(** intel_crc32_x86, C:100-136 ([n] = 4), and intel_crc32_x64, C:140-176 ([n] = 8). *)
Definition intel_crc32 (n : nat) (mem : list N) (p length : N) : res N :=
  let step := N.of_nat n in
  let crc c v := if (n =? 4)%nat then crc32_u32 c v else crc32_u64 c v in
  do s <- while (S (N.to_nat length)) (fun s : N * N => step <=? length - fst s)
    (fun s => do d <- ld n mem (p + fst s); Ok (fst s + step, crc (snd s) d))
    (0, if (n =? 4)%nat then two32 - 1 else two64 - 1);
  let '(d, c) := s in
  let remain := length - d in
  do c <- (if 0 <? remain then
             do v <- ld n mem (p + d);
             let mask := N.shiftr (2 ^ (8 * step) - 1) ((step - remain) * 8) in
             Ok (crc c (N.land v mask))
           else Ok c);
  Ok (w32 c).

(** hash_crc32 with SSE4.2 on x86-64, C:237-248. *)
Definition hash_crc32 := intel_crc32 8.

(** intel_crc32_simple_x86, C:180-203 ([n] = 4), and intel_crc32_simple_x64, C:207-231
    ([n] = 8). *)
Definition intel_crc32_simple (n : nat) (mem : list N) (p length : N) : res N :=
  let step := N.of_nat n in
  let crc c v := if (n =? 4)%nat then crc32_u32 c v else crc32_u64 c v in
  let src_end := length / step * step in
  do s <- while (S (N.to_nat length)) (fun s : N * N => fst s <? src_end)
    (fun s => do d <- ld n mem (p + fst s); Ok (fst s + step, crc (snd s) d))
    (0, if (n =? 4)%nat then two32 - 1 else two64 - 1);
  do s <- while (S (N.to_nat length)) (fun s : N * N => fst s <? length)
    (fun s => do d <- ld 1 mem (p + fst s); Ok (fst s + 1, crc32_u8 (snd s) d))
    (fst s, w32 (snd s));
  Ok (not32 (snd s)).

(** string_hash_helper<T, uint32_t, HashFunc>::getHashCode, HH:192-206, for a string of
    [size] characters of [w] bytes whose pointer is not null. *)
Inductive hash_func := HashFunc_CRC32C | HashFunc_Time31 | HashFunc_Time31Std.

Definition string_getHashCode (f : hash_func) (w : nat) (mem : list N) (p size : N) : res N :=
  match f with
  | HashFunc_CRC32C => hash_crc32 mem p (wmul size (N.of_nat w))
  | HashFunc_Time31 => Times31 w mem p size
  | HashFunc_Time31Std => Times31Std w mem p size
  end.

(** hash_helper<float|double, uint32_t, f>::getHashCode, HH:111-113 with 222, 311, 398: the
    bytes of the object.  hash_helper<T, ...>::getHashCode for any other class type, HH:142-151,
    is the same function. *)
Definition object_getHashCode (f : hash_func) (object : list N) : res N :=
  let size := N.of_nat (length object) in
  match f with
  | HashFunc_CRC32C => hash_crc32 object 0 size
  | HashFunc_Time31 => Times31 1 object 0 size
  | HashFunc_Time31Std => Times31Std 1 object 0 size
  end.

(** hash_helper<T *, uint32_t, f>::getHashCode, HH:153-176: [key] is the pointer, an index of
    [mem]; a pointer has 8 bytes. *)
Definition pointer_getHashCode (f : hash_func) (mem : list N) (key : N) : res N :=
  match f with
  | HashFunc_CRC32C => hash_crc32 mem key 8
  | HashFunc_Time31 => Times31 1 mem key 8
  | HashFunc_Time31Std => Times31Std 1 mem key 8
  end.

(** fibonacci_hash_policy and mum_hash_policy, H:1698-1822: the shift for a capacity
    (calc_next_capacity, 1740-1750 and 1803-1813) and the index (index_for_hash, 1725-1734
    and 1788-1797; [excl] is is_excluded_type<Key>::value). *)
Definition policy_shift (capacity : N) : N := 64 - bsr capacity.
Definition fibonacci_index (excl : bool) (shift h : N) : N :=
  N.shiftr (if excl then h else fibonacci_hash64 h) shift.
Definition mum_index (excl : bool) (shift h : N) : N :=
  N.shiftr (if excl then h else mum_hash h) shift.
