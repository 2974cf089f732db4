(** Model of /repo/src/jstd/hasher/fnv1a.h ([F] below).  Memory, loads and words are as in
    HashModel.v; an xmm register is a number below 2^128. *)
From Coq Require Import NArith ZArith List Bool.
From Verif Require Import Base HashModel.
Import ListNotations.
Open Scope N_scope.

(** kPRIME, F:94, and the start value, F:96. *)
Definition kPRIME : N := 709607.
Definition fnv_start : N := 2166136261.

(** _rotl_twise32, F:39. *)
Definition rotl32 (x n : N) : N := N.lor (shl32 x n) (N.shiftr x (32 - n)).

(** A char as a uint32_t: char is signed. *)
Definition schar32 (c : N) : N := if c <? 128 then c else c + (two32 - 256).

(** (hash ^ x) * kPRIME. *)
Definition fmix (h x : N) : N := m32 (N.lxor h x) kPRIME.

(** The end of all three functions, F:143-144, 296-297, 468-469. *)
Definition fnv_end (A B : N) : N :=
  let h := m32 (N.lxor A (rotl32 B 5)) kPRIME in N.lxor h (N.shiftr h 16).

(** The bits 8, 4, 2 and 1 of data_len, F:123-140, 276-293 and 448-465. *)
Definition fnv_bits (mem : list N) (q len A B : N) : res (N * N) :=
  do s <- (if negb (N.land len 8 =? 0) then
             do x <- ld 4 mem q; do y <- ld 4 mem (q + 4);
             Ok (q + 8, (fmix A x, fmix B y))
           else Ok (q, (A, B)));
  let '(q, (A, B)) := s in
  do s <- (if negb (N.land len 4 =? 0) then
             do x <- ld 2 mem q; do y <- ld 2 mem (q + 2);
             Ok (q + 4, (fmix A x, fmix B y))
           else Ok (q, (A, B)));
  let '(q, (A, B)) := s in
  do s <- (if negb (N.land len 2 =? 0) then
             do x <- ld 2 mem q; Ok (q + 2, (fmix A x, B))
           else Ok (q, (A, B)));
  let '(q, (A, B)) := s in
  if negb (N.land len 1 =? 0) then
    do x <- ld 1 mem q; Ok (fmix A (schar32 x), B)
  else Ok (A, B).

(** loop_cnt and line_offset, F:104-109: [step] = 2 * [half]. *)
Definition fnv_loops (len step : N) : N :=
  if negb (len mod step =? 0) then len / step + 1 else len / step.
Definition fnv_offset (len step half : N) : N := wsub len (wmul (fnv_loops len step) half).

(** The loop of FNV1A_Yoshimura, F:110-119. *)
Fixpoint yoshimura_loop (cnt : nat) (mem : list N) (q off A B : N) : res (N * N) :=
  match cnt with
  | O => Ok (A, B)
  | S c =>
      do x0 <- ld 4 mem q; do x1 <- ld 4 mem (q + off);
      do y0 <- ld 4 mem (q + 4 + off); do y1 <- ld 4 mem (q + 4);
      yoshimura_loop c mem (q + 8) off
        (fmix A (N.lxor (rotl32 x0 5) x1)) (fmix B (N.lxor (rotl32 y0 5) y1))
  end.

(** FNV1A_Yoshimura, F:89-145. *)
Definition FNV1A_Yoshimura (mem : list N) (p len : N) : res N :=
  do s <- (if 16 <=? len then
             yoshimura_loop (N.to_nat (fnv_loops len 16)) mem p (fnv_offset len 16 8)
               fnv_start fnv_start
           else fnv_bits mem p len fnv_start fnv_start);
  Ok (fnv_end (fst s) (snd s)).

(** _mm_slli_si128 and _mm_srli_si128: shifts by [n] bytes, zero from 16 on. *)
Definition slli_si128 (x n : N) : N := if 15 <? n then 0 else (x * 2 ^ (8 * n)) mod 2 ^ 128.
Definition srli_si128 (x n : N) : N := if 15 <? n then 0 else x / 2 ^ (8 * n).

(** _rotl_twise128, F:40. *)
Definition rotl128 (x n : N) : N := N.lor (slli_si128 x n) (srli_si128 x (128 - n)).

(** _mm_mullo_epi16 ([w] = 16) and _mm_mullo_epi32 ([w] = 32): products of lanes. *)
Fixpoint mullo_lanes (n : nat) (w x y : N) : N :=
  match n with
  | O => 0
  | S n' => ((x mod 2 ^ w) * (y mod 2 ^ w)) mod 2 ^ w
            + 2 ^ w * mullo_lanes n' w (x / 2 ^ w) (y / 2 ^ w)
  end.
Definition mullo (w x y : N) : N := mullo_lanes (N.to_nat (128 / w)) w x y.

(** _mm_set1_epi32. *)
Definition set1_epi32 (v : N) : N := v * (1 + 2 ^ 32 + 2 ^ 64 + 2 ^ 96).

(** Which instructions the file is compiled for: the multiplications are _mm_mullo_epi16 if
    __SSE2__ is defined, else _mm_mullo_epi32; without any of the macros there is no such
    loop. *)
Inductive fnv_arch := ArchNone | ArchSSE2 | ArchSSE41.

Definition xmm_width (a : fnv_arch) : N := match a with ArchSSE41 => 32 | _ => 16 end.

(** One group of six loads and three multiplications, F:195-208 (and 355-380, where a round has
    two of them). *)
Definition xmm_group (a : fnv_arch) (mem : list N) (q off : N) (s : N * N * N)
  : res (N * N * N) :=
  let '(A, B, C) := s in
  let mul h x := mullo (xmm_width a) (N.lxor h x) (set1_epi32 kPRIME) in
  do x0 <- ld 16 mem q; do x1 <- ld 16 mem (q + off);
  do x2 <- ld 16 mem (q + 16); do x3 <- ld 16 mem (q + 16 + off);
  do x4 <- ld 16 mem (q + 32); do x5 <- ld 16 mem (q + 32 + off);
  Ok (mul A (N.lxor (rotl128 x0 5) x1), mul B (N.lxor (rotl128 x3 5) x2),
      mul C (N.lxor (rotl128 x4 5) x5)).

(** The loops of F:194-212 ([groups] = 1) and F:354-384 ([groups] = 2). *)
Fixpoint xmm_loop (cnt : nat) (groups : nat) (a : fnv_arch) (mem : list N) (q off : N)
  (s : N * N * N) : res (N * N * N) :=
  match cnt with
  | O => Ok s
  | S c =>
      do s <- (fix go g q s := match g with
                               | O => Ok s
                               | S g' => do s' <- xmm_group a mem q off s; go g' (q + 48) s'
                               end) groups q s;
      xmm_loop c groups a mem (q + N.of_nat groups * 48) off s
  end.

(** After the loop, F:214-244 and 386-416: the lanes of the three registers. *)
Definition xmm_end (a : fnv_arch) (s : N * N * N) : N * N :=
  let '(A, B, C) := s in
  let mul h x := mullo (xmm_width a) (N.lxor h x) (set1_epi32 kPRIME) in
  let A := mul (mul A B) C in
  let lane i := (A / 2 ^ (32 * i)) mod 2 ^ 32 in
  (fmix (fmix fnv_start (lane 0)) (lane 1), fmix (fmix fnv_start (lane 3)) (lane 2)).

(** The loop for 24 bytes and more, F:257-263 and 429-435: (hash32A, hash32B, hash32C). *)
Fixpoint triad_loop (cnt : nat) (mem : list N) (q off A B C : N) : res (N * N * N) :=
  match cnt with
  | O => Ok (A, B, C)
  | S c =>
      do x0 <- ld 4 mem q; do x1 <- ld 4 mem (q + off);
      do y0 <- ld 4 mem (q + 4 + off); do y1 <- ld 4 mem (q + 4);
      do z0 <- ld 4 mem (q + 8); do z1 <- ld 4 mem (q + 8 + off);
      triad_loop c mem (q + 12) off
        (fmix A (N.lxor (rotl32 x0 5) x1)) (fmix B (N.lxor (rotl32 y0 5) y1))
        (fmix C (N.lxor (rotl32 z0 5) z1))
  end.

(** FNV1A_Yoshimitsu_TRIADii_xmm, F:152-298 ([groups] = 1: kStepSize 96), and FNV1A_penumbra,
    F:309-470 ([groups] = 2: kStepSize 192). *)
Definition fnv_xmm (groups : nat) (a : fnv_arch) (mem : list N) (p len : N) : res N :=
  let step := 96 * N.of_nat groups in
  let half := 48 * N.of_nat groups in
  let start := set1_epi32 fnv_start in
  do s <- (if (match a with ArchNone => false | _ => true end) && (step <=? len) then
             do s <- xmm_loop (N.to_nat (fnv_loops len step)) groups a mem p
                       (fnv_offset len step half) (start, start, start);
             Ok (xmm_end a s)
           else if 24 <=? len then
             do s <- triad_loop (N.to_nat (fnv_loops len 24)) mem p (fnv_offset len 24 12)
                       fnv_start fnv_start fnv_start;
             let '(A, B, C) := s in
             Ok (fmix A (rotl32 C 5), B)
           else
             do s <- (if negb (N.land len 16 =? 0) then
                        do x0 <- ld 4 mem p; do x1 <- ld 4 mem (p + 4);
                        do y0 <- ld 4 mem (p + 8); do y1 <- ld 4 mem (p + 12);
                        Ok (p + 16, (fmix fnv_start (N.lxor (rotl32 x0 5) x1),
                                     fmix fnv_start (N.lxor (rotl32 y0 5) y1)))
                      else Ok (p, (fnv_start, fnv_start)));
             let '(q, (A, B)) := s in fnv_bits mem q len A B);
  Ok (fnv_end (fst s) (snd s)).

Definition FNV1A_TRIADii := fnv_xmm 1.
Definition FNV1A_penumbra := fnv_xmm 2.
