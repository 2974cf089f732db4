(** Model of /repo/src/jstd/hasher/sha1.h ([S] below), with JSTD_HAVE_SMID_SHA.  Memory and loads
    are as in HashModel.v. *)
From Coq Require Import NArith List Bool.
From Verif Require Import Base HashModel.
Import ListNotations.
Open Scope N_scope.

(** An xmm register as four lanes of 32 bits, the highest first. *)
Record x4 := X4 { l3 : N; l2 : N; l1 : N; l0 : N }.

Definition lane32 (v i : N) : N := (v / 2 ^ (32 * i)) mod 2 ^ 32.
Definition x4_of (v : N) : x4 := X4 (lane32 v 3) (lane32 v 2) (lane32 v 1) (lane32 v 0).
Definition x4_to (x : x4) : N := l0 x + 2 ^ 32 * (l1 x + 2 ^ 32 * (l2 x + 2 ^ 32 * l3 x)).

(** _mm_setzero_si128, _mm_add_epi32, _mm_xor_si128. *)
Definition setzero : x4 := X4 0 0 0 0.
Definition add_epi32 (x y : x4) : x4 :=
  X4 (w32 (l3 x + l3 y)) (w32 (l2 x + l2 y)) (w32 (l1 x + l1 y)) (w32 (l0 x + l0 y)).
Definition xor_si128 (x y : x4) : x4 :=
  X4 (N.lxor (l3 x) (l3 y)) (N.lxor (l2 x) (l2 y)) (N.lxor (l1 x) (l1 y)) (N.lxor (l0 x) (l0 y)).

(** _mm_shuffle_epi32: two bits of [imm] for each lane. *)
Definition pick32 (x : x4) (i : N) : N :=
  match i with 0 => l0 x | 1 => l1 x | 2 => l2 x | _ => l3 x end.
Definition shuffle_epi32 (x : x4) (imm : N) : x4 :=
  let lane k := pick32 x (N.land (N.shiftr imm (2 * k)) 3) in
  X4 (lane 3) (lane 2) (lane 1) (lane 0).

(** _mm_shuffle_epi8 for a mask without a set top bit: byte i is the byte that byte i of the mask
    names. *)
Definition byte_at (v i : N) : N := (v / 2 ^ (8 * i)) mod 256.
Definition shuffle_epi8 (x : x4) (mask : N) : x4 :=
  x4_of (le (map (fun i => byte_at (x4_to x) (byte_at mask (N.of_nat i))) (seq 0 16))).

(** MASK, S:295: _mm_set_epi64x(high, low). *)
Definition set_epi64x (hi lo : N) : N := hi * 2 ^ 64 + lo.
Definition MASK : N := set_epi64x 0x0001020304050607 0x08090a0b0c0d0e0f.

(** The SHA instructions.  rol is the rotation of 32 bits. *)
Definition rol (x n : N) : N := N.lor (shl32 x n) (N.shiftr x (32 - n)).

(** SHA1MSG1 *)
Definition sha1msg1 (x y : x4) : x4 :=
  X4 (N.lxor (l1 x) (l3 x)) (N.lxor (l0 x) (l2 x)) (N.lxor (l3 y) (l1 x)) (N.lxor (l2 y) (l0 x)).

(** SHA1MSG2 *)
Definition sha1msg2 (x y : x4) : x4 :=
  let w16 := rol (N.lxor (l3 x) (l2 y)) 1 in
  X4 w16 (rol (N.lxor (l2 x) (l1 y)) 1) (rol (N.lxor (l1 x) (l0 y)) 1) (rol (N.lxor (l0 x) w16) 1).

(** SHA1NEXTE *)
Definition sha1nexte (x y : x4) : x4 := X4 (w32 (l3 y + rol (l3 x) 30)) (l2 y) (l1 y) (l0 y).

(** SHA1RNDS4: function and constant chosen by the immediate. *)
Definition rnds4_f (i : N) (b c d : N) : N :=
  match i with
  | 0 => N.lxor (N.land b c) (N.land (not32 b) d)
  | 2 => N.lxor (N.lxor (N.land b c) (N.land b d)) (N.land c d)
  | _ => N.lxor (N.lxor b c) d
  end.
Definition rnds4_k (i : N) : N :=
  match i with 0 => 0x5A827999 | 1 => 0x6ED9EBA1 | 2 => 0x8F1BBCDC | _ => 0xCA62C1D6 end.

Definition sha1rnds4 (x y : x4) (i : N) : x4 :=
  let f := rnds4_f i in
  let k := rnds4_k i in
  let a0 := l3 x in let b0 := l2 x in let c0 := l1 x in let d0 := l0 x in
  let a1 := w32 (f b0 c0 d0 + rol a0 5 + l3 y + k) in
  let b1 := a0 in let c1 := rol b0 30 in let d1 := c0 in let e1 := d0 in
  let a2 := w32 (f b1 c1 d1 + rol a1 5 + l2 y + e1 + k) in
  let b2 := a1 in let c2 := rol b1 30 in let d2 := c1 in let e2 := d1 in
  let a3 := w32 (f b2 c2 d2 + rol a2 5 + l1 y + e2 + k) in
  let b3 := a2 in let c3 := rol b2 30 in let d3 := c2 in let e3 := d2 in
  let a4 := w32 (f b3 c3 d3 + rol a3 5 + l0 y + e3 + k) in
  X4 a4 a3 (rol b3 30) c3.

(** ** sha1_x86 *)

(** The registers of S:293-294. *)
Inductive reg := rABCD | rABCD_SAVE | rE0 | rE0_SAVE | rE1 | rMSG0 | rMSG1 | rMSG2 | rMSG3.

Record regs := Regs {
  vABCD : x4; vABCD_SAVE : x4; vE0 : x4; vE0_SAVE : x4; vE1 : x4;
  vMSG0 : x4; vMSG1 : x4; vMSG2 : x4; vMSG3 : x4 }.

Definition get (s : regs) (r : reg) : x4 :=
  match r with
  | rABCD => vABCD s | rABCD_SAVE => vABCD_SAVE s | rE0 => vE0 s | rE0_SAVE => vE0_SAVE s
  | rE1 => vE1 s | rMSG0 => vMSG0 s | rMSG1 => vMSG1 s | rMSG2 => vMSG2 s | rMSG3 => vMSG3 s
  end.

Definition set (s : regs) (r : reg) (v : x4) : regs :=
  let '(Regs a b c d e f g h i) := s in
  match r with
  | rABCD => Regs v b c d e f g h i | rABCD_SAVE => Regs a v c d e f g h i
  | rE0 => Regs a b v d e f g h i | rE0_SAVE => Regs a b c v e f g h i
  | rE1 => Regs a b c d v f g h i | rMSG0 => Regs a b c d e v g h i
  | rMSG1 => Regs a b c d e f v h i | rMSG2 => Regs a b c d e f g v i
  | rMSG3 => Regs a b c d e f g h v
  end.

(** A statement: the target first.  [Load r k] is the statement that loads 16 bytes from
    data + 16 k, S:311-318, 325-335, 343-353, 362-372. *)
Inductive ins :=
| Load (d : reg) (k : N)
| Mov (d a : reg)
| Shuffle_epi8 (d a : reg)
| Add_epi32 (d a b : reg)
| Xor_si128 (d a b : reg)
| Sha1msg1 (d a b : reg)
| Sha1msg2 (d a b : reg)
| Sha1nexte (d a b : reg)
| Sha1rnds4 (d a b : reg) (imm : N).

(** Beyond the end zeros are taken; a part is copied to new_data (memcpy), filled up (memset) and
    loaded from there, for which new_data is not modelled. *)
Definition load_part (mem : list N) (q remain k : N) : res x4 :=
  if remain <=? 16 * k then Ok setzero
  else if remain <? 16 * k + 16 then
    do v <- ld (N.to_nat (remain - 16 * k)) mem (q + 16 * k); Ok (x4_of v)
  else do v <- ld 16 mem (q + 16 * k); Ok (x4_of v).

Definition exec (mem : list N) (q remain : N) (i : ins) (s : regs) : res regs :=
  match i with
  | Load d k => do v <- load_part mem q remain k; Ok (set s d v)
  | Mov d a => Ok (set s d (get s a))
  | Shuffle_epi8 d a => Ok (set s d (shuffle_epi8 (get s a) MASK))
  | Add_epi32 d a b => Ok (set s d (add_epi32 (get s a) (get s b)))
  | Xor_si128 d a b => Ok (set s d (xor_si128 (get s a) (get s b)))
  | Sha1msg1 d a b => Ok (set s d (sha1msg1 (get s a) (get s b)))
  | Sha1msg2 d a b => Ok (set s d (sha1msg2 (get s a) (get s b)))
  | Sha1nexte d a b => Ok (set s d (sha1nexte (get s a) (get s b)))
  | Sha1rnds4 d a b imm => Ok (set s d (sha1rnds4 (get s a) (get s b) imm))
  end.

Fixpoint exec_all (mem : list N) (q remain : N) (p : list ins) (s : regs) : res regs :=
  match p with
  | [] => Ok s
  | i :: r => do s' <- exec mem q remain i s; exec_all mem q remain r s'
  end.

(** Save current state, S:306-308. *)
Definition sha_save : list ins :=
  [Mov rABCD_SAVE rABCD;
   Mov rE0_SAVE rE0].
(** Rounds 0-3, S:310-322. *)
Definition sha_r0 : list ins :=
  [Load rMSG0 0;
   Shuffle_epi8 rMSG0 rMSG0;
   Add_epi32 rE0 rE0 rMSG0;
   Mov rE1 rABCD;
   Sha1rnds4 rABCD rABCD rE0 0].
(** Rounds 4-7, S:324-340. *)
Definition sha_r4 : list ins :=
  [Load rMSG1 1;
   Shuffle_epi8 rMSG1 rMSG1;
   Sha1nexte rE1 rE1 rMSG1;
   Mov rE0 rABCD;
   Sha1rnds4 rABCD rABCD rE1 0;
   Sha1msg1 rMSG0 rMSG0 rMSG1].
(** Rounds 8-11, S:342-359. *)
Definition sha_r8 : list ins :=
  [Load rMSG2 2;
   Shuffle_epi8 rMSG2 rMSG2;
   Sha1nexte rE0 rE0 rMSG2;
   Mov rE1 rABCD;
   Sha1rnds4 rABCD rABCD rE0 0;
   Sha1msg1 rMSG1 rMSG1 rMSG2;
   Xor_si128 rMSG0 rMSG0 rMSG2].
(** Rounds 12-15, S:361-379. *)
Definition sha_r12 : list ins :=
  [Load rMSG3 3;
   Shuffle_epi8 rMSG3 rMSG3;
   Sha1nexte rE1 rE1 rMSG3;
   Mov rE0 rABCD;
   Sha1msg2 rMSG0 rMSG0 rMSG3;
   Sha1rnds4 rABCD rABCD rE1 0;
   Sha1msg1 rMSG2 rMSG2 rMSG3;
   Xor_si128 rMSG1 rMSG1 rMSG3].
(** Rounds 16-19, S:381-387. *)
Definition sha_r16 : list ins :=
  [Sha1nexte rE0 rE0 rMSG0;
   Mov rE1 rABCD;
   Sha1msg2 rMSG1 rMSG1 rMSG0;
   Sha1rnds4 rABCD rABCD rE0 0;
   Sha1msg1 rMSG3 rMSG3 rMSG0;
   Xor_si128 rMSG2 rMSG2 rMSG0].
(** Rounds 20-23, S:389-395. *)
Definition sha_r20 : list ins :=
  [Sha1nexte rE1 rE1 rMSG1;
   Mov rE0 rABCD;
   Sha1msg2 rMSG2 rMSG2 rMSG1;
   Sha1rnds4 rABCD rABCD rE1 1;
   Sha1msg1 rMSG0 rMSG0 rMSG1;
   Xor_si128 rMSG3 rMSG3 rMSG1].
(** Rounds 24-27, S:397-403. *)
Definition sha_r24 : list ins :=
  [Sha1nexte rE0 rE0 rMSG2;
   Mov rE1 rABCD;
   Sha1msg2 rMSG3 rMSG3 rMSG2;
   Sha1rnds4 rABCD rABCD rE0 1;
   Sha1msg1 rMSG1 rMSG1 rMSG2;
   Xor_si128 rMSG0 rMSG0 rMSG2].
(** Rounds 28-31, S:405-411. *)
Definition sha_r28 : list ins :=
  [Sha1nexte rE1 rE1 rMSG3;
   Mov rE0 rABCD;
   Sha1msg2 rMSG0 rMSG0 rMSG3;
   Sha1rnds4 rABCD rABCD rE1 1;
   Sha1msg1 rMSG2 rMSG2 rMSG3;
   Xor_si128 rMSG1 rMSG1 rMSG3].
(** Rounds 32-35, S:413-419. *)
Definition sha_r32 : list ins :=
  [Sha1nexte rE0 rE0 rMSG0;
   Mov rE1 rABCD;
   Sha1msg2 rMSG1 rMSG1 rMSG0;
   Sha1rnds4 rABCD rABCD rE0 1;
   Sha1msg1 rMSG3 rMSG3 rMSG0;
   Xor_si128 rMSG2 rMSG2 rMSG0].
(** Rounds 36-39, S:421-427. *)
Definition sha_r36 : list ins :=
  [Sha1nexte rE1 rE1 rMSG1;
   Mov rE0 rABCD;
   Sha1msg2 rMSG2 rMSG2 rMSG1;
   Sha1rnds4 rABCD rABCD rE1 1;
   Sha1msg1 rMSG0 rMSG0 rMSG1;
   Xor_si128 rMSG3 rMSG3 rMSG1].
(** Rounds 40-43, S:429-435. *)
Definition sha_r40 : list ins :=
  [Sha1nexte rE0 rE0 rMSG2;
   Mov rE1 rABCD;
   Sha1msg2 rMSG3 rMSG3 rMSG2;
   Sha1rnds4 rABCD rABCD rE0 2;
   Sha1msg1 rMSG1 rMSG1 rMSG2;
   Xor_si128 rMSG0 rMSG0 rMSG2].
(** Rounds 44-47, S:437-443. *)
Definition sha_r44 : list ins :=
  [Sha1nexte rE1 rE1 rMSG3;
   Mov rE0 rABCD;
   Sha1msg2 rMSG0 rMSG0 rMSG3;
   Sha1rnds4 rABCD rABCD rE1 2;
   Sha1msg1 rMSG2 rMSG2 rMSG3;
   Xor_si128 rMSG1 rMSG1 rMSG3].
(** Rounds 48-51, S:445-451. *)
Definition sha_r48 : list ins :=
  [Sha1nexte rE0 rE0 rMSG0;
   Mov rE1 rABCD;
   Sha1msg2 rMSG1 rMSG1 rMSG0;
   Sha1rnds4 rABCD rABCD rE0 2;
   Sha1msg1 rMSG3 rMSG3 rMSG0;
   Xor_si128 rMSG2 rMSG2 rMSG0].
(** Rounds 52-55, S:453-459. *)
Definition sha_r52 : list ins :=
  [Sha1nexte rE1 rE1 rMSG1;
   Mov rE0 rABCD;
   Sha1msg2 rMSG2 rMSG2 rMSG1;
   Sha1rnds4 rABCD rABCD rE1 2;
   Sha1msg1 rMSG0 rMSG0 rMSG1;
   Xor_si128 rMSG3 rMSG3 rMSG1].
(** Rounds 56-59, S:461-467. *)
Definition sha_r56 : list ins :=
  [Sha1nexte rE0 rE0 rMSG2;
   Mov rE1 rABCD;
   Sha1msg2 rMSG3 rMSG3 rMSG2;
   Sha1rnds4 rABCD rABCD rE0 2;
   Sha1msg1 rMSG1 rMSG1 rMSG2;
   Xor_si128 rMSG0 rMSG0 rMSG2].
(** Rounds 60-63, S:469-475. *)
Definition sha_r60 : list ins :=
  [Sha1nexte rE1 rE1 rMSG3;
   Mov rE0 rABCD;
   Sha1msg2 rMSG0 rMSG0 rMSG3;
   Sha1rnds4 rABCD rABCD rE1 3;
   Sha1msg1 rMSG2 rMSG2 rMSG3;
   Xor_si128 rMSG1 rMSG1 rMSG3].
(** Rounds 64-67, S:477-483. *)
Definition sha_r64 : list ins :=
  [Sha1nexte rE0 rE0 rMSG0;
   Mov rE1 rABCD;
   Sha1msg2 rMSG1 rMSG1 rMSG0;
   Sha1rnds4 rABCD rABCD rE0 3;
   Sha1msg1 rMSG3 rMSG3 rMSG0;
   Xor_si128 rMSG2 rMSG2 rMSG0].
(** Rounds 68-71, S:485-490. *)
Definition sha_r68 : list ins :=
  [Sha1nexte rE1 rE1 rMSG1;
   Mov rE0 rABCD;
   Sha1msg2 rMSG2 rMSG2 rMSG1;
   Sha1rnds4 rABCD rABCD rE1 3;
   Xor_si128 rMSG3 rMSG3 rMSG1].
(** Rounds 72-75, S:492-496. *)
Definition sha_r72 : list ins :=
  [Sha1nexte rE0 rE0 rMSG2;
   Mov rE1 rABCD;
   Sha1msg2 rMSG3 rMSG3 rMSG2;
   Sha1rnds4 rABCD rABCD rE0 3].
(** Rounds 76-79, S:498-501. *)
Definition sha_r76 : list ins :=
  [Sha1nexte rE1 rE1 rMSG3;
   Mov rE0 rABCD;
   Sha1rnds4 rABCD rABCD rE1 3].
(** Combine state, S:503-505. *)
Definition sha_combine : list ins :=
  [Sha1nexte rE0 rE0 rE0_SAVE;
   Add_epi32 rABCD rABCD rABCD_SAVE].

(** The body of the loop, S:305-505. *)
Definition sha_body : list ins :=
  sha_save ++ sha_r0 ++ sha_r4 ++ sha_r8 ++ sha_r12 ++ sha_r16 ++ sha_r20 ++ sha_r24 ++ sha_r28 ++
  sha_r32 ++ sha_r36 ++ sha_r40 ++ sha_r44 ++ sha_r48 ++ sha_r52 ++ sha_r56 ++ sha_r60 ++
  sha_r64 ++ sha_r68 ++ sha_r72 ++ sha_r76 ++ sha_combine.

(** S:305-509.  remain is a ssize_t; lengths of 2^63 and more, which would be negative, are not
    modelled. *)
Fixpoint sha_loop (fuel : nat) (mem : list N) (q remain : N) (s : regs) : res regs :=
  if remain =? 0 then Ok s
  else match fuel with
       | O => Err ELoop
       | S f => do s' <- exec_all mem q remain sha_body s;
                sha_loop f mem (q + 64) (remain - 64) s'
       end.

(** sha1_x86, S:290-531.  The state is given as its five words; it is not written.  Registers
    without a value are zero.  [x64] is CRC32C_IS_X86_64. *)
Definition sha1_x86 (x64 : bool) (state : N * N * N * N * N) (mem : list N) (p len : N) : res N :=
  let '(s0, s1, s2, s3, s4) := state in
  let ABCD := shuffle_epi32 (X4 s3 s2 s1 s0) 0x1B in
  let E0 := X4 s4 0 0 0 in
  do s <- sha_loop (S (N.to_nat (len / 64))) mem p len
            (Regs ABCD setzero E0 setzero setzero setzero setzero setzero setzero);
  let ABCD := shuffle_epi32 (vABCD s) 0x1B in
  Ok (if x64 then N.lxor (l1 ABCD) (l0 ABCD) else l0 ABCD).

(** s_sha1_state, S:284, and the overload without a state, S:533-536. *)
Definition s_sha1_state : N * N * N * N * N :=
  (0x67452301, 0xEFCDAB89, 0x98BADCFE, 0x10325476, 0xC3D2E1F0).

Definition sha1_x86_key (x64 : bool) (mem : list N) (p len : N) : res N :=
  sha1_x86 x64 s_sha1_state mem p len.

(** ** sha1_msg2_x64 and sha1_msg2_x86 *)

(** The mask for [rest] bytes to be removed, S:154-169 and 200-215 (sha1_msg2_x64). *)
Definition mask_x64 (rest : N) : N :=
  if rest <=? 7 then set_epi64x (N.shiftr (2 ^ 64 - 1) (rest * 8)) (2 ^ 64 - 1)
  else if rest <? 16 then set_epi64x 0 (N.shiftr (2 ^ 64 - 1) (N.land rest 7 * 8))
  else 2 ^ 128 - 1.

(** S:63-75 and 87-99 (sha1_msg2_x86): _mm_srl_epi64, _mm_unpackhi_epi64, _mm_move_epi64. *)
Definition srl_epi64 (v n : N) : N :=
  if 63 <? n then 0
  else set_epi64x (N.shiftr (v / 2 ^ 64) n) (N.shiftr (v mod 2 ^ 64) n).
Definition unpackhi_epi64 (x y : N) : N := set_epi64x (y / 2 ^ 64) (x / 2 ^ 64).
Definition move_epi64 (x : N) : N := x mod 2 ^ 64.
Definition mask_x86 (rest : N) : N :=
  let ones := 2 ^ 128 - 1 in
  if rest <=? 7 then unpackhi_epi64 ones (srl_epi64 ones (rest * 8))
  else move_epi64 (srl_epi64 ones (wsub (wmul rest 8) 64)).

(** The loops, S:60-119 and 150-254. *)
Fixpoint msg2_loop (fuel : nat) (mask : N -> N) (mem : list N) (q remain : N) (m1 m2 : x4)
  : res (x4 * x4) :=
  match fuel with
  | O => Err ELoop
  | S f =>
      if remain <=? 16 then
        do d1 <- ld 16 mem q;
        Ok (sha1msg2 (x4_of (N.land d1 (mask (16 - remain)))) m1, m2)
      else if remain <=? 32 then
        do d1 <- ld 16 mem q; do d2 <- ld 16 mem (q + 16);
        Ok (sha1msg2 (x4_of d1) m1, sha1msg2 (x4_of (N.land d2 (mask (32 - remain)))) m2)
      else
        do d1 <- ld 16 mem q; do d2 <- ld 16 mem (q + 16);
        msg2_loop f mask mem (q + 32) (remain - 32)
          (sha1msg2 (x4_of d1) m1) (sha1msg2 (x4_of d2) m2)
  end.

(** sha1_msg2_x86, S:44-131, and sha1_msg2_x64, S:133-268; lengths as in sha1_x86. *)
Definition msg2_end (m1 m2 : x4) : x4 :=
  shuffle_epi32 (sha1rnds4 (sha1msg1 m1 m2) m2 1) 0x1B.

Definition sha1_msg2_x86 (mem : list N) (p len : N) : res N :=
  if 0 <? len then
    do s <- msg2_loop (S (N.to_nat (len / 32))) mask_x86 mem p len setzero setzero;
    Ok (l0 (msg2_end (fst s) (snd s)))
  else Ok 0.

Definition sha1_msg2_x64 (mem : list N) (p len : N) : res N :=
  if 0 <? len then
    do s <- msg2_loop (S (N.to_nat (len / 32))) mask_x64 mem p len setzero setzero;
    let m := msg2_end (fst s) (snd s) in
    Ok (N.lxor (l1 m) (l0 m))
  else Ok 0.

(** sha1_msg2, S:270-277. *)
Definition sha1_msg2 (x64 : bool) := if x64 then sha1_msg2_x64 else sha1_msg2_x86.
