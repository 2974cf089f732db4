(** Model of the portable bit-counting functions of
    /repo/src/jstd/support/BitUtils.h ([B] below), which are used where the compiler
    has no builtin.  unsigned int has 32 bits. *)
From Coq Require Import NArith List Bool.
From Verif Require Import Base BitsModel.
Import ListNotations.
Open Scope N_scope.

(** Arithmetic of unsigned int. *)
Definition add32 (x y : N) : N := w32 (x + y).
Definition sub32 (x y : N) : N := w32 (x + (two32 - w32 y)).

(** Hexadecimal constants of [B]. *)
Definition x55 : N := 1431655765.      (* 0x55555555 *)
Definition x33 : N := 858993459.       (* 0x33333333 *)
Definition x0F : N := 252645135.       (* 0x0F0F0F0F *)
Definition x00FF : N := 16711935.      (* 0x00FF00FF *)
Definition xFFFF : N := 65535.         (* 0x0000FFFF *)
Definition o333 : N := 3681400539.     (* 033333333333 *)
Definition o111 : N := 1227133513.     (* 011111111111 *)
Definition o307 : N := 3340530119.     (* 030707070707 *)

(** __internal_popcnt, B:56-66. *)
Definition popcnt_fast (x : N) : N :=
  let x := sub32 x (N.land (N.shiftr x 1) x55) in
  let x := add32 (N.land (N.shiftr x 2) x33) (N.land x x33) in
  let x := N.land (add32 (N.shiftr x 4) x) x0F in
  let x := add32 x (N.shiftr x 8) in
  let x := add32 x (N.shiftr x 16) in
  N.land x 63.

(** __internal_popcnt_slow, B:68-77.  The constants have type unsigned long, so the
    sums are computed in 64 bits and then cut to 32. *)
Definition popcnt_slow (x : N) : N :=
  let x := w32 (wadd (N.land x x55) (N.land (N.shiftr x 1) x55)) in
  let x := w32 (wadd (N.land x x33) (N.land (N.shiftr x 2) x33)) in
  let x := w32 (wadd (N.land x x0F) (N.land (N.shiftr x 4) x0F)) in
  let x := w32 (wadd (N.land x x00FF) (N.land (N.shiftr x 8) x00FF)) in
  w32 (wadd (N.land x xFFFF) (N.land (N.shiftr x 16) xFFFF)).

(** __internal_hakmem_popcnt, B:79-84. *)
Definition popcnt_hakmem (x : N) : N :=
  let tmp := sub32 (sub32 x (N.land (N.shiftr x 1) o333)) (N.land (N.shiftr x 2) o111) in
  N.land (add32 tmp (N.shiftr tmp 3)) o307 mod 63.

(** __internal_popcnt64, B:86-97: the masks have only 32 bits. *)
Definition popcnt64 (x : N) : N :=
  let x := wsub x (N.land (N.shiftr x 1) x55) in
  let x := wadd (N.land (N.shiftr x 2) x33) (N.land x x33) in
  let x := N.land (wadd (N.shiftr x 4) x) x0F in
  let x := wadd x (N.shiftr x 8) in
  let x := wadd x (N.shiftr x 16) in
  let x := wadd x (N.shiftr x 32) in
  N.land x 127.

(** x |= (x >> s). *)
Definition smear (s x : N) : N := N.lor x (N.shiftr x s).

(** __internal_clz, B:118-126. *)
Definition clz32 (x : N) : N :=
  32 - popcnt_fast (smear 16 (smear 8 (smear 4 (smear 2 (smear 1 x))))).

(** __internal_clzll, B:128-137.  64u - popcnt64(x) is computed in 32 bits. *)
Definition clz64 (x : N) : N :=
  sub32 64 (popcnt64 (smear 32 (smear 16 (smear 8 (smear 4 (smear 2 (smear 1 x))))))).

(** __internal_ctz, B:139-142: (x & -(int)x) - 1. *)
Definition ctz32 (x : N) : N := popcnt_fast (sub32 (N.land x (sub32 0 x)) 1).

(** __internal_ctzll, B:144-147. *)
Definition ctz64 (x : N) : N := popcnt64 (wsub (N.land x (wsub 0 x)) 1).

(** The functions of the last branch, B:326-350, for compilers that are neither MSVC
    nor GCC nor Clang. *)
Definition generic_bsf32 (x : N) : N := ctz32 x.
Definition generic_bsf64 (x : N) : N := ctz64 x.
Definition generic_bsr32 (x : N) : N := clz32 x.
Definition generic_bsr64 (x : N) : N := clz64 x.

(** bsf64 of 32-bit builds, B:167-182 and 256-271; bsr64, B:205-220 and 308-323.
    The 32-bit scans are the machine instructions. *)
Definition narrow_bsf64 (x : N) : N :=
  let low := N.land x (two32 - 1) in
  if negb (low =? 0) then bsf low + 32 else bsf (N.shiftr x 32).
Definition narrow_bsr64 (x : N) : N :=
  let high := N.shiftr x 32 in
  if negb (high =? 0) then bsr high + 32 else bsr (N.land x (two32 - 1)).

(** popcnt64 of 32-bit builds, B:419-424. *)
Definition narrow_popcnt64 (x : N) : N :=
  add32 (popcnt_fast (w32 (N.shiftr x 32))) (popcnt_fast (N.land x (two32 - 1))).

(** ls1b32/64, B:483-493 (x & -x); ms1b32/64, B:499-509. *)
Definition ls1b32 (x : N) : N := N.land x (sub32 0 x).
Definition ls1b64 (x : N) : N := N.land x (wsub 0 x).
Definition ms1b32 (x : N) : N := if negb (x =? 0) then w32 (2 ^ bsr x) else 0.
Definition ms1b64 (x : N) : N := if negb (x =? 0) then w64 (2 ^ bsr x) else 0.
