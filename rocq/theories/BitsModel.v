(** Model of /repo/src/jstd/support/Power2.h and BitUtils.h.
    The hardware instructions behind the compiler builtins (bsf, bsr, clz, ctz,
    popcnt) are modelled by their documented meaning; the portable fall-back
    functions are modelled line by line. *)
From Coq Require Import NArith List Bool.
From Verif Require Import Base.
Import ListNotations.
Open Scope N_scope.

(** Trailing zeros of a positive number. *)
Fixpoint ctz_pos (p : positive) : N :=
  match p with
  | xO q => 1 + ctz_pos q
  | _ => 0
  end.

(** BitUtils.h:222-253 bsf32/bsf64 (builtin ctz).  The result for 0 is
    undefined in C; the model returns 0 and no modelled caller passes 0. *)
Definition bsf (n : N) : N := match n with N0 => 0 | Npos p => ctz_pos p end.

(** BitUtils.h:272-324 bsr32/bsr64 (width-1 minus builtin clz). *)
Definition bsr (n : N) : N := N.log2 n.

(** BitUtils.h:510-520 clearLowBit32 / clearLowBit64: n & (n - 1).  Callers pass
    n <> 0; for n = 0 the wrapped n - 1 is all ones and the result is 0 as here. *)
Definition clear_low (n : N) : N := N.land n (n - 1).

(** Power2.h:52-59 run_time::is_pow2. *)
Definition is_pow2 (n : N) : bool := N.land n (wsub n 1) =? 0.

(** [1 << s] in 64 bits; shifting by 64 or more is undefined. *)
Definition shl1 (s : N) : res N := if s <? 64 then Ok (2 ^ s) else Err EUndef.

(** Power2.h:256-278 run_time::round_up<size_t, Min_n> (sizeof(size_t) = 8, so the
    outer test is always true). *)
Definition round_up (min_n n : N) : res N :=
  if (1 <? n) || (1 <? min_n) then shl1 (bsr (wsub n 1) + 1) else Ok n.

(** Power2.h:193-210 run_time::round_down. *)
Definition round_down (min_n n : N) : res N :=
  if (1 <? n) || (1 <? min_n) then shl1 (bsr (wsub n 1)) else Ok 0.

(** Power2.h:226-240 run_time::round_to. *)
Definition round_to (min_n n : N) : res N :=
  if (0 <? n) || (0 <? min_n) then shl1 (bsr n) else Ok 0.

(** Power2.h:294-313 run_time::next_pow2. *)
Definition next_pow2 (min_n n : N) : res N :=
  if (0 <? n) || (0 <? min_n) then shl1 (bsr n + 1) else Ok 1.

(** Power2.h:162-177 run_time::prev_pow2. *)
Definition prev_pow2 (min_n n : N) : res N :=
  if (1 <? n) || (1 <? min_n) then shl1 (bsr n - 1) else Ok 0.

(** Power2.h:329-348 run_time::log2_int. *)
Definition log2_int (min_n n : N) : N :=
  if (1 <? n) || (1 <? min_n) then bsr (wsub n 1) + 1 else 0.

(** The loop [while (mask != 0) { pos = bsf32(mask); ...; mask = clearLowBit32(mask); }]
    that every group scan of the tables uses (for example
    group15_flat_table.hpp:2289-2299): the list of the positions it visits, in
    order.  [fuel] bounds the number of turns; a mask has at most 32 bits. *)
Fixpoint mask_positions (fuel : nat) (m : N) : list N :=
  match fuel with
  | O => []
  | S f => if m =? 0 then [] else bsf m :: mask_positions f (clear_low m)
  end.

Definition positions (m : N) : list N := mask_positions 32 m.
