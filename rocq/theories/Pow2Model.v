(** Model of the templates of namespace compile_time of /repo/src/jstd/support/Power2.h ([P2]
    below), and of the functions of namespace run_time for types of 8, 16 and 32 bits; those
    for size_t are in BitsModel.v.  size_t has 64 bits. *)
From Coq Require Import NArith List Bool.
From Verif Require Import Base BitsModel.
Open Scope N_scope.

(** ** Templates *)

(** max_num and max_power2, P2:436-437. *)
Definition max_num : N := 2 ^ 64 - 1.
Definition max_power2 : N := 2 ^ 63.

(** next_power2 of the implementation templates, P2:438, P2:475, P2:503. *)
Definition ct_next (p : N) : N := if p <? max_power2 then p * 2 else 0.

(** is_pow2, P2:420-423; clear_low_bit, P2:425-428. *)
Definition ct_is_pow2 (n : N) : bool := N.land n (wsub n 1) =? 0.
Definition ct_clear_low_bit (n : N) : N := N.land n (wsub n 1).

(** cmin and cmax, P2:371-390. *)
Definition ct_min (a b : N) : N := if a <=? b then a else b.
Definition ct_max (a b : N) : N := if b <=? a then a else b.

(** Each template is instantiated for a list of parameters that ends with the
    specialisation for 0; [fuel] bounds the depth, running out of it is [ELoop]. *)

(** round_to_pow2_impl, P2:434-451. *)
Fixpoint ct_to_impl (fuel : nat) (n p : N) : res N :=
  match fuel with
  | O => Err ELoop
  | S f =>
      if p =? 0 then Ok max_power2
      else if max_power2 <=? n then Ok max_power2
      else if (p =? max_power2) || (n <=? p) then Ok (p / 2)
      else ct_to_impl f n (ct_next p)
  end.

(** The depth that is used: there are 64 powers of two, and 0. *)
Definition depth : nat := 66.

(** round_to_pow2, P2:453-456. *)
Definition ct_round_to (n : N) : res N :=
  if ct_is_pow2 n then Ok n else ct_to_impl depth n 1.

(** round_down_pow2, P2:462-465. *)
Definition ct_round_down (n : N) : res N :=
  if n =? 0 then Ok 0 else ct_round_to (wsub n 1).

(** round_up_pow2_impl, P2:471-488. *)
Fixpoint ct_up_impl (fuel : nat) (n p : N) : res N :=
  match fuel with
  | O => Err ELoop
  | S f =>
      if p =? 0 then Ok max_num
      else if max_power2 <? n then Ok max_num
      else if (p =? max_power2) || (n <=? p) then Ok p
      else ct_up_impl f n (ct_next p)
  end.

(** round_up_pow2, P2:490-493. *)
Definition ct_round_up (n : N) : res N :=
  if ct_is_pow2 n then Ok n else ct_up_impl depth n 1.

(** next_pow2_impl, P2:499-516. *)
Fixpoint ct_next_impl (fuel : nat) (n p : N) : res N :=
  match fuel with
  | O => Err ELoop
  | S f =>
      if p =? 0 then Ok max_num
      else if max_power2 <=? n then Ok max_num
      else if (p =? max_power2) || (n <? p) then Ok p
      else ct_next_impl f n (ct_next p)
  end.

(** next_pow2, P2:518-526. *)
Definition ct_next_pow2 (n : N) : res N :=
  if n =? 0 then Ok 1 else ct_next_impl depth n 1.

(** N2 to N7 of the second family, P2:543-553 and P2:585-593. *)
Definition ct_or (s x : N) : N := N.lor x (N.shiftr x s).
Definition ct_smear (n : N) : N :=
  ct_or 32 (ct_or 16 (ct_or 8 (ct_or 4 (ct_or 2 (ct_or 1 (wsub n 1)))))).

(** round_to_power2, P2:539-563. *)
Definition ct_round_to2 (n : N) : N :=
  if ct_is_pow2 n then n
  else let n7 := ct_smear n in if n7 =? max_num then max_power2 else wadd n7 1 / 2.

(** round_down_power2, P2:569-572. *)
Definition ct_round_down2 (n : N) : N := if n =? 0 then 0 else ct_round_to2 (wsub n 1).

(** round_up_power2, P2:578-602. *)
Definition ct_round_up2 (n : N) : N :=
  if ct_is_pow2 n then n
  else let n7 := ct_smear n in if n7 =? max_num then max_num else wadd n7 1.

(** next_power2, P2:608-612. *)
Definition ct_next2 (n : N) : N := if n <? max_num then ct_round_up2 (wadd n 1) else max_num.

(** countLeadingZeros_impl, P2:624-637: the specialisation for 0 is always taken. *)
Fixpoint ct_clz_impl (fuel : nat) (bits n : N) : res N :=
  match fuel with
  | O => Err ELoop
  | S f =>
      if n =? 0 then Ok (if 0 <? bits then bits - 1 else 0)
      else ct_clz_impl f (bits + 1) (wmul n 2)
  end.

(** countLeadingZeros, P2:711-715. *)
Definition ct_clz (n : N) : res N :=
  rbind (if ct_is_pow2 n then Ok n else ct_round_down n) (fun m => ct_clz_impl depth 0 m).

(** countTrailingZeros_impl, P2:721-734. *)
Fixpoint ct_ctz_impl (fuel : nat) (bits n : N) : res N :=
  match fuel with
  | O => Err ELoop
  | S f =>
      if n =? 0 then Ok (if 0 <? bits then bits - 1 else 64)
      else ct_ctz_impl f (bits + 1) (n / 2)
  end.

(** countTrailingZeros, P2:808-812. *)
Definition ct_ctz (n : N) : res N :=
  rbind (if ct_is_pow2 n then Ok n else ct_round_up n) (fun m => ct_ctz_impl depth 0 m).

(** ** Functions for types of [w] bits, w = 8, 16 or 32, with the default Min_n = 0.  The
    argument is already converted to the unsigned type.  The result is a uint32_t. *)

(** return_type(1) << s: undefined from 32 on. *)
Definition shl1_32 (s : N) : res N := if s <? 32 then Ok (2 ^ s) else Err EUndef.

(** prev_pow2, P2:162-177. *)
Definition rt_prev (n : N) : res N := if 1 <? n then shl1_32 (bsr n - 1) else Ok 0.

(** round_down, P2:193-210. *)
Definition rt_down (n : N) : res N := if 1 <? n then shl1_32 (bsr (n - 1)) else Ok 0.

(** round_to, P2:226-240. *)
Definition rt_to (n : N) : res N := if 0 <? n then shl1_32 (bsr n) else Ok 0.

(** round_up, P2:256-278. *)
Definition rt_up (w n : N) : res N :=
  if n <=? (2 ^ w - 1) / 2 + 1 then (if 1 <? n then shl1_32 (bsr (n - 1) + 1) else Ok n)
  else Ok (2 ^ w - 1).

(** next_pow2, P2:294-313. *)
Definition rt_next (w n : N) : res N :=
  if n <? (2 ^ w - 1) / 2 + 1 then (if 0 <? n then shl1_32 (bsr n + 1) else Ok 1)
  else Ok (2 ^ w - 1).

(** log2_int, P2:329-348. *)
Definition rt_log2 (w n : N) : N :=
  if n <=? (2 ^ w - 1) / 2 + 1 then (if 1 <? n then bsr (n - 1) + 1 else 0)
  else 2 ^ w - 1.

(** bitScanForward, P2:72-88; bitScanReverse, P2:90-106; countTrailingZeros, P2:108-124;
    countLeadingZeros, P2:126-142, by the 32-bit functions of BitUtils.h:355-378, for
    numbers other than 0. *)
Definition rt_bsf (n : N) : N := bsf n.
Definition rt_bsr (n : N) : N := bsr n.
Definition rt_ctz (n : N) : N := bsf n.
Definition rt_clz (n : N) : N := 31 - bsr n.

(** is_pow2, P2:50-59, and clear_low_bit, P2:61-70, for unsigned types of [w] bits, w = 8,
    16, 32 or 64.  Of a type narrower than int, n - 1 is an int, -1 for 0; [rt_dec] takes
    its last w bits, the others are lost in the conjunction with n. *)
Definition rt_dec (w n : N) : N := (n + (2 ^ w - 1)) mod 2 ^ w.
Definition rt_is_pow2 (w n : N) : bool := N.land n (rt_dec w n) =? 0.
Definition rt_clear_low_bit (w n : N) : N := N.land n (rt_dec w n).
