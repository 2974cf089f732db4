(** The 32-bit variants of the integer hashes and of the hash policies.
    [H] = /repo/src/jstd/hasher/hashes.h.  Results of 32 bits are kept as numbers. *)
From Coq Require Import NArith List Bool.
From Verif Require Import Base.
Import ListNotations.
Open Scope N_scope.

(** fibonacci_hash32, H:626-633.  [bits] is the width of unsigned long and, as in the
    ILP32 and LP64 models, of std::size_t. *)
Definition fibonacci_hash32 (bits value : N) : N :=
  N.shiftr ((w32 value * 2654435761) mod 2 ^ bits) 12.

(** mum_hash32, H:662-667. *)
Definition mum_hash32 (x y : N) : N :=
  let product := w64 (x * y) in
  N.lxor (w32 (N.land product 4294967295)) (w32 (N.shiftr product 32)).

(** mum_hash for 32-bit words, H:682-685. *)
Definition mum_hash_w32 (value : N) : N := mum_hash32 value 2654435761.

(** mum_mul_mix32, H:799-809. *)
Definition mum_mul_mix32 (x y : N) : N :=
  let r := w64 (x * y) in N.lxor (w32 r) (w32 (N.shiftr r 32)).

(** mum_mul_mix for 32-bit words, H:823-828. *)
Definition mum_mul_mix_w32 (value : N) : N := mum_mul_mix32 value 3893885741.

(** The policies with words of 32 bits, H:1698-1822: the shift for a capacity
    (1740-1750, 1803-1813) and the index (1725-1734, 1788-1797; [excl] is
    is_excluded_type<Key>::value). *)
Definition policy_shift32 (capacity : N) : N := 32 - N.log2 capacity.
Definition fibonacci_index32 (excl : bool) (shift h : N) : N :=
  N.shiftr (if excl then h else fibonacci_hash32 32 h) shift.
Definition mum_index32 (excl : bool) (shift h : N) : N :=
  N.shiftr (if excl then h else mum_hash_w32 h) shift.
