(** Alignment helpers and swap_ranges.
    [UT] = /repo/src/jstd/utility/utility.h, [SW] = /repo/src/jstd/memory/swap.h,
    [IT] = /repo/src/jstd/iterator.h.  None of the maps uses them.
    [None] is the abort of a failed assertion; [on] says whether assertions are compiled
    in.  std::size_t and uintptr_t have 64 bits. *)
From Coq Require Import NArith List Bool.
From Verif Require Import Base.
Import ListNotations.
Open Scope N_scope.

(** assert(c), UT:91-94, SW:77. *)
Definition guard {A} (on c : bool) (k : option A) : option A :=
  if on && negb c then None else k.

(** operator ~ on std::size_t, UT:93. *)
Definition wnot (x : N) : N := N.lxor x (two64 - 1).

(** The test for powers of two in the assertions, UT:72, 92, 103. *)
Definition one_bit (a : N) : bool := N.land a (wsub a 1) =? 0.

(** check_alignment, UT:66-74.  The other overload (UT:76-86) asserts statically. *)
Definition check_alignment (on : bool) (ptr a : N) : option bool :=
  guard on (0 <? a) (guard on (one_bit a) (Some (N.land ptr (wsub a 1) =? 0))).

(** align_to, UT:88-96.  The last assertion divides by an alignment that the first one
    shows not to be zero. *)
Definition align_to (on : bool) (size a : N) : option N :=
  guard on (0 <? a) (guard on (one_bit a)
  (let size := N.land (wsub (wadd size a) 1) (wnot (wsub a 1)) in
   guard on (wmul (size / a) a =? size) (Some size))).

(** pointer_align_to, UT:98-106; the other overload, UT:108-118, asserts statically. *)
Definition pointer_align_to (on : bool) (ptr a : N) : option N :=
  guard on (0 <? a) (guard on (one_bit a)
  (Some (N.land (wsub (wadd ptr a) 1) (wnot (wsub a 1))))).

Section Swap.

Variable T : Type.

(** std::iter_swap, SW:75, on a memory of objects that pointers index. *)
Definition iter_swap (m : list T) (i j : N) : res (list T) :=
  match geti m i, geti m j with
  | Some x, Some y => Ok (seti (seti m i y) j x)
  | _, _ => Err EUndef
  end.

(** The loop of swap_ranges, SW:74-76: the memory, first1 and first2 after it.  [fuel]
    is a bound on the rounds. *)
Fixpoint swap_loop (fuel : nat) (m : list T) (first1 last1 first2 : N) : res (list T * N * N) :=
  if first1 =? last1 then Ok (m, first1, first2)
  else match fuel with
       | O => Err ELoop
       | S fuel' =>
           rbind (iter_swap m first1 first2) (fun m' =>
           swap_loop fuel' m' (first1 + 1) last1 (first2 + 1))
       end.

(** jstd::distance of pointers, IT:699-755. *)
Definition ptr_distance (first last : N) : N := last - first.

(** swap_ranges, SW:70-79, with pointers. *)
Definition swap_ranges (on : bool) (m : list T) (first1 last1 first2 : N) : res (option (list T * N)) :=
  rbind (swap_loop (S (length m)) m first1 last1 first2) (fun '(m', f1, f2) =>
  Ok (guard on (f2 =? first2 + ptr_distance f1 last1) (Some (m', f2)))).

(** swap of arrays of [n] objects, SW:81-85. *)
Definition swap_arrays (on : bool) (m : list T) (a b n : N) : res (option (list T)) :=
  rbind (swap_ranges on m a (a + n) b) (fun r =>
  Ok (match r with Some (m', _) => Some m' | None => None end)).

End Swap.
