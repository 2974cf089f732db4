(** Robin maps that take over the elements and the function objects of another one: swap,
    assignment, move assignment, and the move constructor with an allocator.
    [RH] = /repo/src/jstd/hashmap/robin_hash_map.h; [held] is in FunctorModel.v.

    Simplified: an object is not assigned to itself (the move assignments test this first,
    RH:6540 and 6548, swap at RH:3781).  The temporaries of the assignments end with the old elements of the
    object that is assigned to; their destruction is not modelled here.  Moving a function
    object leaves the source as it was. *)
From Coq Require Import NArith List Bool.
From Verif Require Import Base RobinModel FunctorModel.
Import ListNotations.
Open Scope N_scope.

Section Take.

Variables K V : Type.

Notation rheld := (held K (rmap K V)).

(** swap_impl, RH:6585-6588: swap_content (RH:6555-6568) and swap_policy (RH:6570-6583). *)
Definition r_swap_held (x y : rheld) : rheld * rheld :=
  let '(s, t) := r_swap K V (h_map x) (h_map y) in
  (mkHeld (h_hash y) (h_eq y) s, mkHeld (h_hash x) (h_eq x) t).

(** Copy assignment, RH:3245-3252. *)
Definition r_assign_held (alloc : N -> bool) (x y : rheld) : out rheld unit :=
  match r_copy_held K V alloc y with
  | Ret tmp _ => Ret (fst (r_swap_held x tmp)) tt
  | Throw _ => Throw x
  | Fail e => Fail e
  end.

(** The move constructor with an allocator, RH:3170-3204; [same]: the allocators compare
    equal.  The state is the source, the result the new map.  With equal allocators the
    contents are exchanged with those of a new map, otherwise the elements are copied. *)
Definition r_move_with (same : bool) (alloc : N -> bool) (y : rheld) : out rheld rheld :=
  if same then
    let '(t, s) := r_swap K V (rnew K V) (h_map y) in
    Ret (mkHeld (h_hash y) (h_eq y) s) (mkHeld (h_hash y) (h_eq y) t)
  else
    match r_copy_held K V alloc y with
    | Ret t _ => Ret y t
    | Throw _ => Throw y
    | Fail e => Fail e
    end.

(** Move assignment, RH:3254-3262, with move_assign, RH:6539-6545 ([propagate]: the
    allocator is taken along) and RH:6547-6553.  The results are the object assigned to and
    the source. *)
Definition r_move_assign_held (propagate same : bool) (alloc : N -> bool) (x y : rheld)
  : out (rheld * rheld) unit :=
  if propagate then
    let '(tmp, y') := r_move_held K V y in Ret (fst (r_swap_held x tmp), y') tt
  else
    match r_move_with same alloc y with
    | Ret y' tmp => Ret (fst (r_swap_held x tmp), y') tt
    | Throw y' => Throw (x, y')
    | Fail e => Fail e
    end.

End Take.
