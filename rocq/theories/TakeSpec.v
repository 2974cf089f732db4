(** The robin maps that have taken over the elements of another one (for TakeModel.v). *)
From Coq Require Import NArith List Bool.
From Verif Require Import Base TableModel MapSpec ReachModel RobinModel RobinSpec FunctorModel TakeModel.
Import ListNotations.
Open Scope N_scope.

Section Taken.

Variables K V : Type.

Notation rheld := (held K (rmap K V)).
Notation reaches q y m := (r_reach K V (h_hash y) (h_eq y) q (h_map y) m).

(** [r_taken q z m]: [z] got the entries [m] by swap, assignment, move assignment or the
    move constructor with an allocator from a map that ordinary calls lead to.  Of the
    object [x] that it replaces nothing is assumed. *)
Inductive r_taken (q : N) : rheld -> list (K * V) -> Prop :=
| taken_swap x y m : reaches q y m -> r_taken q (fst (r_swap_held K V x y)) m
| taken_swapped x y m : reaches q x m -> r_taken q (snd (r_swap_held K V x y)) m
| taken_assign x y m alloc z : reaches q y m -> sane alloc -> spread_all K V (h_hash y) 2 m ->
    r_assign_held K V alloc x y = Ret z tt -> r_taken q z m
| taken_move_assign x y m propagate same alloc z y' : reaches q y m -> sane alloc ->
    spread_all K V (h_hash y) 2 m ->
    r_move_assign_held K V propagate same alloc x y = Ret (z, y') tt -> r_taken q z m
| taken_move_with y m same alloc z y' : reaches q y m -> sane alloc -> spread_all K V (h_hash y) 2 m ->
    r_move_with K V same alloc y = Ret y' z -> r_taken q z m.

(** The sources of moves that have given their elements away. *)
Inductive r_emptied : rheld -> Prop :=
| emptied_move y : r_emptied (snd (r_move_held K V y))
| emptied_with y z y' alloc : r_move_with K V true alloc y = Ret y' z -> r_emptied y'.

(** The calls that may choose another capacity. *)
Definition r_resizes (o : op K V) : bool :=
  match o with OReserve _ _ _ | ORehash _ _ _ | OShrink _ _ _ => true | _ => false end.

End Taken.
