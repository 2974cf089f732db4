(** Concrete keys and calls for the executions that show defects of the code and
    for the examples beside the theorems.  Nothing here models code of /repo. *)
From Coq Require Import NArith List Bool.
From Verif Require Import Base GroupModel TableModel RunModel.
Import ListNotations.
Open Scope N_scope.

(** Keys are 64-bit numbers and hash to themselves. *)
Definition idhash (k : N) : N := w64 k.

(** An allocator that grants everything up to 2^20 slots. *)
Definition roomy_alloc (n : N) : bool := n <=? 2 ^ 20.
(** An allocator that grants nothing. *)
Definition no_alloc (n : N) : bool := false.

(** The [i]-th key with the given top three bits and low byte. *)
Definition key (top low i : N) : N := top * 2 ^ 61 + i * 256 + low.

Definition ins (k : N) : call N N := (roomy_alloc, OInsert N N k (k mod 1000)).
Definition era (k : N) : call N N := (roomy_alloc, OErase N N k).

(** The numbers from [a] to [a + n - 1]. *)
Definition from_to (a n : N) : list N := map (N.add a) (seqN n).

Definition run15 := run N N idhash N.eqb k15.
Definition run16 := run N N idhash N.eqb k16.

Definition new15 := new_map N N k15.
Definition new16 := new_map N N k16.
