(** Specification of bit counting, independent of the code. *)
From Coq Require Import NArith Bool.
Open Scope N_scope.

(** Number of one bits. *)
Fixpoint ones_pos (p : positive) : N :=
  match p with
  | xH => 1
  | xO q => ones_pos q
  | xI q => 1 + ones_pos q
  end.
Definition ones (n : N) : N := match n with N0 => 0 | Npos p => ones_pos p end.

(** [i] is the position of the lowest, of the highest one bit of [n]. *)
Definition lowest_bit (n i : N) : Prop :=
  N.testbit n i = true /\ forall j, j < i -> N.testbit n j = false.
Definition highest_bit (n i : N) : Prop :=
  N.testbit n i = true /\ forall j, i < j -> N.testbit n j = false.
