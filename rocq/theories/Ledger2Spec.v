(** Which exceptions the maps with operator new[] survive without a trace. *)
From Coq Require Import NArith List.
From Verif Require Import GroupModel TableModel LedgerModel.
Open Scope N_scope.

(** A call that throws ([None]) was refused the groups, not the slots, and was not
    clear(), which is noexcept. *)
Definition fair {K V R} (c : answers * op K V) (r : option R) : Prop :=
  r = None -> (forall n, a_slot (fst c) n = true) /\ (forall d, snd c <> OClear K V d).
