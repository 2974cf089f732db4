(** Insertions with an allocator that refuses every request. *)
From Coq Require Import NArith List Bool.
From Verif Require Import Base TableModel MapSpec.
Import ListNotations.
Open Scope N_scope.

Section Spec.

Variables K V : Type.
Variable keq : K -> K -> bool.

(** What the abstract map holds after inserting the entries [l] one after the other. *)
Definition all_put (l m : list (K * V)) : list (K * V) :=
  fold_left (fun m e => put_new K V keq (fst e) (snd e) m) l m.

(** The calls insert(e) for the entries [l]. *)
Definition inserts {A} (alloc : A) (l : list (K * V)) : list (A * op K V) :=
  map (fun e => (alloc, OInsert K V (fst e) (snd e))) l.

End Spec.

(** The allocators that refuse every request, for the two kinds of interface. *)
Definition no_alloc : N -> bool := fun _ => false.
Definition no_alloc2 : bool -> N -> bool := fun _ _ => false.
