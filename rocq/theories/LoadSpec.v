(** Executions for the load factor (C172). *)
From Coq Require Import NArith List Bool.
From Verif Require Import Base GroupModel TableModel RunModel ReachModel.
Open Scope N_scope.

Section Load.

Variables K V : Type.
Variable hash : K -> N.
Variable keq : K -> K -> bool.
Variable kd : kind.

(** Maps that can be built without shrink_to_fit and without a failing
    max_load_factor(float). *)
Inductive loaded : table K V -> Prop :=
| loaded_new alloc n t :
    sane alloc -> construct K V kd alloc n = Ret t tt -> loaded t
| loaded_ret alloc o t t' r :
    loaded t -> sane alloc -> client_noshrink K V kd o t ->
    step K V hash keq kd alloc o t = Ret t' r -> loaded t'
| loaded_throw alloc o t t' :
    loaded t -> sane alloc -> client_noshrink K V kd o t ->
    match o with OMlf _ _ _ => False | _ => True end ->
    step K V hash keq kd alloc o t = Throw t' -> loaded t'.

End Load.
