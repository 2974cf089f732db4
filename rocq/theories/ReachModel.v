(** The states that a client can bring a map into.
    [T15], [T16] as in TableModel.v. *)
From Coq Require Import NArith List Bool.
From Verif Require Import Base GroupModel TableModel RunModel IterModel CopyModel.
Import ListNotations.
Open Scope N_scope.

(** What is assumed of an allocator: it never grants a control capacity above 2^55
    (a table of that capacity takes at least 2^55 bytes). *)
Definition sane (alloc : N -> bool) : Prop := forall n, alloc n = true -> n <= 2 ^ 55.

Section Reach.

Variables K V : Type.
Variable hash : K -> N.
Variable keq : K -> K -> bool.
Variable kd : kind.

Notation table := (table K V).

(** Construction with an initial capacity (T15:282-308, T16:277-301; 0 gives a map
    without storage), then calls that satisfy [ok], whether they return or throw. *)
Inductive reachable (ok : op K V -> table -> Prop) : table -> Prop :=
| reach_new alloc n t :
    sane alloc -> construct K V kd alloc n = Ret t tt -> reachable ok t
| reach_ret alloc o t t' r :
    reachable ok t -> sane alloc -> ok o t ->
    step K V hash keq kd alloc o t = Ret t' r -> reachable ok t'
| reach_throw alloc o t t' :
    reachable ok t -> sane alloc -> ok o t ->
    step K V hash keq kd alloc o t = Throw t' -> reachable ok t'.

(** The same, and further member functions that involve other maps or iterators:
    copy construction and assignment and construction by moving with another
    allocator (all three only where the new map's capacity differs from the
    source's, see C19), move construction and assignment, swap, insertion of a
    range, erase(iterator) and erase_if of group16. *)
Inductive built : table -> Prop :=
| built_new alloc n t :
    sane alloc -> construct K V kd alloc n = Ret t tt -> built t
| built_ret alloc o t t' r :
    built t -> sane alloc -> client_ok K V kd o t ->
    step K V hash keq kd alloc o t = Ret t' r -> built t'
| built_throw alloc o t t' :
    built t -> sane alloc -> client_ok K V kd o t ->
    step K V hash keq kd alloc o t = Throw t' -> built t'
| built_copy alloc past t t' :
    built t -> sane alloc -> copy_construct K V hash kd alloc past t = Ret t' tt ->
    capacity K V kd t' <> capacity K V kd t \/ t_size _ _ t = 0 -> built t'
| built_copy_assign alloc past t1 t2 t' :
    built t1 -> built t2 -> sane alloc -> copy_assign K V hash kd alloc past t1 t2 = Ret t' tt ->
    capacity K V kd t' <> capacity K V kd t2 \/ t_size _ _ t2 = 0 -> built t'
| built_move t :
    built t -> built (fst (move_construct K V kd t))
| built_moved_from t :
    built t -> built (snd (move_construct K V kd t))
| built_move_assign t1 t2 t1' t2' :
    built t1 -> built t2 -> move_assign K V kd t1 t2 = Ok (t1', t2') -> built t1'
| built_move_assigned_from t1 t2 t1' t2' :
    built t1 -> built t2 -> move_assign K V kd t1 t2 = Ok (t1', t2') -> built t2'
| built_move_alloc alloc t t1 t2 :
    built t -> sane alloc -> move_construct_alloc K V hash kd alloc t = Ret (t1, t2) tt ->
    capacity K V kd t1 <> capacity K V kd t \/ t_size _ _ t = 0 -> built t1
| built_move_alloc_from alloc t t1 t2 :
    built t -> sane alloc -> move_construct_alloc K V hash kd alloc t = Ret (t1, t2) tt ->
    capacity K V kd t1 <> capacity K V kd t \/ t_size _ _ t = 0 -> built t2
| built_swap1 t1 t2 : built t1 -> built t2 -> built (fst (swap_content K V t1 t2))
| built_swap2 t1 t2 : built t1 -> built t2 -> built (snd (swap_content K V t1 t2))
| built_range alloc l t t' :
    built t -> sane alloc -> range_insert K V hash keq kd alloc l t = Ret t' tt -> built t'
| built_erase_iter past t it t' it' :
    kd_sent kd = false -> built t -> (exists kv, deref16 K V t it = Ok kv) ->
    erase_iter16 K V kd past t it = Ok (t', it') -> built t'
| built_erase_if past pred t t' :
    kd_sent kd = false -> built t -> erase_if16 K V kd past pred t = Ok t' -> built t'.

End Reach.

(** The two kinds of tables. *)
Definition group_kind (kd : kind) : Prop := kd = k15 \/ kd = k16.
