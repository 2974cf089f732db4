(** The calls that a table makes to its allocators.
    [T15], [T16] as in TableModel.v.  Each function here follows the control flow
    of the function of TableModel.v that it accompanies and lists the calls of
    AllocTraits::allocate and deallocate in order. *)
From Coq Require Import NArith List Bool.
From Verif Require Import Base GroupModel TableModel LayoutModel RunModel.
Import ListNotations.
Open Scope N_scope.

(** Which allocator: group_allocator_ or slot_allocator_. *)
Inductive pool := PGroup | PSlot.

(** A block: the allocator, a name (the address), the number of objects. *)
Record block := mkBlock { b_pool : pool; b_addr : N; b_count : N }.

Inductive event :=
| EAlloc (b : block)
| EFree (b : block).

(** The answers of the two allocators to the requests made for a control capacity. *)
Record answers := mkAns { a_group : N -> bool; a_slot : N -> bool }.

Section Ledger.

Variables K V : Type.
Variable hash : K -> N.
Variable keq : K -> K -> bool.
Variable kd : kind.
(** sizeof(slot_type). *)
Variable sizeof_slot : N.

Notation table := (table K V).

(** Both requests are granted.  group15 (GROUP15_USE_SEPARATE_SLOTS = 0, T15:90) makes
    only one. *)
Definition granted (a : answers) (cap : N) : bool :=
  if kd_sent kd then a_slot a cap else a_group a cap && a_slot a cap.

(** create_slots, T15:2073-2079 (one block), T16:1948-1953 (two blocks: groups, then
    slots).  [addr] names the blocks that this call makes. *)
Definition create_events (a : answers) (addr cap : N) : list event :=
  let gcap := calc_group_capacity kd cap in
  if kd_sent kd then
    if a_slot a cap
    then [EAlloc (mkBlock PSlot addr (total_slot_alloc_count sizeof_slot gcap (calc_slot_capacity kd gcap)))]
    else []
  else
    if a_group a cap then
      EAlloc (mkBlock PGroup addr (total_group_alloc_count gcap)) ::
      (if a_slot a cap then [EAlloc (mkBlock PSlot addr cap)] else [])
    else [].

(** The end of rehash_impl, T15:2170-2179, T16:2028-2036 (groups first). *)
Definition rehash_free_events (addr : N) (t : table) : list event :=
  if t_alloc _ _ t then
    if kd_sent kd then
      [EFree (mkBlock PSlot addr (total_slot_alloc_count sizeof_slot (group_capacity _ _ t)
                                    (calc_slot_capacity kd (group_capacity _ _ t))))]
    else
      [EFree (mkBlock PGroup addr (total_group_alloc_count (group_capacity _ _ t)));
       EFree (mkBlock PSlot addr (capacity _ _ kd t))]
  else [].

(** destroy_slots and destroy_groups, T15:1506-1548, T16:1472-1514 (slots first). *)
Definition destroy_events (addr : N) (t : table) : list event :=
  if t_alloc _ _ t then
    if kd_sent kd then
      [EFree (mkBlock PSlot addr (total_slot_alloc_count sizeof_slot (group_capacity _ _ t)
                                    (capacity _ _ kd t)))]
    else
      [EFree (mkBlock PSlot addr (capacity _ _ kd t));
       EFree (mkBlock PGroup addr (total_group_alloc_count (group_capacity _ _ t)))]
  else [].

(** rehash_impl, T15:2109-2182, T16:1984-2046.  [addr] names the blocks that the
    table holds, [next] those that it may allocate. *)
Definition rehash_impl_events (a : answers) (allow_shrink : bool) (addr next : N) (t : table) (n : N)
  : list event :=
  match calc_capacity _ _ kd t n with
  | Err _ => []
  | Ok cap =>
      if (if allow_shrink then negb (cap =? ctrl_capacity _ _ kd t) else ctrl_capacity _ _ kd t <? cap) then
        create_events a next cap ++ (if granted a cap then rehash_free_events addr t else [])
      else []
  end.

(** Insertions, T15:2393-2427 and 1958-1962, T16:2217-2251 and 1851-1855. *)
Definition insert_events (a : answers) (addr next : N) (t : table) (k : K) : list event :=
  match find K V hash keq kd t k with
  | Ok None =>
      if need_grow _ _ t then rehash_impl_events a false addr next t (wmul (ctrl_capacity _ _ kd t) 2)
      else []
  | _ => []
  end.

(** rehash, T15:750-758, T16:696-704. *)
Definition rehash_events (a : answers) (addr next n : N) (t : table) : list event :=
  let n' := N.max (shrink_to_fit_capacity _ _ t (t_size _ _ t)) n in
  if negb (n' =? 0) then rehash_impl_events a (kd_rehash_shrinks kd) addr next t n'
  else destroy_events addr t.

(** One call; the cases follow TableModel.step. *)
Definition op_events (a : answers) (addr next : N) (o : op K V) (t : table) : list event :=
  match o with
  | OInsert _ _ k _ | OAssign _ _ k _ => insert_events a addr next t k
  | OClear _ _ true => destroy_events addr t
  | OReserve _ _ n =>
      if negb (n =? 0) then rehash_impl_events a false addr next t (shrink_to_fit_capacity _ _ t n)
      else destroy_events addr t
  | ORehash _ _ n => rehash_events a addr next n t
  | OShrink _ _ b =>
      let n := if b then t_size _ _ t else shrink_to_fit_capacity _ _ t (t_size _ _ t) in
      if negb (n =? 0) then rehash_impl_events a true addr next t n else destroy_events addr t
  | OMlf _ _ m =>
      let t1 := set_mlf _ _ t (N.min kMaxLoadFactor (N.max kMinLoadFactor m)) in
      match calc_capacity _ _ kd t1 (shrink_to_fit_capacity _ _ t1 (ctrl_capacity _ _ kd t1)) with
      | Ok cap => if ctrl_capacity _ _ kd t1 <? cap then rehash_events a addr next cap t1 else []
      | Err _ => []
      end
  | _ => []
  end.

(** The name of the blocks after the call: the last ones allocated, if all requests
    were granted. *)
Definition moved (es : list event) : bool :=
  existsb (fun e => match e with EAlloc (mkBlock PSlot _ _) => true | _ => false end) es.

(** A sequence of calls and finally the destructor (T15:410-412, T16:397-399).  The
    [i]-th call names its blocks [i]. *)
Fixpoint run_events (calls : list (answers * op K V)) (addr next : N) (t : table) : list event :=
  match calls with
  | [] => destroy_events addr t
  | (a, o) :: rest =>
      let es := op_events a addr next o t in
      es ++ match step K V hash keq kd (granted a) o t with
            | Ret t' _ | Throw t' => run_events rest (if moved es then next else addr) (next + 1) t'
            | Fail _ => []
            end
  end.

End Ledger.
