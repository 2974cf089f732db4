(** When a flat16 map (Flat16Model.v) behaves as a map. *)
From Coq Require Import NArith List Bool.
From Verif Require Import Base TableModel MapSpec Flat16Model.
Import ListNotations.
Open Scope N_scope.

Section Spec.

Variables K V : Type.
Variable hash : K -> N.
Variable keq : K -> K -> bool.
Variable mix : N -> N.

Notation entries := (list (K * V)).
Notation fmap := (fmap K V).
Notation oracle := (bool -> N -> bool).

(** What is assumed of the allocator: it never grants more than 2^44 slots. *)
Definition f_sane (alloc : oracle) : Prop := forall n, alloc false n = true -> n <= 2 ^ 44.

(** Every entry lies within the first sixteen slots from the one its hash asks for. *)
Definition f_near (t : fmap) : Prop :=
  forall i kv, geti (f_slots _ _ t) i = Some (Some kv) ->
    (i + f_cap _ _ t - hash (fst kv) mod f_cap _ _ t) mod f_cap _ _ t < 16.

(** slot_deleted() is less than an eighth of the capacity, or the capacity at most 32:
    otherwise drop_deleted_no_grow takes the place of growing. *)
Definition f_tidy (t : fmap) : Prop :=
  f_cap _ _ t <= 32 \/ f_slot_deleted _ _ t < f_cap _ _ t / 8.

(** Nothing has to grow. *)
Definition f_roomy (t : fmap) : Prop :=
  0 < f_left _ _ t /\ exists i, 0 < i < f_cap _ _ t /\ geti (f_ctrls _ _ t) i = Some fEmpty.

(** The number of entries is not a power of two, unless it is 1 or 2. *)
Definition f_spare (t : fmap) : Prop := forall e, 2 <= e -> f_size _ _ t <> 2 ^ e.

(** The calls covered. *)
Definition f_client (o : op K V) (t : fmap) : Prop :=
  match o with
  | OInsert _ _ _ _ | OAssign _ _ _ _ => f_tidy t \/ f_roomy t
  | OErase _ _ _ => f_near t
  | OClear _ _ b => b = true /\ 4 < f_cap _ _ t
  | OReserve _ _ n | ORehash _ _ n => n <= 2 ^ 44 /\ (f_size _ _ t <= n \/ f_spare t)
  | OShrink _ _ b => b = false \/ f_spare t
  | OMlf _ _ _ => f_tidy t
  | _ => True
  end.

(** The same without erasing and without conditions on the state of the control
    bytes; the load factor may be set while the capacity is at most 32. *)
Definition f_client0 (o : op K V) (t : fmap) : Prop :=
  match o with
  | OErase _ _ _ => False
  | OClear _ _ b => b = true /\ 4 < f_cap _ _ t
  | OReserve _ _ n | ORehash _ _ n => n <= 2 ^ 44 /\ (f_size _ _ t <= n \/ f_spare t)
  | OShrink _ _ b => b = false \/ f_spare t
  | OMlf _ _ _ => f_cap _ _ t <= 32
  | _ => True
  end.

(** Insertion, assignment, erasure and lookup while the map has at most eight entries. *)
Definition f_client8 (o : op K V) (t : fmap) : Prop :=
  match o with
  | OInsert _ _ _ _ | OAssign _ _ _ _ => f_size _ _ t < 8
  | OErase _ _ _ | OFind _ _ _ | OContains _ _ _ | OSize _ _ => True
  | _ => False
  end.

(** Insertion, assignment and lookup. *)
Definition f_adds (o : op K V) : Prop :=
  match o with
  | OInsert _ _ _ _ | OAssign _ _ _ _ | OFind _ _ _ | OContains _ _ _ | OSize _ _ => True
  | _ => False
  end.

(** Every call returns what the abstract map [m] says, until one throws. *)
Fixpoint f_agrees (client : op K V -> fmap -> Prop) (trivial : bool)
    (calls : list (oracle * op K V)) (t : fmap) (m : entries) : Prop :=
  match calls with
  | [] => True
  | (alloc, o) :: rest =>
      let '(m', r') := spec_step K V keq o m in
      client o t ->
      match f_step K V hash keq mix trivial alloc o t with
      | Ret t' r => r = r' /\ f_agrees client trivial rest t' m'
      | Throw _ => True
      | Fail _ => False
      end
  end.

(** The maps that such calls and the copy constructor lead to, with their entries. *)
Inductive f_built : fmap -> entries -> Prop :=
| f_built_new alloc n t : f_sane alloc -> n <= 2 ^ 44 -> f_new K V alloc n = Ret t tt -> f_built t []
| f_built_step t m trivial alloc o t' r : f_built t m -> f_sane alloc -> f_client o t ->
    f_step K V hash keq mix trivial alloc o t = Ret t' r ->
    f_built t' (fst (spec_step K V keq o m))
| f_built_copy t m alloc t' : f_built t m -> f_sane alloc ->
    f_copy K V hash mix alloc t = Ret t' tt -> f_built t' m.

End Spec.
