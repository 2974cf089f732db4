(** When a robin16 map (Robin16Model.v) behaves as a map. *)
From Coq Require Import NArith List Bool.
From Verif Require Import Base TableModel MapSpec Flat16Spec Robin16Model.
Import ListNotations.
Open Scope N_scope.

Section Spec.

Variables K V : Type.
Variable hash : K -> N.
Variable keq : K -> K -> bool.
Variable wide : bool.
Variable trivial : bool.

Notation entries := (list (K * V)).
Notation qmap := (qmap K V).
Notation oracle := (bool -> N -> bool).

(** How many entries want one of the [n] slots from [a], in a ring of [cap] slots. *)
Definition q_wanted (cap a n : N) (m : entries) : N :=
  N.of_nat (length (filter (fun e => (hash (fst e) mod cap + cap - a) mod cap <? n) m)).

(** No stretch of slots is wanted by more entries than its length plus 128. *)
Definition q_spread (cap : N) (m : entries) : Prop :=
  forall a n, a < cap -> 1 <= n -> n <= cap -> q_wanted cap a n m <= n + 128.

(** The same for every capacity that the map may choose for [m]. *)
Definition q_fine (m : entries) : Prop :=
  forall b, 2 <= b -> N.of_nat (length m) <= 2 ^ b -> q_spread (2 ^ b) m.

(** In a map with less than sixteen slots, eight bits of the second hash of a key that
    is looked for are not all zero. *)
Definition q_seen (k : K) (t : qmap) : Prop := 16 <= q_cap _ _ t \/ q_tag K hash k <> 0.

(** The element with key [k] is not part of a row of displaced elements that goes over
    the end of the slots: behind it there is a free slot, or an element in the slot
    that it wants, or slot 0 is free or has such an element. *)
Definition q_cut (k : K) (t : qmap) : Prop :=
  forall i d x kv, i < q_cap _ _ t -> geti (q_ctrls _ _ t) i = Some (d, x) -> d < 254 ->
    geti (q_slots _ _ t) i = Some (Some kv) -> keq (fst kv) k = true ->
    exists j d' x', i < j /\ j <= q_cap _ _ t /\ geti (q_ctrls _ _ t) (j mod q_cap _ _ t) = Some (d', x')
      /\ (d' = 0 \/ d' = 255).

(** The calls covered. *)
Definition q_client (o : op K V) (t : qmap) : Prop :=
  match o with
  | OInsert _ _ k _ | OAssign _ _ k _ | OFind _ _ k | OContains _ _ k => q_seen k t
  | OErase _ _ k => q_seen k t /\ q_cut k t
  | OClear _ _ b => b = true \/ q_cap _ _ t < 16
  | OReserve _ _ n | ORehash _ _ n => n <= 2 ^ 44
  | _ => True
  end.

(** The same, without erasing and clearing, for maps with at least sixteen slots.
    shrink_to_fit, reserve and rehash may lead to fewer slots. *)
Definition q_adds (o : op K V) : Prop :=
  match o with
  | OInsert _ _ _ _ | OAssign _ _ _ _ | OFind _ _ _ | OContains _ _ _ | OSize _ _ => True
  | _ => False
  end.

(** Every call returns what the abstract map [m] says, until one throws, provided that
    the entries stay [fine]. *)
Fixpoint q_agrees (fine : entries -> Prop) (client : op K V -> qmap -> Prop)
    (calls : list (oracle * op K V)) (t : qmap) (m : entries) : Prop :=
  match calls with
  | [] => True
  | (alloc, o) :: rest =>
      let '(m', r') := spec_step K V keq o m in
      client o t -> fine m' ->
      match q_step K V hash keq wide trivial alloc o t with
      | Ret t' r => r = r' /\ q_agrees fine client rest t' m'
      | Throw _ => True
      | Fail _ => False
      end
  end.

(** The maps that such calls, the copy constructor and the move constructors (the new
    map, not its source) lead to, with their entries. *)
Inductive q_built : qmap -> entries -> Prop :=
| q_built_new alloc n t : f_sane alloc -> n <= 2 ^ 44 -> q_new K V alloc n = Ret t tt -> q_built t []
| q_built_step t m alloc o t' r : q_built t m -> f_sane alloc -> q_client o t ->
    q_fine (fst (spec_step K V keq o m)) ->
    q_step K V hash keq wide trivial alloc o t = Ret t' r ->
    q_built t' (fst (spec_step K V keq o m))
| q_built_copy t m alloc t' : q_built t m -> f_sane alloc ->
    q_copy K V hash keq wide trivial alloc t = Ret t' tt -> q_built t' m
| q_built_move t m : q_built t m -> q_built (fst (q_move K V t)) m.

End Spec.
