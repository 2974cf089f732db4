(** Specification: an abstract map is a list of entries with pairwise
    inequivalent keys, whose order does not matter.  This file does not depend on
    how the tables work; it only shares with TableModel.v the types of calls and
    of observable results. *)
From Coq Require Import NArith List Bool.
From Verif Require Import Base TableModel.
Import ListNotations.
Open Scope N_scope.

Section Spec.

Variables K V : Type.
Variable keq : K -> K -> bool.

Notation entries := (list (K * V)).

Definition get (k : K) (m : entries) : option (K * V) :=
  List.find (fun e => keq k (fst e)) m.

Definition has (k : K) (m : entries) : bool :=
  existsb (fun e => keq k (fst e)) m.

(** Add an entry unless an equivalent key is present. *)
Definition put_new (k : K) (v : V) (m : entries) : entries :=
  if has k m then m else (k, v) :: m.

(** Add an entry, or replace the value (not the key) of the equivalent one. *)
Definition put (k : K) (v : V) (m : entries) : entries :=
  if has k m then map (fun e => if keq k (fst e) then (fst e, v) else e) m
  else (k, v) :: m.

Definition remove (k : K) (m : entries) : entries :=
  filter (fun e => negb (keq k (fst e))) m.

Definition count (k : K) (m : entries) : N := if has k m then 1 else 0.

(** The entry that an insertion leaves under the key. *)
Definition the (k : K) (v : V) (m : entries) : K * V :=
  match get k m with Some e => e | None => (k, v) end.

(** Effect and result of one call that returns. *)
Definition spec_step (o : op K V) (m : entries) : entries * obs K V :=
  match o with
  | OInsert _ _ k v => (put_new k v m, RIns _ _ (the k v m) (negb (has k m)))
  | OAssign _ _ k v => (put k v m, RIns _ _ (fst (the k v m), v) (negb (has k m)))
  | OErase _ _ k => (remove k m, RNum _ _ (count k m))
  | OFind _ _ k => (m, REntry _ _ (get k m))
  | OContains _ _ k => (m, RBool _ _ (has k m))
  | OSize _ _ => (m, RNum _ _ (N.of_nat (length m)))
  | OClear _ _ _ => ([], RUnit _ _)
  | OReserve _ _ _ | ORehash _ _ _ | OShrink _ _ _ | OMlf _ _ _ => (m, RUnit _ _)
  end.

(** A sequence of calls.  [thrown] says which calls threw an exception: such a
    call has no effect and no result. *)
Fixpoint spec_run (ops : list (op K V)) (thrown : list bool) (m : entries)
  : entries * list (option (obs K V)) :=
  match ops, thrown with
  | o :: ops', true :: thrown' =>
      let '(m', rs) := spec_run ops' thrown' m in (m', None :: rs)
  | o :: ops', false :: thrown' =>
      let '(m1, r) := spec_step o m in
      let '(m', rs) := spec_run ops' thrown' m1 in (m', Some r :: rs)
  | _, _ => (m, [])
  end.

(** No two entries have equivalent keys. *)
Fixpoint distinct_keys (m : entries) : Prop :=
  match m with
  | [] => True
  | e :: m' => has (fst e) m' = false /\ distinct_keys m'
  end.

End Spec.
