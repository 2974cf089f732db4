(** What a map does whatever its key equality answers: it is a bag of entries.  This file
    does not depend on how the tables work. *)
From Coq Require Import NArith List Bool Permutation.
From Verif Require Import Base GroupModel TableModel RunModel ReachModel CompareModel.
Import ListNotations.
Open Scope N_scope.

Section Bag.

Context {K V : Type} (hash : K -> N).

Notation bag := (list (K * V)).

(** The key equality has answered yes (no) to the comparison of [k] with a stored key. *)
Definition said (b : bool) (cmp : comparison K) (k k' : K) : Prop :=
  exists seen, cmp seen k k' = Some b.

(** It has answered no for every entry with the hash of [k]. *)
Definition all_denied (cmp : comparison K) (k : K) (m : bag) : Prop :=
  forall e, In e m -> hash (fst e) = hash k -> said false cmp k (fst e).

(** Effect and result of a call that returns. *)
Definition bag_step (cmp : comparison K) (o : op K V) (m : bag) (r : obs K V) (m' : bag) : Prop :=
  match o with
  | OInsert _ _ k v =>
      (exists e, In e m /\ said true cmp k (fst e) /\ r = RIns _ _ e false /\ m' = m)
      \/ (all_denied cmp k m /\ r = RIns _ _ (k, v) true /\ m' = (k, v) :: m)
  | OAssign _ _ k v =>
      (exists e rest, Permutation m (e :: rest) /\ said true cmp k (fst e)
         /\ r = RIns _ _ (fst e, v) false /\ m' = (fst e, v) :: rest)
      \/ (all_denied cmp k m /\ r = RIns _ _ (k, v) true /\ m' = (k, v) :: m)
  | OErase _ _ k =>
      (exists e, Permutation m (e :: m') /\ said true cmp k (fst e) /\ r = RNum _ _ 1)
      \/ (all_denied cmp k m /\ r = RNum _ _ 0 /\ m' = m)
  | OFind _ _ k =>
      m' = m /\
      ((exists e, In e m /\ said true cmp k (fst e) /\ r = REntry _ _ (Some e))
       \/ (all_denied cmp k m /\ r = REntry _ _ None))
  | OContains _ _ k =>
      m' = m /\
      ((exists e, In e m /\ said true cmp k (fst e) /\ r = RBool _ _ true)
       \/ (all_denied cmp k m /\ r = RBool _ _ false))
  | OSize _ _ => m' = m /\ r = RNum _ _ (N.of_nat (length m))
  | OClear _ _ _ => m' = [] /\ r = RUnit _ _
  | OReserve _ _ _ | ORehash _ _ _ | OShrink _ _ _ | OMlf _ _ _ => m' = m /\ r = RUnit _ _
  end.

(** A call together with the answers of the allocator and of the key equality. *)
Definition call_c : Type := ((N -> bool) * comparison K * op K V)%type.

(** A sequence of calls; one that throws has no effect. *)
Inductive bag_run {A : Type} : list (A * comparison K * op K V) -> list (option (obs K V)) -> bag -> bag -> Prop :=
| bag_nil m m' : Permutation m m' -> bag_run [] [] m m'
| bag_ret alloc cmp o calls r outs m m1 m' :
    bag_step cmp o m r m1 -> bag_run calls outs m1 m' ->
    bag_run ((alloc, cmp, o) :: calls) (Some r :: outs) m m'
| bag_throw alloc cmp o calls outs m m' :
    bag_run calls outs m m' ->
    bag_run ((alloc, cmp, o) :: calls) (None :: outs) m m'.

(** Every call satisfies [ok] in the state in which it is made. *)
Fixpoint obeys_c (kd : kind) (ok : op K V -> table K V -> Prop) (calls : list call_c)
         (t : table K V) : Prop :=
  match calls with
  | [] => True
  | (alloc, cmp, o) :: rest =>
      ok o t /\ match step_c K V hash kd cmp alloc o t with
                | Ret t' _ | Throw t' => obeys_c kd ok rest t'
                | Fail _ => True
                end
  end.

(** The maps that calls satisfying client_ok make, whatever the key equality answers. *)
Definition reached_c (kd : kind) (t : table K V) : Prop :=
  exists (calls : list call_c) outs,
    Forall (fun c => sane (fst (fst c))) calls
    /\ obeys_c kd (client_ok K V kd) calls (new_map K V kd)
    /\ run_c hash kd calls (new_map K V kd) = Ok (outs, t).

End Bag.
