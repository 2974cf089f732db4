(** What is asked of the robin hood, flat16 and robin16 maps with a throwing hasher. *)
From Coq Require Import NArith List Bool Permutation.
From Verif Require Import Base TableModel TableInv MapSpec ReachModel RobinModel RobinSpec Flat16Model Robin16Model.
Import ListNotations.
Open Scope N_scope.

Section Robin.

Variables K V : Type.
Variable hash : K -> N.
Variable keq : K -> K -> bool.

(** All sequences of calls on [t] give the results of an abstract map that starts with the
    entries [m], as long as these stay spread; an iteration visits these entries. *)
Definition r_behaves_as (q : N) (t : rmap K V) (m : list (K * V)) : Prop :=
  (forall calls, Forall (fun c => sane (fst c)) calls ->
     r_agrees K V hash keq (spread_all K V hash q) q calls t m)
  /\ exists l, r_traverse K V t = Ok l /\ Permutation l m.

End Robin.

(** A call of the flat16 or robin16 map, on a map with [cap] slots and [s] entries: [r] is what
    it does with a hasher that does not throw, [h] if the hasher throws after [n] calls;
    [slots] is the number of slots.  The capacity is doubled [g] times; each time the hasher
    is called for every entry, and it is called for the key of the call before the first and
    after each of them.  If it throws the program is ended, [None]: the caller does not see
    an exception of the hasher. *)
Definition hashed_until {S A} (slots : S -> N) (cap s n : N) (r : out S A) (h : option (out S A)) : Prop :=
  match r with
  | Ret t' _ | Throw t' => exists g, slots t' = 2 ^ g * cap
      /\ h = if 1 + g * (s + 1) <=? n then Some r else None
  | Fail _ => False
  end.

(** The same for a call that moves all entries to new slots, if their number changes. *)
Definition rehashed_until {S A} (slots : S -> N) (cap s : N) (n : nat) (r : out S A) (h : option (out S nat)) : Prop :=
  match r with
  | Ret t' _ =>
      h = if slots t' =? cap then Some (Ret t' n)
          else if s <=? N.of_nat n then Some (Ret t' (n - N.to_nat s)%nat) else None
  | Throw t' => h = Some (Throw t')
  | Fail _ => False
  end.
