(** When the keys of a robin hood map are spread well enough (for RobinModel.v).
    A position is [hash mod cap] where cap is the capacity, a power of two; behind
    the last position the map has some extra room. *)
From Coq Require Import NArith List Bool.
From Verif Require Import Base TableModel MapSpec ReachModel RobinModel.
Import ListNotations.
Open Scope N_scope.

Section Spread.

Variables K V : Type.
Variable hash : K -> N.
Variable keq : K -> K -> bool.

Notation entries := (list (K * V)).

(** Extra positions behind the last one (RH:4351-4355: twice the logarithm of the
    capacity, at least four, or four times the logarithm for 65536 positions or
    more), but not more than a distance that fits into a signed byte. *)
Definition room (cap : N) : N :=
  let b := N.log2 cap in
  N.min (if b <? 16 then N.max (2 * b) 4 else 4 * b) 126.

(** How many entries belong to one of the [n] positions from [a]. *)
Definition homes_in (cap a n : N) (m : entries) : N :=
  N.of_nat (length (filter (fun e => let h := hash (fst e) mod cap in
                                     (a <=? h) && (h <? a + n)) m)).

(** No stretch of positions is wanted by more entries than its length plus the
    extra room. *)
Definition spread (cap : N) (m : entries) : Prop :=
  forall a n, 1 <= n -> homes_in cap a n m <= n + room cap.

(** The same for every capacity that the map may choose for [m]: at least [q] times
    the number of entries. *)
Definition spread_all (q : N) (m : entries) : Prop :=
  forall b, 2 <= b -> q * N.of_nat (length m) <= 2 ^ b -> spread (2 ^ b) m.

(** Calls covered: with [q] = 1 all calls, with [q] = 2 those that leave at least half
    of the positions free.  Not covered:
    - clear() of a map without storage writes to a constant;
    - find() in a map without storage gives an iterator that is not end();
    - rehash(n) for n > 2^50. *)
Definition r_client (q : N) (o : op K V) (t : rmap K V) : Prop :=
  match o with
  | OClear _ _ b => r_alloc _ _ t = true
  | OFind _ _ _ => r_alloc _ _ t = true
  | OReserve _ _ n | ORehash _ _ n => n <= 2 ^ 50 /\ (q = 1 \/ r_size _ _ t <= n)
  | OShrink _ _ b => q = 1 \/ b = false
  | OMlf _ _ _ => q = 1
  | _ => True
  end.

(** Every call returns what the abstract map [m] says, until one throws, provided
    that the entries stay [fine]. *)
Fixpoint r_agrees (fine : entries -> Prop) (q : N) (calls : list ((N -> bool) * op K V))
    (t : rmap K V) (m : entries) : Prop :=
  match calls with
  | [] => True
  | (alloc, o) :: rest =>
      let '(m', r') := spec_step K V keq o m in
      r_client q o t -> fine m' ->
      match r_step K V hash keq alloc o t with
      | Ret t' r => r = r' /\ r_agrees fine q rest t' m'
      | Throw _ => True
      | Fail _ => False
      end
  end.

(** The maps that such calls, the copy constructor and the move constructor (the new
    map, not its source) lead to, with their entries. *)
Inductive r_reach (q : N) : rmap K V -> entries -> Prop :=
| reach_new : r_reach q (rnew K V) []
| reach_step t m alloc o t' r : r_reach q t m -> sane alloc -> r_client q o t ->
    spread_all q (fst (spec_step K V keq o m)) ->
    r_step K V hash keq alloc o t = Ret t' r -> r_reach q t' (fst (spec_step K V keq o m))
| reach_copy t m alloc t' : r_reach q t m -> sane alloc -> spread_all 2 m ->
    r_copy K V hash keq alloc t = Ret t' tt -> r_reach q t' m
| reach_move t m : r_reach q t m -> r_reach q (fst (r_move K V t)) m.

End Spread.
