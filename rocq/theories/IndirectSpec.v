(** Which calls the theorems about the indirect layout cover, and the order of the
    entries (for IndirectModel.v). *)
From Coq Require Import NArith List Bool.
From Verif Require Import Base TableModel MapSpec ReachModel RobinModel RobinSpec IndirectModel.
Import ListNotations.
Open Scope N_scope.

Section Spec.

Variables K V : Type.
Variable hash : K -> N.
Variable keq : K -> K -> bool.

Notation entries := (list (K * V)).

(** The keys are spread as in RobinSpec.v, and the numbers of the entries fit into
    32 bits. *)
Definition i_fine (q : N) (m : entries) : Prop :=
  spread_all K V hash q m /\ N.of_nat (length m) <= 2 ^ 32.

(** Calls covered, as [r_client] in RobinSpec.v, except that find is only called for
    keys that are present, or on a map without storage. *)
Definition i_client (q : N) (o : op K V) (t : imap K V) : Prop :=
  match o with
  | OClear _ _ b => i_alloc _ _ t = true
  | OFind _ _ k => i_contains K V hash keq t k = Ok true
                   \/ i_alloc _ _ t = false /\ i_last _ _ t = LNull
  | OReserve _ _ n | ORehash _ _ n => n <= 2 ^ 50 /\ (q = 1 \/ i_size _ _ t <= n)
  | OShrink _ _ b => q = 1 \/ b = false
  | OMlf _ _ _ => q = 1
  | _ => True
  end.

Fixpoint i_agrees (fine : entries -> Prop) (q : N) (calls : list ((N -> bool) * op K V))
    (t : imap K V) (m : entries) : Prop :=
  match calls with
  | [] => True
  | (alloc, o) :: rest =>
      let '(m', r') := spec_step K V keq o m in
      i_client q o t -> fine m' ->
      match i_step K V hash keq alloc o t with
      | Ret t' r => r = r' /\ i_agrees fine q rest t' m'
      | Throw _ => True
      | Fail _ => False
      end
  end.

(** The maps that such calls, the move constructor and swap lead to, with their
    entries. *)
Inductive i_reach (q : N) : imap K V -> entries -> Prop :=
| ireach_new : i_reach q (inew K V) []
| ireach_step t m alloc o t' r : i_reach q t m -> sane alloc -> i_client q o t ->
    i_fine q (fst (spec_step K V keq o m)) ->
    i_step K V hash keq alloc o t = Ret t' r -> i_reach q t' (fst (spec_step K V keq o m))
| ireach_move t m : i_reach q t m -> i_reach q (fst (i_move K V t)) m
| ireach_swap t m t2 m2 : i_reach q t m -> i_reach q t2 m2 ->
    i_reach q (fst (i_swap K V t t2)) m2.

(** The entries in the order of the iteration.  An erased entry is replaced by the
    last one. *)
Definition swap_remove (k : K) (l : entries) : entries :=
  match rev l with
  | [] => []
  | z :: r =>
      if keq k (fst z) then rev r
      else map (fun e => if keq k (fst e) then z else e) (rev r)
  end.

Definition order_step (o : op K V) (l : entries) : entries :=
  match o with
  | OInsert _ _ k v => if has K V keq k l then l else l ++ [(k, v)]
  | OAssign _ _ k v =>
      if has K V keq k l then map (fun e => if keq k (fst e) then (fst e, v) else e) l
      else l ++ [(k, v)]
  | OErase _ _ k => if has K V keq k l then swap_remove k l else l
  | OClear _ _ _ => []
  | _ => l
  end.

End Spec.
