(** What is asked of the robin hood map whatever its key equality answers; the bag of
    entries is that of CompareSpec.v. *)
From Coq Require Import NArith List Bool.
From Verif Require Import Base TableModel ReachModel RobinModel RobinSpec CompareModel CompareSpec Compare3Model.
Import ListNotations.
Open Scope N_scope.

Section Spec.

Context {K V : Type} (hash : K -> N).

(** The entries after a call, if it inserts. *)
Definition at_most (o : op K V) (m : list (K * V)) : list (K * V) :=
  match o with
  | OInsert _ _ k v | OAssign _ _ k v => (k, v) :: m
  | _ => m
  end.

(** The key that a call looks for. *)
Definition concerns (o : op K V) (k : K) : Prop :=
  match o with
  | OInsert _ _ k' _ | OAssign _ _ k' _ | OErase _ _ k' | OFind _ _ k' | OContains _ _ k' => k = k'
  | _ => False
  end.

(** Conditions of C43 in the state in which a call is made: the call is covered, and the
    keys are spread well enough, counting a key as often as it is there. *)
Definition r_client_c (q : N) (o : op K V) (t : rmap K V) : Prop :=
  r_client K V q o t
  /\ exists m, r_traverse K V t = Ok m /\ spread_all K V hash q (at_most o m).

Fixpoint r_obeys_c (q : N) (calls : list (@call_c K V)) (t : rmap K V) : Prop :=
  match calls with
  | [] => True
  | (alloc, cmp, o) :: rest =>
      r_client_c q o t
      /\ match r_step_c K V hash cmp alloc o t with
         | Ret t' _ => r_obeys_c q rest t'
         | _ => True
         end
  end.

(** The maps that such calls make of a new map. *)
Definition r_reached_c (q : N) (t : rmap K V) : Prop :=
  exists (calls : list (@call_c K V)) outs, Forall (fun c => sane (fst (fst c))) calls
    /\ r_obeys_c q calls (rnew K V) /\ r_run_c hash calls (rnew K V) = Ret t outs.

End Spec.
