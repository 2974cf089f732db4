(** What is asked of a map after an exception (C173). *)
From Coq Require Import NArith List Bool Permutation.
From Verif Require Import Base GroupModel TableModel CopyModel MapSpec RunModel ReachModel.
Import ListNotations.
Open Scope N_scope.

Section Spec.

Variables K V : Type.
Variable hash : K -> N.
Variable keq : K -> K -> bool.
Variable kd : kind.

(** All sequences of calls on [t] give the results of an abstract map that starts with the
    entries [m]; no call is undefined or leaks.  (An insertion may still be endless, which is
    a property of its own: C08, C09.) *)
Definition behaves_as (t : table K V) (m : list (K * V)) : Prop :=
  forall calls past, Forall (fun c => sane (fst c)) calls ->
  obeys K V hash keq kd (client_ok K V kd) calls t ->
  match run K V hash keq kd calls t with
  | Ok (outs, t') =>
      outs = snd (spec_run K V keq (map snd calls) (map threw outs) m)
      /\ exists l, traverse K V kd past t' = Ok l
         /\ Permutation l (fst (spec_run K V keq (map snd calls) (map threw outs) m))
  | Err e => e = ELoop
  end.

End Spec.
