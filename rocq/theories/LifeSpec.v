(** What is asked of the lifetimes of LifeModel.v. *)
From Coq Require Import NArith List Bool.
From Verif Require Import Base TableModel MapSpec ReachModel RobinModel RobinSpec LifeModel.
Import ListNotations.
Open Scope N_scope.

Section LifeSpec.

Variables K V : Type.
Variable hash : K -> N.
Variable keq : K -> K -> bool.

(** As [r_agrees] of RobinSpec.v, with the lifetimes of the elements, and the
    destructor after the last call destroys each element once and leaves none. *)
Fixpoint l_agrees (tr : traits) (fine : list (K * V) -> Prop) (q : N)
    (calls : list ((N -> bool) * op K V)) (t : rmap K V) (m : list (K * V)) : Prop :=
  match calls with
  | [] => l_destroy K V tr t = Ok tt
  | (alloc, o) :: rest =>
      let '(m', r') := spec_step K V keq o m in
      r_client K V q o t -> fine m' ->
      match l_step K V hash keq tr alloc o t with
      | Ret t' r => r = r' /\ l_agrees tr fine q rest t' m'
      | Throw _ => True
      | Fail _ => False
      end
  end.

End LifeSpec.
