(** What is asked of the flat16 map whatever its key equality answers; the bag of entries
    is that of CompareSpec.v. *)
From Coq Require Import NArith List Bool.
From Verif Require Import Base TableModel Flat16Model Flat16Spec CompareModel CompareSpec Compare2Model.
Import ListNotations.
Open Scope N_scope.

Section Spec.

Context {K V : Type} (hash : K -> N) (mix : N -> N).

(** A call with the answers of the allocators and of the key equality. *)
Definition f_call_c : Type := ((bool -> N -> bool) * comparison K * op K V)%type.

(** Every call satisfies f_client, the condition of C57, in the state in which it is made. *)
Fixpoint f_obeys_c (trivial : bool) (calls : list f_call_c) (t : fmap K V) : Prop :=
  match calls with
  | [] => True
  | (alloc, cmp, o) :: rest =>
      f_client K V hash o t
      /\ match f_step_c K V hash mix cmp trivial alloc o t with
         | Ret t' _ => f_obeys_c trivial rest t'
         | _ => True
         end
  end.

(** The maps that such calls make of a new map. *)
Definition f_reached_c (trivial : bool) (t : fmap K V) : Prop :=
  exists alloc n t0 (calls : list f_call_c) outs, f_sane alloc /\ n <= 2 ^ 44
    /\ f_new K V alloc n = Ret t0 tt
    /\ Forall (fun c => f_sane (fst (fst c))) calls /\ f_obeys_c trivial calls t0
    /\ f_run_c hash mix trivial calls t0 = Ret t outs.

End Spec.
