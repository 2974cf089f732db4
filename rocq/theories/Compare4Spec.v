(** What is asked of the robin16 map whatever its key equality answers; the bag of entries
    is that of CompareSpec.v. *)
From Coq Require Import NArith List Bool.
From Verif Require Import Base TableModel Flat16Spec Robin16Model Robin16Spec CompareModel CompareSpec Compare3Spec
  Compare4Model.
Import ListNotations.
Open Scope N_scope.

Section Spec.

Context {K V : Type} (hash : K -> N) (wide trivial : bool).

(** A call with the answers of the allocators and of the key equality. *)
Definition q_call_c : Type := ((bool -> N -> bool) * comparison K * op K V)%type.

(** Every element with the control byte of a key may be said to be equal to it. *)
Definition same_byte (k k' : K) : bool := q_tag K hash k =? q_tag K hash k'.

(** Conditions of C110 in the state in which a call is made: the call is covered, where for
    an erasure all elements with the control byte of the key count, and the keys are
    spread well enough, counting a key as often as it is there. *)
Definition q_client_c (o : op K V) (t : qmap K V) : Prop :=
  q_client K V hash same_byte o t
  /\ exists m, q_traverse K V wide t = Ok m /\ q_fine K V hash (at_most o m).

Fixpoint q_obeys_c (calls : list q_call_c) (t : qmap K V) : Prop :=
  match calls with
  | [] => True
  | (alloc, cmp, o) :: rest =>
      q_client_c o t
      /\ match q_step_c K V hash cmp wide trivial alloc o t with
         | Ret t' _ => q_obeys_c rest t'
         | _ => True
         end
  end.

(** Calls that may insert. *)
Definition adding (o : op K V) : Prop :=
  match o with OInsert _ _ _ _ | OAssign _ _ _ _ => True | _ => False end.

(** The maps that such calls make of a new map. *)
Definition q_reached_c (t : qmap K V) : Prop :=
  exists alloc n t0 (calls : list q_call_c) outs, f_sane alloc /\ n <= 2 ^ 44
    /\ q_new K V alloc n = Ret t0 tt
    /\ Forall (fun c => f_sane (fst (fst c))) calls /\ q_obeys_c calls t0
    /\ q_run_c hash wide trivial calls t0 = Ret t outs.

End Spec.
