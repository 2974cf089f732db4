(** Iterating over a robin map backwards (C214).  The model is BackModel.v. *)
From Coq Require Import NArith List Bool Permutation.
From Verif Require Import Base TableModel TableInv MapSpec ReachModel WitnessModel RobinModel RobinSpec RobinWitness
  BackModel BackFacts BackWitness.
Import ListNotations.
Open Scope N_scope.

(** ** C214 *)

Theorem c214_backwards_is_the_reverse :
  forall (K V : Type) (hash : K -> N) (keq : K -> K -> bool), lawful hash keq ->
  forall q t m, q = 1 \/ q = 2 -> r_reach K V hash keq q t m ->
  exists l, r_traverse K V t = Ok l /\ r_back K V t = Ok (rev l) /\ Permutation l m.
Proof. exact @back_reverse. Qed.
Print Assumptions c214_backwards_is_the_reverse.

(** From an element ++ leads to another position that is at most end(), and -- back. *)
Theorem c214_decrement_undoes_increment :
  forall (K V : Type) (hash : K -> N) (keq : K -> K -> bool), lawful hash keq ->
  forall q t m i kv, q = 1 \/ q = 2 -> r_reach K V hash keq q t m -> geti (r_slots K V t) i = Some (Some kv) ->
  exists j, r_forth K V t i = Ok j /\ i < j /\ j <= r_end K V t /\ r_back_one K V t j = Ok i.
Proof. exact @forth_back. Qed.
Print Assumptions c214_decrement_undoes_increment.

Example c214_example : exists t m,
  r_reach N N idhash N.eqb 2 t m
  /\ r_traverse N N t = Ok [(1, 2); (3, 4); (6, 7)] /\ r_back N N t = Ok [(6, 7); (3, 4); (1, 2)]
  /\ geti (r_slots _ _ t) 3 = Some (Some (3, 4)) /\ r_forth N N t 3 = Ok 6 /\ r_back_one N N t 6 = Ok 3
  /\ r_forth N N t 6 = Ok (r_end N N t) /\ r_end N N t = 14.
Proof. exact bx_example_lemma. Qed.
