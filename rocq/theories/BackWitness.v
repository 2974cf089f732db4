(** An example for BackModel.v. *)
From Coq Require Import NArith ZArith List Bool Lia.
From Verif Require Import Base TableModel TableInv MapSpec ReachModel WitnessModel RobinModel RobinSpec RobinWitness BackModel.
Import ListNotations.
Open Scope N_scope.

(** Three elements with gaps between them. *)
Definition bx_ops : list (op N N) := put_ops [1; 2; 3; 6] ++ [OErase N N 2].
Definition bx_gaps : rm := fst (chased 2 bx_ops).

Lemma bx_example_lemma : exists t m,
  r_reach N N idhash N.eqb 2 t m
  /\ r_traverse N N t = Ok [(1, 2); (3, 4); (6, 7)] /\ r_back N N t = Ok [(6, 7); (3, 4); (1, 2)]
  /\ geti (r_slots _ _ t) 3 = Some (Some (3, 4)) /\ r_forth N N t 3 = Ok 6 /\ r_back_one N N t 6 = Ok 3
  /\ r_forth N N t 6 = Ok (r_end N N t) /\ r_end N N t = 14.
Proof.
  exists bx_gaps, (snd (chased 2 bx_ops)). split; [apply chased_reach; lia|]. vm_compute. auto 10.
Qed.
