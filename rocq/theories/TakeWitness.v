(** Example maps for TakeSpec.v. *)
From Coq Require Import NArith ZArith List Bool Lia Permutation.
From Verif Require Import Base TableModel TableInv MapSpec RunModel ReachModel WitnessModel WitnessFacts RobinModel RobinSpec
  RobinRefine RobinWitness FunctorModel FunctorWitness TakeModel TakeSpec TakeFacts.
Import ListNotations.
Open Scope N_scope.

Definition hx (t : rmap N N) : held N (rmap N N) := mkHeld idhash N.eqb t.

Lemma rx_three_fine : spread_all N N idhash 2 [(2, 3); (1, 2); (0, 1)].
Proof. apply fineb_spread; [lia|vm_compute; reflexivity]. Qed.

(** A map that is moved with an equal allocator: last_slot_ is null. *)
Lemma hx_with_lemma : exists y m z y',
  r_reach N N (h_hash y) (h_eq y) 2 (h_map y) m /\ spread_all N N (h_hash y) 2 m
  /\ r_move_with N N true some_alloc y = Ret y' z
  /\ r_step N N idhash N.eqb some_alloc (OFind N N 7) (h_map y) = Ret (h_map y) (REntry N N None)
  /\ r_step N N idhash N.eqb some_alloc (OFind N N 7) (h_map z) = Fail EUndef
  /\ r_step N N idhash N.eqb some_alloc (OInsert N N 8 0) (h_map z) = Fail EUndef.
Proof.
  exists (hx rx_three), [(2, 3); (1, 2); (0, 1)]. eexists _, _.
  split; [exact rx_three_reach|]. split; [exact rx_three_fine|]. split; [reflexivity|].
  vm_compute. auto.
Qed.

Lemma hx_assign_lemma : forall propagate same, exists x mx y m z y',
  r_reach N N (h_hash x) (h_eq x) 2 (h_map x) mx
  /\ r_reach N N (h_hash y) (h_eq y) 2 (h_map y) m /\ spread_all N N (h_hash y) 2 m
  /\ r_move_assign_held N N propagate same some_alloc x y = Ret (z, y') tt
  /\ r_step N N idhash N.eqb some_alloc (OFind N N 7) (h_map z) = Fail EUndef.
Proof.
  intros p s. exists (hx rx_two), [(2, 3); (1, 2)], (hx rx_three), [(2, 3); (1, 2); (0, 1)].
  destruct p, s; eexists _, _; (split; [exact rx_two_reach|]); (split; [exact rx_three_reach|]);
    (split; [exact rx_three_fine|]); (split; [vm_compute; reflexivity|]); vm_compute; reflexivity.
Qed.

(** reserve with the capacity that the map has repairs nothing. *)
Lemma hx_same_capacity_lemma : exists z m t,
  r_taken N N 2 z m
  /\ r_step N N idhash N.eqb some_alloc (OReserve N N 3) (h_map z) = Ret t (RUnit N N)
  /\ r_slot_capacity N N t = r_slot_capacity N N (h_map z)
  /\ r_step N N idhash N.eqb some_alloc (OFind N N 7) t = Fail EUndef.
Proof.
  exists (fst (r_swap_held N N (hx rx_two) (hx rx_three))), [(2, 3); (1, 2); (0, 1)]. eexists.
  split; [apply taken_swap; exact rx_three_reach|]. split; [vm_compute; reflexivity|].
  split; vm_compute; reflexivity.
Qed.

(** Another hash function on the other side. *)
Lemma hx_taken_lemma : exists z t t',
  r_taken N N 2 z [(2, 3); (1, 2); (0, 1)] /\ h_hash z = idhash /\ h_eq z = N.eqb
  /\ lawful (h_hash z) (h_eq z) /\ spread_all N N (h_hash z) 2 [(2, 3); (1, 2); (0, 1)]
  /\ r_alloc _ _ (h_map z) = true
  /\ r_client N N 2 (OReserve N N 20) (h_map z)
  /\ r_step N N (h_hash z) (h_eq z) some_alloc (OReserve N N 20) (h_map z) = Ret t (RUnit N N)
  /\ r_slot_capacity N N (h_map z) = 8 /\ r_slot_capacity N N t = 64
  /\ r_step N N (h_hash z) (h_eq z) some_alloc (OFind N N 7) t = Ret t (REntry N N None)
  /\ r_step N N (h_hash z) (h_eq z) some_alloc (OInsert N N 64 5) t = Ret t' (RIns N N (64, 5) true)
  /\ r_size _ _ t' = 4.
Proof.
  exists (fst (r_swap_held N N (mkHeld digit same_digit rxf_one) (hx rx_three))). eexists _, _.
  split; [apply taken_swap; exact rx_three_reach|]. split; [reflexivity|]. split; [reflexivity|].
  split; [exact idlaw|]. split; [exact rx_three_fine|]. split; [vm_compute; reflexivity|].
  split; [split; [vm_compute; discriminate|right; vm_compute; discriminate]|].
  split; [vm_compute; reflexivity|]. split; [vm_compute; reflexivity|]. split; [vm_compute; reflexivity|].
  split; [vm_compute; reflexivity|]. split; [vm_compute; reflexivity|]. vm_compute; reflexivity.
Qed.

Lemma hx_emptied_lemma : exists y t t',
  r_emptied N N y
  /\ r_step N N idhash N.eqb some_alloc (OInsert N N 3 4) (h_map y) = Fail EUndef
  /\ r_step N N idhash N.eqb some_alloc (OReserve N N 0) (h_map y) = Ret t (RUnit N N)
  /\ r_step N N idhash N.eqb some_alloc (OInsert N N 3 4) t = Ret t' (RIns N N (3, 4) true).
Proof.
  exists (snd (r_move_held N N (hx rx_three))). eexists _, _. split; [apply emptied_move|].
  split; [vm_compute; reflexivity|]. split; [vm_compute; reflexivity|]. vm_compute; reflexivity.
Qed.
