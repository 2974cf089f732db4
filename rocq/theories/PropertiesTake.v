(** Robin maps that take over the elements of another one (C212-C213).  The model is
    TakeModel.v; [r_taken], [r_emptied] and [r_resizes] are in TakeSpec.v. *)
From Coq Require Import NArith List Bool Permutation.
From Verif Require Import Base TableModel TableInv MapSpec ReachModel WitnessModel RobinModel RobinSpec RobinWitness
  FunctorModel TakeModel TakeSpec TakeFacts TakeWitness.
Import ListNotations.
Open Scope N_scope.

(** ** C212 *)

(** A map moved with an equal allocator has a null last_slot_: find of an absent key and
    an insertion that displaces an element are undefined. *)
Theorem c212_moved_with_an_allocator_refuted : exists y m z y',
  r_reach N N (h_hash y) (h_eq y) 2 (h_map y) m /\ spread_all N N (h_hash y) 2 m
  /\ r_move_with N N true some_alloc y = Ret y' z
  /\ r_step N N idhash N.eqb some_alloc (OFind N N 7) (h_map y) = Ret (h_map y) (REntry N N None)
  /\ r_step N N idhash N.eqb some_alloc (OFind N N 7) (h_map z) = Fail EUndef
  /\ r_step N N idhash N.eqb some_alloc (OInsert N N 8 0) (h_map z) = Fail EUndef.
Proof. exact hx_with_lemma. Qed.
Print Assumptions c212_moved_with_an_allocator_refuted.

Theorem c212_move_assigned_maps_are_usable_refuted : forall propagate same, exists x mx y m z y',
  r_reach N N (h_hash x) (h_eq x) 2 (h_map x) mx
  /\ r_reach N N (h_hash y) (h_eq y) 2 (h_map y) m /\ spread_all N N (h_hash y) 2 m
  /\ r_move_assign_held N N propagate same some_alloc x y = Ret (z, y') tt
  /\ r_step N N idhash N.eqb some_alloc (OFind N N 7) (h_map z) = Fail EUndef.
Proof. exact hx_assign_lemma. Qed.
Print Assumptions c212_move_assigned_maps_are_usable_refuted.

(** The operations themselves are defined, and one that is refused memory changes
    neither map.  With different allocators the source keeps its elements, otherwise it gives
    them away. *)
Theorem c212_taking_over_is_defined_partial :
  forall (K V : Type) q (x y : held K (rmap K V)) m, lawful (h_hash y) (h_eq y) -> q = 1 \/ q = 2 ->
  r_reach K V (h_hash y) (h_eq y) q (h_map y) m -> spread_all K V (h_hash y) 2 m ->
  forall alloc, sane alloc ->
  (match r_assign_held K V alloc x y with Ret _ _ => True | Throw x' => x' = x | Fail _ => False end)
  /\ (forall same, match r_move_with K V same alloc y with
       | Ret y' _ => same = false -> y' = y | Throw y' => y' = y | Fail _ => False end)
  /\ forall propagate same, match r_move_assign_held K V propagate same alloc x y with
       | Ret (_, y') _ => if propagate || same then r_emptied K V y' else y' = y
       | Throw z => z = (x, y) | Fail _ => False end.
Proof. exact @take_total. Qed.
Print Assumptions c212_taking_over_is_defined_partial.

Theorem c212_taken_maps_have_the_entries_partial :
  forall (K V : Type) q (z : held K (rmap K V)) m, lawful (h_hash z) (h_eq z) -> q = 1 \/ q = 2 ->
  r_taken K V q z m ->
  (exists l, r_traverse K V (h_map z) = Ok l /\ Permutation l m)
  /\ r_size _ _ (h_map z) = N.of_nat (length m)
  /\ forall k, r_contains K V (h_hash z) (h_eq z) (h_map z) k = Ok (has K V (h_eq z) k m).
Proof. exact @taken_shows. Qed.
Print Assumptions c212_taken_maps_have_the_entries_partial.

Theorem c212_function_objects_go_along_partial :
  forall (K V : Type) (x y : held K (rmap K V)),
  (let '(a, b) := r_swap_held K V x y in
   h_hash a = h_hash y /\ h_eq a = h_eq y /\ h_hash b = h_hash x /\ h_eq b = h_eq x)
  /\ (forall alloc z, r_assign_held K V alloc x y = Ret z tt -> h_hash z = h_hash y /\ h_eq z = h_eq y)
  /\ (forall same alloc z y', r_move_with K V same alloc y = Ret y' z ->
       h_hash z = h_hash y /\ h_eq z = h_eq y)
  /\ (forall propagate same alloc z y', r_move_assign_held K V propagate same alloc x y = Ret (z, y') tt ->
       h_hash z = h_hash y /\ h_eq z = h_eq y).
Proof. exact @take_functions. Qed.
Print Assumptions c212_function_objects_go_along_partial.

(** ** C213 *)

(** reserve, rehash and shrink_to_fit are defined, and if they change the capacity the
    map works again. *)
Theorem c213_another_capacity_repairs_partial :
  forall (K V : Type) q (z : held K (rmap K V)) m alloc o, lawful (h_hash z) (h_eq z) -> q = 1 \/ q = 2 ->
  r_taken K V q z m -> sane alloc -> r_resizes K V o = true -> r_client K V q o (h_map z) ->
  spread_all K V (h_hash z) q m ->
  match r_step K V (h_hash z) (h_eq z) alloc o (h_map z) with
  | Ret t _ => r_slot_capacity K V t <> r_slot_capacity K V (h_map z) ->
      forall calls, Forall (fun c => sane (fst c)) calls ->
      r_agrees K V (h_hash z) (h_eq z) (spread_all K V (h_hash z) q) q calls t m
  | Throw _ => True
  | Fail _ => False
  end.
Proof. exact @taken_resized. Qed.
Print Assumptions c213_another_capacity_repairs_partial.

Theorem c213_clear_repairs_partial :
  forall (K V : Type) q (z : held K (rmap K V)) m, lawful (h_hash z) (h_eq z) -> q = 1 \/ q = 2 ->
  r_taken K V q z m -> r_alloc _ _ (h_map z) = true ->
  exists t, r_clear K V true (h_map z) = Ret t tt
    /\ forall calls, Forall (fun c => sane (fst c)) calls ->
        r_agrees K V (h_hash z) (h_eq z) (spread_all K V (h_hash z) q) q calls t [].
Proof. exact @taken_cleared. Qed.
Print Assumptions c213_clear_repairs_partial.

(** Every reserve makes the source of a move a working empty map. *)
Theorem c213_reserve_repairs_moved_from_maps_partial :
  forall (K V : Type) (hash : K -> N) (keq : K -> K -> bool) q (y : held K (rmap K V)) alloc n,
  lawful hash keq -> q = 1 \/ q = 2 -> r_emptied K V y -> sane alloc -> n <= 2 ^ 50 ->
  match r_step K V hash keq alloc (OReserve K V n) (h_map y) with
  | Ret t _ => forall calls, Forall (fun c => sane (fst c)) calls ->
      r_agrees K V hash keq (spread_all K V hash q) q calls t []
  | Throw _ => True
  | Fail _ => False
  end.
Proof. exact @emptied_reserved. Qed.
Print Assumptions c213_reserve_repairs_moved_from_maps_partial.

(** A reserve that keeps the capacity does not help. *)
Theorem c213_every_reserve_repairs_refuted : exists z m t,
  r_taken N N 2 z m
  /\ r_step N N idhash N.eqb some_alloc (OReserve N N 3) (h_map z) = Ret t (RUnit N N)
  /\ r_slot_capacity N N t = r_slot_capacity N N (h_map z)
  /\ r_step N N idhash N.eqb some_alloc (OFind N N 7) t = Fail EUndef.
Proof. exact hx_same_capacity_lemma. Qed.
Print Assumptions c213_every_reserve_repairs_refuted.

(** The map that [z] is swapped with has another hash function. *)
Example c213_example : exists z t t',
  r_taken N N 2 z [(2, 3); (1, 2); (0, 1)] /\ h_hash z = idhash /\ h_eq z = N.eqb
  /\ lawful (h_hash z) (h_eq z) /\ spread_all N N (h_hash z) 2 [(2, 3); (1, 2); (0, 1)]
  /\ r_alloc _ _ (h_map z) = true
  /\ r_client N N 2 (OReserve N N 20) (h_map z)
  /\ r_step N N (h_hash z) (h_eq z) some_alloc (OReserve N N 20) (h_map z) = Ret t (RUnit N N)
  /\ r_slot_capacity N N (h_map z) = 8 /\ r_slot_capacity N N t = 64
  /\ r_step N N (h_hash z) (h_eq z) some_alloc (OFind N N 7) t = Ret t (REntry N N None)
  /\ r_step N N (h_hash z) (h_eq z) some_alloc (OInsert N N 64 5) t = Ret t' (RIns N N (64, 5) true)
  /\ r_size _ _ t' = 4.
Proof. exact hx_taken_lemma. Qed.

Example c213_source_example : exists y t t',
  r_emptied N N y
  /\ r_step N N idhash N.eqb some_alloc (OInsert N N 3 4) (h_map y) = Fail EUndef
  /\ r_step N N idhash N.eqb some_alloc (OReserve N N 0) (h_map y) = Ret t (RUnit N N)
  /\ r_step N N idhash N.eqb some_alloc (OInsert N N 3 4) t = Ret t' (RIns N N (3, 4) true).
Proof. exact hx_emptied_lemma. Qed.
