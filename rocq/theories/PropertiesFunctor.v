(** Function objects in copies, moves and swaps (C198-C200).  The model is FunctorModel.v;
    [digit], [same_digit] and [seeded] are in FunctorWitness.v. *)
From Coq Require Import NArith List Bool Permutation.
From Verif Require Import Base GroupModel TableModel TableInv MapSpec RunModel CopyModel ReachModel WitnessModel
  Crc32Model RobinModel RobinSpec RobinWitness Flat16Model Flat16Spec Flat16Witness Robin16Model Robin16Spec
  Robin16Witness Robin16Example FunctorModel FunctorFlat16 FunctorRobin16 FunctorFacts FunctorWitness.
Import ListNotations.
Open Scope N_scope.

(** ** C198 *)

(** A map whose keys are equal when their last digits are finds 13 after the insertion of
    3; its copy has the default functions and does not. *)
Theorem c198_a_flat16_copy_finds_what_the_original_finds_refuted : forall trivial,
  exists hash keq hash0 keq0 t t1 x,
  lawful hash keq /\ lawful hash0 keq0 /\ f_new N N f_some 16 = Ret t tt
  /\ f_run N N hash keq simple_int_hash_crc32 trivial [f_add 3] t = Ok ([Some (RIns N N (3, 4) true)], t1)
  /\ f_copy_held N N simple_int_hash_crc32 hash0 keq0 f_some (mkHeld hash keq t1) = Ret x tt
  /\ f_run N N hash keq simple_int_hash_crc32 trivial [f_do (OContains N N 13)] t1 = Ok ([Some (RBool N N true)], t1)
  /\ f_run N N (h_hash x) (h_eq x) simple_int_hash_crc32 trivial [f_do (OContains N N 13)] (h_map x)
     = Ok ([Some (RBool N N false)], h_map x).
Proof. exact fxf_lost_lemma. Qed.
Print Assumptions c198_a_flat16_copy_finds_what_the_original_finds_refuted.

(** The other way round, the copy has two elements with equal keys, and erase(3) leaves
    one. *)
Theorem c198_a_flat16_copy_has_different_keys_refuted : forall trivial,
  exists hash keq hash0 keq0 t t1 x t2,
  lawful hash keq /\ lawful hash0 keq0 /\ f_new N N f_some 16 = Ret t tt
  /\ f_run N N hash keq simple_int_hash_crc32 trivial [f_add 3; f_add 13] t
     = Ok ([Some (RIns N N (3, 4) true); Some (RIns N N (13, 14) true)], t1)
  /\ f_copy_held N N simple_int_hash_crc32 hash0 keq0 f_some (mkHeld hash keq t1) = Ret x tt
  /\ keq0 3 13 = true
  /\ f_run N N (h_hash x) (h_eq x) simple_int_hash_crc32 trivial
       [f_do (OSize N N); f_do (OErase N N 3); f_do (OContains N N 3)] (h_map x)
     = Ok ([Some (RNum N N 2); Some (RNum N N 1); Some (RBool N N true)], t2).
Proof. exact fxf_twice_lemma. Qed.
Print Assumptions c198_a_flat16_copy_has_different_keys_refuted.

(** Whatever the default functions are, the copy has the size and the elements of the
    original. *)
Theorem c198_a_flat16_copy_has_the_elements_partial :
  forall (K V : Type) (mix : N -> N) (hash : K -> N) (keq : K -> K -> bool), lawful hash keq ->
  forall t m alloc hash0 keq0, f_built K V hash keq mix t m -> f_sane alloc ->
  match f_copy_held K V mix hash0 keq0 alloc (mkHeld hash keq t) with
  | Ret x _ => f_size _ _ (h_map x) = f_size _ _ t
      /\ exists l, f_traverse K V (h_map x) = Ok l /\ Permutation l m
  | Throw _ => True
  | Fail _ => False
  end.
Proof. exact @f_copy_entries. Qed.
Print Assumptions c198_a_flat16_copy_has_the_elements_partial.

(** If the default equality tells the keys apart, as it does when only the hash functions
    differ, the copy is the same map for its own functions. *)
Theorem c198_a_flat16_copy_is_a_map_partial :
  forall (K V : Type) (mix : N -> N) (hash : K -> N) (keq : K -> K -> bool), lawful hash keq ->
  forall t m alloc hash0 keq0, lawful hash0 keq0 -> f_built K V hash keq mix t m -> f_sane alloc ->
  distinct_keys K V keq0 m ->
  forall x, f_copy_held K V mix hash0 keq0 alloc (mkHeld hash keq t) = Ret x tt ->
  forall trivial calls, Forall (fun c => f_sane (fst c)) calls ->
  f_agrees K V (h_hash x) (h_eq x) mix (f_client K V (h_hash x)) trivial calls (h_map x) m.
Proof. exact @f_copy_agrees. Qed.
Print Assumptions c198_a_flat16_copy_is_a_map_partial.

Example c198_example :
  lawful idhash N.eqb /\ lawful (seeded 12345) N.eqb
  /\ f_built N N idhash N.eqb simple_int_hash_crc32 fx_busy fx_busy_map
  /\ f_sane f_some /\ distinct_keys N N N.eqb fx_busy_map
  /\ exists x, f_copy_held N N simple_int_hash_crc32 (seeded 12345) N.eqb f_some (mkHeld idhash N.eqb fx_busy) = Ret x tt
     /\ f_size _ _ (h_map x) = 40
     /\ f_ctrls _ _ (h_map x) <> f_ctrls _ _ fx_busy.
Proof. exact fxf_example_lemma. Qed.

(** ** C199 *)

Theorem c199_a_robin16_copy_finds_what_the_original_finds_refuted : forall wide trivial,
  exists hash keq hash0 keq0 t t1 x,
  lawful hash keq /\ lawful hash0 keq0 /\ q_new N N qal 16 = Ret t tt
  /\ q_run N N hash keq wide trivial [qput 3] t = Ok ([qnew_ 3], t1)
  /\ q_copy_held N N wide trivial hash0 keq0 qal (mkHeld hash keq t1) = Ret x tt
  /\ q_run N N hash keq wide trivial [qask (OContains N N 13)] t1 = Ok ([qsays true], t1)
  /\ q_run N N (h_hash x) (h_eq x) wide trivial [qask (OContains N N 13)] (h_map x) = Ok ([qsays false], h_map x).
Proof. exact qxf_lost_lemma. Qed.
Print Assumptions c199_a_robin16_copy_finds_what_the_original_finds_refuted.

Theorem c199_a_robin16_copy_has_different_keys_refuted : forall wide trivial,
  exists hash keq hash0 keq0 t t1 x t2,
  lawful hash keq /\ lawful hash0 keq0 /\ q_new N N qal 16 = Ret t tt
  /\ q_run N N hash keq wide trivial [qput 1; qput 11] t = Ok ([qnew_ 1; qnew_ 11], t1)
  /\ q_copy_held N N wide trivial hash0 keq0 qal (mkHeld hash keq t1) = Ret x tt
  /\ keq0 1 11 = true
  /\ q_run N N (h_hash x) (h_eq x) wide trivial
       [qask (OSize N N); qask (OErase N N 1); qask (OContains N N 1)] (h_map x)
     = Ok ([Some (RNum N N 2); Some (RNum N N 1); qsays true], t2).
Proof. exact qxf_twice_lemma. Qed.
Print Assumptions c199_a_robin16_copy_has_different_keys_refuted.

Theorem c199_a_robin16_copy_is_a_map_partial :
  forall (K V : Type) (wide trivial : bool) (hash : K -> N) (keq : K -> K -> bool), lawful hash keq ->
  forall t m alloc hash0 keq0, lawful hash0 keq0 -> q_built K V hash keq wide trivial t m -> f_sane alloc ->
  distinct_keys K V keq0 m -> q_fine K V hash0 m ->
  match q_copy_held K V wide trivial hash0 keq0 alloc (mkHeld hash keq t) with
  | Ret x _ => q_size _ _ (h_map x) = q_size _ _ t
      /\ (exists l, q_traverse K V wide (h_map x) = Ok l /\ Permutation l m)
      /\ forall calls, Forall (fun c => f_sane (fst c)) calls ->
         q_agrees K V (h_hash x) (h_eq x) wide trivial (q_fine K V (h_hash x))
           (q_client K V (h_hash x) (h_eq x)) calls (h_map x) m
  | Throw _ => True
  | Fail _ => False
  end.
Proof. exact @q_copy_held_agrees. Qed.
Print Assumptions c199_a_robin16_copy_is_a_map_partial.

Example c199_example : forall wide trivial,
  lawful idhash N.eqb /\ lawful (seeded 12345) N.eqb
  /\ q_built N N idhash N.eqb wide trivial (qx_busy wide trivial) (qx_busy_map wide trivial)
  /\ f_sane qal /\ distinct_keys N N N.eqb (qx_busy_map wide trivial)
  /\ q_fine N N (seeded 12345) (qx_busy_map wide trivial)
  /\ exists x, q_copy_held N N wide trivial (seeded 12345) N.eqb qal (mkHeld idhash N.eqb (qx_busy wide trivial)) = Ret x tt
     /\ q_size _ _ (h_map x) = N.of_nat (length (qx_busy_map wide trivial))
     /\ 60 <= q_size _ _ (h_map x).
Proof. exact qxf_example_lemma. Qed.

(** ** C200 *)

(** The copy of a robin map is the same map for the functions of the original. *)
Theorem c200_a_robin_copy_keeps_the_functions :
  forall (K V : Type) (x : held K (rmap K V)) q m alloc, lawful (h_hash x) (h_eq x) -> q = 1 \/ q = 2 ->
  r_reach K V (h_hash x) (h_eq x) q (h_map x) m -> sane alloc -> spread_all K V (h_hash x) 2 m ->
  match r_copy_held K V alloc x with
  | Ret y _ => forall calls, Forall (fun c => sane (fst c)) calls ->
      r_agrees K V (h_hash y) (h_eq x) (spread_all K V (h_hash x) q) q calls (h_map y) m
  | Throw _ => True
  | Fail _ => False
  end.
Proof. exact @r_copy_held_agrees. Qed.
Print Assumptions c200_a_robin_copy_keeps_the_functions.

Theorem c200_a_moved_robin_map_keeps_the_functions :
  forall (K V : Type) (x : held K (rmap K V)) q m, lawful (h_hash x) (h_eq x) -> q = 1 \/ q = 2 ->
  r_reach K V (h_hash x) (h_eq x) q (h_map x) m ->
  let y := fst (r_move_held K V x) in
  h_hash y = h_hash x /\ h_eq y = h_eq x /\ r_reach K V (h_hash y) (h_eq y) q (h_map y) m.
Proof. exact @r_move_held_agrees. Qed.
Print Assumptions c200_a_moved_robin_map_keeps_the_functions.

Theorem c200_a_moved_robin16_map_keeps_the_functions :
  forall (K V : Type) (wide trivial : bool) (x : held K (qmap K V)) m, lawful (h_hash x) (h_eq x) ->
  q_built K V (h_hash x) (h_eq x) wide trivial (h_map x) m ->
  let y := fst (q_move_held K V x) in
  h_hash y = h_hash x /\ h_eq y = h_eq x
  /\ q_built K V (h_hash y) (h_eq y) wide trivial (h_map y) m.
Proof. exact @q_move_held_agrees. Qed.
Print Assumptions c200_a_moved_robin16_map_keeps_the_functions.

(** Assignment between group maps that hold different functions: afterwards the left one
    holds those of the right one and is a map for them.  If it throws, the left one is
    as before. *)
Theorem c200_group_assignment_takes_the_functions :
  forall (K V : Type) kd, group_kind kd -> forall (x y : held K (table K V)) alloc past,
  lawful (h_hash x) (h_eq x) -> built K V (h_hash x) (h_eq x) kd (h_map x) ->
  lawful (h_hash y) (h_eq y) -> built K V (h_hash y) (h_eq y) kd (h_map y) -> sane alloc ->
  match assign_held K V kd alloc past x y with
  | Ret z _ => h_hash z = h_hash y /\ h_eq z = h_eq y
      /\ (capacity K V kd (h_map z) <> capacity K V kd (h_map y) \/ t_size _ _ (h_map y) = 0 ->
          built K V (h_hash z) (h_eq z) kd (h_map z)
          /\ exists l l', traverse K V kd past (h_map y) = Ok l /\ traverse K V kd past (h_map z) = Ok l'
             /\ Permutation l' l)
  | Throw z => z = x
  | Fail _ => False
  end.
Proof. exact @assign_held_spec. Qed.
Print Assumptions c200_group_assignment_takes_the_functions.

Theorem c200_group_move_assignment_takes_the_functions :
  forall (K V : Type) kd, group_kind kd -> forall x y : held K (table K V),
  lawful (h_hash x) (h_eq x) -> built K V (h_hash x) (h_eq x) kd (h_map x) ->
  built K V (h_hash y) (h_eq y) kd (h_map y) ->
  exists s, move_assign_held K V kd x y = Ok (y, s) /\ h_hash s = h_hash y /\ h_eq s = h_eq y
    /\ h_map s = new_map K V kd.
Proof. exact @move_assign_held_spec. Qed.
Print Assumptions c200_group_move_assignment_takes_the_functions.

Theorem c200_group_swap_exchanges_the_functions :
  forall (K V : Type) (x y : held K (table K V)), swap_held K V x y = (y, x).
Proof. exact @swap_held_spec. Qed.
Print Assumptions c200_group_swap_exchanges_the_functions.

Theorem c200_robin16_swap_exchanges_the_functions :
  forall (K V : Type) (wide trivial : bool) (x y : held K (qmap K V)) m n,
  q_built K V (h_hash x) (h_eq x) wide trivial (h_map x) m ->
  q_built K V (h_hash y) (h_eq y) wide trivial (h_map y) n ->
  let (x', y') := q_swap_held K V x y in
  q_built K V (h_hash x') (h_eq x') wide trivial (h_map x') n
  /\ q_built K V (h_hash y') (h_eq y') wide trivial (h_map y') m.
Proof. exact @q_swap_held_built. Qed.
Print Assumptions c200_robin16_swap_exchanges_the_functions.

Example c200_robin_example :
  lawful digit same_digit
  /\ exists t y, r_step N N digit same_digit some_alloc (OInsert N N 3 4) (rnew N N) = Ret t (RIns N N (3, 4) true)
  /\ r_reach N N digit same_digit 2 t [(3, 4)] /\ sane some_alloc /\ spread_all N N digit 2 [(3, 4)]
  /\ r_copy_held N N some_alloc (mkHeld digit same_digit t) = Ret y tt
  /\ r_step N N (h_hash y) (h_eq y) some_alloc (OContains N N 13) (h_map y) = Ret (h_map y) (RBool N N true).
Proof. exact rxf_example_lemma. Qed.

Example c200_example : forall kd, group_kind kd ->
  lawful idhash N.eqb /\ lawful digit same_digit /\ sane roomy_alloc
  /\ built N N digit same_digit kd (gxf_one kd)
  /\ (exists t, built N N idhash N.eqb kd t /\ t_size _ _ t = 35
      /\ exists z, assign_held N N kd roomy_alloc 0 (mkHeld idhash N.eqb t) (mkHeld digit same_digit (gxf_one kd)) = Ret z tt
         /\ t_size _ _ (h_map z) = 0
         /\ exists w, assign_held N N kd roomy_alloc 0 (mkHeld digit same_digit (gxf_one kd)) (mkHeld idhash N.eqb t) = Ret w tt
         /\ capacity N N kd (h_map w) <> capacity N N kd t /\ t_size _ _ (h_map w) = 35).
Proof. exact gxf_example_lemma. Qed.
