(** Properties of whole executions of one map (C01, C02, C07, C08, C09, C16, C31, C39). *)
From Coq Require Import NArith List Bool Permutation.
From Verif Require Import Base GroupModel TableModel TableInv MapSpec RunModel IterModel CopyModel ReachModel
  MapProps MapProps2 SmallProps WitnessModel WitnessFacts WitnessFacts2 ExampleFacts ChurnFacts
  LedgerModel LedgerSpec LedgerFacts2 PropertyFacts.
Import ListNotations.
Open Scope N_scope.

(** ** C01 *)

Theorem c01_group15_is_a_map :
  forall (K V : Type) (hash : K -> N) (keq : K -> K -> bool), lawful hash keq ->
  forall calls past,
  Forall (fun c => sane (fst c)) calls ->
  obeys K V hash keq k15 (client_noshrink K V k15) calls (new_map K V k15) ->
  exists outs t, run K V hash keq k15 calls (new_map K V k15) = Ok (outs, t)
  /\ outs = snd (spec_run K V keq (map snd calls) (map threw outs) [])
  /\ exists l, traverse K V k15 past t = Ok l
       /\ Permutation l (fst (spec_run K V keq (map snd calls) (map threw outs) [])).
Proof. exact @run_map15. Qed.
Print Assumptions c01_group15_is_a_map.

Example c01_example :
  lawful idhash N.eqb /\ Forall (fun c => sane (fst c)) ex_calls
  /\ obeys N N idhash N.eqb k15 (client_noshrink N N k15) ex_calls new15
  /\ length ex_calls = 49%nat /\ map threw ex15_outs = repeat false 40 ++ [true] ++ repeat false 8.
Proof. exact c01_example_lemma. Qed.

(** ** C02 *)

Theorem c02_group16_is_a_map_when_it_returns :
  forall (K V : Type) (hash : K -> N) (keq : K -> K -> bool), lawful hash keq ->
  forall kd, group_kind kd ->
  forall calls outs t past,
  Forall (fun c => sane (fst c)) calls ->
  obeys K V hash keq kd (client_ok K V kd) calls (new_map K V kd) ->
  run K V hash keq kd calls (new_map K V kd) = Ok (outs, t) ->
  outs = snd (spec_run K V keq (map snd calls) (map threw outs) [])
  /\ exists l, traverse K V kd past t = Ok l
       /\ Permutation l (fst (spec_run K V keq (map snd calls) (map threw outs) [])).
Proof. exact @run_map. Qed.
Print Assumptions c02_group16_is_a_map_when_it_returns.

Example c02_example :
  group_kind k16 /\ obeys N N idhash N.eqb k16 (client_ok N N k16) ex_calls new16
  /\ run16 ex_calls new16 = Ok (ex16_outs, ex16) /\ t_size _ _ ex16 = 35.
Proof. exact c02_example_lemma. Qed.

(** ** C07 *)

Theorem c07_group15_calls_return :
  forall (K V : Type) (hash : K -> N) (keq : K -> K -> bool), lawful hash keq ->
  forall calls,
  Forall (fun c => sane (fst c)) calls ->
  obeys K V hash keq k15 (client_noshrink K V k15) calls (new_map K V k15) ->
  exists outs t, run K V hash keq k15 calls (new_map K V k15) = Ok (outs, t).
Proof. exact @run_returns15. Qed.
Print Assumptions c07_group15_calls_return.

(** Also after construction with an initial capacity. *)
Theorem c07_group15_insertion_returns :
  forall (K V : Type) (hash : K -> N) (keq : K -> K -> bool), lawful hash keq ->
  forall alloc t k v, sane alloc ->
  reachable K V hash keq k15 (client_noshrink K V k15) t ->
  forall e, step K V hash keq k15 alloc (OInsert _ _ k v) t <> Fail e
         /\ step K V hash keq k15 alloc (OAssign _ _ k v) t <> Fail e.
Proof. exact @insert_returns15. Qed.
Print Assumptions c07_group15_insertion_returns.

(** 300 keys that all have the same home group and the same reduced hash, with
    erasures in between. *)
Example c07_example :
  Forall (fun c => sane (fst c)) (churn_calls 142)
  /\ obeys N N idhash N.eqb k15 (client_noshrink N N k15) (churn_calls 142) new15
  /\ length (churn_calls 142) = 300%nat.
Proof. exact c07_example_lemma. Qed.

(** ** C08 *)

Theorem c08_shrink_then_insert_loops_refuted :
  exists before after t,
    Forall (fun c => sane (fst c)) (before ++ after)
    /\ obeys N N idhash N.eqb k15 (client_ok N N k15) (before ++ after) new15
    /\ (exists outs, run15 before new15 = Ok (outs, t) /\ Forall (fun r => threw r = false) outs)
    /\ (exists l, before = l ++ [(roomy_alloc, OShrink N N false)])
    /\ Forall (fun c => match snd c with OInsert _ _ _ _ | OErase _ _ _ => True | _ => False end) after
    /\ run15 after t = Err ELoop.
Proof. exact c08_lemma. Qed.
Print Assumptions c08_shrink_then_insert_loops_refuted.

Theorem c08_shrink_read_only_loops_refuted :
  exists before t,
    Forall (fun c => sane (fst c)) before
    /\ obeys N N idhash N.eqb k15 (client_ok N N k15) before new15
    /\ (exists outs, run15 before new15 = Ok (outs, t))
    /\ t_size _ _ t = 30
    /\ step N N idhash N.eqb k15 roomy_alloc (OShrink N N true) t = Fail ELoop.
Proof. exact c08_ro_lemma. Qed.
Print Assumptions c08_shrink_read_only_loops_refuted.

(** In the model a search for an empty slot gives up with ELoop after as many rounds
    as there are groups; then it never ends, whatever the number of rounds. *)
Theorem c08_loop_is_endless :
  forall kd k home h gs,
  group_kind kd -> k <= 51 -> home < 2 ^ k ->
  N.of_nat (length gs) = 2 ^ k -> Forall sixteen_bytes gs ->
  find_empty_loop kd (N.to_nat (2 ^ k)) gs (2 ^ k - 1) (ctrl_for_hash kd h)
    (ProberModel.prober_init home) = Err ELoop ->
  forall fuel, find_empty_loop kd fuel gs (2 ^ k - 1) (ctrl_for_hash kd h)
    (ProberModel.prober_init home) = Err ELoop.
Proof. exact search_forever. Qed.
Print Assumptions c08_loop_is_endless.

(** Two groups without an empty slot. *)
Example c08_loop_example :
  let full := repeat 5 16 in
  group_kind k16 /\ Forall sixteen_bytes [full; full]
  /\ find_empty_loop k16 2 [full; full] 1 (ctrl_for_hash k16 77) (ProberModel.prober_init 1) = Err ELoop.
Proof. exact c08_loop_example_lemma. Qed.

(** ** C09 *)

Theorem c09_group16_insertion_terminates_partial :
  forall (K V : Type) (hash : K -> N) (keq : K -> K -> bool), lawful hash keq ->
  forall kd, group_kind kd ->
  forall calls,
  Forall (fun c => sane (fst c)) calls ->
  obeys K V hash keq kd (erase_free K V kd) calls (new_map K V kd) ->
  exists outs t, run K V hash keq kd calls (new_map K V kd) = Ok (outs, t).
Proof. exact @run_returns_no_erase. Qed.
Print Assumptions c09_group16_insertion_terminates_partial.

Example c09_example :
  Forall (fun c => sane (fst c)) (map ins (map K3 (from_to 0 100)) ++ [(roomy_alloc, OShrink N N true)])
  /\ obeys N N idhash N.eqb k16 (erase_free N N k16)
       (map ins (map K3 (from_to 0 100)) ++ [(roomy_alloc, OShrink N N true)]) new16.
Proof. exact c09_example_lemma. Qed.

(** One erasure is enough. *)
Theorem c09_group16_insertion_loops_refuted :
  exists calls,
    Forall (fun c => sane (fst c)) calls
    /\ obeys N N idhash N.eqb k16 (client_ok N N k16) calls new16
    /\ Forall (fun c => match snd c with OInsert _ _ _ _ | OErase _ _ _ => True | _ => False end) calls
    /\ length (filter (fun c => match snd c with OErase _ _ _ => true | _ => false end) calls) = 1%nat
    /\ run16 calls new16 = Err ELoop.
Proof. exact c09_lemma. Qed.
Print Assumptions c09_group16_insertion_loops_refuted.

(** ** C16 *)

Theorem c16_runs_stay_defined :
  forall (K V : Type) (hash : K -> N) (keq : K -> K -> bool), lawful hash keq ->
  forall kd, group_kind kd ->
  forall calls e,
  Forall (fun c => sane (fst c)) calls ->
  obeys K V hash keq kd (client_ok K V kd) calls (new_map K V kd) ->
  run K V hash keq kd calls (new_map K V kd) = Err e -> e = ELoop.
Proof. exact @run_no_undef. Qed.
Print Assumptions c16_runs_stay_defined.

Theorem c16_calls_stay_defined :
  forall (K V : Type) (hash : K -> N) (keq : K -> K -> bool), lawful hash keq ->
  forall kd, group_kind kd ->
  forall t alloc o e, built K V hash keq kd t -> sane alloc -> client_ok K V kd o t ->
  step K V hash keq kd alloc o t = Fail e -> e = ELoop.
Proof. exact @built_no_undef. Qed.
Print Assumptions c16_calls_stay_defined.

Theorem c16_destructor_destroys_everything :
  forall (K V : Type) (hash : K -> N) (keq : K -> K -> bool), lawful hash keq ->
  forall kd, group_kind kd ->
  forall t, built K V hash keq kd t ->
  exists t', destroy K V kd t = Ok t' /\ t_alloc _ _ t' = false.
Proof. exact @built_destroy. Qed.
Print Assumptions c16_destructor_destroys_everything.

Example c16_example :
  built N N idhash N.eqb k15 ex15 /\ built N N idhash N.eqb k16 ex16
  /\ t_size _ _ ex15 = 35 /\ t_size _ _ ex16 = 35
  /\ run16 drift_calls new16 = Err ELoop.
Proof. exact c16_example_lemma. Qed.

(** ** C31 *)

(** For every number of groups up to the largest one that the allocators can grant
    there is a sequence of insertions and erasures that never leaves more than
    sixteen entries in the map but makes it grow to that number of groups. *)
Theorem c31_churn_grows_without_bound_refuted :
  forall k, 1 <= k <= 51 ->
  exists calls t,
    (Forall (fun c => fst c = big_alloc /\
               match snd c with OInsert _ _ _ _ | OErase _ _ _ => True | _ => False end) calls
     /\ Forall (fun n => n <= 16) (sizes k15 calls new15)
     /\ exists outs, run N N idhash N.eqb k15 calls new15 = Ok (outs, t))
    /\ capacity N N k15 t = 15 * 2 ^ k - 1.
Proof. exact churn_unbounded. Qed.
Print Assumptions c31_churn_grows_without_bound_refuted.

Example c31_example :
  forallb (fun n => n <=? 16) (sizes k15 (churn_calls 300) new15) = true
  /\ exists outs t, run15 (churn_calls 300) new15 = Ok (outs, t) /\ capacity N N k15 t = 239.
Proof. exact c31_example_lemma. Qed.

(** ** C39 *)

Theorem c39_blocks_are_returned_once_with_their_size :
  forall (K V : Type) (hash : K -> N) (keq : K -> K -> bool), lawful hash keq ->
  forall kd, group_kind kd ->
  forall sizeof_slot calls,
  Forall (fun c => sane (granted kd (fst c))) calls ->
  Forall (fun c => kd = k16 -> forall n, a_group (fst c) n = true -> a_slot (fst c) n = true) calls ->
  obeys K V hash keq kd (client_ok K V kd) (map (fun c => (granted kd (fst c), snd c)) calls) (new_map K V kd) ->
  (exists r, run K V hash keq kd (map (fun c => (granted kd (fst c), snd c)) calls) (new_map K V kd) = Ok r) ->
  play [] (run_events K V hash keq kd sizeof_slot calls 0 1 (new_map K V kd)) = Some [].
Proof. exact @ledger_balanced. Qed.
Print Assumptions c39_blocks_are_returned_once_with_their_size.

Theorem c39_sizes_match_even_if_allocations_fail :
  forall (K V : Type) (hash : K -> N) (keq : K -> K -> bool), lawful hash keq ->
  forall kd, group_kind kd ->
  forall sizeof_slot calls,
  Forall (fun c => sane (granted kd (fst c))) calls ->
  obeys K V hash keq kd (client_ok K V kd) (map (fun c => (granted kd (fst c), snd c)) calls) (new_map K V kd) ->
  (exists r, run K V hash keq kd (map (fun c => (granted kd (fst c), snd c)) calls) (new_map K V kd) = Ok r) ->
  exists left, play [] (run_events K V hash keq kd sizeof_slot calls 0 1 (new_map K V kd)) = Some left
    /\ Forall (fun b => b_pool b = PGroup) left.
Proof. exact @ledger_sizes. Qed.
Print Assumptions c39_sizes_match_even_if_allocations_fail.

(** Three rehashes and a destruction. *)
Example c39_example :
  let calls := map (fun k => (yes_yes, OInsert N N k 0)) (from_to 0 100) ++ [(yes_yes, OShrink N N false)] in
  length (run_events N N idhash N.eqb k16 24 calls 0 1 new16) = 12%nat
  /\ length (run_events N N idhash N.eqb k15 24 calls 0 1 new15) = 6%nat
  /\ play [] (run_events N N idhash N.eqb k16 24 calls 0 1 new16) = Some []
  /\ play [] (run_events N N idhash N.eqb k15 24 calls 0 1 new15) = Some [].
Proof. exact c39_example_lemma. Qed.

(** If the slots of a group16 table cannot be allocated, its group array is lost. *)
Theorem c39_group16_leaks_when_slots_fail_refuted :
  exists calls,
    Forall (fun c => sane (granted k16 (fst c))) calls
    /\ (exists r, run N N idhash N.eqb k16 (map (fun c => (granted k16 (fst c), snd c)) calls) new16 = Ok r)
    /\ exists b, play [] (run_events N N idhash N.eqb k16 16 calls 0 1 new16) = Some [b].
Proof. exact c39_leak_lemma. Qed.
Print Assumptions c39_group16_leaks_when_slots_fail_refuted.
