(** Properties of the indirect layout of the robin hood map (C145-C152).  The model is
    IndirectModel.v; [i_fine], [i_client], [i_agrees], [i_reach] and [order_step] are in
    IndirectSpec.v, [spread_all] in RobinSpec.v.  The hypotheses of the theorems about
    reachable maps are met by [indirect_example]. *)
From Coq Require Import NArith List Bool Permutation.
From Verif Require Import Base GroupModel TableModel TableInv MapSpec ReachModel WitnessModel
  RobinModel RobinSpec RobinWitness IndirectModel IndirectSpec IndirectRefine IndirectWitness.
Import ListNotations.
Open Scope N_scope.

Example indirect_example :
  lawful idhash N.eqb
  /\ i_reach N N idhash N.eqb 2 ix_crowd (snd (ichased 2 rx_crowd_ops))
  /\ i_reach N N idhash N.eqb 2 ix_seq (snd (ichased 2 (put_ops (seqN 40))))
  /\ i_reach N N idhash N.eqb 1 ix_dense (snd (ichased 1 rx_dense_ops))
  /\ (i_size _ _ ix_crowd, i_slot_capacity _ _ ix_crowd, i_alloc _ _ ix_crowd) = (11, 32, true)
  /\ (i_size _ _ ix_seq, i_slot_capacity _ _ ix_seq, i_alloc _ _ ix_seq) = (40, 128, true)
  /\ (i_size _ _ ix_dense, i_slot_capacity _ _ ix_dense, i_alloc _ _ ix_dense) = (40, 64, true).
Proof. exact ix_example_lemma. Qed.

(** ** C145 *)

(** As long as the keys stay spread, every call covered by [i_client] returns what the
    abstract map says; no call leaves its arrays or runs for ever. *)
Theorem c145_indirect_map_is_a_map_while_the_keys_are_spread :
  forall (K V : Type) (hash : K -> N) (keq : K -> K -> bool), lawful hash keq ->
  forall q t m calls, q = 1 \/ q = 2 -> i_reach K V hash keq q t m ->
  Forall (fun c => sane (fst c)) calls ->
  i_agrees K V hash keq (i_fine K V hash q) q calls t m.
Proof. exact @indirect_agrees_at. Qed.
Print Assumptions c145_indirect_map_is_a_map_while_the_keys_are_spread.

(** With at most eleven entries nothing is required of the hash. *)
Theorem c145_eleven_entries_need_no_spread :
  forall (K V : Type) (hash : K -> N) (keq : K -> K -> bool), lawful hash keq ->
  forall t m calls, i_reach K V hash keq 2 t m -> Forall (fun c => sane (fst c)) calls ->
  i_agrees K V hash keq (fun m => (length m <= 11)%nat) 2 calls t m.
Proof. exact @indirect_few_at. Qed.
Print Assumptions c145_eleven_entries_need_no_spread.

Theorem c145_iteration_size_and_contains :
  forall (K V : Type) (hash : K -> N) (keq : K -> K -> bool), lawful hash keq ->
  forall q t m k, q = 1 \/ q = 2 -> i_reach K V hash keq q t m ->
  (exists l, i_traverse K V t = Ok l /\ Permutation m l) /\ i_size _ _ t = N.of_nat (length m)
  /\ i_contains K V hash keq t k = Ok (has K V keq k m).
Proof. exact @indirect_observe. Qed.
Print Assumptions c145_iteration_size_and_contains.

Example c145_example :
  Forall (fun c => sane (fst c)) ix_calls
  /\ match i_run N N idhash N.eqb ix_calls (inew N N) with
     | Ok (rs, t) => skipn 11 rs =
         [Some (RNum N N 1); Some (RBool N N false); Some (REntry N N (Some (63, 64))); Some (RBool N N true);
          Some (RIns N N (95, 7) false); Some (REntry N N (Some (95, 7))); Some (RNum N N 10); Some (RUnit N N);
          Some (RUnit N N); Some (RUnit N N); Some (RNum N N 0); Some (RUnit N N); Some (RIns N N (5, 6) true)]
     | Err _ => False
     end.
Proof. exact ix_calls_lemma. Qed.

(** ** C146 *)

(** Two entries in a table of 4 + 4 positions: find of a third key gives slot 8, and
    end() is slot 2. *)
Theorem c146_find_of_an_absent_key_is_end_refuted :
  exists t m k, i_reach N N idhash N.eqb 2 t m /\ has N N N.eqb k m = false
    /\ i_find N N idhash N.eqb t k = Ok (ISlot 8) /\ i_end N N t = ISlot 2
    /\ i_step N N idhash N.eqb some_alloc (OFind N N k) t = Fail EUndef.
Proof. exact ix_find_lemma. Qed.
Print Assumptions c146_find_of_an_absent_key_is_end_refuted.

(** So it is in every map with storage. *)
Theorem c146_find_of_an_absent_key_is_never_end :
  forall (K V : Type) (hash : K -> N) (keq : K -> K -> bool), lawful hash keq ->
  forall q t m k, q = 1 \/ q = 2 -> i_reach K V hash keq q t m -> i_alloc _ _ t = true ->
  has K V keq k m = false ->
  exists p, i_find K V hash keq t k = Ok p /\ ptr_eq p (i_end K V t) = false
    /\ i_deref K V t p = Err EUndef.
Proof. exact @indirect_find_absent. Qed.
Print Assumptions c146_find_of_an_absent_key_is_never_end.

Theorem c146_find_of_a_present_key_partial :
  forall (K V : Type) (hash : K -> N) (keq : K -> K -> bool), lawful hash keq ->
  forall q t m k, q = 1 \/ q = 2 -> i_reach K V hash keq q t m -> has K V keq k m = true ->
  exists p e, i_find K V hash keq t k = Ok p /\ ptr_eq p (i_end K V t) = false
    /\ i_deref K V t p = Ok e /\ In e m /\ keq k (fst e) = true.
Proof. exact @indirect_find_present. Qed.
Print Assumptions c146_find_of_a_present_key_partial.

(** ** C147 *)

Theorem c147_copy_has_the_same_entries_refuted :
  exists t m, i_reach N N idhash N.eqb 2 t m /\ length m = 1%nat
    /\ i_copy N N idhash some_alloc t = Fail EUndef.
Proof. exact ix_copy_lemma. Qed.
Print Assumptions c147_copy_has_the_same_entries_refuted.

(** No copy of a map with an entry returns. *)
Theorem c147_no_copy_of_a_non_empty_map_returns :
  forall (K V : Type) (hash : K -> N) (keq : K -> K -> bool), lawful hash keq ->
  forall q alloc t m, q = 1 \/ q = 2 -> i_reach K V hash keq q t m -> m <> [] ->
  (exists t', i_copy K V hash alloc t = Throw t') \/ i_copy K V hash alloc t = Fail EUndef.
Proof. exact @indirect_copy. Qed.
Print Assumptions c147_no_copy_of_a_non_empty_map_returns.

Theorem c147_copy_of_an_empty_map_partial :
  forall (K V : Type) (hash : K -> N) alloc t, i_size _ _ t = 0 ->
  i_copy K V hash alloc t = Ret (inew K V) tt.
Proof. exact @icopy_empty. Qed.
Print Assumptions c147_copy_of_an_empty_map_partial.

(** ** C148 *)

(** Twelve keys whose home is the last position: erase of the last one does nothing. *)
Theorem c148_erase_removes_the_key_refuted :
  exists l k, length l = 12%nat /\ In k l
    /\ match i_run N N idhash N.eqb (map call (put_ops l ++ [OContains N N k; OErase N N k; OContains N N k; OSize N N]))
               (inew N N) with
       | Ok (rs, _) => skipn 12 rs = [Some (RBool N N true); Some (RNum N N 0); Some (RBool N N true); Some (RNum N N 12)]
       | Err _ => False
       end.
Proof. exact ix_erase_lemma. Qed.
Print Assumptions c148_erase_removes_the_key_refuted.

(** 129 keys with the same home: erase of one key makes another one disappear. *)
Theorem c148_erase_keeps_the_other_keys_refuted :
  exists l k k', length l = 129%nat /\ In k l /\ In k' l /\ k <> k'
    /\ match i_run N N idhash N.eqb (map call (OReserve N N 300 :: put_ops l
                 ++ [OContains N N k; OErase N N k'; OContains N N k])) (inew N N) with
       | Ok (rs, _) => skipn 130 rs = [Some (RBool N N true); Some (RNum N N 1); Some (RBool N N false)]
       | Err _ => False
       end.
Proof. exact ix_lost_lemma. Qed.
Print Assumptions c148_erase_keeps_the_other_keys_refuted.

(** Eighteen keys whose home is the last position: the search leaves the controls. *)
Theorem c148_insertions_stay_inside_the_arrays_refuted :
  exists l, length l = 18%nat /\ Forall (fun c => sane (fst c)) (map call (put_ops l))
    /\ i_run N N idhash N.eqb (map call (put_ops l)) (inew N N) = Err EUndef.
Proof. exact ix_overflow_lemma. Qed.
Print Assumptions c148_insertions_stay_inside_the_arrays_refuted.

(** ** C149 *)

(** New entries come last; an erased entry is replaced by the last one; nothing else
    changes the order. *)
Theorem c149_iteration_follows_the_order_of_insertion :
  forall (K V : Type) (hash : K -> N) (keq : K -> K -> bool), lawful hash keq ->
  forall q alloc o t m t' r l, q = 1 \/ q = 2 -> i_reach K V hash keq q t m -> sane alloc ->
  i_client K V hash keq q o t -> i_fine K V hash q (fst (spec_step K V keq o m)) ->
  i_step K V hash keq alloc o t = Ret t' r -> i_traverse K V t = Ok l ->
  i_traverse K V t' = Ok (order_step K V keq o l).
Proof. exact @indirect_order. Qed.
Print Assumptions c149_iteration_follows_the_order_of_insertion.

Example c149_example :
  exists t m t', i_reach N N idhash N.eqb 2 t m
    /\ i_traverse N N t = Ok [(5, 6); (3, 4); (9, 10); (1, 2); (7, 8)]
    /\ sane some_alloc /\ i_client N N idhash N.eqb 2 (OErase N N 3) t
    /\ i_fine N N idhash 2 (fst (spec_step N N N.eqb (OErase N N 3) m))
    /\ i_step N N idhash N.eqb some_alloc (OErase N N 3) t = Ret t' (RNum N N 1)
    /\ i_traverse N N t' = Ok [(5, 6); (7, 8); (9, 10); (1, 2)].
Proof. exact ix_order_lemma. Qed.

(** ** C150 *)

(** After an insertion that threw, clear writes behind the controls. *)
Theorem c150_failed_growth_leaves_a_usable_map_refuted :
  exists t m t', i_reach N N idhash N.eqb 2 t m
    /\ i_step N N idhash N.eqb no_alloc (OInsert N N 3 4) t = Throw t'
    /\ (exists t2, i_step N N idhash N.eqb some_alloc (OClear N N false) t = Ret t2 (RUnit N N))
    /\ i_step N N idhash N.eqb some_alloc (OClear N N false) t' = Fail EUndef.
Proof. exact ix_failed_lemma. Qed.
Print Assumptions c150_failed_growth_leaves_a_usable_map_refuted.

Theorem c150_failed_growth_keeps_the_entries_partial :
  forall (K V : Type) (hash : K -> N) (keq : K -> K -> bool), lawful hash keq ->
  forall q alloc o t m t', q = 1 \/ q = 2 -> i_reach K V hash keq q t m -> sane alloc ->
  i_client K V hash keq q o t -> i_fine K V hash q (fst (spec_step K V keq o m)) ->
  i_step K V hash keq alloc o t = Throw t' ->
  i_traverse K V t' = i_traverse K V t /\ i_size _ _ t' = i_size _ _ t
  /\ forall k, i_contains K V hash keq t' k = i_contains K V hash keq t k
       /\ i_find_obs K V hash keq t' k = i_find_obs K V hash keq t k.
Proof. exact @indirect_throw. Qed.
Print Assumptions c150_failed_growth_keeps_the_entries_partial.

Example c150_example :
  exists t m t', i_reach N N idhash N.eqb 2 t m /\ sane no_alloc
    /\ i_client N N idhash N.eqb 2 (OInsert N N 3 4) t
    /\ i_fine N N idhash 2 (fst (spec_step N N N.eqb (OInsert N N 3 4) m))
    /\ i_step N N idhash N.eqb no_alloc (OInsert N N 3 4) t = Throw t' /\ m <> [].
Proof. exact ix_throw_lemma. Qed.

(** ** C151 *)

Theorem c151_moved_to_map_has_the_entries_partial :
  forall (K V : Type) (hash : K -> N) (keq : K -> K -> bool), lawful hash keq ->
  forall q t m calls, q = 1 \/ q = 2 -> i_reach K V hash keq q t m ->
  Forall (fun c => sane (fst c)) calls ->
  i_traverse K V (fst (i_move K V t)) = i_traverse K V t
  /\ i_traverse K V (snd (i_move K V t)) = Ok []
  /\ i_agrees K V hash keq (i_fine K V hash q) q calls (fst (i_move K V t)) m.
Proof. exact @indirect_move_agrees. Qed.
Print Assumptions c151_moved_to_map_has_the_entries_partial.

(** An insertion into the source of a move writes to the constant controls. *)
Theorem c151_moved_from_map_is_usable_refuted :
  exists t m, i_reach N N idhash N.eqb 2 t m
    /\ i_step N N idhash N.eqb some_alloc (OInsert N N 3 4) (snd (i_move N N t)) = Fail EUndef.
Proof. exact ix_moved_from_lemma. Qed.
Print Assumptions c151_moved_from_map_is_usable_refuted.

(** ** C152 *)

Theorem c152_swapped_maps_exchange_their_entries_and_work :
  forall (K V : Type) (hash : K -> N) (keq : K -> K -> bool), lawful hash keq ->
  forall q a ma b mb calls, q = 1 \/ q = 2 ->
  i_reach K V hash keq q a ma -> i_reach K V hash keq q b mb ->
  Forall (fun c => sane (fst c)) calls ->
  i_traverse K V (fst (i_swap K V a b)) = i_traverse K V b
  /\ i_traverse K V (snd (i_swap K V a b)) = i_traverse K V a
  /\ i_agrees K V hash keq (i_fine K V hash q) q calls (fst (i_swap K V a b)) mb
  /\ i_agrees K V hash keq (i_fine K V hash q) q calls (snd (i_swap K V a b)) ma.
Proof. exact @indirect_swap_agrees. Qed.
Print Assumptions c152_swapped_maps_exchange_their_entries_and_work.

Example c152_example :
  i_reach N N idhash N.eqb 2 (fst (i_swap N N ix_crowd ix_seq)) (snd (ichased 2 (put_ops (seqN 40))))
  /\ match i_run N N idhash N.eqb (map call [OContains N N 39; OInsert N N 40 41; OErase N N 3; OSize N N; OFind N N 5])
            (fst (i_swap N N ix_crowd ix_seq)) with
     | Ok (rs, _) => rs = [Some (RBool N N true); Some (RIns N N (40, 41) true); Some (RNum N N 1);
                           Some (RNum N N 40); Some (REntry N N (Some (5, 6)))]
     | Err _ => False
     end.
Proof. exact ix_swap_lemma. Qed.
