(** The group15 and group16 maps with any key equality: one that is not an equivalence, that
    changes its mind, or that throws (C185-C188).  The specification is in CompareSpec.v. *)
From Coq Require Import NArith List Bool Permutation.
From Verif Require Import Base GroupModel TableModel TableInv RunModel CopyModel ReachModel WitnessModel
  CompareModel CompareSpec CompareWitness.
Import ListNotations.
Open Scope N_scope.

(** ** C185 *)

(** Whatever the key equality answers, every call on a group15 map returns or throws, and
    the results are those of a bag of entries. *)
Theorem c185_group15_with_any_key_equality :
  forall (K V : Type) (hash : K -> N), (forall k, hash k < 2 ^ 64) ->
  forall (calls : list (@call_c K V)) past,
  Forall (fun c => sane (fst (fst c))) calls ->
  obeys_c hash k15 (client_noshrink K V k15) calls (new_map K V k15) ->
  exists outs t, run_c hash k15 calls (new_map K V k15) = Ok (outs, t)
  /\ exists l, traverse K V k15 past t = Ok l /\ bag_run hash calls outs [] l
       /\ t_size _ _ t = N.of_nat (length l).
Proof. intros K V hash H64. exact (group15_is_a_bag hash H64). Qed.
Print Assumptions c185_group15_with_any_key_equality.

(** Forty insertions of a key that differs from itself; it is not found and not erased. *)
Example c185_example :
  Forall (fun c => sane (fst (fst c))) nan_calls
  /\ obeys_c idhash k15 (client_noshrink N N k15) nan_calls (new_map N N k15)
  /\ skipn 40 (outs_of (run_c idhash k15 nan_calls (new_map N N k15)))
     = [Some (REntry N N None); Some (RNum N N 0); Some (RNum N N 40)]
  /\ traverse N N k15 0 (end_of (run_c idhash k15 nan_calls (new_map N N k15)))
     = Ok (map (fun i => (7, i)) (seqN 40)).
Proof.
  split; [exact nan_sane|]. split; [exact nan_obeys|]. split; vm_compute; reflexivity.
Qed.

(** ** C186 *)

(** The same of both maps, with shrink_to_fit() where client_ok allows it, except that a
    call may fail to end; memory is never misused. *)
Theorem c186_no_key_equality_corrupts_the_map :
  forall (K V : Type) (hash : K -> N), (forall k, hash k < 2 ^ 64) ->
  forall kd, group_kind kd -> forall (calls : list (@call_c K V)) past,
  Forall (fun c => sane (fst (fst c))) calls ->
  obeys_c hash kd (client_ok K V kd) calls (new_map K V kd) ->
  match run_c hash kd calls (new_map K V kd) with
  | Ok (outs, t) => exists l, traverse K V kd past t = Ok l /\ bag_run hash calls outs [] l
                     /\ t_size _ _ t = N.of_nat (length l)
  | Err e => e = ELoop
  end.
Proof. intros K V hash H64. exact (run_c_bag hash H64). Qed.
Print Assumptions c186_no_key_equality_corrupts_the_map.

(** An equality that is not transitive, one that depends on the number of comparisons and
    throws at the third, and one that is not reflexive. *)
Example c186_example :
  Forall (fun c => sane (fst (fst c))) mixed_calls
  /\ obeys_c idhash k16 (client_ok N N k16) mixed_calls (new_map N N k16)
  /\ skipn 6 (outs_of (run_c idhash k16 mixed_calls (new_map N N k16)))
     = [Some (RIns N N (0, 0) false); None; Some (RIns N N (7, 1) true); Some (RIns N N (7, 2) true);
        None; Some (RNum N N 1); Some (RBool N N true); Some (RNum N N 7)]
  /\ traverse N N k16 0 (mixed_table k16)
     = Ok [(0, 0); (512, 1); (1536, 3); (2048, 4); (2560, 5); (7, 1); (7, 2)].
Proof.
  split; [exact mixed_sane|].
  split; [exact (noshrink_obeys _ _ _ _ (mixed_obeys k16 (or_intror eq_refl)))|].
  split; vm_compute; reflexivity.
Qed.

(** ** C187 *)

(** A call that throws, be it for the key equality or for want of memory, leaves the table
    as it was. *)
Theorem c187_exceptions_change_nothing :
  forall (K V : Type) (hash : K -> N), (forall k, hash k < 2 ^ 64) ->
  forall kd, group_kind kd -> forall t : table K V, reached_c hash kd t ->
  forall alloc cmp o t', sane alloc -> client_ok K V kd o t ->
  step_c K V hash kd cmp alloc o t = Throw t' ->
  (forall m, o <> OMlf _ _ m) -> t' = t.
Proof. intros K V hash H64. exact (thrown_unchanged hash H64). Qed.
Print Assumptions c187_exceptions_change_nothing.

(** Erasing and looking up throw only if a comparison with a stored key does. *)
Theorem c187_only_comparisons_throw :
  forall (K V : Type) (hash : K -> N), (forall k, hash k < 2 ^ 64) ->
  forall kd, group_kind kd -> forall t : table K V, reached_c hash kd t ->
  forall alloc cmp k o, o = OErase _ _ k \/ o = OFind _ _ k \/ o = OContains _ _ k ->
  forall t', step_c K V hash kd cmp alloc o t = Throw t' ->
  t' = t /\ exists e seen, In e (elems (t_slots _ _ t)) /\ cmp seen k (fst e) = None.
Proof. intros K V hash H64. exact (thrown_by_comparison hash H64). Qed.
Print Assumptions c187_only_comparisons_throw.

Example c187_example :
  reached_c idhash k15 (mixed_table k15)
  /\ step_c N N idhash k15 odd_cmp roomy_alloc (OErase N N 4096) (mixed_table k15) = Throw (mixed_table k15)
  /\ step_c N N idhash k15 odd_cmp roomy_alloc (OInsert N N 4096 1) (mixed_table k15) = Throw (mixed_table k15).
Proof.
  split; [exact (mixed_reached k15 (or_introl eq_refl))|]. split; vm_compute; reflexivity.
Qed.

(** ** C188 *)

(** A search ends, compares the key with stored keys of the same control byte only, and
    with no element twice, whatever the answers are. *)
Theorem c188_no_element_is_compared_twice :
  forall (K V : Type) (hash : K -> N), (forall k, hash k < 2 ^ 64) ->
  forall kd, group_kind kd -> forall t : table K V, reached_c hash kd t ->
  forall cmp k, exists compared a, find_c K V hash kd cmp t k = Ok (compared, a)
    /\ (exists rest, Permutation (compared ++ rest) (map fst (elems (t_slots _ _ t))))
    /\ N.of_nat (length compared) <= t_size _ _ t
    /\ Forall (fun k' => ctrl_for_hash kd (hash k') = ctrl_for_hash kd (hash k)) compared.
Proof. intros K V hash H64. exact (compared_once hash H64). Qed.
Print Assumptions c188_no_element_is_compared_twice.

Example c188_example :
  reached_c idhash k16 (mixed_table k16)
  /\ find_c N N idhash k16 near_cmp (mixed_table k16) 4096 = Ok ([2560; 2048; 1536; 512; 0], Absent)
  /\ t_size _ _ (mixed_table k16) = 7.
Proof.
  split; [exact (mixed_reached k16 (or_intror eq_refl))|]. split; vm_compute; reflexivity.
Qed.
