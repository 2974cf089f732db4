(** The flat16 map with any key equality: one that is not an equivalence, that changes its
    mind, or that throws (C189-C191).  The specification is in CompareSpec.v and
    Compare2Spec.v. *)
From Coq Require Import NArith List Bool Permutation.
From Verif Require Import Base GroupModel TableModel TableInv WitnessModel Crc32Model Flat16Model Flat16Spec
  Flat16Witness CompareModel CompareSpec CompareWitness Compare2Model Compare2Spec Compare2Witness.
Import ListNotations.
Open Scope N_scope.

(** ** C189 *)

(** Whatever the key equality answers, calls on a flat16 map end, memory is not misused,
    and the results are those of a bag of entries. *)
Theorem c189_flat16_with_any_key_equality :
  forall (K V : Type) (hash : K -> N) (mix : N -> N), (forall k, hash k < 2 ^ 64) ->
  forall trivial alloc n t0 (calls : list (@f_call_c K V)),
  f_sane alloc -> n <= 2 ^ 44 -> f_new K V alloc n = Ret t0 tt ->
  Forall (fun c => f_sane (fst (fst c))) calls -> f_obeys_c hash mix trivial calls t0 ->
  match f_run_c hash mix trivial calls t0 with
  | Ret t outs => exists l, f_traverse K V t = Ok l /\ bag_run hash calls outs [] l
                   /\ f_size _ _ t = N.of_nat (length l)
  | Throw _ => True
  | Fail _ => False
  end.
Proof. intros K V hash mix H64. exact (flat16_is_a_bag hash mix H64). Qed.
Print Assumptions c189_flat16_with_any_key_equality.

(** Twelve insertions of a key that differs from itself; then erasures with an equality
    that is not transitive and with one that throws at the third comparison. *)
Example c189_example :
  f_sane f_some /\ f_new N N f_some 4 = Ret fc_new tt
  /\ Forall (fun c => f_sane (fst (fst c))) fc_calls
  /\ f_obeys_c idhash crc false fc_calls fc_new
  /\ f_run_c idhash crc false fc_calls fc_new = Ret (fc_end fc_calls) (fc_outs fc_calls)
  /\ skipn 12 (fc_outs fc_calls)
     = [Some (REntry N N None); Some (RNum N N 1); None; Some (RIns N N (7, 100) false); None;
        Some (RNum N N 11)]
  /\ f_traverse N N (fc_end fc_calls)
     = Ok [(7, 100); (7, 3); (7, 1); (7, 4); (7, 5); (7, 6); (7, 7); (7, 8); (7, 9); (7, 10); (7, 11)].
Proof.
  split; [exact f_some_sane|]. split; [exact fc_new_eq|]. split; [exact fc_sane|].
  split; [exact fc_obeys|]. split; [vm_compute; reflexivity|]. split; vm_compute; reflexivity.
Qed.

(** ** C190: an exception of the key equality leaves a flat16 map as it was. *)

(** This holds of erasures and look-ups. *)
Theorem c190_lookups_and_erasures_change_nothing_partial :
  forall (K V : Type) (hash : K -> N) (mix : N -> N), (forall k, hash k < 2 ^ 64) ->
  forall trivial (t : fmap K V), f_reached_c hash mix trivial t ->
  forall alloc cmp k o t', o = OErase _ _ k \/ o = OFind _ _ k \/ o = OContains _ _ k ->
  f_step_c K V hash mix cmp trivial alloc o t = Ret t' None ->
  t' = t /\ exists e seen, In e (elems (f_slots _ _ t)) /\ cmp seen k (fst e) = None.
Proof. intros K V hash mix H64. exact (flat16_search_escapes hash mix H64). Qed.
Print Assumptions c190_lookups_and_erasures_change_nothing_partial.

(** An insertion keeps the entries. *)
Theorem c190_insertions_keep_the_entries_partial :
  forall (K V : Type) (hash : K -> N) (mix : N -> N), (forall k, hash k < 2 ^ 64) ->
  forall trivial (t : fmap K V), f_reached_c hash mix trivial t ->
  forall alloc cmp k v o t', f_sane alloc -> o = OInsert _ _ k v \/ o = OAssign _ _ k v ->
  f_client K V hash o t ->
  f_step_c K V hash mix cmp trivial alloc o t = Ret t' None ->
  exists l l', f_traverse K V t = Ok l /\ f_traverse K V t' = Ok l' /\ Permutation l l'
    /\ f_size _ _ t' = f_size _ _ t.
Proof. intros K V hash mix H64. exact (flat16_insert_escapes hash mix H64). Qed.
Print Assumptions c190_insertions_keep_the_entries_partial.

(** But it may have grown the table: the key is compared again after growing.  The fourth
    comparison throws, and four slots have become eight. *)
Theorem c190_exceptions_change_nothing_refuted :
  exists (t t' : fmap N N) cmp, f_reached_c idhash crc false t
  /\ f_client N N idhash (OInsert N N 7 2) t
  /\ f_step_c N N idhash crc cmp false f_some (OInsert N N 7 2) t = Ret t' None
  /\ f_cap _ _ t = 4 /\ f_cap _ _ t' = 8 /\ f_traverse N N t' = Ok [(7, 0); (7, 1)].
Proof.
  exists (fc_end fc_two).
  exists (match f_step_c N N idhash crc fourth_cmp false f_some (OInsert N N 7 2) (fc_end fc_two) with
          | Ret t' _ => t' | _ => fc_new end), fourth_cmp.
  split; [exact fc_two_reached|]. split; [exact fc_two_client|].
  split; [vm_compute; reflexivity|]. split; [vm_compute; reflexivity|]. split; vm_compute; reflexivity.
Qed.
Print Assumptions c190_exceptions_change_nothing_refuted.

(** Nor is an insertion that inserts nothing without effect, if the answers change. *)
Example c190_example :
  f_reached_c idhash crc false (fc_end fc_two) /\ f_sane f_some
  /\ f_client N N idhash (OInsert N N 7 2) (fc_end fc_two)
  /\ f_step_c N N idhash crc odd_cmp false f_some (OErase N N 7) (fc_end fc_two) = Ret (fc_end fc_two) None
  /\ match f_step_c N N idhash crc late_cmp false f_some (OInsert N N 7 2) (fc_end fc_two) with
     | Ret t' x => (f_cap _ _ t', x) = (8, Some (RIns N N (7, 1) false))
     | _ => False
     end.
Proof.
  split; [exact fc_two_reached|]. split; [exact f_some_sane|]. split; [exact fc_two_client|].
  split; vm_compute; reflexivity.
Qed.

(** ** C191: a search in a flat16 map compares no element twice. *)

(** A group is wider than a map of four slots, so the only element is seen twice in it; the
    equality is that of the keys. *)
Theorem c191_no_element_is_compared_twice_refuted :
  exists (t : fmap N N) k compared,
  f_reached_c idhash crc false t
  /\ f_traverse N N t = Ok [(7, 0)]
  /\ f_search_c N N idhash crc plain_cmp t k [] = Ok (compared, Scanned (FStop 2 25))
  /\ compared = [7; 7].
Proof.
  exists (fc_end fc_one), 174, [7; 7]. split; [exact fc_one_reached|].
  split; [vm_compute; reflexivity|]. split; vm_compute; reflexivity.
Qed.
Print Assumptions c191_no_element_is_compared_twice_refuted.

(** It holds of maps with sixteen slots or more: only stored keys with the control byte of
    the key are compared, each element once. *)
Theorem c191_larger_maps_compare_once_partial :
  forall (K V : Type) (hash : K -> N) (mix : N -> N), (forall k, hash k < 2 ^ 64) ->
  forall trivial (t : fmap K V), f_reached_c hash mix trivial t ->
  16 <= f_cap K V t -> forall cmp k,
  exists compared r, f_search_c K V hash mix cmp t k [] = Ok (compared, r)
    /\ (exists rest, Permutation (compared ++ rest) (map fst (elems (f_slots _ _ t))))
    /\ N.of_nat (length compared) <= f_size _ _ t
    /\ Forall (fun k' => f_tag K hash mix k' = f_tag K hash mix k) compared.
Proof. intros K V hash mix H64. exact (flat16_compared_once hash mix H64). Qed.
Print Assumptions c191_larger_maps_compare_once_partial.

Example c191_example :
  f_reached_c idhash crc false (fc_end fc_eight) /\ f_cap N N (fc_end fc_eight) = 16
  /\ f_search_c N N idhash crc nan_cmp (fc_end fc_eight) 7 []
     = Ok ([7; 7; 7; 7; 7; 7; 7; 7], Scanned (FStop 7 64768)).
Proof. split; [exact fc_eight_reached|]. split; vm_compute; reflexivity. Qed.
