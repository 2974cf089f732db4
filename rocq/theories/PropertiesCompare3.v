(** The robin hood map with any key equality: one that is not an equivalence, that changes
    its mind, or that throws (C192-C194).  The specification is in CompareSpec.v and
    Compare3Spec.v. *)
From Coq Require Import NArith List Bool Permutation.
From Verif Require Import Base TableModel ReachModel WitnessModel RobinModel RobinSpec RobinWitness
  CompareModel CompareSpec CompareWitness Compare3Model Compare3Spec Compare3Witness.
Import ListNotations.
Open Scope N_scope.

(** ** C192: whatever the key equality answers, calls on a robin hood map end, memory is not
    misused, and the results are those of a bag of entries. *)

(** A key that differs from itself, as a NaN does, can be inserted eleven times.  The
    twelfth insertion uses memory past the end of the table. *)
Theorem c192_robin_with_any_key_equality_refuted :
  exists calls : list (@call_c N N),
  Forall (fun c => sane (fst (fst c))) calls
  /\ Forall (fun c => exists v, snd c = OInsert N N 31 v) calls
  /\ length calls = 12%nat
  /\ r_run_c idhash calls (rnew N N) = Fail EUndef.
Proof.
  exists (rc_same 12). split; [apply rc_same_sane|].
  split; [|split; vm_compute; reflexivity].
  apply Forall_forall. intros c H. apply in_map_iff in H. destruct H as (i & <- & _). now exists i.
Qed.
Print Assumptions c192_robin_with_any_key_equality_refuted.

(** It holds as long as the keys are spread (C43), each counted as often as it is there. *)
Theorem c192_robin_with_spread_keys_partial :
  forall (K V : Type) (hash : K -> N), (forall k, hash k < 2 ^ 64) ->
  forall q (calls : list (@call_c K V)), q = 1 \/ q = 2 ->
  Forall (fun c => sane (fst (fst c))) calls -> r_obeys_c hash q calls (rnew K V) ->
  match r_run_c hash calls (rnew K V) with
  | Ret t outs => exists l, r_traverse K V t = Ok l /\ bag_run hash calls outs [] l
                   /\ r_size _ _ t = N.of_nat (length l)
  | Throw _ => True
  | Fail _ => False
  end.
Proof. intros K V hash H64. exact (robin_is_a_bag hash H64). Qed.
Print Assumptions c192_robin_with_spread_keys_partial.

(** Eleven insertions of a key that differs from itself; then erasures and insertions with
    an equality that is not transitive and with one that throws at the third comparison. *)
Example c192_example :
  Forall (fun c => sane (fst (fst c))) rc_calls
  /\ r_obeys_c idhash 2 rc_calls (rnew N N)
  /\ r_run_c idhash rc_calls (rnew N N) = Ret (rc_end rc_calls) (rc_outs rc_calls)
  /\ skipn 11 (rc_outs rc_calls)
     = [Some (REntry N N None); Some (RNum N N 1); None; Some (RIns N N (31, 100) false); None;
        Some (RNum N N 10)]
  /\ r_traverse N N (rc_end rc_calls)
     = Ok [(31, 100); (31, 2); (31, 3); (31, 4); (31, 5); (31, 6); (31, 7); (31, 8); (31, 9); (31, 10)].
Proof.
  split; [exact rc_sane|]. split; [exact rc_obeys|]. split; [vm_compute; reflexivity|].
  split; vm_compute; reflexivity.
Qed.

(** ** C193 *)

(** An exception of the key equality leaves a robin hood map exactly as it was, and it came
    from comparing the key of the call with a stored one. *)
Theorem c193_exceptions_change_nothing :
  forall (K V : Type) (hash : K -> N), (forall k, hash k < 2 ^ 64) ->
  forall q (t : rmap K V), q = 1 \/ q = 2 -> r_reached_c hash q t ->
  forall alloc cmp o t', sane alloc -> r_client_c hash q o t ->
  r_step_c K V hash cmp alloc o t = Ret t' None ->
  t' = t /\ exists m k e seen, r_traverse K V t = Ok m /\ concerns o k /\ In e m /\ cmp seen k (fst e) = None.
Proof. intros K V hash H64. exact (robin_escapes hash H64). Qed.
Print Assumptions c193_exceptions_change_nothing.

(** The second comparison throws, or nothing throws and the map grows. *)
Example c193_example :
  sane some_alloc /\ r_reached_c idhash 2 (rc_end (rc_same 2))
  /\ r_client_c idhash 2 (OInsert N N 31 2) (rc_end (rc_same 2))
  /\ r_slot_capacity N N (rc_end (rc_same 2)) = 4
  /\ r_step_c N N idhash second_cmp some_alloc (OInsert N N 31 2) (rc_end (rc_same 2))
     = Ret (rc_end (rc_same 2)) None
  /\ match r_step_c N N idhash odd_cmp some_alloc (OInsert N N 31 2) (rc_end (rc_same 2)) with
     | Ret t' x => (r_slot_capacity N N t', x) = (8, Some (RIns N N (31, 2) true))
     | _ => False
     end.
Proof.
  split; [exact some_sane|]. split; [exact rc_two_reached|]. split; [exact rc_two_client|].
  split; [vm_compute; reflexivity|]. split; vm_compute; reflexivity.
Qed.

(** ** C194 *)

(** A search in a robin hood map compares no element twice, compares no more elements than
    the room behind the last home position and one, and only elements whose home is not
    behind that of the key. *)
Theorem c194_no_element_is_compared_twice :
  forall (K V : Type) (hash : K -> N), (forall k, hash k < 2 ^ 64) ->
  forall q (t : rmap K V), q = 1 \/ q = 2 -> r_reached_c hash q t ->
  r_alloc _ _ t = true -> forall cmp k,
  exists compared r m, r_search_c K V hash cmp t k [] = Ok (compared, r)
    /\ r_traverse K V t = Ok m
    /\ (exists rest, Permutation (compared ++ rest) (map fst m))
    /\ N.of_nat (length compared) <= room (r_slot_capacity K V t) + 1
    /\ Forall (fun k' => hash k' mod r_slot_capacity K V t <= hash k mod r_slot_capacity K V t) compared.
Proof. intros K V hash H64. exact (robin_compared_once hash H64). Qed.
Print Assumptions c194_no_element_is_compared_twice.

(** As many comparisons as there may be. *)
Example c194_example :
  r_reached_c idhash 2 (rc_end (rc_same 11)) /\ r_alloc N N (rc_end (rc_same 11)) = true
  /\ room (r_slot_capacity N N (rc_end (rc_same 11))) = 10
  /\ r_search_c N N idhash never_cmp (rc_end (rc_same 11)) 31 []
     = Ok ([31; 31; 31; 31; 31; 31; 31; 31; 31; 31; 31], RStop 42 11).
Proof. split; [exact rc_eleven_reached|]. split; [|split]; vm_compute; reflexivity. Qed.
