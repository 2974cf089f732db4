(** The robin16 map with any key equality: one that is not an equivalence, that changes its
    mind, or that throws (C195-C197).  The specification is in CompareSpec.v and
    Compare4Spec.v. *)
From Coq Require Import NArith List Bool Permutation.
From Verif Require Import Base GroupModel TableModel TableInv WitnessModel Flat16Spec Robin16Model Robin16Spec
  Robin16Witness CompareModel CompareSpec CompareWitness Compare2Witness Compare3Spec Compare3Witness
  Compare4Model Compare4Spec Compare4Calls Compare4Witness.
Import ListNotations.
Open Scope N_scope.

(** ** C195: whatever the key equality answers, a robin16 map is a bag of entries. *)

(** Not for all calls: 257 insertions of a key that differs from itself, each of which
    reports success, leave 255 elements, or lose an element that is not destroyed. *)
Theorem c195_robin16_with_any_key_equality_refuted :
  forall wide, exists (calls : list (@q_call_c N N)) t0,
  q_new N N qal 4 = Ret t0 tt
  /\ Forall (fun c => f_sane (fst (fst c))) calls
  /\ map snd calls = map (fun i => OInsert N N 7 i) (seqN 257)
  /\ match q_run_c idhash wide true calls t0 with
     | Ret t outs => outs = map (fun i => Some (RIns N N (7, i) true)) (seqN 257) /\ q_size _ _ t = 255
     | _ => False
     end
  /\ q_run_c idhash wide false calls t0 = Fail ELeak.
Proof.
  intros wide. exists (qc_copies 257), (q_start 4). split; [apply q_start_new|]. split; [apply qc_copies_sane|].
  split; [vm_compute; reflexivity|]. destruct wide; (split; [|vm_compute; reflexivity]);
    vm_compute; split; reflexivity.
Qed.
Print Assumptions c195_robin16_with_any_key_equality_refuted.

(** Calls that meet the conditions of C110, counting a key as often as it is there, end,
    memory is not misused, and the results are those of a bag of entries. *)
Theorem c195_robin16_with_spread_keys_partial :
  forall (K V : Type) (hash : K -> N) (wide trivial : bool), (forall k, hash k < 2 ^ 64) ->
  forall alloc n t0 (calls : list (@q_call_c K V)),
  f_sane alloc -> n <= 2 ^ 44 -> q_new K V alloc n = Ret t0 tt ->
  Forall (fun c => f_sane (fst (fst c))) calls -> q_obeys_c hash wide trivial calls t0 ->
  match q_run_c hash wide trivial calls t0 with
  | Ret t outs => exists l, q_traverse K V wide t = Ok l /\ bag_run hash calls outs [] l
                   /\ q_size _ _ t = N.of_nat (length l)
  | Throw _ => True
  | Fail _ => False
  end.
Proof. intros K V hash wide trivial H64. exact (robin16_is_a_bag hash wide trivial H64). Qed.
Print Assumptions c195_robin16_with_spread_keys_partial.

(** Twelve insertions of a key that differs from itself; then erasures with an equality
    that is not transitive and with one that throws at the third comparison. *)
Example c195_example : forall wide trivial,
  f_sane qal /\ q_new N N qal 4 = Ret (q_start 4) tt
  /\ Forall (fun c => f_sane (fst (fst c))) qc_calls
  /\ q_obeys_c idhash wide trivial qc_calls (q_start 4)
  /\ q_run_c idhash wide trivial qc_calls (q_start 4)
     = Ret (qc_end wide trivial qc_calls) (qc_outs wide trivial qc_calls)
  /\ skipn 12 (qc_outs wide trivial qc_calls)
     = [Some (REntry N N None); Some (RNum N N 1); None; Some (RIns N N (7, 100) false); None;
        Some (RNum N N 11)]
  /\ q_traverse N N wide (qc_end wide trivial qc_calls)
     = Ok [(7, 100); (7, 3); (7, 1); (7, 4); (7, 5); (7, 6); (7, 7); (7, 8); (7, 9); (7, 10); (7, 11)].
Proof.
  intros wide trivial. split; [exact qal_sane|]. split; [apply q_start_new|]. split; [exact qc_sane|].
  split; [apply qc_obeys|]. split; [destruct wide, trivial; vm_compute; reflexivity|].
  split; destruct wide, trivial; vm_compute; reflexivity.
Qed.

(** ** C196: an exception of the key equality leaves a robin16 map as it was. *)

(** It leaves the entries. *)
Theorem c196_exceptions_keep_the_entries_partial :
  forall (K V : Type) (hash : K -> N) (wide trivial : bool), (forall k, hash k < 2 ^ 64) ->
  forall t : qmap K V, q_reached_c hash wide trivial t ->
  forall alloc cmp o t', f_sane alloc -> q_client_c hash wide o t ->
  q_step_c K V hash cmp wide trivial alloc o t = Ret t' None ->
  exists l l' k e seen, q_traverse K V wide t = Ok l /\ q_traverse K V wide t' = Ok l' /\ Permutation l l'
    /\ q_size _ _ t' = q_size _ _ t
    /\ concerns o k /\ In e l /\ cmp seen k (fst e) = None
    /\ (adding o \/ t' = t).
Proof. intros K V hash wide trivial H64. exact (robin16_escapes hash wide trivial H64). Qed.
Print Assumptions c196_exceptions_keep_the_entries_partial.

(** But an insertion may have grown the table: the key is compared again after growing.
    The fourth comparison throws, and four slots have become eight. *)
Theorem c196_exceptions_change_nothing_refuted :
  forall wide trivial,
  exists (t t' : qmap N N) cmp, q_reached_c idhash wide trivial t
  /\ q_client_c idhash wide (OInsert N N 7 2) t
  /\ q_step_c N N idhash cmp wide trivial qal (OInsert N N 7 2) t = Ret t' None
  /\ q_cap _ _ t = 4 /\ q_cap _ _ t' = 8.
Proof.
  intros wide trivial. exists (qc_end wide trivial (qc_copies 2)).
  exists (match q_step_c N N idhash fourth_cmp wide trivial qal (OInsert N N 7 2) (qc_end wide trivial (qc_copies 2)) with
          | Ret t' _ => t' | _ => q_start 4 end), fourth_cmp.
  split; [apply qc_two_reached|]. split; [apply qc_two_client; auto|].
  split; [destruct wide, trivial; vm_compute; reflexivity|].
  split; destruct wide, trivial; vm_compute; reflexivity.
Qed.
Print Assumptions c196_exceptions_change_nothing_refuted.

(** A look-up that throws, and an insertion that inserts nothing but has grown the map. *)
Example c196_example : forall wide trivial,
  q_reached_c idhash wide trivial (qc_end wide trivial (qc_copies 2)) /\ f_sane qal
  /\ q_client_c idhash wide (OFind N N 7) (qc_end wide trivial (qc_copies 2))
  /\ q_step_c N N idhash second_cmp wide trivial qal (OFind N N 7) (qc_end wide trivial (qc_copies 2))
     = Ret (qc_end wide trivial (qc_copies 2)) None
  /\ match q_step_c N N idhash late_cmp wide trivial qal (OInsert N N 7 2) (qc_end wide trivial (qc_copies 2)) with
     | Ret t' x => (q_cap _ _ t', x) = (8, Some (RIns N N (7, 0) false))
     | _ => False
     end.
Proof.
  intros wide trivial. split; [apply qc_two_reached|]. split; [exact qal_sane|].
  split; [apply qc_two_client; auto|]. split; destruct wide, trivial; vm_compute; reflexivity.
Qed.

(** ** C197 *)

(** A search compares no element twice, at most 129 elements, and only elements with the
    control byte of the key. *)
Theorem c197_no_element_is_compared_twice :
  forall (K V : Type) (hash : K -> N) (wide trivial : bool), (forall k, hash k < 2 ^ 64) ->
  forall t : qmap K V, q_reached_c hash wide trivial t ->
  forall cmp k singles, (singles = 2 \/ singles = 4)%nat -> q_seen K V hash k t ->
  exists compared r m rest, q_search_c K V hash cmp wide singles t k [] = Ok (compared, r)
    /\ q_traverse K V wide t = Ok m /\ Permutation (compared ++ rest) (map fst m)
    /\ N.of_nat (length compared) <= 129
    /\ Forall (fun k' => q_tag K hash k' = q_tag K hash k) compared.
Proof. intros K V hash wide trivial H64. exact (robin16_compared_once hash wide trivial H64). Qed.
Print Assumptions c197_no_element_is_compared_twice.

(** Twenty copies of a key that differs from itself are compared in turn; a key with the
    same first slot and another control byte is compared with none. *)
Example c197_example : forall wide trivial,
  q_reached_c idhash wide trivial (qc_end wide trivial (qc_copies 20))
  /\ q_seen N N idhash 7 (qc_end wide trivial (qc_copies 20))
  /\ q_search_c N N idhash nan_cmp wide 2 (qc_end wide trivial (qc_copies 20)) 7 []
     = Ok (repeat 7 20, QScanned (QStop 27 20))
  /\ q_search_c N N idhash nan_cmp wide 2 (qc_end wide trivial (qc_copies 20)) 71 []
     = Ok ([], QScanned (QStop 27 20)).
Proof.
  intros wide trivial. split; [apply qc_twenty_reached|].
  split; [left; destruct wide, trivial; vm_compute; discriminate|].
  split; destruct wide, trivial; vm_compute; reflexivity.
Qed.
