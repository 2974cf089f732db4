(** Properties of the flat16 map (C57-C70, C225).  The model is Flat16Model.v; [f_client],
    [f_client0], [f_client8], [f_agrees] and [f_built] are in Flat16Spec.v.  The
    hypotheses of the theorems about maps that were built are met by [flat16_example]. *)
From Coq Require Import NArith List Bool Permutation.
From Verif Require Import Base GroupModel TableModel TableInv MapSpec WitnessModel Crc32Model
  Flat16Model Flat16Spec Flat16Runs Flat16Witness Flat16Erase.
Import ListNotations.
Open Scope N_scope.

Example flat16_example :
  lawful idhash N.eqb
  /\ f_built N N idhash N.eqb simple_int_hash_crc32 fx_busy fx_busy_map
  /\ f_built N N idhash N.eqb simple_int_hash_crc32 fx_crowd fx_crowd_map
  /\ (f_size _ _ fx_busy, f_cap _ _ fx_busy, length fx_busy_map) = (40, 128, 40%nat)
  /\ (f_size _ _ fx_crowd, f_cap _ _ fx_crowd, length fx_crowd_map) = (15, 32, 15%nat).
Proof. exact fx_example_lemma. Qed.

(** ** C57 *)

(** From every map that was built, every call allowed by [f_client] returns what the
    abstract map says or throws; it reads and writes only inside its arrays and ends. *)
Theorem c57_flat16_map_is_a_map_under_the_stated_conditions :
  forall (K V : Type) (hash : K -> N) (keq : K -> K -> bool) (mix : N -> N), lawful hash keq ->
  forall trivial t m calls, f_built K V hash keq mix t m ->
  Forall (fun c => f_sane (fst c)) calls ->
  f_agrees K V hash keq mix (f_client K V hash) trivial calls t m.
Proof. exact @built_agrees. Qed.
Print Assumptions c57_flat16_map_is_a_map_under_the_stated_conditions.

(** ** C58 *)

(** A map from which nothing is erased: no condition on the keys or on the hash. *)
Theorem c58_without_erasing_no_condition_on_keys :
  forall (K V : Type) (hash : K -> N) (keq : K -> K -> bool) (mix : N -> N), lawful hash keq ->
  forall trivial alloc n t calls, f_sane alloc -> n <= 2 ^ 44 -> f_new K V alloc n = Ret t tt ->
  Forall (fun c => f_sane (fst c)) calls ->
  f_agrees K V hash keq mix (f_client0 K V) trivial calls t [].
Proof. exact @new_agrees0. Qed.
Print Assumptions c58_without_erasing_no_condition_on_keys.

Example c58_example : f_allows f_client0b 4 fx0_ops = true
  /\ match f_from 4 (map f_do fx0_ops) with
     | Ok (rs, t) => skipn 21 rs =
         [Some (RIns N N (3, 4) false); Some (RIns N N (4, 40) false); Some (REntry N N (Some (4, 40)));
          Some (RUnit N N); Some (RBool N N false); Some (RUnit N N); Some (REntry N N (Some (3, 4)));
          Some (RNum N N 20); Some (RUnit N N); Some (RNum N N 0); Some (RBool N N false); Some (RIns N N (3, 1) true)]
     | Err _ => False
     end.
Proof. exact fx0_lemma. Qed.

(** ** C59 *)

(** Eight entries: inserting and erasing need no condition on keys or hash. *)
Theorem c59_eight_entries_no_condition_on_keys :
  forall (K V : Type) (hash : K -> N) (keq : K -> K -> bool) (mix : N -> N), lawful hash keq ->
  forall trivial alloc n t calls, f_sane alloc -> n <= 16 -> f_new K V alloc n = Ret t tt ->
  Forall (fun c => f_sane (fst c)) calls ->
  f_agrees K V hash keq mix (f_client8 K V) trivial calls t [].
Proof. exact @new_agrees8. Qed.
Print Assumptions c59_eight_entries_no_condition_on_keys.

Example c59_example : f_allows f_client8b 4 fx8_ops = true
  /\ match f_from 4 (map f_do fx8_ops) with
     | Ok (rs, t) => skipn 8 rs =
         [Some (RNum N N 1); Some (RNum N N 1); Some (RIns N N (112, 5) true); Some (REntry N N None);
          Some (REntry N N (Some (112, 5))); Some (RNum N N 0); Some (RBool N N true);
          Some (RIns N N (1, 1) true); Some (RNum N N 8)]
     | Err _ => False
     end.
Proof. exact fx8_lemma. Qed.

(** ** C60 *)

(** erase(k) makes another key disappear: seventeen keys ask for the same slot. *)
Theorem c60_erase_keeps_the_other_entries_refuted :
  exists t m k j t' r, f_built N N idhash N.eqb simple_int_hash_crc32 t m /\ N.eqb j k = false
  /\ bool_obs (f_step N N idhash N.eqb simple_int_hash_crc32 false f_some (OContains N N j) t) = Some true
  /\ f_step N N idhash N.eqb simple_int_hash_crc32 false f_some (OErase N N k) t = Ret t' r
  /\ f_step N N idhash N.eqb simple_int_hash_crc32 false f_some (OContains N N j) t' = Ret t' (RBool N N false).
Proof. exact fx_lost_lemma. Qed.
Print Assumptions c60_erase_keeps_the_other_entries_refuted.

(** ** C61 *)

(** After 32 insertions and eight erasures, an insertion has undefined behaviour. *)
Theorem c61_insertion_after_erasures_is_defined_refuted :
  exists t m k v, f_built N N idhash N.eqb simple_int_hash_crc32 t m /\ length m = 24%nat /\ f_cap _ _ t = 64
  /\ f_step N N idhash N.eqb simple_int_hash_crc32 false f_some (OInsert N N k v) t = Fail EUndef.
Proof. exact fx_dirty_lemma. Qed.
Print Assumptions c61_insertion_after_erasures_is_defined_refuted.

(** max_load_factor on a map with more than 32 slots has the same effect. *)
Theorem c61_insertion_after_max_load_factor_is_defined_refuted :
  f_from 4 fx_mlf_calls = Err EUndef
  /\ match f_from 4 (removelast fx_mlf_calls) with Ok (_, t) => f_size _ _ t = 32 /\ f_cap _ _ t = 64 | Err _ => False end.
Proof. exact fx_mlf_lemma. Qed.
Print Assumptions c61_insertion_after_max_load_factor_is_defined_refuted.

(** ** C62 *)

Theorem c62_iteration_visits_every_entry_once :
  forall (K V : Type) (hash : K -> N) (keq : K -> K -> bool) (mix : N -> N), lawful hash keq ->
  forall t m, f_built K V hash keq mix t m ->
  exists l, f_traverse K V t = Ok l /\ Permutation l m /\ distinct_keys K V keq l.
Proof. exact @built_traverse. Qed.
Print Assumptions c62_iteration_visits_every_entry_once.

(** ** C63 *)

(** clear() of a map with 32 entries leaves some of them. *)
Theorem c63_clear_empties_the_map_refuted :
  exists t m k t1 t2, f_built N N idhash N.eqb simple_int_hash_crc32 t m
  /\ f_step N N idhash N.eqb simple_int_hash_crc32 true f_some (OClear N N false) t = Ret t1 (RUnit N N)
  /\ f_step N N idhash N.eqb simple_int_hash_crc32 true f_some (OSize N N) t1 = Ret t1 (RNum N N 0)
  /\ f_step N N idhash N.eqb simple_int_hash_crc32 true f_some (OContains N N k) t1 = Ret t1 (RBool N N true)
  /\ f_step N N idhash N.eqb simple_int_hash_crc32 false f_some (OClear N N false) t = Ret t2 (RUnit N N)
  /\ f_step N N idhash N.eqb simple_int_hash_crc32 false f_some (OContains N N k) t2 = Fail EUndef.
Proof. exact fx_clear_lemma. Qed.
Print Assumptions c63_clear_empties_the_map_refuted.

(** And in a map of four slots, iteration after clear() and an insertion runs outside
    the slots. *)
Theorem c63_iteration_after_clear_is_defined_refuted :
  exists t, f_from 4 (map f_add [1; 2] ++ [f_do (OClear N N false); f_add 1])
    = Ok ([Some (RIns N N (1, 2) true); Some (RIns N N (2, 3) true); Some (RUnit N N); Some (RIns N N (1, 2) true)], t)
  /\ f_size _ _ t = 1 /\ f_traverse N N t = Err EUndef.
Proof. exact fx_clear4_lemma. Qed.
Print Assumptions c63_iteration_after_clear_is_defined_refuted.

(** ** C64 *)

(** shrink_to_fit(true), reserve(0) and rehash(2) of a map with four entries do not
    end. *)
Theorem c64_capacity_requests_end_refuted :
  exists t m, f_built N N idhash N.eqb simple_int_hash_crc32 t m /\ length m = 4%nat
  /\ f_step N N idhash N.eqb simple_int_hash_crc32 false f_some (OShrink N N true) t = Fail ELoop
  /\ f_step N N idhash N.eqb simple_int_hash_crc32 false f_some (OReserve N N 0) t = Fail ELoop
  /\ f_step N N idhash N.eqb simple_int_hash_crc32 false f_some (ORehash N N 2) t = Fail ELoop.
Proof. exact fx_shrink_lemma. Qed.
Print Assumptions c64_capacity_requests_end_refuted.

(** They end unless the number of entries is a power of two and more than [n], and then
    provide what was asked for. *)
Theorem c64_capacity_requests_end_partial :
  forall (K V : Type) (hash : K -> N) (keq : K -> K -> bool) (mix : N -> N), lawful hash keq ->
  forall t m trivial alloc n o, f_built K V hash keq mix t m -> f_sane alloc -> n <= 2 ^ 44 ->
  N.of_nat (length m) <= n \/ (forall e, 2 <= e -> N.of_nat (length m) <> 2 ^ e) ->
  o = OReserve K V n \/ o = ORehash K V n ->
  match f_step K V hash keq mix trivial alloc o t with
  | Ret t' r => r = RUnit K V /\ n <= f_cap K V t'
      /\ exists l, f_traverse K V t' = Ok l /\ Permutation l m
  | Throw _ => True
  | Fail _ => False
  end.
Proof. exact @built_resize. Qed.
Print Assumptions c64_capacity_requests_end_partial.

(** reserve(0) of a map with 40 entries halves the capacity. *)
Example c64_example :
  exists t', f_step N N idhash N.eqb simple_int_hash_crc32 false f_some (OReserve N N 0) fx_busy = Ret t' (RUnit N N)
  /\ f_cap _ _ t' = 64 /\ f_cap _ _ fx_busy = 128 /\ f_size _ _ t' = 40.
Proof. exact fx_resize_lemma. Qed.

(** ** C65 *)

Theorem c65_copy_has_the_same_entries :
  forall (K V : Type) (hash : K -> N) (keq : K -> K -> bool) (mix : N -> N), lawful hash keq ->
  forall t m alloc, f_built K V hash keq mix t m -> f_sane alloc ->
  match f_copy K V hash mix alloc t with
  | Ret t' _ => exists l, f_traverse K V t' = Ok l /\ Permutation l m /\ f_size _ _ t' = f_size _ _ t
      /\ forall k, f_find_index K V hash keq mix t' k <> Ok None <-> has K V keq k m = true
  | Throw _ => True
  | Fail _ => False
  end.
Proof. exact @built_copy. Qed.
Print Assumptions c65_copy_has_the_same_entries.

Example c65_example :
  exists t', f_copy N N idhash simple_int_hash_crc32 f_some fx_busy = Ret t' tt /\ f_size _ _ t' = 40.
Proof. exact fx_copy_example. Qed.

(** ** C66 *)

(** 33 insertions into the copy of a map with 32 entries lose all entries; the same
    insertions into the original do not. *)
Theorem c66_copy_can_be_inserted_into_refuted :
  exists t m t', f_built N N idhash N.eqb simple_int_hash_crc32 t m
  /\ f_copy N N idhash simple_int_hash_crc32 f_some t = Ret t' tt
  /\ f_run N N idhash N.eqb simple_int_hash_crc32 false (map f_add (map (N.add 32) (seqN 33))) t' = Err ELeak
  /\ exists rs t'', f_run N N idhash N.eqb simple_int_hash_crc32 false (map f_add (map (N.add 32) (seqN 33))) t
                    = Ok (rs, t'').
Proof. exact fx_copy_lemma. Qed.
Print Assumptions c66_copy_can_be_inserted_into_refuted.

(** ** C67 *)

(** An insertion throws because the slots cannot be allocated: the entries are lost,
    and never destroyed. *)
Theorem c67_failed_insertion_keeps_the_map_refuted :
  exists t m k t', f_built N N idhash N.eqb simple_int_hash_crc32 t m /\ f_sane f_no_slots
  /\ has N N N.eqb k m = true
  /\ f_step N N idhash N.eqb simple_int_hash_crc32 false f_no_slots (OInsert N N 9 9) t = Throw t'
  /\ f_step N N idhash N.eqb simple_int_hash_crc32 false f_some (OContains N N k) t' = Ret t' (RBool N N false)
  /\ f_size _ _ t' = 2 /\ f_destroy N N t' = Err ELeak.
Proof. exact fx_throw_lemma. Qed.
Print Assumptions c67_failed_insertion_keeps_the_map_refuted.

(** When the control bytes cannot be allocated, nothing has changed.  Missing: a
    failed allocation of slots, clear and max_load_factor. *)
Theorem c67_refused_control_bytes_keep_the_map_partial :
  forall (K V : Type) (hash : K -> N) (keq : K -> K -> bool) (mix : N -> N) trivial alloc o t t',
  (forall m, alloc true m = false) ->
  match o with
  | OInsert _ _ _ _ | OAssign _ _ _ _ => f_tidy K V t
  | OClear _ _ _ | OMlf _ _ _ => False
  | _ => True
  end ->
  f_step K V hash keq mix trivial alloc o t = Throw t' -> t' = t.
Proof. exact @refused_keeps. Qed.
Print Assumptions c67_refused_control_bytes_keep_the_map_partial.

Example c67_example : (forall n, f_nothing true n = false) /\ f_tidy N N fx_full
  /\ f_step N N idhash N.eqb simple_int_hash_crc32 false f_nothing (OInsert N N 99 1) fx_full = Throw fx_full.
Proof. exact fx_refused_example. Qed.

(** ** C68 *)

(** Every slot in use at a maximum load factor of 0.8. *)
Theorem c68_load_stays_below_the_maximum_refuted :
  exists t m, f_built N N idhash N.eqb simple_int_hash_crc32 t m
  /\ f_size _ _ t = 16 /\ f_cap _ _ t = 16 /\ f_threshold N N t = 12 /\ f_left _ _ t = two64 - 4.
Proof. exact fx_load_lemma. Qed.
Print Assumptions c68_load_stays_below_the_maximum_refuted.

(** It does while there are only insertions and lookups, none of which throws. *)
Theorem c68_load_stays_below_the_maximum_while_inserting_partial :
  forall (K V : Type) (hash : K -> N) (keq : K -> K -> bool) (mix : N -> N), lawful hash keq ->
  forall trivial alloc n calls t rs t', f_sane alloc -> n <= 2 ^ 44 -> f_new K V alloc n = Ret t tt ->
  Forall (fun c => f_sane (fst c) /\ f_adds K V (snd c)) calls ->
  f_run K V hash keq mix trivial calls t = Ok (rs, t') -> ~ In None rs ->
  2 * f_size _ _ t' <= f_cap K V t' /\ f_size _ _ t' <= f_threshold K V t'.
Proof. exact @adds_load. Qed.
Print Assumptions c68_load_stays_below_the_maximum_while_inserting_partial.

Example c68_example : Forall (fun c => f_sane (fst c) /\ f_adds N N (snd c)) (map f_add (seqN 33))
  /\ match f_from 4 (map f_add (seqN 33)) with
     | Ok (rs, t) => f_size _ _ t = 33 /\ f_cap _ _ t = 128 /\ length rs = 33%nat
                     /\ forallb (fun r => match r with Some _ => true | None => false end) rs = true
     | Err _ => False
     end.
Proof. exact fx_adds_example. Qed.

(** ** C69 *)

Theorem c69_match_empty_finds_exactly_the_empty_marks :
  forall g i, (forall c, In c g -> c < 256) ->
  N.testbit (match_empty g) i = true <-> geti g i = Some fEmpty.
Proof. exact scan_empty. Qed.
Print Assumptions c69_match_empty_finds_exactly_the_empty_marks.

Theorem c69_match_used_finds_exactly_the_used_slots :
  forall g i, length g = 16%nat ->
  N.testbit (match_used g) i = true <-> exists c, geti g i = Some c /\ c < 128.
Proof. exact scan_used. Qed.
Print Assumptions c69_match_used_finds_exactly_the_used_slots.

(** matchEmptyOrDeleted also finds the end mark, here of a new map. *)
Theorem c69_match_empty_or_deleted_excludes_the_end_mark_refuted :
  exists g i, length g = 16%nat /\ geti g i = Some fEndOf
  /\ N.testbit (match_empty_or_deleted g) i = true
  /\ exists t, f_new N N f_some 4 = Ret t tt /\ f_group (f_ctrls _ _ t) 0 = Ok g.
Proof. exact fx_end_lemma. Qed.
Print Assumptions c69_match_empty_or_deleted_excludes_the_end_mark_refuted.

(** ** C70 *)

Theorem c70_destructor_destroys_every_entry_once :
  forall (K V : Type) (hash : K -> N) (keq : K -> K -> bool) (mix : N -> N), lawful hash keq ->
  forall t m, f_built K V hash keq mix t m -> f_destroy K V t = Ok tt.
Proof. exact @built_destroy. Qed.
Print Assumptions c70_destructor_destroys_every_entry_once.

(** ** C225 *)

(** erase(const_iterator) removes the entry at the position and returns a position from
    which the iteration goes on with the entries that followed; the map is the one that
    erase(key) leaves. *)
Theorem c225_erase_at_a_position_partial :
  forall (K V : Type) (hash : K -> N) (keq : K -> K -> bool) (mix : N -> N), lawful hash keq ->
  forall t m i kv, f_built K V hash keq mix t m -> f_near K V hash t -> f_deref K V t i = Ok kv ->
  exists t' j before after, f_erase_at K V t i = Ok (t', j)
    /\ f_traverse K V t = Ok (before ++ kv :: after)
    /\ f_walk K V (f_fuel K V t) t i = Ok (kv :: after)
    /\ f_traverse K V t' = Ok (before ++ after)
    /\ f_walk K V (f_fuel K V t') t' j = Ok after
    /\ f_size _ _ t' + 1 = f_size _ _ t
    /\ f_built K V hash keq mix t' (remove K V keq (fst kv) m).
Proof. exact @erase_at_spec. Qed.
Print Assumptions c225_erase_at_a_position_partial.

(** Missing above: maps with an entry sixteen or more slots behind the one its hash asks
    for.  There another key can no longer be found, as with erase(key), C60. *)
Theorem c225_erase_at_a_position_keeps_the_other_entries_refuted :
  exists t m i kv e t' j, f_built N N idhash N.eqb simple_int_hash_crc32 t m
  /\ f_deref N N t i = Ok kv /\ In e m /\ N.eqb (fst e) (fst kv) = false
  /\ f_erase_at N N t i = Ok (t', j)
  /\ f_step N N idhash N.eqb simple_int_hash_crc32 false f_some (OContains N N (fst e)) t'
     = Ret t' (RBool N N false).
Proof. exact erase_at_lost. Qed.
Print Assumptions c225_erase_at_a_position_keeps_the_other_entries_refuted.

Example c225_example :
  f_built N N idhash N.eqb simple_int_hash_crc32 fx_crowd fx_crowd_map /\ f_near N N idhash fx_crowd
  /\ f_deref N N fx_crowd 4 = Ok (256, 257) /\ f_size _ _ fx_crowd = 15
  /\ match f_erase_at N N fx_crowd 4 with
     | Ok (t', j) => j = 6 /\ match f_walk N N (f_fuel N N t') t' j with
                             | Ok l => length l = 10%nat /\ firstn 3 l = [(384, 385); (448, 449); (512, 513)]
                             | Err _ => False
                             end
     | Err _ => False
     end.
Proof. exact erase_at_example. Qed.
