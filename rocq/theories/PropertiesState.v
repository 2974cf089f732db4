(** Properties of every state that a client can bring a map into (C03-C06, C10-C15,
    C17-C22, C26, C27, C32-C38, C40-C42).  Each theorem about [built] states has its
    hypotheses met by [state_example]. *)
From Coq Require Import NArith List Bool Permutation.
From Verif Require Import Base GroupModel TableModel TableInv MapSpec RunModel IterModel CopyModel ReachModel
  TraceModel MapProps MapProps2 MapProps3 WitnessModel ExampleFacts WitnessFacts2 PropertyFacts2.
Import ListNotations.
Open Scope N_scope.

Example state_example :
  lawful idhash N.eqb /\ group_kind k15 /\ group_kind k16
  /\ built N N idhash N.eqb k15 ex15 /\ built N N idhash N.eqb k16 ex16
  /\ t_size _ _ ex15 = 35 /\ t_size _ _ ex16 = 35
  /\ capacity N N k15 ex15 = 239 /\ capacity N N k16 ex16 = 256.
Proof. exact ex_state_lemma. Qed.

(** ** C03 *)

Theorem c03_keys_are_unique :
  forall (K V : Type) (hash : K -> N) (keq : K -> K -> bool), lawful hash keq ->
  forall kd, group_kind kd -> forall t past l, built K V hash keq kd t ->
  traverse K V kd past t = Ok l ->
  ForallOrdPairs (fun a b => keq (fst a) (fst b) = false) l.
Proof. exact @built_unique. Qed.
Print Assumptions c03_keys_are_unique.

(** ** C04 *)

Theorem c04_size_counts_entries :
  forall (K V : Type) (hash : K -> N) (keq : K -> K -> bool), lawful hash keq ->
  forall kd, group_kind kd -> forall t past, built K V hash keq kd t ->
  exists l, traverse K V kd past t = Ok l /\ t_size _ _ t = N.of_nat (length l).
Proof. exact @built_size. Qed.
Print Assumptions c04_size_counts_entries.

Theorem c04_empty :
  forall (K V : Type) (hash : K -> N) (keq : K -> K -> bool), lawful hash keq ->
  forall kd, group_kind kd -> forall t past, built K V hash keq kd t ->
  (t_size _ _ t =? 0) = true <-> traverse K V kd past t = Ok [].
Proof. exact @built_empty. Qed.
Print Assumptions c04_empty.

(** ** C05, C06 *)

(** A traversal (at most size() increments, then end()) yields the live slots in
    order. *)
Theorem c05_c06_iteration_visits_every_entry_once :
  forall (K V : Type) (hash : K -> N) (keq : K -> K -> bool), lawful hash keq ->
  forall kd, group_kind kd -> forall t past, built K V hash keq kd t ->
  traverse K V kd past t
  = Ok (flat_map (fun o => match o with Some e => [e] | None => [] end) (t_slots _ _ t)).
Proof. exact @built_traverse_slots. Qed.
Print Assumptions c05_c06_iteration_visits_every_entry_once.

(** ** C01, C02, C10 in any state: one call *)

Theorem c02_every_call_acts_on_the_content :
  forall (K V : Type) (hash : K -> N) (keq : K -> K -> bool), lawful hash keq ->
  forall kd, group_kind kd -> forall t t' r alloc o past,
  built K V hash keq kd t -> sane alloc -> client_ok K V kd o t ->
  step K V hash keq kd alloc o t = Ret t' r ->
  exists l l', traverse K V kd past t = Ok l /\ traverse K V kd past t' = Ok l'
    /\ Permutation l' (fst (spec_step K V keq o l)) /\ r = snd (spec_step K V keq o l).
Proof. exact @built_step. Qed.
Print Assumptions c02_every_call_acts_on_the_content.

(** ** C10, C11, C32 *)

Theorem c10_resizing_preserves_content :
  forall (K V : Type) (hash : K -> N) (keq : K -> K -> bool), lawful hash keq ->
  forall kd, group_kind kd -> forall t t' r alloc o past,
  built K V hash keq kd t -> sane alloc -> client_ok K V kd o t ->
  match o with OReserve _ _ _ | ORehash _ _ _ | OShrink _ _ _ | OMlf _ _ _ => true | _ => false end = true ->
  step K V hash keq kd alloc o t = Ret t' r ->
  exists l l', traverse K V kd past t = Ok l /\ traverse K V kd past t' = Ok l' /\ Permutation l' l
    /\ t_size _ _ t' = t_size _ _ t
    /\ forall k, lookup K V hash keq kd t' k = lookup K V hash keq kd t k.
Proof. exact @built_resize. Qed.
Print Assumptions c10_resizing_preserves_content.

Example c10_example :
  sane roomy_alloc
  /\ Forall (fun o => resizing o = true /\ client_ok N N k15 o ex15 /\ client_ok N N k16 o ex16) c10_ops
  /\ map (new_capacity k15 ex15) c10_ops = [959; 959; 479; 59; 59]
  /\ map (new_capacity k16 ex16) c10_ops = [1024; 1024; 512; 64; 64].
Proof. exact c10_example_lemma. Qed.

Theorem c11_shrink_to_fit_returns :
  forall (K V : Type) (hash : K -> N) (keq : K -> K -> bool), lawful hash keq ->
  forall kd, group_kind kd -> forall t alloc, built K V hash keq kd t -> sane alloc ->
  forall e, step K V hash keq kd alloc (OShrink _ _ false) t <> Fail e.
Proof. exact @built_shrink_returns. Qed.
Print Assumptions c11_shrink_to_fit_returns.

Theorem c32_reserve_zero_loses_everything_refuted :
  forall kd, group_kind kd ->
  exists t t', built N N idhash N.eqb kd t /\ t_size _ _ t = 35
    /\ step N N idhash N.eqb kd roomy_alloc (OReserve N N 0) t = Ret t' (RUnit _ _)
    /\ t_size _ _ t' = 0 /\ traverse N N kd 0 t' = Ok [].
Proof. exact c32_lemma. Qed.
Print Assumptions c32_reserve_zero_loses_everything_refuted.

Theorem c32_reserve_zero_always_clears :
  forall (K V : Type) (hash : K -> N) (keq : K -> K -> bool), lawful hash keq ->
  forall kd, group_kind kd -> forall t alloc past, built K V hash keq kd t ->
  exists t', step K V hash keq kd alloc (OReserve _ _ 0) t = Ret t' (RUnit _ _)
    /\ t_size _ _ t' = 0 /\ capacity K V kd t' = 0 /\ traverse K V kd past t' = Ok [].
Proof. exact @built_reserve0. Qed.
Print Assumptions c32_reserve_zero_always_clears.

(** ** C12 *)

(** group16 with the default load factor. *)
Theorem c12_reserve_prevents_reallocation_partial :
  forall (K V : Type) (hash : K -> N) (keq : K -> K -> bool), lawful hash keq ->
  forall n alloc t r calls, sane alloc -> n <> 0 -> n < 2 ^ 56 ->
  step K V hash keq k16 alloc (OReserve K V n) (new_map K V k16) = Ret t r ->
  Forall (fun c => sane (fst c) /\ is_insert (snd c) = true) calls ->
  N.of_nat (length calls) <= n ->
  exists outs t', run K V hash keq k16 calls t = Ok (outs, t')
    /\ capacity K V k16 t' = capacity K V k16 t
    /\ Forall (fun x => threw x = false) outs.
Proof. exact @reserve_insert16. Qed.
Print Assumptions c12_reserve_prevents_reallocation_partial.

(** group15 with the default load factor: fifteen sixteenths of n, less two. *)
Theorem c12_reserve_group15_partial :
  forall (K V : Type) (hash : K -> N) (keq : K -> K -> bool), lawful hash keq ->
  forall n alloc t r calls, sane alloc -> n <> 0 -> n < 2 ^ 56 ->
  step K V hash keq k15 alloc (OReserve K V n) (new_map K V k15) = Ret t r ->
  Forall (fun c => sane (fst c) /\ is_insert (snd c) = true) calls ->
  16 * (N.of_nat (length calls) + 2) <= 15 * n ->
  exists outs t', run K V hash keq k15 calls t = Ok (outs, t')
    /\ capacity K V k15 t' = capacity K V k15 t
    /\ Forall (fun x => threw x = false) outs.
Proof. exact @reserve_insert15. Qed.
Print Assumptions c12_reserve_group15_partial.

Example c12_example :
  (exists t r, step N N idhash N.eqb k16 roomy_alloc (OReserve N N 1000) new16 = Ret t r
     /\ capacity N N k16 t = 2048)
  /\ (exists t r, step N N idhash N.eqb k15 roomy_alloc (OReserve N N 1000) new15 = Ret t r
     /\ capacity N N k15 t = 1919)
  /\ 16 * (935 + 2) <= 15 * 1000.
Proof. exact c12_example_lemma. Qed.

Theorem c12_group15_reallocates_refuted :
  exists n t keys t' outs,
    step N N idhash N.eqb k15 roomy_alloc (OReserve N N n) new15 = Ret t (RUnit _ _)
    /\ NoDup keys /\ N.of_nat (length keys) = n
    /\ run15 (map ins keys) t = Ok (outs, t') /\ capacity N N k15 t' <> capacity N N k15 t.
Proof. exact c12_lemma15. Qed.
Print Assumptions c12_group15_reallocates_refuted.

Theorem c12_group16_reallocates_refuted :
  exists m n t0 t keys t' outs,
    step N N idhash N.eqb k16 roomy_alloc (OMlf N N m) new16 = Ret t0 (RUnit _ _)
    /\ step N N idhash N.eqb k16 roomy_alloc (OReserve N N n) t0 = Ret t (RUnit _ _)
    /\ NoDup keys /\ N.of_nat (length keys) = n
    /\ run16 (map ins keys) t = Ok (outs, t') /\ capacity N N k16 t' <> capacity N N k16 t.
Proof. exact c12_lemma16. Qed.
Print Assumptions c12_group16_reallocates_refuted.

(** ** C13 *)

Theorem c13_size_at_most_capacity :
  forall (K V : Type) (hash : K -> N) (keq : K -> K -> bool), lawful hash keq ->
  forall kd, group_kind kd -> forall t, built K V hash keq kd t ->
  t_size _ _ t <= capacity K V kd t.
Proof. exact @built_size_capacity. Qed.
Print Assumptions c13_size_at_most_capacity.

(** ** C14 *)

Theorem c14_clear_removes_everything :
  forall (K V : Type) (hash : K -> N) (keq : K -> K -> bool), lawful hash keq ->
  forall kd, group_kind kd -> forall t alloc past, built K V hash keq kd t ->
  capacity K V kd t <> 0 ->
  exists t', step K V hash keq kd alloc (OClear _ _ false) t = Ret t' (RUnit _ _)
    /\ t_size _ _ t' = 0 /\ traverse K V kd past t' = Ok []
    /\ capacity K V kd t' = capacity K V kd t
    /\ (forall k, lookup K V hash keq kd t' k = Ok None)
    /\ Forall (fun s => s = None) (t_slots _ _ t').
Proof. exact @built_clear. Qed.
Print Assumptions c14_clear_removes_everything.

(** ** C15 *)

Theorem c15_clear_writes_to_constant_refuted :
  forall alloc (hash : N -> N) keq,
  step N N hash keq k15 alloc (OClear N N false) new15 = Fail EUndef.
Proof. exact clear_nostorage15. Qed.
Print Assumptions c15_clear_writes_to_constant_refuted.

(** ** C17 *)

Theorem c17_allocation_failure_changes_nothing :
  forall (K V : Type) (hash : K -> N) (keq : K -> K -> bool), lawful hash keq ->
  forall kd, group_kind kd -> forall t t' alloc o,
  built K V hash keq kd t -> sane alloc -> client_ok K V kd o t ->
  step K V hash keq kd alloc o t = Throw t' ->
  t' = t \/ exists m m', o = OMlf _ _ m /\ t' = set_mlf K V t m'.
Proof. exact @built_throw_unchanged. Qed.
Print Assumptions c17_allocation_failure_changes_nothing.

Example c17_example :
  sane no_alloc
  /\ step N N idhash N.eqb k15 no_alloc (OReserve N N 500) ex15 = Throw ex15
  /\ step N N idhash N.eqb k16 no_alloc (ORehash N N 500) ex16 = Throw ex16
  /\ step N N idhash N.eqb k15 no_alloc (OInsert N N 7 7) new15 = Throw new15
  /\ exists t', step N N idhash N.eqb k16 no_alloc (OMlf N N 200) ex16 = Throw t' /\ t_mlf _ _ t' = 200.
Proof. exact c17_example_lemma. Qed.

(** ** C18 *)

Theorem c18_throwing_constructor_refuted :
  forall kd, group_kind kd ->
  exists t alloc k v t1, built N N idhash N.eqb kd t /\ sane alloc
    /\ emplace_impl N N idhash N.eqb kd alloc false false t k v = Throw t1
    /\ lookup N N idhash N.eqb kd t1 k = Err EUndef /\ destroy N N kd t1 = Err EUndef.
Proof. exact c18_lemma. Qed.
Print Assumptions c18_throwing_constructor_refuted.

(** Not an exceptional state: in every state, if a key would be added by a
    constructor that does not throw, one that throws breaks the map. *)
Theorem c18_throwing_constructor_always_breaks :
  forall (K V : Type) (hash : K -> N) (keq : K -> K -> bool), lawful hash keq ->
  forall kd, group_kind kd -> forall t alloc k v t2 i,
  built K V hash keq kd t -> sane alloc ->
  emplace_impl K V hash keq kd alloc false true t k v = Ret t2 (i, true) ->
  exists t1, emplace_impl K V hash keq kd alloc false false t k v = Throw t1
    /\ lookup K V hash keq kd t1 k = Err EUndef /\ destroy K V kd t1 = Err EUndef.
Proof. exact @ctor_throw_breaks. Qed.
Print Assumptions c18_throwing_constructor_always_breaks.

Example c18_example :
  exists t2 i, emplace_impl N N idhash N.eqb k16 roomy_alloc false true ex16 5 0 = Ret t2 (i, true)
  /\ exists u2 j, emplace_impl N N idhash N.eqb k15 roomy_alloc false true ex15 5 0 = Ret u2 (j, true).
Proof. exact c18_example_lemma. Qed.

(** ** C19 *)

Theorem c19_copy_is_equal_partial :
  forall (K V : Type) (hash : K -> N) (keq : K -> K -> bool), lawful hash keq ->
  forall kd, group_kind kd -> forall t t' alloc past,
  built K V hash keq kd t -> sane alloc ->
  copy_construct K V hash kd alloc past t = Ret t' tt ->
  capacity K V kd t' <> capacity K V kd t \/ t_size _ _ t = 0 ->
  t_size _ _ t' = t_size _ _ t
  /\ exists l l', traverse K V kd past t = Ok l /\ traverse K V kd past t' = Ok l' /\ Permutation l' l.
Proof. exact @built_copy_spec. Qed.
Print Assumptions c19_copy_is_equal_partial.

Example c19_example :
  (exists t', copy_construct N N idhash k15 roomy_alloc 0 ex15 = Ret t' tt
     /\ capacity N N k15 t' = 59 /\ t_size _ _ t' = 35)
  /\ (exists t', copy_construct N N idhash k16 roomy_alloc 0 ex16 = Ret t' tt
     /\ capacity N N k16 t' = 64 /\ t_size _ _ t' = 35).
Proof. exact c19_example_lemma. Qed.

Theorem c19_copy_is_empty_refuted :
  forall kd, group_kind kd ->
  exists t t', built N N idhash N.eqb kd t /\ t_size _ _ t = 10
    /\ copy_construct N N idhash kd roomy_alloc 0 t = Ret t' tt
    /\ t_size _ _ t' = 0 /\ traverse N N kd 0 t' = Ok [].
Proof. exact c19_lemma. Qed.
Print Assumptions c19_copy_is_empty_refuted.

(** Always so when the capacities agree; lookups do find the entries. *)
Theorem c19_copy_of_same_capacity :
  forall (K V : Type) (hash : K -> N) (keq : K -> K -> bool), lawful hash keq ->
  forall kd, group_kind kd -> forall t t' alloc past,
  built K V hash keq kd t -> sane alloc -> t_size _ _ t <> 0 ->
  copy_construct K V hash kd alloc past t = Ret t' tt ->
  capacity K V kd t' = capacity K V kd t ->
  t_size _ _ t' = 0 /\ traverse K V kd past t' = Ok []
  /\ forall k, lookup K V hash keq kd t' k = lookup K V hash keq kd t k.
Proof. exact @built_copy_equal. Qed.
Print Assumptions c19_copy_of_same_capacity.

(** ** C20 *)

Theorem c20_move_construction :
  forall (K V : Type) (hash : K -> N) (keq : K -> K -> bool) kd t past,
  built K V hash keq kd t ->
  traverse K V kd past (fst (move_construct K V kd t)) = traverse K V kd past t
  /\ t_size _ _ (fst (move_construct K V kd t)) = t_size _ _ t
  /\ snd (move_construct K V kd t) = new_map K V kd.
Proof. exact @built_move_spec. Qed.
Print Assumptions c20_move_construction.

Theorem c20_move_assignment :
  forall (K V : Type) (hash : K -> N) (keq : K -> K -> bool), lawful hash keq ->
  forall kd, group_kind kd -> forall t1 t2 past,
  built K V hash keq kd t1 -> built K V hash keq kd t2 ->
  exists t1' t2', move_assign K V kd t1 t2 = Ok (t1', t2')
    /\ traverse K V kd past t1' = traverse K V kd past t2 /\ t_size _ _ t1' = t_size _ _ t2
    /\ t2' = new_map K V kd.
Proof. exact move_assign_lemma. Qed.
Print Assumptions c20_move_assignment.

Theorem c20_swap :
  forall (K V : Type) kd (a b : table K V) past,
  traverse K V kd past (fst (swap_content K V a b)) = traverse K V kd past b
  /\ traverse K V kd past (snd (swap_content K V a b)) = traverse K V kd past a
  /\ t_size _ _ (fst (swap_content K V a b)) = t_size _ _ b
  /\ t_size _ _ (snd (swap_content K V a b)) = t_size _ _ a.
Proof. exact swap_lemma. Qed.
Print Assumptions c20_swap.

(** ** C21 *)

Theorem c21_range_insert_refuted :
  forall kd, group_kind kd ->
  exists l t', range_insert N N idhash N.eqb kd roomy_alloc l (new_map N N kd) = Ret t' tt
    /\ NoDup (map fst l) /\ length l = 3%nat /\ exists e, traverse N N kd 0 t' = Ok [e].
Proof. exact c21_lemma. Qed.
Print Assumptions c21_range_insert_refuted.

(** What it does: insert the first element only. *)
Theorem c21_range_insert_inserts_first_only :
  forall (K V : Type) (hash : K -> N) (keq : K -> K -> bool), lawful hash keq ->
  forall kd, group_kind kd -> forall t t' alloc e l past,
  built K V hash keq kd t -> sane alloc ->
  range_insert K V hash keq kd alloc (e :: l) t = Ret t' tt ->
  exists m m', traverse K V kd past t = Ok m /\ traverse K V kd past t' = Ok m'
    /\ Permutation m' (put_new K V keq (fst e) (snd e) m).
Proof. exact @built_range_spec. Qed.
Print Assumptions c21_range_insert_inserts_first_only.

Example c21_example :
  exists t', range_insert N N idhash N.eqb k15 roomy_alloc [(500, 1); (501, 2)] ex15 = Ret t' tt
    /\ t_size _ _ t' = 36.
Proof. exact c21_example_lemma. Qed.

(** ** C22 *)

(** The groups read by a lookup, whatever the number of rounds allowed. *)
Theorem c22_lookup_reads_each_group_at_most_once :
  forall (K V : Type) (hash : K -> N) (keq : K -> K -> bool), lawful hash keq ->
  forall kd, group_kind kd -> forall t k fuel, built K V hash keq kd t ->
  NoDup (groups_read K V hash keq kd fuel t k)
  /\ N.of_nat (length (groups_read K V hash keq kd fuel t k)) <= group_capacity K V t
  /\ Forall (fun gi => gi < N.of_nat (length (t_groups _ _ t))) (groups_read K V hash keq kd fuel t k).
Proof. exact @built_groups_read. Qed.
Print Assumptions c22_lookup_reads_each_group_at_most_once.

Theorem c22_lookup_terminates :
  forall (K V : Type) (hash : K -> N) (keq : K -> K -> bool), lawful hash keq ->
  forall kd, group_kind kd -> forall t k, built K V hash keq kd t ->
  exists r, find K V hash keq kd t k = Ok r.
Proof. exact @built_find_ok. Qed.
Print Assumptions c22_lookup_terminates.

Example c22_example :
  groups_read N N idhash N.eqb k15 100 ex15 5 = [0]
  /\ groups_read N N idhash N.eqb k15 100 (result k15 (map ins (map WitnessFacts.K3 (from_to 0 50))) new15)
       (WitnessFacts.K3 70) = [1; 2; 0; 3]
  /\ group_capacity N N (result k15 (map ins (map WitnessFacts.K3 (from_to 0 50))) new15) = 4.
Proof. exact c22_example_lemma. Qed.

(** ** C26 *)

(** 0 is the empty mark of both kinds, 1 the end mark of group15; bit 7 of group16 is
    its overflow bit. *)
Theorem c26_reduced_hash_is_no_mark :
  forall h, 2 <= reduced_hash15 h < 256 /\ 1 <= reduced_hash16 h < 128.
Proof. exact c26_lemma. Qed.
Print Assumptions c26_reduced_hash_is_no_mark.

Theorem c26_stored_byte_group15 :
  forall (K V : Type) (hash : K -> N) (keq : K -> K -> bool), lawful hash keq ->
  forall t s e, built K V hash keq k15 t -> geti (t_slots _ _ t) s = Some (Some e) ->
  ctrl_byte k15 (t_groups _ _ t) (s / 15 * 16 + s mod 15) = Some (reduced_hash15 (hash (fst e))).
Proof. exact @built_byte15. Qed.
Print Assumptions c26_stored_byte_group15.

Theorem c26_stored_byte_group16 :
  forall (K V : Type) (hash : K -> N) (keq : K -> K -> bool), lawful hash keq ->
  forall t s e, built K V hash keq k16 t -> geti (t_slots _ _ t) s = Some (Some e) ->
  exists b, ctrl_byte k16 (t_groups _ _ t) s = Some b /\ N.land b 127 = reduced_hash16 (hash (fst e)).
Proof. exact @built_byte16. Qed.
Print Assumptions c26_stored_byte_group16.

Example c26_example :
  reduced_hash15 (2 ^ 40) = 8 /\ reduced_hash15 (2 ^ 40 + 1) = 9 /\ reduced_hash15 (2 ^ 40 + 200) = 200
  /\ reduced_hash16 (2 ^ 40) = 8 /\ reduced_hash16 (2 ^ 40 + 1) = 1 /\ reduced_hash16 (2 ^ 40 + 200) = 72
  /\ exists i, geti (t_slots _ _ ex15) i = Some (Some (1010, 10)).
Proof. exact c26_example_lemma. Qed.

(** ** C27 *)

Theorem c27_home_group_exists :
  forall (K V : Type) (hash : K -> N) (keq : K -> K -> bool), lawful hash keq ->
  forall kd, group_kind kd -> forall t k, built K V hash keq kd t ->
  index_for_hash K V t (hash k) < N.of_nat (length (t_groups _ _ t)).
Proof. exact @built_home. Qed.
Print Assumptions c27_home_group_exists.

(** ** C33 *)

Theorem c33_setting_same_load_factor_refuted :
  forall kd, group_kind kd ->
  exists t t', built N N idhash N.eqb kd t
    /\ step N N idhash N.eqb kd roomy_alloc (OMlf N N (t_mlf _ _ t)) t = Ret t' (RUnit _ _)
    /\ capacity N N kd t < capacity N N kd t'.
Proof. exact c33_lemma. Qed.
Print Assumptions c33_setting_same_load_factor_refuted.

Theorem c33_setting_load_factor_always_grows :
  forall (K V : Type) (hash : K -> N) (keq : K -> K -> bool), lawful hash keq ->
  forall kd, group_kind kd -> forall t t' r alloc m,
  built K V hash keq kd t -> sane alloc ->
  step K V hash keq kd alloc (OMlf K V m) t = Ret t' r ->
  capacity K V kd t < capacity K V kd t'.
Proof. exact @built_mlf_grows. Qed.
Print Assumptions c33_setting_load_factor_always_grows.

(** ** C34 *)

Theorem c34_reserve_provides_capacity_partial :
  forall (K V : Type) (hash : K -> N) (keq : K -> K -> bool), lawful hash keq ->
  forall kd, group_kind kd -> forall t t' r alloc n,
  built K V hash keq kd t -> sane alloc -> n < 2 ^ 56 ->
  step K V hash keq kd alloc (OReserve K V n) t = Ret t' r ->
  n <= capacity K V kd t'.
Proof. exact @built_reserve_capacity. Qed.
Print Assumptions c34_reserve_provides_capacity_partial.

Theorem c34_reserve_wraps_refuted :
  forall kd, group_kind kd ->
  exists n t', n < 2 ^ 64
    /\ step N N idhash N.eqb kd roomy_alloc (OReserve N N n) (new_map N N kd) = Ret t' (RUnit _ _)
    /\ capacity N N kd t' < n.
Proof. exact c34_lemma. Qed.
Print Assumptions c34_reserve_wraps_refuted.

(** ** C35 *)

Theorem c35_erase_iterator_group16 :
  forall (K V : Type) (hash : K -> N) (keq : K -> K -> bool), lawful hash keq ->
  forall t past it kv, built K V hash keq k16 t -> deref16 K V t it = Ok kv ->
  exists t' it' a b, erase_iter16 K V k16 past t it = Ok (t', it')
    /\ traverse K V k16 past t = Ok (a ++ kv :: b)
    /\ walk16 K V k16 (N.to_nat (t_size _ _ t)) past t it = Ok (kv :: b)
    /\ traverse K V k16 past t' = Ok (a ++ b)
    /\ walk16 K V k16 (N.to_nat (t_size _ _ t')) past t' it' = Ok b
    /\ capacity K V k16 t' = capacity K V k16 t.
Proof. exact @built_erase_iter_spec. Qed.
Print Assumptions c35_erase_iterator_group16.

Example c35_example :
  exists it kv, deref16 N N ex16 it = Ok kv
    /\ exists t' it', erase_iter16 N N k16 0 ex16 it = Ok (t', it') /\ t_size _ _ t' = 34.
Proof. exact c35_example_lemma. Qed.

(** ** C36 *)

Theorem c36_insertion_keeps_positions :
  forall (K V : Type) (hash : K -> N) (keq : K -> K -> bool), lawful hash keq ->
  forall kd, group_kind kd -> forall t t' r alloc k v,
  built K V hash keq kd t -> sane alloc ->
  step K V hash keq kd alloc (OInsert _ _ k v) t = Ret t' r ->
  capacity K V kd t' = capacity K V kd t ->
  forall i e, geti (t_slots _ _ t) i = Some (Some e) -> geti (t_slots _ _ t') i = Some (Some e).
Proof. exact @built_insert_stable. Qed.
Print Assumptions c36_insertion_keeps_positions.

Theorem c36_erasure_keeps_positions :
  forall (K V : Type) (hash : K -> N) (keq : K -> K -> bool), lawful hash keq ->
  forall kd, group_kind kd -> forall t t' r alloc k,
  built K V hash keq kd t ->
  step K V hash keq kd alloc (OErase _ _ k) t = Ret t' r ->
  forall i e, geti (t_slots _ _ t) i = Some (Some e) -> keq k (fst e) = false ->
  geti (t_slots _ _ t') i = Some (Some e).
Proof. exact @built_erase_stable. Qed.
Print Assumptions c36_erasure_keeps_positions.

Example c36_example :
  (exists t' r, step N N idhash N.eqb k15 roomy_alloc (OInsert N N 500 1) ex15 = Ret t' r
     /\ capacity N N k15 t' = capacity N N k15 ex15)
  /\ exists t' r, step N N idhash N.eqb k16 roomy_alloc (OErase N N 1010) ex16 = Ret t' r /\ t_size _ _ t' = 34.
Proof. exact c36_example_lemma. Qed.

(** ** C37 *)

Theorem c37_duplicates :
  forall (K V : Type) (hash : K -> N) (keq : K -> K -> bool), lawful hash keq ->
  forall kd, group_kind kd -> forall t alloc k v e,
  built K V hash keq kd t -> sane alloc -> lookup K V hash keq kd t k = Ok (Some e) ->
  step K V hash keq kd alloc (OInsert _ _ k v) t = Ret t (RIns _ _ e false)
  /\ exists t', step K V hash keq kd alloc (OAssign _ _ k v) t = Ret t' (RIns _ _ (fst e, v) false)
     /\ t_groups _ _ t' = t_groups _ _ t
     /\ exists i, geti (t_slots _ _ t) i = Some (Some e)
          /\ t_slots _ _ t' = seti (t_slots _ _ t) i (Some (fst e, v)).
Proof. exact @built_duplicate. Qed.
Print Assumptions c37_duplicates.

Example c37_example :
  lookup N N idhash N.eqb k15 ex15 1010 = Ok (Some (1010, 10))
  /\ lookup N N idhash N.eqb k16 ex16 1010 = Ok (Some (1010, 10)).
Proof. exact c37_example_lemma. Qed.

(** ** C38 *)

Theorem c38_lookups_without_storage :
  forall (K V : Type) (hash : K -> N) (keq : K -> K -> bool), lawful hash keq ->
  forall kd, group_kind kd -> forall t alloc k,
  built K V hash keq kd t -> capacity K V kd t = 0 ->
  lookup K V hash keq kd t k = Ok None
  /\ step K V hash keq kd alloc (OErase _ _ k) t = Ret t (RNum _ _ 0)
  /\ step K V hash keq kd alloc (OContains _ _ k) t = Ret t (RBool _ _ false)
  /\ t_slots _ _ t = [].
Proof. exact @nostorage_lookup. Qed.
Print Assumptions c38_lookups_without_storage.

Example c38_example :
  exists t, step N N idhash N.eqb k16 roomy_alloc (OClear N N true) ex16 = Ret t (RUnit _ _)
    /\ capacity N N k16 t = 0 /\ built N N idhash N.eqb k16 t.
Proof. exact c38_example_lemma. Qed.

(** ** C40 *)

Theorem c40_erase_if_group16_partial :
  forall (K V : Type) (hash : K -> N) (keq : K -> K -> bool), lawful hash keq ->
  forall t past pred, built K V hash keq k16 t ->
  exists t' l, erase_if16 K V k16 past pred t = Ok t' /\ built K V hash keq k16 t'
    /\ traverse K V k16 past t = Ok l
    /\ traverse K V k16 past t' = Ok (filter (fun e => negb (pred e)) l)
    /\ capacity K V k16 t' = capacity K V k16 t.
Proof. exact @built_erase_if_spec. Qed.
Print Assumptions c40_erase_if_group16_partial.

Example c40_example :
  exists t', erase_if16 N N k16 0 (fun e => N.even (fst e)) ex16 = Ok t' /\ t_size _ _ t' = 10.
Proof. exact c40_example_lemma. Qed.

Theorem c40_erase_if_group15_refuted :
  exists t, built N N idhash N.eqb k15 t
    /\ erase_if15 N N k15 (fun e => N.even (fst e)) t = Err EUndef.
Proof. exact c40_lemma. Qed.
Print Assumptions c40_erase_if_group15_refuted.

Theorem c40_erase_if_group15_never_works :
  forall (K V : Type) (hash : K -> N) (keq : K -> K -> bool), lawful hash keq ->
  forall t pred, built K V hash keq k15 t -> t_size _ _ t <> 0 ->
  erase_if15 K V k15 pred t = Err EUndef.
Proof. exact @built_erase_if15. Qed.
Print Assumptions c40_erase_if_group15_never_works.

(** ** C41 *)

Theorem c41_iterators_group15 :
  forall (K V : Type) (hash : K -> N) (keq : K -> K -> bool), lawful hash keq ->
  forall t it, built K V hash keq k15 t -> client_iter15 K V k15 t it -> it <> None ->
  exists it' kv, deref15 K V t it = Ok kv /\ incr15 K V k15 t it = Ok it'
    /\ (it' <> None -> decr15 K V k15 t it' = Ok it).
Proof. exact @client15_moves. Qed.
Print Assumptions c41_iterators_group15.

Theorem c41_iterators_group16 :
  forall (K V : Type) (hash : K -> N) (keq : K -> K -> bool), lawful hash keq ->
  forall past t it, built K V hash keq k16 t -> client_iter16 K V k16 past t it ->
  it <> end16 K V k16 t ->
  exists it' kv, deref16 K V t it = Ok kv /\ incr16 K V k16 past t it = Ok it'
    /\ decr16 K V k16 t it' = Ok it.
Proof. exact @client16_moves. Qed.
Print Assumptions c41_iterators_group16.

Example c41_example :
  client_iter15 N N k15 ex15 (begin15 N N k15 ex15) /\ begin15 N N k15 ex15 <> None
  /\ exists it, client_iter16 N N k16 0 ex16 it /\ it <> end16 N N k16 ex16.
Proof. exact c41_example_lemma. Qed.

(** ** C42 *)

Theorem c42_clear_restores_growth_limit_refuted :
  exists t u calls t' u',
    built N N idhash N.eqb k15 t /\ built N N idhash N.eqb k15 u
    /\ t_size _ _ t = 0 /\ t_size _ _ u = 0 /\ capacity N N k15 t = capacity N N k15 u
    /\ (exists t0, step N N idhash N.eqb k15 roomy_alloc (OClear N N false) t0 = Ret t (RUnit _ _))
    /\ (exists u0, step N N idhash N.eqb k15 roomy_alloc (OClear N N false) u0 = Ret u (RUnit _ _))
    /\ (exists outs, run15 calls t = Ok (outs, t')) /\ (exists outs, run15 calls u = Ok (outs, u'))
    /\ capacity N N k15 u' < capacity N N k15 t'.
Proof. exact c42_lemma. Qed.
Print Assumptions c42_clear_restores_growth_limit_refuted.
