(** Properties of the lifetimes of elements in the robin hood map (C175-C177).  The
    models are LifeModel.v and LifeTmpModel.v; [l_agrees] is in LifeSpec.v, [spread_all],
    [r_client] and [r_reach] are in RobinSpec.v, [i_reach] and [i_fine] in
    IndirectSpec.v. *)
From Coq Require Import NArith List Bool.
From Verif Require Import Base GroupModel TableModel TableInv MapSpec ReachModel WitnessModel
  RobinModel RobinSpec RobinWitness IndirectModel IndirectSpec IndirectWitness
  LifeModel LifeSpec LifeRefine LifeWitness LifeTmpModel LifeTmpFacts.
Import ListNotations.
Open Scope N_scope.

(** ** C175 *)

(** As long as the keys stay spread: every call returns what the abstract map says, no
    object is used before its construction or after its destruction, none is constructed
    over another one, and the destructor of the map destroys each element once and leaves
    none. *)
Theorem c175_elements_live_and_die_once_while_the_keys_are_spread :
  forall (K V : Type) (hash : K -> N) (keq : K -> K -> bool), lawful hash keq ->
  forall tr, owns_spare tr = false ->
  forall q calls, q = 1 \/ q = 2 -> Forall (fun c => sane (fst c)) calls ->
  l_agrees K V hash keq tr (spread_all K V hash q) q calls (rnew K V) [].
Proof. exact @life_agrees. Qed.
Print Assumptions c175_elements_live_and_die_once_while_the_keys_are_spread.

(** With at most eleven entries nothing is required of the hash. *)
Theorem c175_eleven_entries_need_no_spread :
  forall (K V : Type) (hash : K -> N) (keq : K -> K -> bool), lawful hash keq ->
  forall tr, owns_spare tr = false ->
  forall calls, Forall (fun c => sane (fst c)) calls ->
  l_agrees K V hash keq tr (fun m => (length m <= 11)%nat) 2 calls (rnew K V) [].
Proof. exact @life_few. Qed.
Print Assumptions c175_eleven_entries_need_no_spread.

(** In reachable maps elements with destructors are treated as elements without. *)
Theorem c175_destructors_make_no_difference_in_reachable_maps :
  forall (K V : Type) (hash : K -> N) (keq : K -> K -> bool), lawful hash keq ->
  forall tr, owns_spare tr = false ->
  forall q t m alloc o, q = 1 \/ q = 2 -> r_reach K V hash keq q t m ->
  l_destroy K V tr t = Ok tt
  /\ (sane alloc -> r_client K V q o t -> spread_all K V hash q (fst (spec_step K V keq o m)) ->
      l_step K V hash keq tr alloc o t = r_step K V hash keq alloc o t).
Proof. exact @life_reach. Qed.
Print Assumptions c175_destructors_make_no_difference_in_reachable_maps.

Example c175_example :
  owns_spare tr_int = false /\ owns_spare tr_uptr = false /\ owns_spare tr_big_throwing = false
  /\ Forall (fun c => sane (fst c)) rx_calls
  /\ l_life N N idhash N.eqb tr_uptr rx_calls = l_life N N idhash N.eqb tr_int rx_calls
  /\ l_life N N idhash N.eqb tr_big_throwing rx_calls = l_life N N idhash N.eqb tr_int rx_calls
  /\ match l_life N N idhash N.eqb tr_int rx_calls with Ok rs => length rs = 24%nat | Err _ => False end.
Proof. exact life_example_lemma. Qed.

(** In any state: if the displacement finds a place, it is right for all these types; if
    it finds none, it is right for types without destructor. *)
Theorem c175_displacement_that_finds_a_place :
  forall (K V : Type) tr rehashing (t : rmap K V) ins d C S, owns_spare tr = false ->
  r_insert_to_place K V rehashing t ins d = Ok (C, S, true) ->
  l_insert_to_place K V tr rehashing t ins d = Ok (C, S, true).
Proof. exact @life_displace. Qed.
Print Assumptions c175_displacement_that_finds_a_place.

Theorem c175_displacement_without_destructors :
  forall (K V : Type) tr rehashing (t : rmap K V) ins d C S ok, tr_trivial tr = true ->
  r_insert_to_place K V rehashing t ins d = Ok (C, S, ok) ->
  l_insert_to_place K V tr rehashing t ins d = Ok (C, S, ok).
Proof. exact @life_trivial. Qed.
Print Assumptions c175_displacement_without_destructors.

Theorem c175_insertion_without_destructors :
  forall (K V : Type) tr rehashing (t : rmap K V) i si d kv t' ok, tr_trivial tr = true ->
  r_insert_at K V rehashing t i si d kv = Ok (t', ok) ->
  l_insert_at K V tr rehashing t i si d kv = Ok (t', ok).
Proof. exact @life_trivial_at. Qed.
Print Assumptions c175_insertion_without_destructors.

(** If it finds none, an element with a destructor is moved to itself and destroyed,
    and its position stays marked as used. *)
Theorem c175_displacement_that_finds_no_place_is_undefined :
  forall (K V : Type) tr rehashing (t : rmap K V) ins d C S, tr_trivial tr = false ->
  tr_plain tr || tr_swap tr || tr_small tr = true ->
  r_insert_to_place K V rehashing t ins d = Ok (C, S, false) ->
  l_insert_to_place K V tr rehashing t ins d = Err EUndef.
Proof. exact @life_no_place. Qed.
Print Assumptions c175_displacement_that_finds_no_place_is_undefined.

Example c175_displacement_example :
  l_run N N idhash N.eqb tr_uptr lx_ops (rnew N N) = r_run N N idhash N.eqb lx_ops (rnew N N)
  /\ (r_size _ _ lx_full, r_slot_capacity _ _ lx_full) = (12, 32)
  /\ (exists C S, r_insert_to_place N N false lx_full 31 1 = Ok (C, S, false))
  /\ l_insert_to_place N N tr_uptr false lx_full 31 1 = Err EUndef
  /\ (exists C S, l_insert_to_place N N tr_int false lx_full 31 1 = Ok (C, S, false)).
Proof. exact lx_full_lemma. Qed.

(** Thirteen insertions reach it: fine for int, undefined for std::unique_ptr. *)
Theorem c175_insertions_keep_elements_alive_refuted :
  exists calls, Forall (fun c => sane (fst c)) calls
    /\ (length calls <= 13)%nat
    /\ Forall (fun c => exists k v, snd c = OInsert N N k v) calls
    /\ (exists r, r_run N N idhash N.eqb calls (rnew N N) = Ok r
                  /\ l_run N N idhash N.eqb tr_int calls (rnew N N) = Ok r)
    /\ l_run N N idhash N.eqb tr_uptr calls (rnew N N) = Err EUndef.
Proof. exact no_place_lemma. Qed.
Print Assumptions c175_insertions_keep_elements_alive_refuted.

(** ** C176 *)

(** Four insertions with elements that need the spare slot: a live object is overwritten
    without being destroyed. *)
Theorem c176_spare_slot_is_constructed_and_destroyed_once_refuted :
  exists calls, Forall (fun c => sane (fst c)) calls
    /\ Forall (fun c => exists k v, snd c = OInsert N N k v) calls /\ (length calls = 4)%nat
    /\ owns_spare tr_big = true
    /\ (exists r, l_run N N idhash N.eqb tr_uptr calls (rnew N N) = Ok r)
    /\ (exists r, l_run N N idhash N.eqb tr_big_throwing calls (rnew N N) = Ok r)
    /\ l_run N N idhash N.eqb tr_big calls (rnew N N) = Err ELeak.
Proof. exact spare_lemma. Qed.
Print Assumptions c176_spare_slot_is_constructed_and_destroyed_once_refuted.

(** ** C177 *)

(** While the keys are spread, emplace through a temporary element inserts as emplace
    does and destroys the temporary. *)
Theorem c177_temporary_is_destroyed_while_the_keys_are_spread :
  forall (K V : Type) (hash : K -> N) (keq : K -> K -> bool), lawful hash keq ->
  forall q t m fuel alloc update k v, q = 1 \/ q = 2 ->
  i_reach K V hash keq q t m -> sane alloc -> i_fine K V hash q (put_new K V keq k v m) ->
  match i_emplace_tmp K V hash keq fuel alloc update k v t with
  | Ret t' (i, new, destroyed) =>
      destroyed = true /\ i_emplace K V hash keq 64 alloc update k v t = Ret t' (i, new)
      /\ new = negb (has K V keq k m)
  | Throw t' => i_emplace K V hash keq 64 alloc update k v t = Throw t'
  | Fail _ => False
  end.
Proof. exact @tmp_destroyed. Qed.
Print Assumptions c177_temporary_is_destroyed_while_the_keys_are_spread.

Example c177_example :
  i_reach N N idhash N.eqb 2 ix_crowd (snd (ichased 2 rx_crowd_ops)) /\ sane some_alloc
  /\ match i_emplace_tmp N N idhash N.eqb 64 some_alloc false 31 7 ix_crowd with
     | Ret t' r => r = (8, false, true) /\ i_size _ _ t' = 11
     | _ => False
     end
  /\ match i_emplace_tmp N N idhash N.eqb 64 some_alloc false 6 7 ix_seq with
     | Ret t' r => r = (6, false, true)
     | _ => False
     end.
Proof. exact tmp_example_lemma. Qed.

(** The thirteenth insertion into a crowded map: the temporary is never destroyed. *)
Theorem c177_temporary_is_always_destroyed_refuted :
  exists l k v, length l = 12%nat
    /\ match i_run N N idhash N.eqb (map call (put_ops l)) (inew N N) with
       | Ok (_, t) =>
           match i_emplace_tmp N N idhash N.eqb 64 some_alloc false k v t with
           | Ret t' (_, new, destroyed) => new = true /\ destroyed = false
               /\ i_contains N N idhash N.eqb t' k = Ok true /\ i_size _ _ t' = 13
           | _ => False
           end
       | Err _ => False
       end.
Proof. exact tmp_left_lemma. Qed.
Print Assumptions c177_temporary_is_always_destroyed_refuted.
