(** What insertions leave of their arguments (C167-C169), arguments that refer to elements of
    the map (C170) and assignment of a list (C171).  The specification is in ArgSpec.v. *)
From Coq Require Import NArith List Bool Permutation.
From Verif Require Import Base GroupModel TableModel TableInv IterModel CopyModel MapSpec RunModel ReachModel
  WitnessModel ExampleFacts ArgModel ArgSpec ArgFacts ArgWitness.
Import ListNotations.
Open Scope N_scope.

(** ** C167 *)

(** emplace of an lvalue moves from it. *)
Theorem c167_lvalues_are_kept_refuted :
  forall kd, group_kind kd ->
  exists t' i,
    emplace_pair N N idhash N.eqb kd emptied emptied roomy_alloc CLvalue false (new_map N N kd) (5, 50)
    = (Ret t' (i, true), (0, 0)).
Proof. exact arg_refuted. Qed.
Print Assumptions c167_lvalues_are_kept_refuted.

(** insert_or_assign with a key of another type as well. *)
Theorem c167_converted_keys_are_kept_refuted :
  forall kd, group_kind kd ->
  exists t' i,
    insert_or_assign_other N N idhash N.eqb kd emptied emptied roomy_alloc CLvalue CLvalue (new_map N N kd) 5 50
    = (Ret t' (i, true), (0, 50)).
Proof. exact arg_other_refuted. Qed.
Print Assumptions c167_converted_keys_are_kept_refuted.

(** The map itself does not depend on how the arguments are passed. *)
Theorem c167_outcome_of_a_pair :
  forall (K V : Type) (hash : K -> N) (keq : K -> K -> bool) gone_key gone_value kd alloc c const_key
         (t : table K V) kv,
  fst (emplace_pair K V hash keq kd gone_key gone_value alloc c const_key t kv)
  = emplace_impl K V hash keq kd alloc false true t (fst kv) (snd kv).
Proof. exact @pair_outcome. Qed.
Print Assumptions c167_outcome_of_a_pair.

Theorem c167_outcome_of_key_and_value :
  forall (K V : Type) (hash : K -> N) (keq : K -> K -> bool) gone_key gone_value kd alloc update ck cv
         (t : table K V) k v,
  fst (emplace_two K V hash keq kd gone_key gone_value alloc update ck cv t k v)
  = emplace_impl K V hash keq kd alloc update true t k v.
Proof. exact @two_outcome. Qed.
Print Assumptions c167_outcome_of_key_and_value.

(** If the key is in the map, not even an rvalue is moved from. *)
Theorem c167_present_key_moves_nothing :
  forall (K V : Type) (hash : K -> N) (keq : K -> K -> bool), lawful hash keq ->
  forall gone_key gone_value kd, group_kind kd -> forall t e alloc c const_key kv,
  built K V hash keq kd t -> sane alloc -> lookup K V hash keq kd t (fst kv) = Ok (Some e) ->
  exists i, emplace_pair K V hash keq kd gone_key gone_value alloc c const_key t kv = (Ret t (i, false), kv).
Proof. exact @built_pair_present. Qed.
Print Assumptions c167_present_key_moves_nothing.

(** If it is not, the pair is moved from unless it is const, in every map. *)
Theorem c167_absent_key_moves_the_pair :
  forall (K V : Type) (hash : K -> N) (keq : K -> K -> bool), lawful hash keq ->
  forall gone_key gone_value kd, group_kind kd -> forall t t' r kv' alloc c const_key kv,
  built K V hash keq kd t -> sane alloc -> lookup K V hash keq kd t (fst kv) = Ok None ->
  emplace_pair K V hash keq kd gone_key gone_value alloc c const_key t kv = (Ret t' r, kv') ->
  kv' = match c with
        | CConst => kv
        | _ => (if const_key then fst kv else gone_key (fst kv), gone_value (snd kv))
        end.
Proof. exact @built_pair_absent. Qed.
Print Assumptions c167_absent_key_moves_the_pair.

(** If the insertion fails, nothing is moved from. *)
Theorem c167_failure_moves_nothing :
  forall (K V : Type) (hash : K -> N) (keq : K -> K -> bool) gone_key gone_value kd (t : table K V) alloc c
         const_key kv,
  (forall t' r, fst (emplace_pair K V hash keq kd gone_key gone_value alloc c const_key t kv) <> Ret t' r) ->
  snd (emplace_pair K V hash keq kd gone_key gone_value alloc c const_key t kv) = kv.
Proof. exact @built_pair_not_returned. Qed.
Print Assumptions c167_failure_moves_nothing.

(** A key and a value: only rvalues are moved from, and only when they are stored. *)
Theorem c167_key_and_value :
  forall (K V : Type) (hash : K -> N) (keq : K -> K -> bool) gone_key gone_value kd alloc update ck cv
         (t : table K V) k v,
  let rvalue c := match c with CRvalue => true | _ => false end in
  snd (emplace_two K V hash keq kd gone_key gone_value alloc update ck cv t k v)
  = match emplace_impl K V hash keq kd alloc update true t k v with
    | Ret _ (_, inserted) =>
        (if rvalue ck && inserted then gone_key k else k,
         if rvalue cv && (inserted || update) then gone_value v else v)
    | _ => (k, v)
    end.
Proof. exact @two_left_stated. Qed.
Print Assumptions c167_key_and_value.

Example c167_example :
  lookup N N idhash N.eqb k15 ex15 1003 = Ok (Some (1003, 3))
  /\ lookup N N idhash N.eqb k15 ex15 500 = Ok None
  /\ snd (emplace_pair N N idhash N.eqb k15 emptied emptied roomy_alloc CRvalue true ex15 (1003, 9)) = (1003, 9)
  /\ snd (emplace_pair N N idhash N.eqb k15 emptied emptied roomy_alloc CLvalue true ex15 (500, 9)) = (500, 0)
  /\ snd (emplace_pair N N idhash N.eqb k15 emptied emptied roomy_alloc CConst true ex15 (500, 9)) = (500, 9)
  /\ snd (emplace_two N N idhash N.eqb k15 emptied emptied roomy_alloc true CRvalue CRvalue ex15 1003 9) = (1003, 0)
  /\ snd (emplace_two N N idhash N.eqb k15 emptied emptied roomy_alloc true CLvalue CRvalue ex15 500 9) = (500, 0).
Proof. exact c167_example_lemma. Qed.

(** ** C168 *)

(** The range [5; 6] is inserted as the keys 5 and 0, and emptied. *)
Theorem c168_mutable_range_refuted :
  forall kd, group_kind kd ->
  exists t',
    range_insert_mut N N idhash N.eqb kd emptied emptied roomy_alloc false [(5, 50); (6, 60)] (new_map N N kd)
    = (Ret t' tt, [(0, 0); (6, 60)])
    /\ lookup N N idhash N.eqb kd t' 0 = Ok (Some (0, 0))
    /\ lookup N N idhash N.eqb kd t' 5 = Ok (Some (5, 50))
    /\ lookup N N idhash N.eqb kd t' 6 = Ok None.
Proof. exact range_mut_refuted. Qed.
Print Assumptions c168_mutable_range_refuted.

(** What insert(first, last) of the maps does with iterators that are not const. *)
Theorem c168_mutable_range :
  forall (K V : Type) (hash : K -> N) (keq : K -> K -> bool), lawful hash keq ->
  forall (gone_key : K -> K) (gone_value : V -> V) kd, group_kind kd ->
  forall t t' e l l' alloc const_key past,
  built K V hash keq kd t -> sane alloc ->
  (forall k, gone_key (gone_key k) = gone_key k) -> (forall v, gone_value (gone_value v) = gone_value v) ->
  range_insert_mut K V hash keq kd gone_key gone_value alloc const_key (e :: l) t = (Ret t' tt, l') ->
  exists m m', traverse K V kd past t = Ok m /\ traverse K V kd past t' = Ok m' /\
    if has K V keq (fst e) m then m' = m /\ l' = e :: l
    else l' = (if const_key then fst e else gone_key (fst e), gone_value (snd e)) :: l
      /\ Permutation m'
           (match l with
            | [] => put_new K V keq (fst e) (snd e) m
            | _ :: _ =>
                if const_key then put_new K V keq (fst e) (snd e) m
                else put_new K V keq (gone_key (fst e)) (gone_value (snd e)) (put_new K V keq (fst e) (snd e) m)
            end).
Proof. exact @built_range_mut. Qed.
Print Assumptions c168_mutable_range.

(** insert(first, last) of the tables inserts the whole range. *)
Theorem c168_table_range :
  forall (K V : Type) (hash : K -> N) (keq : K -> K -> bool), lawful hash keq ->
  forall gone_key gone_value kd, group_kind kd -> forall t t' l l' alloc c const_key past,
  built K V hash keq kd t -> sane alloc ->
  table_range_insert K V hash keq kd gone_key gone_value alloc c const_key l t = (Ret t' tt, l') ->
  exists m m', traverse K V kd past t = Ok m /\ traverse K V kd past t' = Ok m'
    /\ Permutation m' (put_all K V keq l m)
    /\ l' = match c with CConst => l | _ => left_range K V keq gone_key gone_value const_key m l end.
Proof. exact @built_table_range. Qed.
Print Assumptions c168_table_range.

Example c168_example :
  (exists t', range_insert_mut N N idhash N.eqb k16 emptied emptied roomy_alloc true [(500, 1); (501, 2); (502, 3)] ex16
     = (Ret t' tt, [(500, 0); (501, 2); (502, 3)]) /\ t_size _ _ t' = 36)
  /\ (exists t', table_range_insert N N idhash N.eqb k16 emptied emptied roomy_alloc CLvalue false
                    [(500, 1); (501, 2); (500, 3); (1003, 4)] ex16
     = (Ret t' tt, [(0, 0); (0, 0); (500, 3); (1003, 4)]) /\ t_size _ _ t' = 37).
Proof. exact c168_example_lemma. Qed.

(** ** C169 *)

Theorem c169_source_map_is_kept_refuted :
  forall kd, group_kind kd ->
  exists src src' t', built N N idhash N.eqb kd src
    /\ insert_from_map N N idhash N.eqb kd emptied emptied roomy_alloc 2 src 0 (new_map N N kd) = (Ret t' tt, src')
    /\ lookup N N idhash N.eqb kd src 5 = Ok (Some (5, 5))
    /\ lookup N N idhash N.eqb kd src' 5 = Ok (Some (5, 0)).
Proof. exact from_map_refuted. Qed.
Print Assumptions c169_source_map_is_kept_refuted.

(** Every source map loses the value of the first element of the range. *)
Theorem c169_value_is_taken_from_the_source :
  forall (K V : Type) (hash : K -> N) (keq : K -> K -> bool), lawful hash keq ->
  forall gone_key gone_value kd, group_kind kd -> forall src src' t t' i k v n alloc,
  built K V hash keq kd src -> built K V hash keq kd t -> sane alloc ->
  (forall v, gone_value (gone_value v) = gone_value v) ->
  geti (t_slots _ _ src) i = Some (Some (k, v)) -> lookup K V hash keq kd t k = Ok None ->
  insert_from_map K V hash keq kd gone_key gone_value alloc (S n) src i t = (Ret t' tt, src') ->
  lookup K V hash keq kd src k = Ok (Some (k, v))
  /\ lookup K V hash keq kd src' k = Ok (Some (k, gone_value v))
  /\ lookup K V hash keq kd t' k = Ok (Some (k, v)).
Proof. exact @built_from_map. Qed.
Print Assumptions c169_value_is_taken_from_the_source.

Example c169_example :
  exists t' src', geti (t_slots _ _ (arg_src k15)) 0 = Some (Some (5, 5))
  /\ lookup N N idhash N.eqb k15 ex15 5 = Ok None
  /\ insert_from_map N N idhash N.eqb k15 emptied emptied roomy_alloc 2 (arg_src k15) 0 ex15 = (Ret t' tt, src').
Proof. exact c169_example_lemma. Qed.

(** ** C170 *)

(** m.emplace(k, m.at(100)) reads freed memory when the map grows. *)
Theorem c170_references_into_the_map_refuted :
  forall kd, group_kind kd ->
  exists t t' r, built N N idhash N.eqb kd t /\ geti (t_slots _ _ t) 0 = Some (Some (100, 100))
    /\ emplace_impl N N idhash N.eqb kd roomy_alloc false true t 500 100 = Ret t' r
    /\ emplace_ref N N idhash N.eqb kd roomy_alloc false t 500 0 = Fail EUndef.
Proof. exact ref_refuted. Qed.
Print Assumptions c170_references_into_the_map_refuted.

(** Without growth the reference is as good as a copy of the value. *)
Theorem c170_without_growth :
  forall (K V : Type) (hash : K -> N) (keq : K -> K -> bool), lawful hash keq ->
  forall kd, group_kind kd -> forall t alloc update k j k0 v0,
  built K V hash keq kd t -> geti (t_slots _ _ t) j = Some (Some (k0, v0)) ->
  (exists e, lookup K V hash keq kd t k = Ok (Some e)) \/ t_size _ _ t < t_thr _ _ t ->
  emplace_ref K V hash keq kd alloc update t k j = emplace_impl K V hash keq kd alloc update true t k v0.
Proof. exact ref_quiet_built. Qed.
Print Assumptions c170_without_growth.

(** With growth never. *)
Theorem c170_with_growth :
  forall (K V : Type) (hash : K -> N) (keq : K -> K -> bool), lawful hash keq ->
  forall kd, group_kind kd -> forall t t' r alloc update k j k0 v0,
  built K V hash keq kd t -> sane alloc -> geti (t_slots _ _ t) j = Some (Some (k0, v0)) ->
  lookup K V hash keq kd t k = Ok None -> t_thr _ _ t <= t_size _ _ t ->
  emplace_impl K V hash keq kd alloc update true t k v0 = Ret t' r ->
  emplace_ref K V hash keq kd alloc update t k j = Fail EUndef.
Proof. exact ref_grow_built. Qed.
Print Assumptions c170_with_growth.

Example c170_example :
  geti (t_slots _ _ ex15) 3 = Some (Some (1003, 3)) /\ t_size _ _ ex15 = 35 /\ t_thr _ _ ex15 = 209
  /\ (exists t' i, emplace_ref N N idhash N.eqb k15 roomy_alloc false ex15 500 3 = Ret t' (i, true)
        /\ lookup N N idhash N.eqb k15 t' 500 = Ok (Some (500, 3)))
  /\ t_size _ _ (arg_full k15 29) = 29 /\ t_thr _ _ (arg_full k15 29) = 29.
Proof. exact c170_example_lemma. Qed.

(** ** C171 *)

Theorem c171_list_assignment_refuted :
  forall kd, group_kind kd ->
  exists t t', built N N idhash N.eqb kd t
    /\ assign_list N N idhash N.eqb kd roomy_alloc [(1, 10); (2, 20)] t = Ret t' tt
    /\ lookup N N idhash N.eqb kd t' 2 = Ok None.
Proof. exact list_refuted. Qed.
Print Assumptions c171_list_assignment_refuted.

(** Whatever was in the map, it has the first element of the list afterwards and no other. *)
Theorem c171_only_the_first_element :
  forall (K V : Type) (hash : K -> N) (keq : K -> K -> bool), lawful hash keq ->
  forall kd, group_kind kd -> forall t t' alloc e l past,
  built K V hash keq kd t -> sane alloc ->
  assign_list K V hash keq kd alloc (e :: l) t = Ret t' tt -> traverse K V kd past t' = Ok [e].
Proof. exact @built_assign_list. Qed.
Print Assumptions c171_only_the_first_element.

(** A group15 map without storage cannot be assigned a list, not even an empty one. *)
Theorem c171_without_storage :
  forall (K V : Type) (hash : K -> N) (keq : K -> K -> bool) alloc (t : table K V) l,
  lawful hash keq -> built K V hash keq k15 t -> capacity K V k15 t = 0 ->
  assign_list K V hash keq k15 alloc l t = Fail EUndef.
Proof. exact @assign_list_nostorage. Qed.
Print Assumptions c171_without_storage.

Example c171_example :
  (exists t', assign_list N N idhash N.eqb k15 roomy_alloc [(1, 10); (2, 20); (3, 30)] ex15 = Ret t' tt
     /\ t_size _ _ t' = 1)
  /\ capacity N N k15 (new_map N N k15) = 0.
Proof. exact c171_example_lemma. Qed.
