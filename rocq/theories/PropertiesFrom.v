(** Construction of flat16, robin16 and robin maps from a range or a list (C206, C207).
    The model is FromModel.v. *)
From Coq Require Import NArith List Bool Permutation.
From Verif Require Import Base TableModel TableInv MapSpec ReachModel WitnessModel Crc32Model RobinModel RobinSpec
  Flat16Model Flat16Spec Robin16Model Robin16Spec CompareModel Compare2Model ReserveSpec
  FromModel FromFlat16 FromRobin16 FromRobin FromWitness.
Import ListNotations.
Open Scope N_scope.

(** ** C206 *)

(** The first entry of every key is kept; only the first allocator is asked, whatever the
    second one would answer. *)
Theorem c206_flat16_from_a_list :
  forall (K V : Type) (mix : N -> N) (hash : K -> N) (keq : K -> K -> bool), lawful hash keq ->
  forall alloc alloc' cap (l : list (K * V)), f_sane alloc -> f_sane alloc' ->
  cap <= 2 ^ 43 -> N.of_nat (length l) <= 2 ^ 43 ->
  match f_from K V hash keq mix alloc alloc' cap l with
  | Ret t _ => f_built K V hash keq mix t (all_put K V keq l []) /\ 2 * cap <= f_cap _ _ t
      /\ exists l', f_traverse K V t = Ok l' /\ Permutation l' (all_put K V keq l [])
           /\ distinct_keys K V keq l' /\ forall k, get K V keq k l' = get K V keq k l
  | Throw t => f_slots _ _ t = [] /\ exists g n, alloc g n = false
  | Fail _ => False
  end.
Proof. exact (fun K V mix hash keq LW => flat16_from hash keq mix LW). Qed.
Print Assumptions c206_flat16_from_a_list.

Theorem c206_robin16_from_a_list :
  forall (K V : Type) (wide trivial : bool) (hash : K -> N) (keq : K -> K -> bool), lawful hash keq ->
  forall alloc alloc' cap (l : list (K * V)) calls, f_sane alloc ->
  cap <= 2 ^ 43 -> N.of_nat (length l) <= 2 ^ 43 ->
  8 <= cap \/ (8 <= length l)%nat \/ (forall e, In e l -> q_tag K hash (fst e) <> 0) ->
  q_fine K V hash (all_put K V keq l []) -> (forall c, In c calls -> f_sane (fst c)) ->
  match q_from K V hash keq wide trivial alloc alloc' cap l with
  | Ret t _ => q_agrees K V hash keq wide trivial (q_fine K V hash) (q_client K V hash keq) calls t
        (all_put K V keq l [])
      /\ 2 * cap <= q_cap _ _ t
      /\ exists l', q_traverse K V wide t = Ok l' /\ Permutation l' (all_put K V keq l [])
           /\ distinct_keys K V keq l' /\ forall k, get K V keq k l' = get K V keq k l
  | Throw t => q_slots _ _ t = [] /\ exists g n, alloc g n = false
  | Fail _ => False
  end.
Proof. exact (fun K V wide trivial hash keq LW => robin16_from hash keq LW wide trivial). Qed.
Print Assumptions c206_robin16_from_a_list.

Theorem c206_robin_from_a_list :
  forall (K V : Type) (hash : K -> N) (keq : K -> K -> bool), lawful hash keq ->
  forall alloc alloc' cap (l : list (K * V)) calls, sane alloc ->
  cap <= 2 ^ 50 -> N.of_nat (length l) <= 2 ^ 50 -> spread_all K V hash 2 (all_put K V keq l []) ->
  Forall (fun c => sane (fst c)) calls ->
  match r_from K V hash keq alloc alloc' cap l with
  | Ret t _ => r_agrees K V hash keq (spread_all K V hash 2) 2 calls t (all_put K V keq l [])
      /\ 2 * cap <= r_slot_capacity K V t
      /\ exists l', r_traverse K V t = Ok l' /\ Permutation l' (all_put K V keq l [])
           /\ distinct_keys K V keq l' /\ forall k, get K V keq k l' = get K V keq k l
  | Throw t => r_slots _ _ t = [] /\ exists n, alloc n = false
  | Fail _ => False
  end.
Proof. exact (fun K V hash keq LW => robin_from hash keq LW). Qed.
Print Assumptions c206_robin_from_a_list.

(** Eleven entries with nine keys; the insertions could not have had any memory. *)
Example c206_flat16_example : exists t,
  lawful idhash N.eqb /\ f_sane up_to_44 /\ f_sane no_alloc2
  /\ f_from N N idhash N.eqb simple_int_hash_crc32 up_to_44 no_alloc2 4 wx_list = Ret t tt
  /\ f_size _ _ t = 9 /\ f_cap _ _ t = 32
  /\ f_step N N idhash N.eqb simple_int_hash_crc32 false no_alloc2 (OFind N N 23) t
     = Ret t (REntry N N (Some (23, 2))).
Proof. exact wx_flat16_lemma. Qed.

Example c206_robin16_example : forall wide trivial, exists t,
  lawful idhash N.eqb /\ f_sane up_to_44 /\ (8 <= length wx_list)%nat
  /\ q_fine N N idhash (all_put N N N.eqb wx_list [])
  /\ q_from N N idhash N.eqb wide trivial up_to_44 no_alloc2 4 wx_list = Ret t tt
  /\ q_size _ _ t = 9 /\ q_cap _ _ t = 32
  /\ q_step N N idhash N.eqb wide trivial no_alloc2 (OFind N N 23) t = Ret t (REntry N N (Some (23, 2))).
Proof. exact wx_robin16_lemma. Qed.

Example c206_robin_example : exists t,
  lawful idhash N.eqb /\ sane up_to_55 /\ spread_all N N idhash 2 (all_put N N N.eqb wx_list [])
  /\ r_from N N idhash N.eqb up_to_55 no_alloc 0 wx_list = Ret t tt
  /\ r_size _ _ t = 9 /\ r_slot_capacity _ _ t = 32
  /\ r_step N N idhash N.eqb no_alloc (OFind N N 23) t = Ret t (REntry N N (Some (23, 2))).
Proof. exact wx_robin_lemma. Qed.

(** ** C207 *)

(** The fourth comparison throws: the storage and three elements are left behind. *)
Theorem c207_a_flat16_constructor_that_throws_leaves_nothing_refuted : exists l t,
  f_from_c N N idhash simple_int_hash_crc32 up_to_44 4 l = Ret t Escaped
  /\ f_cap _ _ t = 16 /\ exists l', f_traverse N N t = Ok l' /\ length l' = 3%nat.
Proof. exact (ex_intro _ wx_list_c wx_flat16_left). Qed.
Print Assumptions c207_a_flat16_constructor_that_throws_leaves_nothing_refuted.

Theorem c207_a_robin16_constructor_that_throws_leaves_nothing_refuted : forall wide trivial, exists l t,
  q_from_c N N idhash wide trivial up_to_44 4 l = Ret t Escaped
  /\ q_cap _ _ t = 16 /\ exists l', q_traverse N N wide t = Ok l' /\ length l' = 3%nat.
Proof. exact (fun wide trivial => ex_intro _ wx_list_c (wx_robin16_left wide trivial)). Qed.
Print Assumptions c207_a_robin16_constructor_that_throws_leaves_nothing_refuted.

Theorem c207_a_robin_constructor_that_throws_leaves_nothing_refuted : exists l t,
  r_from_c N N idhash up_to_55 0 l = Ret t Escaped
  /\ r_alloc _ _ t = true /\ exists l', r_traverse N N t = Ok l' /\ length l' = 3%nat.
Proof. exact (ex_intro _ wx_list_c wx_robin_left). Qed.
Print Assumptions c207_a_robin_constructor_that_throws_leaves_nothing_refuted.
