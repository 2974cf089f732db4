(** Growth of the group15 and group16 maps while nothing is erased (C163, C164), and exactly
    when reserve suffices (C12).  The specification is in GrowthSpec.v. *)
From Coq Require Import NArith List Bool.
From Verif Require Import Base GroupModel TableModel TableInv MapSpec RunModel ReachModel WitnessModel
  GrowthSpec GrowthFacts GrowthWitness.
Import ListNotations.
Open Scope N_scope.

Example c163_example :
  (exists outs t, run16 growth_calls new16 = Ok (outs, t)
     /\ t_size _ _ t = 113 /\ capacity N N k16 t = 256
     /\ costs N N idhash N.eqb k16 growth_calls new16 = (4, 200))
  /\ (exists outs t, run15 growth_calls new15 = Ok (outs, t)
     /\ t_size _ _ t = 113 /\ capacity N N k15 t = 239
     /\ costs N N idhash N.eqb k15 growth_calls new15 = (4, 184))
  /\ Forall (fun c => sane (fst c) /\ adds N N (snd c) = true) growth_calls.
Proof. exact growth_example. Qed.

(** ** C163 *)

Theorem c163_space_is_proportional :
  forall (K V : Type) (hash : K -> N) (keq : K -> K -> bool), lawful hash keq ->
  forall kd, group_kind kd -> forall calls t outs,
  Forall (fun c => sane (fst c) /\ adds K V (snd c) = true) calls ->
  run K V hash keq kd calls (new_map K V kd) = Ok (outs, t) ->
  (t_size _ _ t = 0 /\ capacity K V kd t = 0)
  \/ (t_size _ _ t <= capacity K V kd t
      /\ (8 * t_size _ _ t <= 7 * capacity K V kd t \/ capacity K V kd t <= 32)
      /\ (7 * (capacity K V kd t - 1) < 16 * t_size _ _ t \/ capacity K V kd t <= 32)).
Proof. exact @growth_space. Qed.
Print Assumptions c163_space_is_proportional.

(** The capacity is a function of the size, whatever the keys, their order and the failures
    of the allocator. *)
Theorem c163_size_determines_capacity :
  forall (K V : Type) (hash : K -> N) (keq : K -> K -> bool), lawful hash keq ->
  forall kd, group_kind kd -> forall calls1 calls2 t1 t2 outs1 outs2,
  Forall (fun c => sane (fst c) /\ adds K V (snd c) = true) calls1 ->
  Forall (fun c => sane (fst c) /\ adds K V (snd c) = true) calls2 ->
  run K V hash keq kd calls1 (new_map K V kd) = Ok (outs1, t1) ->
  run K V hash keq kd calls2 (new_map K V kd) = Ok (outs2, t2) ->
  t_size _ _ t1 = t_size _ _ t2 -> capacity K V kd t1 = capacity K V kd t2.
Proof. exact @growth_same_capacity. Qed.
Print Assumptions c163_size_determines_capacity.

(** ** C164 *)

Theorem c164_growth_is_amortised :
  forall (K V : Type) (hash : K -> N) (keq : K -> K -> bool), lawful hash keq ->
  forall kd, group_kind kd -> forall calls,
  Forall (fun c => sane (fst c) /\ adds K V (snd c) = true) calls ->
  exists outs t, run K V hash keq kd calls (new_map K V kd) = Ok (outs, t)
    /\ let '(reallocations, moved) := costs K V hash keq kd calls (new_map K V kd) in
       (t_size _ _ t = 0 -> reallocations = 0)
       /\ (t_size _ _ t <> 0 -> 2 ^ reallocations <= 2 * t_size _ _ t)
       /\ moved <= 2 * t_size _ _ t.
Proof. exact @growth_costs. Qed.
Print Assumptions c164_growth_is_amortised.

(** ** C12 *)

(** After reserve(n) the capacity stays exactly as long as the size is at most seven eighths
    of it (the whole capacity, if that is at most 32). *)
Theorem c12_reserve_limit :
  forall (K V : Type) (hash : K -> N) (keq : K -> K -> bool), lawful hash keq ->
  forall kd, group_kind kd -> forall n alloc t r calls, sane alloc -> n <> 0 -> n < 2 ^ 56 ->
  step K V hash keq kd alloc (OReserve K V n) (new_map K V kd) = Ret t r ->
  Forall (fun c => sane (fst c) /\ adds K V (snd c) = true) calls ->
  exists outs t', run K V hash keq kd calls t = Ok (outs, t')
    /\ (capacity K V kd t' = capacity K V kd t
        <-> t_size _ _ t' <= growth_limit (capacity K V kd t)).
Proof. exact @reserve_exact. Qed.
Print Assumptions c12_reserve_limit.

Example c12_limit_example :
  exists t r, step N N idhash N.eqb k15 roomy_alloc (OReserve N N 112) new15 = Ret t r
    /\ capacity N N k15 t = 119 /\ growth_limit 119 = 104
    /\ exists outs t', run15 (map ins (map N.of_nat (seq 0 105))) t = Ok (outs, t')
         /\ t_size _ _ t' = 105 /\ capacity N N k15 t' = 239.
Proof. exact limit_example. Qed.
