(** load_factor() against max_load_factor() (C172).  Load factors are compared without
    division: size / capacity <= mlf / 256. *)
From Coq Require Import NArith List Bool.
From Verif Require Import Base GroupModel TableModel TableInv RunModel ReachModel WitnessModel ExampleFacts
  LoadSpec LoadWitness.
Import ListNotations.
Open Scope N_scope.

(** ** C172 *)

(** The smallest maps are filled completely. *)
Theorem c172_load_factor_within_maximum_refuted :
  forall kd, group_kind kd ->
  exists calls outs t, Forall (fun c => exists k, c = ins k) calls
    /\ run N N idhash N.eqb kd calls (new_map N N kd) = Ok (outs, t)
    /\ t_mlf _ _ t = 224 /\ t_size _ _ t = capacity N N kd t /\ t_size _ _ t <> 0.
Proof. exact small_load. Qed.
Print Assumptions c172_load_factor_within_maximum_refuted.

(** Erasures fill a larger group16 map. *)
Theorem c172_load_factor_of_larger_group16_maps_refuted :
  exists outs t, run16 raise_calls new16 = Ok (outs, t)
  /\ t_mlf _ _ t = 224 /\ t_size _ _ t = 128 /\ capacity N N k16 t = 128.
Proof. exact churn_load. Qed.
Print Assumptions c172_load_factor_of_larger_group16_maps_refuted.

(** A max_load_factor(float) that throws leaves the new maximum and the old table. *)
Theorem c172_load_factor_after_a_failed_setting_refuted :
  forall kd, group_kind kd ->
  exists outs t, run N N idhash N.eqb kd failed_calls (new_map N N kd) = Ok (outs, t)
  /\ t_mlf _ _ t = 128 /\ t_size _ _ t = 200 /\ capacity N N kd t <= 256.
Proof. exact failed_load. Qed.
Print Assumptions c172_load_factor_after_a_failed_setting_refuted.

(** group15 maps above the smallest capacity exceed it by one element at most … *)
Theorem c172_group15_load_factor :
  forall (K V : Type) (hash : K -> N) (keq : K -> K -> bool), lawful hash keq ->
  forall t, loaded K V hash keq k15 t -> 32 < capacity K V k15 t ->
  256 * t_size _ _ t <= t_mlf _ _ t * capacity K V k15 t + 256.
Proof. exact load_group15. Qed.
Print Assumptions c172_group15_load_factor.

(** … and that element is reached. *)
Theorem c172_group15_one_element_more_refuted :
  exists outs t, run15 half_calls new15 = Ok (outs, t)
  /\ t_mlf _ _ t = 128 /\ t_size _ _ t = 30 /\ capacity N N k15 t = 59.
Proof. exact half_load. Qed.
Print Assumptions c172_group15_one_element_more_refuted.

Example c172_example :
  loaded N N idhash N.eqb k15 (result k15 load_calls new15)
  /\ t_size _ _ (result k15 load_calls new15) = 90 /\ capacity N N k15 (result k15 load_calls new15) = 239
  /\ t_mlf _ _ (result k15 load_calls new15) = 224.
Proof. exact load_example. Qed.
