(** Executions beside the theorems on growth. *)
From Coq Require Import NArith List Bool Lia.
From Verif Require Import Base GroupModel TableModel RunModel ReachModel WitnessModel GrowthSpec.
Import ListNotations.
Open Scope N_scope.

(** 113 keys, some of them twice, and look-ups between them. *)
Definition growth_calls : list (call N N) :=
  flat_map (fun n => [ins n; (roomy_alloc, OFind N N (n / 2)); ins (n / 3)]) (map N.of_nat (seq 0 113)).

Lemma roomy_sane : sane roomy_alloc.
Proof.
  intros n H. unfold roomy_alloc in H. apply N.leb_le in H.
  change (2 ^ 20) with 1048576 in H. change (2 ^ 55) with 36028797018963968. lia.
Qed.

Lemma growth_example :
  (exists outs t, run16 growth_calls new16 = Ok (outs, t)
     /\ t_size _ _ t = 113 /\ capacity N N k16 t = 256
     /\ costs N N idhash N.eqb k16 growth_calls new16 = (4, 200))
  /\ (exists outs t, run15 growth_calls new15 = Ok (outs, t)
     /\ t_size _ _ t = 113 /\ capacity N N k15 t = 239
     /\ costs N N idhash N.eqb k15 growth_calls new15 = (4, 184))
  /\ Forall (fun c => sane (fst c) /\ adds N N (snd c) = true) growth_calls.
Proof.
  split; [|split].
  - eexists _, _. split; [vm_compute; reflexivity|]. split; [reflexivity|]. split; vm_compute; reflexivity.
  - eexists _, _. split; [vm_compute; reflexivity|]. split; [reflexivity|]. split; vm_compute; reflexivity.
  - apply Forall_forall. intros c Hc. unfold growth_calls in Hc. apply in_flat_map in Hc.
    destruct Hc as (n & _ & [<-|[<-|[<-|[]]]]); split; try reflexivity; apply roomy_sane.
Qed.

Lemma limit_example :
  exists t r, step N N idhash N.eqb k15 roomy_alloc (OReserve N N 112) new15 = Ret t r
    /\ capacity N N k15 t = 119 /\ growth_limit 119 = 104
    /\ exists outs t', run15 (map ins (map N.of_nat (seq 0 105))) t = Ok (outs, t')
         /\ t_size _ _ t' = 105 /\ capacity N N k15 t' = 239.
Proof.
  eexists _, _. split; [vm_compute; reflexivity|]. split; [reflexivity|]. split; [reflexivity|].
  eexists _, _. split; [vm_compute; reflexivity|]. split; reflexivity.
Qed.
