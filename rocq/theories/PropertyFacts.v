(** Examples and refutations in the form in which Properties*.v state them. *)
From Coq Require Import NArith ZArith List Bool Lia Permutation.
From Coq Require Import ZifyBool ZifyNat ZifyN.
From Verif Require Import Base BaseFacts GroupModel TableModel TableInv MapSpec RunModel IterModel CopyModel ReachModel
  MapProps MapProps2 SmallProps WitnessModel WitnessFacts WitnessFacts2 ExampleFacts ChurnFacts
  LedgerModel LedgerSpec LedgerFacts2.
Import ListNotations.
Open Scope N_scope.

Lemma c01_example_lemma :
  lawful idhash N.eqb /\ Forall (fun c => sane (fst c)) ex_calls
  /\ obeys N N idhash N.eqb k15 (client_noshrink N N k15) ex_calls new15
  /\ length ex_calls = 49%nat /\ map threw ex15_outs = repeat false 40 ++ [true] ++ repeat false 8.
Proof.
  split; [exact idlaw|]. split; [exact ex_sane|]. split; [exact ex15_obeys|]. split; reflexivity.
Qed.

Lemma c02_example_lemma :
  group_kind k16 /\ obeys N N idhash N.eqb k16 (client_ok N N k16) ex_calls new16
  /\ run16 ex_calls new16 = Ok (ex16_outs, ex16) /\ t_size _ _ ex16 = 35.
Proof.
  split; [exact is16|]. split; [exact ex16_obeys|]. split; [exact ex16_run|reflexivity].
Qed.

Lemma c07_example_lemma :
  Forall (fun c => sane (fst c)) (churn_calls 142)
  /\ obeys N N idhash N.eqb k15 (client_noshrink N N k15) (churn_calls 142) new15
  /\ length (churn_calls 142) = 300%nat.
Proof.
  split; [apply churn_sane|]. split; [|reflexivity]. apply obeys_noshrink. vm_compute. reflexivity.
Qed.

(** *** C08 *)

Definition shrink_before := shrink_a ++ [(roomy_alloc, OShrink N N false)].
Definition shrink_mid : table N N := Eval vm_compute in result k15 shrink_before new15.

Lemma no_throw l : forallb (fun r : option (obs N N) => negb (threw r)) l = true ->
  Forall (fun r => threw r = false) l.
Proof.
  intro H. apply Forall_forall. intros r Hr. rewrite forallb_forall in H. specialize (H r Hr).
  cbv beta in H. now destruct (threw r).
Qed.

Lemma ins_only l : Forall (fun c : call N N => match snd c with OInsert _ _ _ _ | OErase _ _ _ => True | _ => False end) (map ins l).
Proof. apply Forall_forall. intros c H. apply in_map_iff in H. destruct H as (x & <- & _). exact I. Qed.
Lemma era_only l : Forall (fun c : call N N => match snd c with OInsert _ _ _ _ | OErase _ _ _ => True | _ => False end) (map era l).
Proof. apply Forall_forall. intros c H. apply in_map_iff in H. destruct H as (x & <- & _). exact I. Qed.

Lemma c08_lemma :
  exists before after t,
    Forall (fun c => sane (fst c)) (before ++ after)
    /\ obeys N N idhash N.eqb k15 (client_ok N N k15) (before ++ after) new15
    /\ (exists outs, run15 before new15 = Ok (outs, t) /\ Forall (fun r => threw r = false) outs)
    /\ (exists l, before = l ++ [(roomy_alloc, OShrink N N false)])
    /\ Forall (fun c => match snd c with OInsert _ _ _ _ | OErase _ _ _ => True | _ => False end) after
    /\ run15 after t = Err ELoop.
Proof.
  exists shrink_before, shrink_b, shrink_mid.
  assert (E : shrink_before ++ shrink_b = shrink_calls) by (unfold shrink_before, shrink_calls; now rewrite <- app_assoc).
  split; [exact (eq_ind_r (fun l => Forall (fun c => sane (fst c)) l) shrink_sane E)|].
  split; [exact (eq_ind_r (fun l => obeys N N idhash N.eqb k15 (client_ok N N k15) l new15) shrink_obeys E)|].
  split; [exists (outs_of k15 shrink_before new15); split; [vm_compute; reflexivity|apply no_throw; vm_compute; reflexivity]|].
  split; [exists shrink_a; reflexivity|].
  split; [unfold shrink_b; apply Forall_app; split; [apply era_only|apply ins_only]|].
  vm_compute. reflexivity.
Qed.

Definition ro_before : list (call N N) := map ins (map K3 (from_to 0 30)).
Definition ro_mid : table N N := Eval vm_compute in result k15 ro_before new15.

Lemma c08_ro_lemma :
  exists before t,
    Forall (fun c => sane (fst c)) before
    /\ obeys N N idhash N.eqb k15 (client_ok N N k15) before new15
    /\ (exists outs, run15 before new15 = Ok (outs, t))
    /\ t_size _ _ t = 30
    /\ step N N idhash N.eqb k15 roomy_alloc (OShrink N N true) t = Fail ELoop.
Proof.
  exists ro_before, ro_mid. split; [apply sane_ins|]. split; [apply obeys_client; vm_compute; reflexivity|].
  split; [exists (outs_of k15 ro_before new15); vm_compute; reflexivity|]. split; vm_compute; reflexivity.
Qed.

Lemma c08_loop_example_lemma :
  let full := repeat 5 16 in
  group_kind k16 /\ Forall sixteen_bytes [full; full]
  /\ find_empty_loop k16 2 [full; full] 1 (ctrl_for_hash k16 77) (ProberModel.prober_init 1) = Err ELoop.
Proof.
  cbv zeta. split; [exact is16|].
  assert (H : sixteen_bytes (repeat 5 16)) by (split; [reflexivity|repeat constructor]).
  split; [repeat constructor; apply H|vm_compute; reflexivity].
Qed.

Lemma c09_example_lemma :
  Forall (fun c => sane (fst c)) (map ins (map K3 (from_to 0 100)) ++ [(roomy_alloc, OShrink N N true)])
  /\ obeys N N idhash N.eqb k16 (erase_free N N k16)
       (map ins (map K3 (from_to 0 100)) ++ [(roomy_alloc, OShrink N N true)]) new16.
Proof. split; [sane_calls|]. apply obeys_erase_free. vm_compute. reflexivity. Qed.

Lemma c09_lemma :
  exists calls,
    Forall (fun c => sane (fst c)) calls
    /\ obeys N N idhash N.eqb k16 (client_ok N N k16) calls new16
    /\ Forall (fun c => match snd c with OInsert _ _ _ _ | OErase _ _ _ => True | _ => False end) calls
    /\ length (filter (fun c => match snd c with OErase _ _ _ => true | _ => false end) calls) = 1%nat
    /\ run16 calls new16 = Err ELoop.
Proof.
  exists drift_calls. split; [exact drift_sane|]. split; [exact drift_obeys|].
  split; [unfold drift_calls; repeat (apply Forall_app; split); try apply ins_only; repeat constructor|].
  split; [reflexivity|exact drift_loops].
Qed.

Lemma c16_example_lemma :
  built N N idhash N.eqb k15 ex15 /\ built N N idhash N.eqb k16 ex16
  /\ t_size _ _ ex15 = 35 /\ t_size _ _ ex16 = 35
  /\ run16 drift_calls new16 = Err ELoop.
Proof.
  split; [exact ex15_built|]. split; [exact ex16_built|]. split; [reflexivity|]. split; [reflexivity|exact drift_loops].
Qed.

Lemma c31_example_lemma :
  forallb (fun n => n <=? 16) (sizes k15 (churn_calls 300) new15) = true
  /\ exists outs t, run15 (churn_calls 300) new15 = Ok (outs, t) /\ capacity N N k15 t = 239.
Proof.
  split; [vm_compute; reflexivity|].
  exists (outs_of k15 (churn_calls 300) new15), (result k15 (churn_calls 300) new15).
  split; vm_compute; reflexivity.
Qed.

Lemma c39_example_lemma :
  let calls := map (fun k => (yes_yes, OInsert N N k 0)) (from_to 0 100) ++ [(yes_yes, OShrink N N false)] in
  length (run_events N N idhash N.eqb k16 24 calls 0 1 new16) = 12%nat
  /\ length (run_events N N idhash N.eqb k15 24 calls 0 1 new15) = 6%nat
  /\ play [] (run_events N N idhash N.eqb k16 24 calls 0 1 new16) = Some []
  /\ play [] (run_events N N idhash N.eqb k15 24 calls 0 1 new15) = Some [].
Proof. vm_compute. repeat split; reflexivity. Qed.

Lemma c39_leak_lemma :
  exists calls,
    Forall (fun c => sane (granted k16 (fst c))) calls
    /\ (exists r, run N N idhash N.eqb k16 (map (fun c => (granted k16 (fst c), snd c)) calls) new16 = Ok r)
    /\ exists b, play [] (run_events N N idhash N.eqb k16 16 calls 0 1 new16) = Some [b].
Proof.
  exists leak_calls. split.
  - unfold leak_calls. repeat constructor; cbn [fst]; intros n H; unfold granted in H; cbn in H.
    + rewrite andb_false_r in H. discriminate.
    + apply andb_prop in H. destruct H as [H _]. assert (2 ^ 20 <= 2 ^ 55) by (apply pow2_le; lia).
      apply N.leb_le in H. eapply N.le_trans; [exact H|]. exact H0.
  - split; [eexists; vm_compute; reflexivity|]. eexists. exact leak16.
Qed.
