(** Maps whose load factor exceeds the maximum. *)
From Coq Require Import NArith List Bool Lia.
From Coq Require Import ZifyBool ZifyNat ZifyN.
From Verif Require Import Base GroupModel TableModel TableInv RunModel ReachModel WitnessModel WitnessFacts
  ExampleFacts MapProps LoadSpec LoadFacts.
Import ListNotations.
Open Scope N_scope.

(** Sixteen keys of one class fill a group; they are replaced by keys of another class, and
    each replacement raises the growth limit. *)
Definition raise_calls : list (call N N) :=
  (roomy_alloc, ORehash N N 128) :: map ins (map (key 3 1) (from_to 0 16)) ++ [ins (key 3 2 0)]
  ++ flat_map (fun i => [era (key 3 1 i); ins (key 3 2 (i + 1))]) (from_to 0 16)
  ++ map ins (map (key 4 1) (from_to 0 111)).

Lemma small_load : forall kd, group_kind kd ->
  exists calls outs t, Forall (fun c => exists k, c = ins k) calls
    /\ run N N idhash N.eqb kd calls (new_map N N kd) = Ok (outs, t)
    /\ t_mlf _ _ t = 224 /\ t_size _ _ t = capacity N N kd t /\ t_size _ _ t <> 0.
Proof.
  intros kd [-> | ->].
  - exists (map ins (from_to 100 29)). do 2 eexists.
    split; [apply Forall_forall; intros c Hc; apply in_map_iff in Hc; destruct Hc as (k & <- & _); eauto|].
    split; [vm_compute; reflexivity|]. split; [reflexivity|]. split; [reflexivity|]. discriminate.
  - exists (map ins (from_to 100 32)). do 2 eexists.
    split; [apply Forall_forall; intros c Hc; apply in_map_iff in Hc; destruct Hc as (k & <- & _); eauto|].
    split; [vm_compute; reflexivity|]. split; [reflexivity|]. split; [reflexivity|]. discriminate.
Qed.

Lemma churn_load : exists outs t, run16 raise_calls new16 = Ok (outs, t)
  /\ t_mlf _ _ t = 224 /\ t_size _ _ t = 128 /\ capacity N N k16 t = 128.
Proof. do 2 eexists. split; [vm_compute; reflexivity|]. split; [reflexivity|]. split; reflexivity. Qed.

Definition half_calls : list (call N N) := (roomy_alloc, OMlf N N 128) :: map ins (from_to 100 30).

Lemma half_load : exists outs t, run15 half_calls new15 = Ok (outs, t)
  /\ t_mlf _ _ t = 128 /\ t_size _ _ t = 30 /\ capacity N N k15 t = 59.
Proof. do 2 eexists. split; [vm_compute; reflexivity|]. split; [reflexivity|]. split; reflexivity. Qed.

Definition failed_calls : list (call N N) := map ins (from_to 100 200) ++ [(no_alloc, OMlf N N 128)].

Lemma failed_load : forall kd, group_kind kd ->
  exists outs t, run N N idhash N.eqb kd failed_calls (new_map N N kd) = Ok (outs, t)
  /\ t_mlf _ _ t = 128 /\ t_size _ _ t = 200 /\ capacity N N kd t <= 256.
Proof.
  intros kd [-> | ->]; do 2 eexists; (split; [vm_compute; reflexivity|]); (split; [reflexivity|]);
    (split; [reflexivity|]); vm_compute; discriminate.
Qed.

Lemma run_loaded kd calls : forall t outs t', loaded N N idhash N.eqb kd t ->
  Forall (fun c => sane (fst c) /\ match snd c with OInsert _ _ _ _ | OErase _ _ _ => True | _ => False end) calls ->
  run N N idhash N.eqb kd calls t = Ok (outs, t') -> loaded N N idhash N.eqb kd t'.
Proof.
  induction calls as [|[alloc o] calls IH]; intros t outs t' B HS E; cbn [run] in *.
  - injection E as _ <-. exact B.
  - inversion HS as [|x y [HA Ho] HS' E1]; subst. cbn [fst snd] in HA, Ho.
    assert (Hok : client_noshrink N N kd o t) by (destruct o; try destruct Ho; exact Logic.I).
    destruct (step N N idhash N.eqb kd alloc o t) as [t1 r|t1|e] eqn:Es; [| |discriminate].
    + destruct (run N N idhash N.eqb kd calls t1) as [[rs t2]|] eqn:Er; [|discriminate].
      cbn [rbind] in E. injection E as _ <-. eapply (IH t1); [|exact HS'|exact Er]. eapply loaded_ret; eauto.
    + destruct (run N N idhash N.eqb kd calls t1) as [[rs t2]|] eqn:Er; [|discriminate].
      cbn [rbind] in E. injection E as _ <-. eapply (IH t1); [|exact HS'|exact Er]. eapply loaded_throw; eauto.
      destruct o; auto.
Qed.

Definition load_calls : list (call N N) :=
  map ins (map K3 (from_to 0 60)) ++ map era (map K3 (from_to 3 30)) ++ map ins (from_to 1000 60).

Lemma load_example : loaded N N idhash N.eqb k15 (result k15 load_calls new15)
  /\ t_size _ _ (result k15 load_calls new15) = 90 /\ capacity N N k15 (result k15 load_calls new15) = 239
  /\ t_mlf _ _ (result k15 load_calls new15) = 224.
Proof.
  split; [|split; [vm_compute; reflexivity|split; vm_compute; reflexivity]].
  apply (run_loaded k15 load_calls new15 (outs_of k15 load_calls new15)).
  - apply (loaded_new N N idhash N.eqb k15 no_alloc 0); [exact none_sane|reflexivity].
  - assert (H : Forall (fun c => sane (fst c)) load_calls).
    { unfold load_calls. repeat (apply Forall_app; split); try apply sane_ins; try apply sane_era. }
    apply Forall_forall. intros c Hc. split; [now apply (proj1 (Forall_forall _ _) H)|].
    unfold load_calls in Hc. rewrite !in_app_iff in Hc.
    destruct Hc as [Hc|[Hc|Hc]]; apply in_map_iff in Hc; destruct Hc as (k & <- & _); exact Logic.I.
  - vm_compute. reflexivity.
Qed.

Lemma load_group15 : forall (K V : Type) (hash : K -> N) (keq : K -> K -> bool), lawful hash keq ->
  forall t, loaded K V hash keq k15 t -> 32 < capacity K V k15 t ->
  256 * t_size _ _ t <= t_mlf _ _ t * capacity K V k15 t + 256.
Proof.
  intros K V hash keq LW t H Hc. destruct (kind_laws k15 (or_introl eq_refl)) as [L _].
  apply (loaded_load hash keq LW k15 L); auto.
Qed.
