(** When clear() throws. *)
From Coq Require Import NArith ZArith List Bool Lia Permutation.
From Coq Require Import ZifyBool ZifyNat ZifyN.
From Verif Require Import Base BaseFacts GroupModel TableModel TableInv MapSpec ReachModel WitnessModel RobinModel RobinSpec
  Flat16Model Flat16Spec Flat16Ops Flat16Calls Flat16Runs Robin16Model Robin16Spec Robin16Refine Robin16Witness.
Import ListNotations.
Open Scope N_scope.

Section Clear.

Context {K V : Type} (hash : K -> N) (keq : K -> K -> bool) (LW : tame hash keq).

Lemma flat16_clear mix (trivial : bool) t m alloc need : f_built K V hash keq mix t m ->
  (exists t', f_step K V hash keq mix trivial alloc (OClear K V need) t = Throw t')
  <-> need = true /\ 4 < f_cap _ _ t /\ (alloc true 2 = false \/ alloc false 4 = false).
Proof.
  intros B. apply (Flat16Runs.built_inv hash keq mix LW) in B. destruct B as ((b & X) & _ & _).
  cbn [f_step]. unfold f_clear, fDefaultCapacity.
  destruct (N.ltb_spec 4 (f_cap K V t)) as [HC|HC]; cbn [andb]; [destruct need|].
  - rewrite (Flat16Calls.destroy_spec hash mix b t X). unfold f_create.
    change (wadd 4 (fGroupWidth - 1) / fGroupWidth + 1) with 2.
    destruct (alloc true 2), (alloc false 4); cbn [f_unit obind]; split;
      try (intros _; eexists; reflexivity); try (intros (t' & E); discriminate);
      try (intros (_ & _ & [E|E]); discriminate); auto.
  - split; [|intros (E & _); discriminate]. intros (t' & E).
    destruct (if trivial then _ else _); [|discriminate].
    destruct (f_clear_groups _ _); discriminate.
  - split; [|lia]. intros (t' & E).
    destruct (if trivial then _ else _); [|discriminate].
    destruct (f_clear_groups _ _); discriminate.
Qed.

Lemma robin16_clear (wide trivial : bool) t m alloc need : q_built K V hash keq wide trivial t m ->
  (exists t', q_step K V hash keq wide trivial alloc (OClear K V need) t = Throw t')
  <-> need = true /\ 4 < q_cap _ _ t /\ (alloc true 2 = false \/ alloc false 4 = false).
Proof.
  intros B. apply (Robin16Refine.built_inv hash keq LW) in B. destruct B as (_ & _ & b & A & X & _).
  cbn [q_step]. unfold q_clear, qDefaultCapacity.
  destruct (N.ltb_spec 4 (q_cap K V t)) as [HC|HC]; cbn [andb]; [destruct need|].
  - rewrite (Robin16Refine.destroy_spec hash keq trivial b t A X). unfold q_create.
    change (wadd 4 (qGroupWidth - 1) / qGroupWidth + 1) with 2.
    destruct (alloc true 2), (alloc false 4); cbn [q_unit obind]; split;
      try (intros _; eexists; reflexivity); try (intros (t' & E); discriminate);
      try (intros (_ & _ & [E|E]); discriminate); auto.
  - split; [|intros (E & _); discriminate]. intros (t' & E). destruct (q_destroy_slots _ _ _ _); discriminate.
  - split; [|lia]. intros (t' & E). destruct (q_destroy_slots _ _ _ _); discriminate.
Qed.

Lemma robin_clear (t : rmap K V) alloc need t' :
  r_step K V hash keq alloc (OClear K V need) t <> Throw t'.
Proof.
  cbn [r_step]. unfold r_clear. destruct (_ && _); [discriminate|]. unfold r_clear_data. destruct (_ && _); discriminate.
Qed.

End Clear.

(** No memory at all. *)
Definition none (groups : bool) (n : N) : bool := false.

Lemma flat16_clear_lemma : exists t t', f_built N N idhash N.eqb (fun h => h) t []
  /\ f_step N N idhash N.eqb (fun h => h) true none (OClear N N true) t = Throw t'.
Proof.
  eexists _, _. split.
  - apply (f_built_new N N idhash N.eqb (fun h => h) qal 8); [apply qal_sane|lia|vm_compute; reflexivity].
  - vm_compute. reflexivity.
Qed.

Lemma robin16_clear_lemma : forall wide trivial, exists t t', q_built N N idhash N.eqb wide trivial t []
  /\ q_step N N idhash N.eqb wide trivial none (OClear N N true) t = Throw t'.
Proof.
  intros wide trivial. exists (q_start 8). eexists. split.
  - apply (q_built_new N N idhash N.eqb wide trivial qal 8); [apply qal_sane|lia|apply q_start_new].
  - destruct wide, trivial; vm_compute; reflexivity.
Qed.

Lemma clear_kept_lemma : exists t t', f_built N N idhash N.eqb (fun h => h) t []
  /\ 4 < f_cap N N t /\ f_step N N idhash N.eqb (fun h => h) true none (OClear N N false) t = Ret t' (RUnit N N).
Proof.
  eexists _, _. split.
  - apply (f_built_new N N idhash N.eqb (fun h => h) qal 8); [apply qal_sane|lia|vm_compute; reflexivity].
  - split; vm_compute; reflexivity.
Qed.
