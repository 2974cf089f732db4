(** shrink_to_fit() of the robin hood map with a hasher that throws. *)
From Coq Require Import NArith ZArith List Bool Lia Permutation.
From Coq Require Import ZifyBool ZifyNat ZifyN.
From Verif Require Import Base BaseFacts GroupModel TableModel TableInv MapSpec MapFacts
  ReachModel RobinModel RobinSpec RobinFacts RobinOps RobinRefine Hasher2Model Hasher2Spec Hasher2Robin WitnessModel WitnessFacts RobinWitness.
Import ListNotations.
Open Scope N_scope.

Section Robin.

Context {K V : Type} (hash : K -> N) (keq : K -> K -> bool) (LW : lawful hash keq).

Notation spread_all := (spread_all K V hash).
Notation content := (@content K V).

Theorem robin_shrink_h q t m alloc (read_only : bool) more :
  q = 1 \/ q = 2 -> r_reach K V hash keq q t m -> sane alloc -> spread_all q m ->
  q = 1 \/ read_only = false ->
  match r_shrink K V hash keq alloc read_only t with
  | Ret t' _ =>
      (r_size _ _ t <= N.of_nat more \/ r_mask _ _ t' = r_mask _ _ t ->
         exists rest, r_shrink_h K V hash keq more alloc read_only t = Ret (t', []) rest)
      /\ (r_mask _ _ t' <> r_mask _ _ t -> N.of_nat more < r_size _ _ t ->
         exists t1 kept lost, r_shrink_h K V hash keq more alloc read_only t = Throw (t1, lost)
           /\ r_behaves_as K V hash keq q t1 kept /\ r_mask _ _ t1 = r_mask _ _ t'
           /\ Permutation (kept ++ lost) m /\ length kept = more)
  | Throw t' => r_shrink_h K V hash keq more alloc read_only t = Throw (t', [])
  | Fail _ => False
  end.
Proof.
  intros Hq R HA HP Hc. destruct (reach_inv hash keq LW q t m Hq R) as [I P].
  assert (HP' : spread_all q (content t)) by (eapply (spread_all_perm hash q); eauto).
  unfold r_shrink, r_shrink_h. pose proof (size_bound hash keq q Hq t I) as HB.
  destruct (min_require_ge q Hq t (r_size _ _ t) (proj1 I) ltac:(lia)) as (G1 & G2 & G3).
  set (n := if read_only then r_size K V t else r_min_require K V t (r_size K V t)).
  assert (G : q * r_size _ _ t <= n /\ n <= 2 ^ 63)
    by (unfold n; destruct read_only; [destruct Hc as [E|E]; [subst q; lia|discriminate]|lia]).
  destruct G as [G H0].
  pose proof (rehash_h hash keq LW q Hq true false alloc t n more HA I) as H.
  specialize (H H0 ltac:(discriminate)).
  match type of H with ?A -> _ => assert (H1 : A) end.
  { intros b Hb Hle. split; [|lia]. apply HP'; auto. rewrite <- (rinv_size _ _ _ _ I). lia. }
  specialize (H H1). unfold split_by in H.
  destruct (r_rehash_impl K V hash keq true false alloc t _) as [t' u|t'|]; auto.
  destruct H as [A B]. split; [exact A|]. intros HM HL.
  destruct (B HM HL) as (t1 & kp & ls & Q1 & Q2 & Q3 & Q4 & Q5 & Q6). exists t1, kp, ls. split; [exact Q1|].
  split; [now apply (rinv_behaves hash keq LW)|]. split; [rewrite Q3; lia|]. split; [|exact Q6]. now rewrite Q5.
Qed.

End Robin.

(** Eight elements in 256 slots; shrink_to_fit() makes 16 of them. *)
Definition hx_wide_ops : list (op N N) := put_ops (seqN 8) ++ [ORehash N N 100].
Definition hx_wide : rm := fst (chased 2 hx_wide_ops).
Definition hx_wide_map : list (N * N) := snd (chased 2 hx_wide_ops).

Lemma hx_wide_lemma : r_reach N N idhash N.eqb 2 hx_wide hx_wide_map /\ sane some_alloc
  /\ spread_all N N idhash 2 hx_wide_map
  /\ (exists t', r_shrink N N idhash N.eqb some_alloc false hx_wide = Ret t' tt /\ r_mask _ _ t' = 15)
  /\ exists t1 lost, r_shrink_h N N idhash N.eqb 3 some_alloc false hx_wide = Throw (t1, lost)
  /\ r_size _ _ hx_wide = 8 /\ r_mask _ _ hx_wide = 255
  /\ r_size _ _ t1 = 3 /\ r_mask _ _ t1 = 15 /\ length lost = 5%nat.
Proof.
  split; [apply chased_reach; lia|]. split; [exact some_sane|].
  split; [apply fineb_spread; [lia|vm_compute; reflexivity]|].
  split; [eexists; split; vm_compute; reflexivity|]. do 2 eexists.
  split; [vm_compute; reflexivity|]. repeat split; vm_compute; reflexivity.
Qed.
