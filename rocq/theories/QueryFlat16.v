(** bucket(), equal_range() and load_factor() of the flat16 map. *)
From Coq Require Import NArith ZArith List Bool Lia Permutation.
From Coq Require Import ZifyBool ZifyNat ZifyN.
From Verif Require Import Base BaseFacts BitsModel BitsFacts GroupModel GroupFacts TableModel TableInv
  MapSpec MapFacts RobinFacts Flat16Model Flat16Spec
  Flat16Facts Flat16Ops Flat16Refine Flat16Calls Flat16Runs QueryModel QueryFacts.
Import ListNotations.
Open Scope N_scope.

Section Flat.

Context {K V : Type} (mix : N -> N) (hash : K -> N) (keq : K -> K -> bool) (LW : lawful hash keq).

Lemma f_find_cases (t : fmap K V) m k : f_built K V hash keq mix t m ->
  exists b, core hash mix b t /\
  ((get K V keq k m = None /\ f_find_index K V hash keq mix t k = Ok None)
  \/ exists i kv, get K V keq k m = Some kv /\ geti (f_slots _ _ t) i = Some (Some kv) /\ i < 2 ^ b
       /\ f_find_index K V hash keq mix t k = Ok (Some i)).
Proof.
  intros B. destruct (built_inv hash keq mix LW t m B) as ((b & X) & P & D). exists b. split; auto.
  assert (DC : distinct_keys K V keq (content t)) by (eapply (distinct_perm hash keq LW); eauto).
  rewrite (get_perm hash keq LW k _ _ P D).
  destruct (find_spec hash keq mix LW b t k X DC) as [[H E]|(i & kv & Hin & HK & Ei & E)].
  - left. split; auto. rewrite has_get in H. now destruct (get K V keq k (content t)).
  - right. exists i, kv. split; [now apply (get_In hash keq LW)|]. split; auto. split; auto.
    pose proof (fc_slen _ _ _ _ _ (co_fc _ _ _ _ X)) as HL. apply geti_Some_lt in Ei. lia.
Qed.

Lemma f_bucket_spec (t : fmap K V) m k : f_built K V hash keq mix t m ->
  exists b, f_bucket K V hash keq mix t k = Ok b
  /\ (has K V keq k m = true -> b <> f_npos /\ b * 16 < f_cap K V t
        /\ exists i kv, i / 16 = b /\ geti (f_slots _ _ t) i = Some (Some kv) /\ keq k (fst kv) = true)
  /\ (has K V keq k m = false -> b = f_npos).
Proof.
  intros B. unfold f_bucket. rewrite has_get.
  destruct (f_find_cases t m k B) as (b & X & [[G E]|(i & kv & G & Ei & Hi & E)]); rewrite E, G; cbn [rbind].
  - exists f_npos. split; auto. split; [discriminate|auto].
  - exists (i / 16). split; auto. split; [|discriminate]. intros _.
    pose proof (core_cap _ _ _ _ X) as HC. pose proof (core_bound _ _ _ _ X) as HB.
    apply get_Some in G. destruct G as [_ G].
    pose proof (N.div_mod i 16 ltac:(lia)) as HD.
    split; [unfold f_npos, two64; lia|]. split; [lia|]. exists i, kv. auto.
Qed.

Lemma f_range_spec (t : fmap K V) m k : f_built K V hash keq mix t m ->
  f_range K V hash keq mix t k = Ok (filter (fun e => keq k (fst e)) m).
Proof.
  intros B. destruct (built_inv hash keq mix LW t m B) as (_ & _ & D).
  rewrite (filter_get hash keq LW k m D). unfold f_range, f_equal_range, f_find.
  destruct (f_find_cases t m k B) as (b & X & [[G E]|(i & kv & G & Ei & Hi & E)]); rewrite E, G; cbn [rbind].
  - rewrite N.eqb_refl. cbn [negb rbind]. unfold f_fuel. cbn [f_span]. now rewrite N.eqb_refl.
  - pose proof (core_cap _ _ _ _ X) as HC. pose proof (fc_len _ _ _ _ _ (co_fc _ _ _ _ X)) as HCN.
    pose proof (clen_le b) as HCL.
    unfold f_end. rewrite HC. destruct (N.eqb_spec i (2 ^ b)) as [->|_]; [lia|]. cbn [negb].
    destruct (incr_spec hash mix b t X (f_fuel K V t) i Hi) as (j & EJ & _ & Hj & _).
    { unfold f_fuel. lia. }
    rewrite EJ. cbn [rbind]. unfold f_fuel at 1. cbn [f_span].
    destruct (N.eqb_spec i j) as [->|_]; [lia|]. unfold f_deref. rewrite Ei. cbn [rbind].
    rewrite EJ. cbn [rbind].
    assert (HS : forall n, f_span K V n t j j = Ok []) by (intros [|n]; cbn [f_span]; now rewrite N.eqb_refl).
    rewrite HS. reflexivity.
Qed.

Lemma f_load_spec (t : fmap K V) m : f_built K V hash keq mix t m ->
  let (n, d) := f_load K V t in n = N.of_nat (length m) /\ n <= d /\ 0 < d.
Proof.
  intros B. destruct (built_inv hash keq mix LW t m B) as ((b & X) & P & _). unfold f_load.
  pose proof (core_cap _ _ _ _ X) as HC. pose proof (core_size_le _ _ _ _ X) as HS.
  pose proof (co_size _ _ _ _ X) as HZ. rewrite HC, (Permutation_length P).
  unfold Flat16Ops.content. pose proof (N.pow_nonzero 2 b ltac:(lia)). split; [auto|]. split; lia.
Qed.

End Flat.
