(** bucket(), at(), count(), equal_range() and load_factor() of the robin16 map. *)
From Coq Require Import NArith ZArith List Bool Lia Permutation.
From Coq Require Import ZifyBool ZifyNat ZifyN.
From Verif Require Import Base BaseFacts BitsModel BitsFacts GroupModel TableInv TableModel MapSpec MapFacts
  HashModel Flat16Model Flat16Spec Flat16Calls RobinFacts RobinOps Robin16Model Robin16Spec Robin16Ring Robin16Scan
  Robin16Facts Robin16Moves Robin16Ops Robin16Refine QueryModel QueryFacts.
Import ListNotations.
Open Scope N_scope.

Section Ring.

Context {K V : Type} (wide trivial : bool) (hash : K -> N) (keq : K -> K -> bool) (LW : lawful hash keq).

Lemma q_find_cases (t : qmap K V) m k : q_built K V hash keq wide trivial t m -> q_seen K V hash k t ->
  exists b A, good hash keq trivial b t A /\ Permutation (ents A) m /\ distinct_keys K V keq m
  /\ q_mask _ _ t + 1 = 2 ^ b
  /\ ((get K V keq k m = None /\ q_find K V hash keq wide t k = Ok (2 ^ b))
      \/ exists i d kv, get K V keq k m = Some kv /\ geti A i = Some (Some (d, kv))
           /\ geti (q_slots _ _ t) i = Some (Some kv) /\ i < 2 ^ b
           /\ q_find K V hash keq wide t k = Ok i).
Proof.
  intros B HS. destruct (built_inv hash keq LW wide trivial t m B) as (_ & _ & b & A & X & P).
  exists b, A. split; auto. split; auto. pose proof (good_cap hash keq trivial b t A X) as HC.
  pose proof (g_dist _ _ _ _ _ _ X) as DA.
  assert (D : distinct_keys K V keq m) by (eapply (distinct_perm hash keq LW); eauto).
  split; auto.
  assert (HM : q_mask _ _ t + 1 = 2 ^ b).
  { pose proof (g_st _ _ _ _ _ _ X) as (G & _). pose proof (pow2_pos b). destruct G as [G _]. rewrite G. lia. }
  split; auto. unfold q_find, q_find_index. unfold q_seen in HS. rewrite HC in *.
  rewrite <- (get_perm hash keq LW k _ _ P DA).
  destruct (look_spec hash keq LW wide trivial b t A k 2 X HS (or_introl eq_refl))
    as [(i & d & kv & E & Hi & Ha & Hs & Hin & HK)|(n & E & _ & HF)]; rewrite E; cbn [rbind].
  - right. exists i, d, kv. split; [now apply (get_In hash keq LW)|]. auto.
  - left. split; auto. rewrite has_get in HF. now destruct (get K V keq k (ents A)).
Qed.

Lemma q_bucket_spec (t : qmap K V) m k : q_built K V hash keq wide trivial t m -> q_seen K V hash k t ->
  exists b, q_bucket K V hash keq wide t k = Ok b
  /\ (has K V keq k m = true -> b < q_cap K V t
        /\ exists kv, geti (q_slots _ _ t) b = Some (Some kv) /\ keq k (fst kv) = true)
  /\ (has K V keq k m = false -> b = q_cap K V t).
Proof.
  intros B HS. unfold q_bucket. rewrite has_get.
  destruct (q_find_cases t m k B HS) as (b & A & X & P & D & HM & [[G E]|(i & d & kv & G & Ha & Hs & Hi & E)]);
    rewrite G, (good_cap hash keq trivial b t A X).
  - exists (2 ^ b). split; auto. split; [discriminate|auto].
  - exists i. split; auto. split; [|discriminate]. intros _. split; auto. exists kv. split; auto.
    apply get_Some in G. tauto.
Qed.

Lemma q_at_spec (t : qmap K V) m k : q_built K V hash keq wide trivial t m -> q_seen K V hash k t ->
  q_at K V hash keq wide t k = Ok (match get K V keq k m with Some kv => Some (snd kv) | None => None end)
  /\ q_count K V hash keq wide t k = Ok (N.of_nat (length (filter (fun e => keq k (fst e)) m))).
Proof.
  intros B HS. unfold q_at, q_count.
  destruct (q_find_cases t m k B HS) as (b & A & X & P & D & HM & [[G E]|(i & d & kv & G & Ha & Hs & Hi & E)]);
    rewrite (filter_get hash keq LW k m D), E, G; cbn [rbind].
  - destruct (N.leb_spec (2 ^ b) (q_mask _ _ t)); [lia|]. auto.
  - destruct (N.leb_spec i (q_mask _ _ t)); [|lia]. unfold q_deref, q_read. rewrite Hs. auto.
Qed.

Lemma q_range_spec (t : qmap K V) m k : q_built K V hash keq wide trivial t m -> q_seen K V hash k t ->
  q_range K V hash keq wide t k = Ok (filter (fun e => keq k (fst e)) m).
Proof.
  intros B HS. unfold q_range, q_equal_range.
  destruct (q_find_cases t m k B HS) as (b & A & X & P & D & HM & [[G E]|(i & d & kv & G & Ha & Hs & Hi & E)]);
    rewrite (filter_get hash keq LW k m D), E, G; cbn [rbind]; unfold q_end; rewrite (good_cap hash keq trivial b t A X).
  - rewrite N.eqb_refl. cbn [negb rbind].
    assert (HN : forall n, q_span K V n t (2 ^ b) (2 ^ b) = Ok []) by (intros [|n]; cbn [q_span]; now rewrite N.eqb_refl).
    apply HN.
  - destruct (N.eqb_spec i (2 ^ b)) as [->|_]; [lia|]. cbn [negb].
    pose proof (g_b2 _ _ _ _ _ _ X) as Hb2. pose proof (b50 _ (g_b44 _ _ _ _ _ _ X)) as Hb50.
    pose proof (g_st _ _ _ _ _ _ X) as (GE & W & _).
    destruct (incr_spec hash b Hb2 Hb50 t A GE W (q_fuel K V t) i Hi) as (j & EJ & Hj & _).
    { unfold q_fuel. pose proof (w_len _ _ _ _ W). pose proof (gcount_range b Hb2 Hb50). lia. }
    rewrite EJ. cbn [rbind]. destruct (q_fuel K V t) as [|fuel] eqn:EF; [discriminate|]. cbn [q_span]. rewrite EF.
    destruct (N.eqb_spec i j) as [->|_]; [lia|]. unfold q_deref, q_read. rewrite Hs. cbn [rbind].
    rewrite EJ. cbn [rbind].
    assert (HN : forall n, q_span K V n t j j = Ok []) by (intros [|n]; cbn [q_span]; now rewrite N.eqb_refl).
    rewrite HN. reflexivity.
Qed.

Lemma q_load_spec (t : qmap K V) m : q_built K V hash keq wide trivial t m ->
  let (n, d) := q_load K V t in n = N.of_nat (length m) /\ n <= d /\ 0 < d.
Proof.
  intros B. destruct (built_inv hash keq LW wide trivial t m B) as (_ & _ & b & A & X & P). unfold q_load.
  rewrite (good_cap hash keq trivial b t A X), (g_size _ _ _ _ _ _ X), (Permutation_length P).
  pose proof (good_len hash keq trivial b t A X). rewrite (Permutation_length P) in *. pose proof (pow2_pos b).
  split; [auto|]. split; lia.
Qed.

End Ring.
