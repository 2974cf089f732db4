(** bucket(), equal_range() and load_factor() of the robin hood map. *)
From Coq Require Import NArith ZArith List Bool Lia Permutation.
From Coq Require Import ZifyBool ZifyNat ZifyN.
From Verif Require Import Base BaseFacts BitsModel BitsFacts GroupModel TableModel TableInv
  MapSpec MapFacts FallbackFacts ReachModel RobinModel RobinSpec RobinFacts RobinOps RobinRefine QueryModel QueryFacts.
Import ListNotations.
Open Scope N_scope.

Section Robin.

Context {K V : Type} (hash : K -> N) (keq : K -> K -> bool) (LW : lawful hash keq).

Lemma r_find_cases q (t : rmap K V) m k : q = 1 \/ q = 2 -> r_reach K V hash keq q t m ->
  distinct_keys K V keq m /\
  ((get K V keq k m = None /\ exists i n, r_search K V hash keq t true k = Ok (Stop i n))
  \/ exists b i kv, rfull hash keq q b t /\ get K V keq k m = Some kv
       /\ geti (r_slots _ _ t) i = Some (Some kv) /\ i < mx b
       /\ r_search K V hash keq t true k = Ok (Found i)).
Proof.
  intros Hq R. destruct (reach_inv hash keq LW q t m Hq R) as [I P].
  pose proof (rinv_dist hash keq q _ I) as HD.
  split; [eapply (distinct_perm hash keq LW); [symmetry; exact P|auto]|].
  rewrite <- (get_perm hash keq LW k _ _ (Permutation_sym P) HD).
  destruct (search_inv hash keq LW q t true k I) as [(i & kv & b & _ & A & F & B & D)|(i & n & A & St & HF)].
  - right. exists b, i, kv. split; auto. split; [|split; [auto|split; auto]].
    + apply (get_In hash keq LW); auto; [apply In_elems; eauto|now apply (lw_sym _ _ LW)].
    + pose proof (rb_cs _ _ _ _ (rf_rb _ _ _ _ _ F)) as XC. pose proof (geti_Some_lt _ _ _ B) as Hi.
      now rewrite (cs_len _ _ _ _ _ XC) in Hi.
  - left. split; [|eauto]. specialize (HF eq_refl). pose proof (proj1 (fresh_has hash keq LW _ _) HF) as EH.
    rewrite has_get in EH. now destruct (get K V keq k (content t)).
Qed.

Lemma r_bucket_spec q (t : rmap K V) m k : q = 1 \/ q = 2 -> r_reach K V hash keq q t m ->
  exists b, r_bucket K V hash keq t k = Ok b
  /\ (has K V keq k m = true -> b < r_end K V t
        /\ exists kv, geti (r_slots _ _ t) b = Some (Some kv) /\ keq k (fst kv) = true)
  /\ (has K V keq k m = false -> b = r_end K V t).
Proof.
  intros Hq R. unfold r_bucket. rewrite has_get.
  destruct (r_find_cases q t m k Hq R) as (D & [[G (i & n & E)]|(b & i & kv & F & G & Ei & Hi & E)]);
    rewrite E, G; cbn [rbind].
  - exists (r_max_slot_capacity K V t). split; auto. split; [discriminate|auto].
  - exists i. split; auto. split; [|discriminate]. intros _.
    unfold r_end. rewrite (rb_max _ _ _ _ (rf_rb _ _ _ _ _ F)). split; auto. exists kv. split; auto.
    apply get_Some in G. tauto.
Qed.

Lemma r_range_spec q (t : rmap K V) m k : q = 1 \/ q = 2 -> r_reach K V hash keq q t m ->
  r_alloc _ _ t = true ->
  r_range K V hash keq t k = Ok (filter (fun e => keq k (fst e)) m).
Proof.
  intros Hq R HA. unfold r_range, r_equal_range, r_find.
  destruct (r_find_cases q t m k Hq R) as (D & [[G (i & n & E)]|(b & i & kv & F & G & Ei & Hi & E)]);
    rewrite (filter_get hash keq LW k m D), E, G; cbn [rbind].
  - destruct (reach_inv hash keq LW q t m Hq R) as [[_ [X|[b F]]] _]; [rewrite (re_alloc _ X) in HA; discriminate|].
    pose proof (rf_rb _ _ _ _ _ F) as X. rewrite (rb_last _ _ _ _ X). cbn [rbind].
    unfold r_end. rewrite (rb_max _ _ _ _ X), N.eqb_refl. cbn [negb rbind r_span]. now rewrite N.eqb_refl.
  - pose proof (rf_rb _ _ _ _ _ F) as X. pose proof (rb_cs _ _ _ _ X) as XC.
    unfold r_end, r_succ. rewrite (rb_max _ _ _ _ X). destruct (N.eqb_spec i (mx b)) as [->|_]; [lia|]. cbn [negb].
    destruct (next_spec hash keq q Hq b t X (S (length (r_ctrls _ _ t))) i Hi) as (j & EJ & Hj & _).
    { pose proof (cs_clen _ _ _ _ _ XC). lia. }
    rewrite EJ. cbn [rbind r_span]. unfold r_succ. rewrite (rb_max _ _ _ _ X).
    destruct (N.eqb_spec i j) as [->|_]; [lia|]. unfold r_deref. rewrite Ei. cbn [rbind]. rewrite EJ. cbn [rbind].
    assert (HN : forall n, r_span K V n t j j = Ok []) by (intros [|n]; cbn [r_span]; now rewrite N.eqb_refl).
    rewrite HN. reflexivity.
Qed.

Lemma r_load_spec q (t : rmap K V) m : q = 1 \/ q = 2 -> r_reach K V hash keq q t m -> r_alloc _ _ t = true ->
  let (n, d) := r_load K V t in n = N.of_nat (length m) /\ q * n <= d /\ 0 < d.
Proof.
  intros Hq R HA. destruct (reach_inv hash keq LW q t m Hq R) as [[_ [X|[b F]]] P];
    [rewrite (re_alloc _ X) in HA; discriminate|].
  unfold r_load. rewrite (rb_slot_capacity _ _ _ _ (rf_rb _ _ _ _ _ F)), (Permutation_length P).
  pose proof (rf_fill _ _ _ _ _ F). pose proof (pow2_pos b).
  unfold content. split; [apply (rb_size _ _ _ _ (rf_rb _ _ _ _ _ F))|]. auto.
Qed.

End Robin.
