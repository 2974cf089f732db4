(** The robin16 map after reserve: insertions that need no storage. *)
From Coq Require Import NArith ZArith List Bool Lia Permutation.
From Coq Require Import ZifyBool ZifyNat ZifyN.
From Verif Require Import Base BaseFacts BitsModel BitsFacts GroupModel TableInv TableModel MapSpec MapFacts
  HashModel Flat16Model Flat16Spec Flat16Calls RobinFacts RobinOps Robin16Model Robin16Spec Robin16Ring Robin16Scan
  Robin16Facts Robin16Moves Robin16Ops Robin16Refine ReserveSpec.
Import ListNotations.
Open Scope N_scope.

Section Reserve.

Context {K V : Type} (hash : K -> N) (keq : K -> K -> bool) (LW : tame hash keq) (wide trivial : bool).

Notation qmap := (qmap K V).
Notation cells := (list (option (N * (K * V)))).
Notation hq := (hq (V := V) hash).
Notation good := (good hash keq trivial).
Notation roomy b := (roomy hq (2 ^ b) 128).
Notation built := (q_built K V hash keq wide trivial).
Notation all_put := (all_put K V keq).
Notation refused := (inserts K V no_alloc2).
Notation G2 X := (g_b2 _ _ _ _ _ _ X).
Notation G44 X := (g_b44 _ _ _ _ _ _ X).
Notation GS X := (g_size _ _ _ _ _ _ X).

Lemma quiet_prepare alloc t A b k fuel : good b t A ->
  16 <= 2 ^ b \/ q_tag K hash k <> 0 -> has K V keq k (ents A) = false ->
  q_size _ _ t < q_thr _ _ t ->
  exists n, q_prepare K V hash keq wide trivial (S fuel) alloc k t
      = Ret t ((hash k mod 2 ^ b + n) mod 2 ^ b, n mod 2 ^ b, false) /\ stopat (2 ^ b) A (hash k mod 2 ^ b) n.
Proof.
  intros X Hs Hh HT. cbn [q_prepare].
  destruct (look_spec hash keq LW wide trivial b t A k 4 X Hs (or_intror eq_refl))
    as [(i & d & kv & _ & _ & _ & _ & Hin & Hk)|(n & -> & St & _)];
    [exfalso; rewrite has_false in Hh; rewrite (Hh kv Hin) in Hk; discriminate|].
  unfold q_need_grow. destruct (N.leb_spec (q_thr _ _ t) (q_size _ _ t)) as [Hge|Hlt]; [lia|].
  exists n. split; auto.
Qed.

(** An insertion below the threshold. *)
Lemma quiet_new alloc t A b k v fuel : good b t A -> mlf_ok t ->
  16 <= 2 ^ b \/ q_tag K hash k <> 0 -> has K V keq k (ents A) = false ->
  q_size _ _ t < q_thr _ _ t -> roomy b ((k, v) :: ents A) ->
  exists t' i A', q_emplace K V hash keq wide trivial (S fuel) alloc false k v t = Ret t' (i, true)
     /\ good b t' A' /\ mlf_ok t' /\ Permutation (ents A') ((k, v) :: ents A)
     /\ geti (q_slots _ _ t') i = Some (Some (k, v)) /\ q_thr _ _ t' = q_thr _ _ t.
Proof.
  intros X M Hs Hh HT HR. cbn [q_emplace].
  destruct (quiet_prepare alloc t A b k 63 X Hs Hh HT) as (n & EP & St).
  change (S 63) with 64%nat in EP. rewrite EP. cbn [obind].
  assert (HL : N.of_nat (length (ents A)) < 2 ^ b).
  { rewrite <- (GS X). pose proof (g_thr _ _ _ _ _ _ X). lia. }
  destruct (insert_at_spec hash trivial b (G2 X) (b50 _ (G44 X)) false t A (hash k mod 2 ^ b) n (k, v))
    as (C & S & A' & E1 & E2 & E3 & E4); auto.
  - apply (g_st _ _ _ _ _ _ X).
  - apply N.mod_lt. apply N.pow_nonzero. lia.
  - rewrite E1. eexists _, _, A'. split; [reflexivity|].
    split; [|split; [exact M|split; [exact E4|split; [exact E2|reflexivity]]]].
    apply (good_insert hash keq LW trivial b t A C S A' (k, v)); auto.
Qed.

(** An insertion of a key that is there. *)
Lemma quiet_old alloc t A b k v fuel : good b t A -> 16 <= 2 ^ b \/ q_tag K hash k <> 0 ->
  has K V keq k (ents A) = true ->
  exists i kv, q_emplace K V hash keq wide trivial (S fuel) alloc false k v t = Ret t (i, false)
    /\ geti (q_slots _ _ t) i = Some (Some kv).
Proof.
  intros X Hs Hh. cbn [q_emplace].
  destruct (look_spec hash keq LW wide trivial b t A k 4 X Hs (or_intror eq_refl))
    as [(i & d & kv & E & Hi & Ha & Hsl & Hin & Hk)|(n & _ & _ & E)]; [|congruence].
  rewrite (prepare_old _ _ _ _ _ _ _ _ _ E) by lia. cbn [obind]. unfold q_read. rewrite Hsl. eauto.
Qed.

Lemma put_cons k v (m : list (K * V)) : has K V keq k m = false -> put_new K V keq k v m = (k, v) :: m.
Proof. intros H. unfold put_new. now rewrite H. Qed.

Lemma spread_put c e m : q_spread K V hash c (put_new K V keq (fst e) (snd e) m) -> q_spread K V hash c m.
Proof.
  unfold put_new. destruct (has _ _ _ _ m); auto. intros H a n H1 H2 H3.
  specialize (H a n H1 H2 H3). unfold q_wanted in *. cbn [filter] in H.
  destruct (_ <? n) in H; cbn [length] in H; lia.
Qed.

Lemma spread_puts c l : forall m, q_spread K V hash c (all_put l m) -> q_spread K V hash c m.
Proof.
  induction l as [|e l IH]; intros m H; auto. apply (spread_put c e). now apply IH.
Qed.

Lemma quiet_step alloc t A b k v l m fuel : good b t A -> mlf_ok t -> Permutation (ents A) m ->
  16 <= 2 ^ b \/ q_tag K hash k <> 0 ->
  q_size _ _ t + N.succ (N.of_nat (length l)) <= q_thr _ _ t ->
  q_spread K V hash (2 ^ b) (all_put l (put_new K V keq k v m)) ->
  exists t1 r A1, q_ins K V (q_emplace K V hash keq wide trivial (S fuel) alloc false k v t) = Ret t1 r
        /\ good b t1 A1 /\ mlf_ok t1 /\ Permutation (ents A1) (put_new K V keq k v m)
        /\ q_size _ _ t1 + N.of_nat (length l) <= q_thr _ _ t1.
Proof.
  intros X M P He HT HR.
  destruct (has K V keq k (ents A)) eqn:Hh.
  - destruct (quiet_old alloc t A b k v fuel X He Hh) as (i & kv & E & Hi).
    rewrite E. cbn [q_ins obind]. unfold q_deref, q_read. rewrite Hi. cbn [q_lift].
    eexists t, _, A. split; [reflexivity|]. split; auto. split; auto. split.
    + unfold put_new. rewrite <- (has_perm _ _ _ _ P), Hh. exact P.
    + lia.
  - assert (EQ : put_new K V keq k v m = (k, v) :: m).
    { apply put_cons. rewrite <- (has_perm _ _ _ _ P). exact Hh. }
    destruct (quiet_new alloc t A b k v fuel X M He Hh) as (t1 & i & A1 & E & X1 & M1 & P1 & Hi & HT1).
    + lia.
    + apply (roomy_perm hash b _ (put_new K V keq k v m)).
      * rewrite EQ. constructor. now symmetry.
      * apply spread_roomy. now apply (spread_puts _ l).
    + rewrite E. cbn [q_ins obind]. unfold q_deref, q_read. rewrite Hi. cbn [q_lift].
      eexists t1, _, A1. split; [reflexivity|]. split; auto. split; auto. split.
      * rewrite EQ, P1. now constructor.
      * rewrite HT1, (GS X1), (Permutation_length P1). cbn [length].
        rewrite (GS X) in HT. lia.
Qed.

Lemma run_insert (alloc : bool -> N -> bool) k v calls t :
  q_run K V hash keq wide trivial ((alloc, OInsert K V k v) :: calls) t
  = match q_ins K V (q_emplace K V hash keq wide trivial 64 alloc false k v t) with
    | Ret t' r => rbind (q_run K V hash keq wide trivial calls t') (fun '(rs, t'') => Ok (Some r :: rs, t''))
    | Throw t' => rbind (q_run K V hash keq wide trivial calls t') (fun '(rs, t'') => Ok (None :: rs, t''))
    | Fail e => Err e
    end.
Proof. reflexivity. Qed.

Lemma quiet_run b l : forall t A m, good b t A -> mlf_ok t -> Permutation (ents A) m ->
  (forall e, In e l -> 16 <= 2 ^ b \/ q_tag K hash (fst e) <> 0) ->
  q_size _ _ t + N.of_nat (length l) <= q_thr _ _ t -> q_spread K V hash (2 ^ b) (all_put l m) ->
  exists rs t' A', q_run K V hash keq wide trivial (refused l) t = Ok (rs, t')
    /\ Forall (fun x => x <> None) rs /\ good b t' A' /\ Permutation (ents A') (all_put l m).
Proof.
  induction l as [|e l IH]; intros t A m X M P Hs HT HR.
  - exists [], t, A. split; [reflexivity|]. auto.
  - cbn [length] in HT.
    change (all_put (e :: l) m) with (all_put l (put_new K V keq (fst e) (snd e) m)) in *.
    change (refused (e :: l)) with ((no_alloc2, OInsert K V (fst e) (snd e)) :: refused l).
    pose proof (Hs e (or_introl eq_refl)) as He.
    destruct (quiet_step no_alloc2 t A b (fst e) (snd e) l m 63 X M P He ltac:(lia) HR)
      as (t1 & r & A1 & E & X1 & M1 & P1 & H1).
    change (S 63) with 64%nat in E.
    destruct (IH t1 A1 _ X1 M1 P1) as (rs & t' & A' & E2 & HR2 & X2 & P2); auto.
    { intros e' He'. apply Hs. now right. }
    rewrite run_insert, E, E2. cbn [rbind]. exists (Some r :: rs), t', A'. split; [reflexivity|].
    split; [constructor; [discriminate|exact HR2]|]. split; [exact X2|exact P2].
Qed.

Lemma create_fields alloc t cap t' : q_create K V alloc t cap = Ret t' tt ->
  q_mlf _ _ t' = q_mlf _ _ t.
Proof.
  unfold q_create. destruct (alloc true _); [|discriminate]. destruct (alloc false _); [|discriminate].
  intros E. injection E as <-. reflexivity.
Qed.

(** reserve(n) that changes the capacity. *)
Lemma reserve_changed alloc t A b n t' : good b t A -> mlf_ok t -> f_sane alloc -> q_fine K V hash (ents A) ->
  q_mlf _ _ t = 32768 -> q_rev _ _ t = 131072 -> n <= 2 ^ 43 ->
  q_rehash K V hash keq wide trivial alloc false n t = Ret t' tt -> q_cap _ _ t' <> q_cap _ _ t \/ q_cap _ _ t <= 2 * q_thr _ _ t ->
  exists b' A', good b' t' A' /\ mlf_ok t' /\ Permutation (ents A') (ents A) /\ n <= q_thr _ _ t'.
Proof.
  intros X M HA HF EM ER Hn E Hne. unfold q_rehash, q_rehash_impl in E.
  unfold q_min_require in E. rewrite ER in E. unfold qAmplify in E.
  change (2 ^ 43) with 8796093022208 in Hn.
  rewrite wmul_small in E by (unfold two64; lia).
  replace (n * 131072 / 65536) with (2 * n) in E
    by (replace (n * 131072) with (2 * n * 65536) by lia; now rewrite N.div_mul).
  pose proof (size_bound hash keq trivial _ _ _ X) as HS. change (2 ^ 44) with 17592186044416 in HS.
  destruct (calc_spec (N.max (2 * n) (q_size _ _ t))) as (b' & EC & Hb2' & Hnb & Hb63).
  { change (2 ^ 63) with 9223372036854775808. lia. }
  rewrite EC in E. destruct (_ || _ || _) eqn:EB.
  2:{ injection E as <-. destruct Hne as [Hne|Hne]; [congruence|]. cbn [orb andb negb] in EB.
      exists b, A. split; auto. split; auto. split; auto. lia. }
  destruct (create_spec hash keq trivial alloc t b' HA Hb2' Hb63 M) as [(t1 & E1)|(nt & E1 & Y & M' & Z & HT)].
  { rewrite E1 in E. discriminate. }
  rewrite E1 in E.
  destruct (fill_spec hash keq LW wide trivial alloc t A b b' nt X HA Y Z) as (t2 & A' & E2 & G & P & E3 & E4 & E5).
  - rewrite <- (GS X). lia.
  - apply spread_roomy. apply HF; auto. rewrite <- (GS X). lia.
  - rewrite E2 in E. injection E as <-. exists b', A'. split; auto. split.
    { unfold mlf_ok in *. now rewrite E4, E5. }
    split; auto. rewrite E3, HT, (create_fields _ _ _ _ E1), EM.
    apply N.div_le_lower_bound; lia.
Qed.

Theorem robin16_reserve t m t' r alloc n l : built t m -> f_sane alloc ->
  q_mlf _ _ t = 32768 -> q_rev _ _ t = 131072 -> n <= 2 ^ 43 ->
  q_step K V hash keq wide trivial alloc (OReserve K V n) t = Ret t' r ->
  q_cap _ _ t' <> q_cap _ _ t \/ q_cap _ _ t <= 2 * q_thr _ _ t ->
  q_size _ _ t + N.of_nat (length l) <= n ->
  (forall e, In e l -> q_seen K V hash (fst e) t') ->
  q_spread K V hash (q_cap _ _ t') (all_put l m) ->
  exists rs t'' l', q_run K V hash keq wide trivial (refused l) t' = Ok (rs, t'')
    /\ Forall (fun x => x <> None) rs /\ q_cap _ _ t'' = q_cap _ _ t'
    /\ q_traverse K V wide t'' = Ok l' /\ Permutation l' (all_put l m).
Proof.
  intros B HA EM ER Hn E Hne Hl Hs HR.
  apply (built_inv hash keq LW) in B. destruct B as (M & HF & b & A & X & P).
  cbn [q_step] in E. unfold q_unit in E.
  destruct (q_rehash K V hash keq wide trivial alloc false n t) as [t1 []| |] eqn:E1; try discriminate.
  cbn [obind] in E. injection E as -> _.
  destruct (reserve_changed alloc t A b n t' X M HA) as (b' & A' & X' & M' & P' & HT); auto.
  { eapply fine_perm; [symmetry; exact P|exact HF]. }
  pose proof (good_cap _ _ _ _ _ _ X') as EC. rewrite EC in HR.
  destruct (quiet_run b' l t' A' m X' M') as (rs & t'' & A2 & E2 & HR2 & X2 & P2); auto.
  - now rewrite P'.
  - intros e He. specialize (Hs e He). unfold q_seen in Hs. now rewrite EC in Hs.
  - rewrite (GS X'), (Permutation_length P'), <- (GS X). lia.
  - exists rs, t'', (ents A2). split; auto. split; auto. split.
    { now rewrite EC, (good_cap _ _ _ _ _ _ X2). }
    split; auto.
    apply (traverse_spec hash wide trivial b'); [apply (G2 X2)|apply b50, (G44 X2)|apply (g_st _ _ _ _ _ _ X2)].
Qed.

End Reserve.
