(** The robin hood map: insertions after reserve(n) need no storage. *)
From Coq Require Import NArith ZArith List Bool Lia Permutation.
From Coq Require Import ZifyBool ZifyNat ZifyN.
From Verif Require Import Base BaseFacts BitsModel BitsFacts GroupModel TableModel TableInv
  MapSpec MapFacts FallbackFacts ReachModel RobinModel RobinSpec RobinFacts RobinOps RobinRefine
  WitnessModel WitnessFacts RobinWitness ReserveSpec.
Import ListNotations.
Open Scope N_scope.
Ltac Zify.zify_post_hook ::= Z.div_mod_to_equations.

Section Reserve.

Context {K V : Type} (hash : K -> N) (keq : K -> K -> bool) (LW : tame hash keq).

Notation rmap := (rmap K V).
Notation C_ := (r_ctrls K V).
Notation S_ := (r_slots K V).
Notation spread := (spread K V hash).
Notation spread_all := (spread_all K V hash).
Notation content := (@content K V).
Notation rfull := (rfull hash keq 2).
Notation rinv := (rinv hash keq 2).

(** An insertion below the growth limit. *)
Lemma quiet_new alloc (update : bool) b t k v fuel : rfull b t -> mlf_ok 2 t ->
  r_size _ _ t < r_thr _ _ t -> fresh_key keq (content t) k -> spread (2 ^ b) ((k, v) :: content t) ->
  exists t' i, r_emplace K V hash keq (S fuel) alloc update k v t = Ret t' (i, true)
    /\ rfull b t' /\ mlf_ok 2 t' /\ Permutation ((k, v) :: content t) (content t')
    /\ geti (S_ t') i = Some (Some (k, v)) /\ r_thr _ _ t' = r_thr _ _ t.
Proof.
  intros F M HT HF SP. cbn [r_emplace]. pose proof (rf_rb _ _ _ _ _ F) as X.
  destruct (search_spec hash keq LW b t true k X (rf_spread _ _ _ _ _ F))
    as [(i & kv & _ & A & B & D)|(n & A & Hn & St & _)].
  { exfalso. rewrite (HF kv) in D; [discriminate|]. apply In_elems. eauto. }
  rewrite A. cbv zeta.
  assert (EG : r_need_grow K V t || (r_max_distance K V t <=? n) = false).
  { apply orb_false_iff. split; [unfold r_need_grow; lia|].
    pose proof (maxd_gt hash keq 2 b t F). lia. }
  rewrite EG. cbn [obind].
  destruct (insert_at_spec hash keq LW false b t n (k, v) X SP HF Hn St) as (C' & S' & R1 & R2 & R3 & R4).
  cbv zeta in *. cbn [fst] in *. rewrite R1. eexists _, _. split; [reflexivity|].
  pose proof (rf_thr _ _ _ _ _ F) as HR.
  split; [|split; [|split; [exact R3|split; [exact R4|reflexivity]]]].
  - eapply rfull_insert; eauto. etransitivity; [|exact HR]. apply N.mul_le_mono_l. lia.
  - destruct M as (M1 & M2 & M3). unfold RobinOps.mlf_ok. rcbn. auto.
Qed.

Notation all_put := (all_put K V keq).
Notation refused := (inserts K V no_alloc).

Lemma spread_put c e m : spread c (put_new K V keq (fst e) (snd e) m) -> spread c m.
Proof. unfold put_new. destruct (has _ _ _ _ _); auto. apply spread_cons. Qed.

Lemma spread_puts c l : forall m, spread c (all_put l m) -> spread c m.
Proof. induction l as [|e l IH]; cbn; auto. intros m H. eapply spread_put, IH, H. Qed.

Lemma step_ins t k v : r_step K V hash keq no_alloc (OInsert K V k v) t
  = r_ins K V (r_emplace K V hash keq 64 no_alloc false k v t).
Proof. reflexivity. Qed.

Lemma quiet_run b l : forall t m, rfull b t -> mlf_ok 2 t -> Permutation m (content t) ->
  r_size _ _ t + N.of_nat (length l) <= r_thr _ _ t -> spread (2 ^ b) (all_put l m) ->
  exists rs t', r_run K V hash keq (refused l) t = Ok (rs, t') /\ Forall (fun x => x <> None) rs
    /\ rfull b t' /\ mlf_ok 2 t' /\ Permutation (all_put l m) (content t').
Proof.
  induction l as [|e l IH]; intros t m F M P HL HS.
  - exists [], t. cbn. auto.
  - cbn [length] in HL. 
    change (spread (2 ^ b) (all_put l (put_new K V keq (fst e) (snd e) m))) in HS.
    change (refused (e :: l)) with ((no_alloc, OInsert K V (fst e) (snd e)) :: refused l).
    cbn [r_run]. rewrite step_ins.
    assert (I : rinv t) by (split; auto; right; eauto).
    pose proof (rinv_dist hash keq 2 _ I) as HD.
    assert (HM : distinct_keys K V keq m).
    { eapply (distinct_perm hash keq LW); [symmetry; exact P|exact HD]. }
    assert (HH : has K V keq (fst e) m = has K V keq (fst e) (content t)).
    { pose proof (spec_step_perm hash keq LW (OContains K V (fst e)) m (content t) P HM) as [_ H].
      cbn in H. congruence. }
    assert (X : exists t1 r, r_ins K V (r_emplace K V hash keq 64 no_alloc false (fst e) (snd e) t) = Ret t1 r
      /\ rfull b t1 /\ mlf_ok 2 t1 /\ Permutation (put_new K V keq (fst e) (snd e) m) (content t1)
      /\ r_size _ _ t1 + N.of_nat (length l) <= r_thr _ _ t1).
    { unfold put_new. rewrite HH. destruct (has K V keq (fst e) (content t)) eqn:EH.
      - apply has_true in EH. destruct EH as (kv & Hin & Hk).
        destruct (emplace_old hash keq LW 2 no_alloc false t (fst e) (snd e) 63 kv I Hin Hk)
          as (t1 & i & R1 & R2 & R3 & R4).
        assert (ET : t1 = t).
        { revert R1. cbn [r_emplace].
          destruct (search_inv hash keq LW 2 t true (fst e) I) as [(j & kv' & b' & _ & A & F' & B & D)|(j & n & A & St & HF)].
          - rewrite A, B. intros E. now injection E.
          - exfalso. specialize (HF eq_refl kv Hin). rewrite (keq_sym_eq hash keq LW) in HF. congruence. }
        subst t1. change (S 63) with 64%nat in R1. rewrite R1. unfold r_ins. cbn [obind]. unfold r_deref.
        rewrite R4. cbn [r_lift]. eexists _, _. split; [reflexivity|]. split; auto. split; auto. split; auto. lia.
      - assert (HF : fresh_key keq (content t) (fst e)) by (apply (fresh_has hash keq LW); auto).
        destruct (quiet_new no_alloc false b t (fst e) (snd e) 63 F M) as (t1 & i & R1 & R2 & R3 & R4 & R5 & R6).
        + lia.
        + exact HF.
        + apply (spread_puts (2 ^ b) l) in HS. unfold put_new in HS. rewrite HH in HS.
          eapply spread_perm; [|exact HS]. now constructor.
        + change (S 63) with 64%nat in R1. rewrite R1. unfold r_ins. cbn [obind]. unfold r_deref.
          rewrite R5. cbn [r_lift]. eexists _, _. split; [reflexivity|]. split; auto. split; auto.
          split; [rewrite P; destruct e; exact R4|].
          rewrite R6, (rfull_size hash keq 2 _ _ R2), <- (Permutation_length R4). cbn [length].
          rewrite (rfull_size hash keq 2 _ _ F) in HL. lia. }
    destruct X as (t1 & r & E & F1 & M1 & P1 & H1). rewrite E.
    destruct (IH t1 _ F1 M1 P1 H1 HS) as (rs & t' & E2 & HR & F2 & M2 & P2).
    rewrite E2. cbn [rbind]. exists (Some r :: rs), t'. split; auto. split; auto.
    constructor; auto. discriminate.
Qed.

Lemma insert_all_thr l : forall t t', r_insert_all K V hash keq l t = Ok t' -> r_thr _ _ t' = r_thr _ _ t.
Proof.
  induction l as [|e l IH]; intros t t' E; cbn [r_insert_all] in E.
  - injection E as <-. reflexivity.
  - destruct (r_insert_no_grow K V hash keq t e) as [t1|] eqn:E1; [|discriminate]. cbn [rbind] in E.
    rewrite (IH _ _ E). unfold r_insert_no_grow in E1.
    destruct (r_search K V hash keq t false (fst e)) as [[i|i d]|]; try discriminate. cbn [rbind] in E1.
    destruct (slot_plus _ _) as [si|]; [|discriminate]. cbn [rbind] in E1.
    destruct (r_insert_at K V true t i si d e) as [[t2 ok]|] eqn:E2; [|discriminate]. cbn [rbind] in E1.
    injection E1 as <-. unfold r_insert_at, r_construct in E2.
    destruct (r_alloc K V t); [|discriminate]. destruct (geti (r_ctrls K V t) i) as [c|]; [|discriminate].
    destruct (c =? cEmpty).
    + destruct (geti (r_slots K V t) si) as [[?|]|]; try discriminate. cbn [rbind] in E2.
      injection E2 as <- <-. reflexivity.
    + destruct (i =? si); [|discriminate].
      destruct (r_insert_to_place K V true t i d) as [[[C' S'] ok']|]; [|discriminate]. cbn [rbind] in E2.
      rewrite orb_true_r in E2. destruct (geti S' i) as [[?|]|]; try discriminate. cbn [rbind] in E2.
      injection E2 as <- <-. reflexivity.
Qed.

(** reserve(n) with the default load factor that changes the capacity. *)
Lemma reserve_thr alloc t n t' b : sane alloc -> rinv t -> n <= 2 ^ 50 ->
  r_rehash K V hash keq alloc n t = Ret t' tt -> r_slot_capacity K V t' <> r_slot_capacity K V t \/ r_slot_capacity K V t <= 2 * r_thr _ _ t ->
  rfull b t' -> n <= r_thr _ _ t'.
Proof.
  intros HA I Hn E Hne F. unfold r_rehash, r_rehash_impl in E.
  pose proof (proj1 I) as (_ & _ & MQ). destruct (MQ eq_refl) as [ML MR].
  unfold r_min_require in E. rewrite MR in E.
  assert (E50 : 2 ^ 50 = 1125899906842624) by reflexivity.
  rewrite wmul_small in E by (unfold two64; lia).
  replace (n * 512 / 256) with (2 * n) in E by lia.
  pose proof (size_bound hash keq 2 (or_intror eq_refl) t I) as HZ.
  destruct (calc_capacity_spec (N.max (2 * n) (r_size K V t))) as (c & EC & Hc & Hnc & Hc63).
  { assert (2 ^ 54 <= 2 ^ 63) by (apply pow2_le; lia). assert (2 * 2 ^ 50 <= 2 ^ 63) by (vm_compute; discriminate). lia. }
  rewrite EC in E. destruct (_ || _ || _) eqn:EB.
  2:{ injection E as <-. destruct Hne as [Hne|Hne]; [congruence|]. cbn [orb andb negb] in EB. lia. }
  destruct (create_spec hash keq alloc t c HA Hc Hc63) as [(t1 & E1)|(t0 & E1 & X0 & _)].
  { rewrite E1 in E. discriminate. }
  rewrite E1 in E. cbn [obind] in E. rewrite (rinv_elements hash keq 2 t I) in E. cbn [rbind] in E.
  destruct (r_insert_all K V hash keq (RobinOps.content t) t0) as [t2|] eqn:E2; [|discriminate].
  injection E as <-. rewrite (insert_all_thr _ _ _ E2).
  unfold r_create in E1. destruct (alloc _); [|discriminate]. injection E1 as <-. rcbn. rewrite ML.
  pose proof (b_small c (rb_big _ _ _ _ X0)) as H54. pose proof (pow2_le c 54 H54) as P54.
  assert (E54 : 2 ^ 54 = 18014398509481984) by reflexivity.
  rewrite wmul_small by (unfold two64; lia).
  apply N.div_le_lower_bound; lia.
Qed.

Theorem robin_reserve t m t' r alloc n l : r_reach K V hash keq 2 t m -> sane alloc ->
  spread_all 2 m -> r_size _ _ t <= n -> n <= 2 ^ 50 ->
  r_step K V hash keq alloc (OReserve K V n) t = Ret t' r ->
  r_slot_capacity K V t' <> r_slot_capacity K V t \/ r_slot_capacity K V t <= 2 * r_thr _ _ t ->
  r_size _ _ t + N.of_nat (length l) <= n -> spread (r_slot_capacity K V t') (all_put l m) ->
  exists rs t'' l', r_run K V hash keq (refused l) t' = Ok (rs, t'') /\ Forall (fun x => x <> None) rs
    /\ r_slot_capacity K V t'' = r_slot_capacity K V t'
    /\ r_traverse K V t'' = Ok l' /\ Permutation l' (all_put l m).
Proof.
  intros R HA HP Hz Hn E Hne Hl HS.
  assert (R' : r_reach K V hash keq 2 t' m).
  { apply (reach_step K V hash keq 2 t m alloc (OReserve K V n) t' r); auto. cbn. auto. }
  destruct (reach_inv hash keq LW 2 t m (or_intror eq_refl) R) as [I P].
  destruct (reach_inv hash keq LW 2 t' m (or_intror eq_refl) R') as [[M' [E'|[b F']]] P'].
  - exfalso. cbn [r_step] in E.
    unfold r_unit in E. destruct (r_rehash K V hash keq alloc n t) as [t1 []| |] eqn:E1; try discriminate.
    cbn [obind] in E. injection E as -> _. unfold r_rehash, r_rehash_impl in E1.
    destruct (r_calc_capacity _) as [cap|] eqn:EQ; [|discriminate]. destruct (_ || _ || _) eqn:EB.
    + exfalso. destruct (r_create K V alloc t cap) as [t0 []| |] eqn:E2; try discriminate. cbn [obind] in E1.
      destruct (rbind _ _) as [t3|] eqn:E3; [|discriminate]. injection E1 as <-.
      destruct (r_elements K V t) as [l0|]; [|discriminate]. cbn [rbind] in E3.
      assert (A : r_alloc _ _ t3 = true).
      { assert (A0 : r_alloc _ _ t0 = true).
        { unfold r_create in E2. destruct (alloc _); [|discriminate]. injection E2 as <-. reflexivity. }
        clear - E3 A0. revert t0 A0 E3. induction l0 as [|e l0 IH]; intros t0 A0 E3; cbn [r_insert_all] in E3.
        - injection E3 as <-. exact A0.
        - destruct (r_insert_no_grow K V hash keq t0 e) as [t1|] eqn:E1; [|discriminate]. cbn [rbind] in E3.
          apply (IH t1); auto. unfold r_insert_no_grow in E1.
          destruct (r_search K V hash keq t0 false (fst e)) as [[i|i d]|]; try discriminate. cbn [rbind] in E1.
          destruct (slot_plus _ _) as [si|]; [|discriminate]. cbn [rbind] in E1.
          destruct (r_insert_at K V true t0 i si d e) as [[t2 ok]|] eqn:E2; [|discriminate]. cbn [rbind] in E1.
          injection E1 as <-. unfold r_insert_at, r_construct in E2. rewrite A0 in E2.
          destruct (geti (r_ctrls K V t0) i) as [c|]; [|discriminate].
          destruct (c =? cEmpty).
          + destruct (geti (r_slots K V t0) si) as [[?|]|]; try discriminate. cbn [rbind] in E2.
            injection E2 as <- <-. exact A0.
          + destruct (i =? si); [|discriminate].
            destruct (r_insert_to_place K V true t0 i d) as [[[C' S'] ok']|]; [|discriminate]. cbn [rbind] in E2.
            rewrite orb_true_r in E2. destruct (geti S' i) as [[?|]|]; try discriminate. cbn [rbind] in E2.
            injection E2 as <- <-. exact A0. }
      rewrite (re_alloc _ E') in A. discriminate.
    + injection E1 as <-. unfold r_slot_capacity in EB. rewrite (re_mask _ E') in EB. cbn [orb andb negb N.eqb] in EB.
      destruct (calc_capacity_spec (N.max (r_min_require K V t n) (r_size K V t))) as (c & EC & Hc & Hnc & Hc63).
      { pose proof (proj1 I) as (_ & _ & MQ). destruct (MQ eq_refl) as [_ MR]. unfold r_min_require. rewrite MR.
        assert (E50 : 2 ^ 50 = 1125899906842624) by reflexivity.
        rewrite wmul_small by (unfold two64; lia). change (2 ^ 63) with 9223372036854775808. lia. }
      rewrite EC in EQ. injection EQ as <-. pose proof (pow2_pos c). lia.
  - cbn [r_step] in E. unfold r_unit in E.
    destruct (r_rehash K V hash keq alloc n t) as [t1 []| |] eqn:E1; try discriminate.
    cbn [obind] in E. injection E as -> _.
    pose proof (reserve_thr alloc t n t' b HA I Hn E1 Hne F') as HT.
    rewrite (rb_slot_capacity _ _ _ _ (rf_rb _ _ _ _ _ F')) in HS.
    assert (ES : r_size _ _ t' = r_size _ _ t).
    { rewrite (rfull_size hash keq 2 _ _ F'), (rinv_size _ _ _ _ I).
      now rewrite <- (Permutation_length P'), <- (Permutation_length P). }
    destruct (quiet_run b l t' m F' M' P' ltac:(lia) HS) as (rs & t'' & E2 & HR & F2 & M2 & P2).
    exists rs, t'', (content t''). split; auto. split; auto. split.
    { now rewrite (rb_slot_capacity _ _ _ _ (rf_rb _ _ _ _ _ F2)), (rb_slot_capacity _ _ _ _ (rf_rb _ _ _ _ _ F')). }
    split; [|now symmetry]. apply (traverse_spec hash keq 2 (or_intror eq_refl)). split; auto. right. eauto.
Qed.

End Reserve.
