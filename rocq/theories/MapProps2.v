(** Further properties of the maps as a client sees them. *)
From Coq Require Import NArith ZArith List Bool Lia Permutation.
From Coq Require Import ZifyBool ZifyNat ZifyN.
From Verif Require Import Base BaseFacts BitsModel BitsFacts ProberModel ProberFacts GroupModel GroupFacts
  TableModel TableInv TableFind TableInsert TableLoops TableCap TableOps IterModel IterFacts
  CopyModel CopyFacts MapSpec MapFacts RunModel Refine Progress ReachModel ReachFacts MapProps
  TraceModel.
Import ListNotations.
Open Scope N_scope.
Ltac Zify.zify_post_hook ::= Z.div_mod_to_equations.

Lemma NoDup_map_in {A B} (f : A -> B) l :
  (forall a b, In a l -> In b l -> f a = f b -> a = b) -> NoDup l -> NoDup (map f l).
Proof.
  intros H ND. induction ND as [|x l Hx ND IH]; cbn [map]; constructor.
  - intros Hi. apply in_map_iff in Hi. destruct Hi as (y & Hy & Hin).
    apply H in Hy; [subst; auto|now right|now left].
  - apply IH. intros a b Ha Hb. apply H; now right.
Qed.

Section Props.

Context {K V : Type} (hash : K -> N) (keq : K -> K -> bool).
Context (LW : lawful hash keq).

Notation table := (table K V).
Notation content t := (elems (t_slots _ _ t)).

Section Generic.

Context (kd : kind) (L : klaws kd).
Notation Inv0 := (@TableInv.Inv0 K V hash keq kd L).
Notation kof := (@TableCap.kof K V kd).
Notation scap := (TableInv.scap kd).
Notation w := (kl_w kd L).
Notation step := (step K V hash keq kd).
Notation capacity := (capacity K V kd).

(** ** Insertions below the limit do not reallocate *)

Definition is_insert (o : op K V) : bool :=
  match o with OInsert _ _ _ _ | OAssign _ _ _ _ => true | _ => false end.

Definition roomy (k thr m : N) (t : table) : Prop :=
  Inv0 t /\ kof t k /\ pristine kd L (t_groups _ _ t) /\ t_thr _ _ t = thr
  /\ thr <= scap k /\ t_size _ _ t + m <= thr.

Lemma insert_roomy k thr m alloc o t : alloc_ok alloc -> is_insert o = true ->
  roomy k thr (m + 1) t -> exists t' r, step alloc o t = Ret t' r /\ roomy k thr m t'.
Proof.
  intros HA Ho (I & HKf & Hp & Ht & Htc & Hs).
  assert (H : forall (upd : bool) key v, exists t' r,
     observe_ins K V (emplace_impl K V hash keq kd alloc upd true t key v) = Ret t' r /\ roomy k thr m t').
  { intros upd key v. unfold observe_ins.
    destruct (emplace_spec hash keq kd L LW alloc upd t key v HA I)
      as [(gi & p & kv & Ef & Hpp & Ha & Hsl & Hk & E)|(Habs & Ef & [(Hn & E)|(t1 & kk & HR & Hk & I1 & H)])].
    - rewrite E. cbn [obind fst snd]. destruct upd.
      + rewrite (entry_at_seti t _ (fst kv, v) _ Hsl) by reflexivity. eexists _, _. split; [reflexivity|].
        split; [eapply set_slot_Inv0; eauto|]. split; [|split; [exact Hp|cbn; split; [auto|split; [auto|lia]]]].
        apply (kof_geom kd t); auto.
        * repeat split.
        * cbn [set_slot t_slots]. pose proof (seti_length (t_slots _ _ t) (slot_index kd gi p) (Some (fst kv, v))). lia.
      + unfold entry_at. rewrite Hsl. eexists _, _. split; [reflexivity|].
        repeat (split; auto). lia.
    - exfalso. unfold need_grow in Hn. lia.
    - destruct HR as [[-> Hng]|(Hn & _)]; [|exfalso; unfold need_grow in Hn; lia].
      destruct H as [(E & _ & Hfull)|(t2 & i & E & I2 & SG & Hf & Hsl2 & Hs2 & Ht2 & Hp2)].
      + exfalso. assert (kk = k) by (eapply kof_inj; eauto). subst kk. lia.
      + rewrite E. cbn [obind fst snd]. rewrite (entry_at_seti t i (key, v) _ Hf t2 Hsl2).
        eexists _, _. split; [reflexivity|]. split; auto. split; [|split; [now apply Hp2|]].
        * apply (kof_geom kd t); auto. rewrite Hsl2. pose proof (seti_length (t_slots _ _ t) i (Some (key, v))). lia.
        * destruct Ht2 as [Ht2|(_ & _ & Hnp)]; [|contradiction]. split; [lia|]. split; auto. lia. }
  destruct o; try discriminate; cbn [TableModel.step]; apply H.
Qed.

Lemma run_roomy k thr : forall calls m t,
  Forall (fun c => alloc_ok (fst c) /\ is_insert (snd c) = true) calls ->
  (N.of_nat (length calls) <= m) -> roomy k thr m t ->
  exists outs t', run K V hash keq kd calls t = Ok (outs, t') /\ capacity t' = capacity t
    /\ Forall (fun r => threw r = false) outs.
Proof.
  induction calls as [|[alloc o] calls IH]; intros m t HF Hl HR.
  - exists [], t. cbn. auto.
  - inversion HF as [|x y [HA Ho] HF']; subst. cbn [fst snd length] in *.
    replace m with (m - 1 + 1) in HR by lia.
    destruct (insert_roomy k thr (m - 1) alloc o t HA Ho HR) as (t1 & r & E & HR1).
    destruct (IH (m - 1) t1 HF' ltac:(lia) HR1) as (outs & t' & E' & Hc & Hth).
    exists (Some r :: outs), t'. cbn [run]. rewrite E, E'. cbn [rbind]. split; auto. split.
    + rewrite Hc. destruct HR as (_ & HK1 & _). destruct HR1 as (_ & HK2 & _).
      now rewrite (capacity_kof kd L _ _ HK1), (capacity_kof kd L _ _ HK2).
    + constructor; auto.
Qed.

(** reserve(n) on a map without storage. *)
Lemma reserve_new alloc n t r : alloc_ok alloc -> n <> 0 -> n < 2 ^ 56 ->
  step alloc (OReserve _ _ n) (new_map K V kd) = Ret t r ->
  exists c, w + 1 <= c /\ n * 256 / 224 <= 2 ^ c
    /\ roomy (c - w) (thr_of kd 224 (c - w)) (thr_of kd 224 (c - w)) t.
Proof.
  intros HA Hn0 Hn E. cbn [TableModel.step] in E. unfold reserve in E.
  replace (n =? 0) with false in E by lia. cbn [negb] in E.
  set (t0 := new_map K V kd) in *.
  assert (I0 : Inv0 t0) by apply default_Inv0.
  assert (Ef : shrink_to_fit_capacity K V t0 n = n * 256 / 224).
  { unfold shrink_to_fit_capacity, kAmplify. rewrite wmul_small; auto.
    change (2 ^ 56) with 72057594037927936 in Hn. rewrite two64_eq. lia. }
  rewrite Ef in E.
  assert (Hle : n * 256 / 224 <= 2 ^ 63).
  { change (2 ^ 56) with 72057594037927936 in Hn. change (2 ^ 63) with 9223372036854775808. lia. }
  destruct (rehash_impl_spec hash keq kd L LW alloc false t0 _ HA I0 Hle)
    as (c & Ec & Hc & Hnc & Hsc & Hlo & H). cbv zeta in H. exists c. split; [lia|]. split; auto.
  assert (Hgo : ctrl_capacity K V kd t0 < 2 ^ c).
  { unfold ctrl_capacity. cbn. pose proof (kl_empty_cap _ L) as HE.
    assert (2 ^ (w + 1) <= 2 ^ c) by (apply pow2_le; lia). rewrite <- (kMin_pow kd L) in H0.
    unfold kMinCapacity in H0. lia. }
  destruct H as [[Hg _]|[(_ & _ & H)|(_ & _ & [(H1 & nt & H & R)|(H1 & H)])]].
  - lia.
  - rewrite H in E. discriminate.
  - rewrite H in E. cbn [obind] in E. injection E as <- <-.
    destruct R as (I' & HK' & HP & Hs & Ht & Hm & Hpr).
    split; auto. split; auto. split; auto. split; [rewrite Ht; reflexivity|].
    split; [apply thr_of_le; lia|]. rewrite Hs. cbn [t0 new_map t_size]. idtac.
    change (t_size K V t0) with 0. lia.
  - rewrite H in E. discriminate.
Qed.

(** ** Enough capacity *)

Lemma reserve_capacity alloc n t t' r : alloc_ok alloc -> Inv0 t -> n <> 0 -> n < 2 ^ 56 ->
  step alloc (OReserve _ _ n) t = Ret t' r -> n <= capacity t'.
Proof.
  intros HA I Hn0 Hn E. cbn [TableModel.step] in E. unfold reserve in E.
  replace (n =? 0) with false in E by lia. cbn [negb] in E.
  pose proof (iv_mlf _ _ _ _ _ I) as Hm.
  assert (Ef : shrink_to_fit_capacity K V t n = n * 256 / t_mlf _ _ t).
  { unfold shrink_to_fit_capacity, kAmplify. rewrite wmul_small; auto.
    change (2 ^ 56) with 72057594037927936 in Hn. rewrite two64_eq. lia. }
  pose proof (fit_le hash keq kd L t n I) as Hfl.
  assert (2 ^ 57 <= 2 ^ 63) by (apply pow2_le; lia).
  rewrite Ef in *.
  destruct (rehash_impl_spec hash keq kd L LW alloc false t (n * 256 / t_mlf _ _ t) HA I ltac:(lia))
    as (c & Ec & Hc & Hnc & Hsc & Hlo & H1). cbv zeta in H1.
  pose proof (fit_scap kd L n (t_mlf _ _ t) c Hm ltac:(lia) Hnc) as Hfit.
  destruct H1 as [[Hg H1]|[(_ & _ & H1)|(_ & _ & [(H2 & nt & H1 & R)|(H2 & H1)])]];
    rewrite H1 in E; cbn [obind] in E; try discriminate; injection E as <- <-.
  - destruct (t_alloc _ _ t) eqn:Ea.
    + destruct (Inv0_kof hash keq kd L t I Ea) as [k0 Hk0].
      rewrite (ctrl_capacity_kof kd L _ _ Hk0) in Hg. rewrite (capacity_kof kd L _ _ Hk0).
      assert (c <= k0 + w).
      { destruct (N.le_gt_cases c (k0 + w)) as [|Hlt]; auto.
        assert (2 ^ (k0 + w) < 2 ^ c) by (apply pow2_lt; lia). lia. }
      pose proof (scap_mono kd (c - w) k0 ltac:(lia)). lia.
    + unfold ctrl_capacity in Hg. rewrite Ea in Hg. pose proof (kl_empty_cap _ L) as HE.
      assert (2 ^ (w + 1) <= 2 ^ c) by (apply pow2_le; lia). rewrite <- (kMin_pow kd L) in H0.
      unfold kMinCapacity in H0. lia.
  - destruct R as (_ & HK' & _). now rewrite (capacity_kof kd L _ _ HK').
Qed.

(** ** max_load_factor always reallocates *)

Lemma capacity_lt t t' : Inv0 t -> Inv0 t' -> ctrl_capacity K V kd t < ctrl_capacity K V kd t' ->
  t_alloc _ _ t' = true -> capacity t < capacity t'.
Proof.
  intros I I' H Ha'. destruct (Inv0_kof hash keq kd L t' I' Ha') as [k' Hk'].
  rewrite (capacity_kof kd L _ _ Hk'). destruct (t_alloc _ _ t) eqn:Ea.
  - destruct (Inv0_kof hash keq kd L t I Ea) as [k Hk]. rewrite (capacity_kof kd L _ _ Hk).
    rewrite (ctrl_capacity_kof kd L _ _ Hk), (ctrl_capacity_kof kd L _ _ Hk') in H.
    assert (k + 1 <= k').
    { destruct (N.le_gt_cases (k + 1) k') as [|Hlt]; auto.
      assert (2 ^ (k' + w) <= 2 ^ (k + w)) by (apply pow2_le; lia). lia. }
    pose proof (scap_lt_succ kd L k). pose proof (scap_mono kd (k + 1) k' ltac:(lia)). lia.
  - unfold TableModel.capacity. rewrite Ea. pose proof (scap_pos kd L k') as Hp.
    destruct Hk' as (_ & _ & Hk1 & _). now apply Hp.
Qed.

Lemma mlf_grows alloc m t t' r : alloc_ok alloc -> Inv0 t ->
  step alloc (OMlf _ _ m) t = Ret t' r -> capacity t < capacity t'.
Proof.
  intros HA I E. cbn [TableModel.step] in E.
  destruct (mlf_rehash hash keq kd L alloc m t HA I) as (cap & Em & Hcap). rewrite Em in E.
  pose proof (clamp_range m) as Hc. pose proof (set_mlf_Inv0 hash keq kd L t _ I Hc) as I1.
  set (t1 := set_mlf K V t (clamp m)) in *. unfold rehash in E.
  pose proof (fit_le hash keq kd L t1 (t_size _ _ t1) I1) as Hfl.
  assert (H57 : 2 ^ 57 <= 2 ^ 63) by (apply pow2_le; lia).
  assert (H58 : 2 ^ 58 <= 2 ^ 63) by (apply pow2_le; lia).
  set (n' := N.max (shrink_to_fit_capacity K V t1 (t_size _ _ t1)) cap) in *.
  replace (n' =? 0) with false in E by lia. cbn [negb] in E.
  destruct (rehash_impl_spec hash keq kd L LW alloc (kd_rehash_shrinks kd) t1 n' HA I1 ltac:(lia))
    as (c & Ec & Hcc & Hnc & Hsc & Hlo & H1). cbv zeta in H1.
  assert (Ecc : ctrl_capacity K V kd t1 = ctrl_capacity K V kd t) by reflexivity.
  destruct H1 as [[Hg H1]|[(_ & _ & H1)|(_ & _ & [(H2 & nt & H1 & R)|(H2 & H1)])]];
    rewrite H1 in E; cbn [obind] in E; try discriminate; injection E as <- <-.
  - exfalso. destruct (kd_rehash_shrinks kd); [|lia].
    rewrite negb_false_iff in Hg. apply N.eqb_eq in Hg. lia.
  - destruct R as (I' & HK' & _). apply (capacity_lt t nt I I').
    + rewrite (ctrl_capacity_kof kd L _ _ HK'). replace (c - w + w) with c by lia. lia.
    + apply HK'.
Qed.

(** ** Groups read by a lookup *)

Lemma find_groups_spec k t key : N.of_nat (length (t_groups _ _ t)) = 2 ^ k -> k <= 51 ->
  t_gmask _ _ t = 2 ^ k - 1 -> forall fuel j, j < 2 ^ k ->
  exists n, j + n <= 2 ^ k /\
  find_groups K V keq kd fuel t key (kd_reduce kd (hash key)) (prober_at k (home k (hash key)) j)
  = map (probe k (home k (hash key))) (map (N.add j) (seqN n)).
Proof.
  intros Hl Hk Hm. induction fuel as [|f IH]; intros j Hj.
  - exists 0. split; [lia|]. reflexivity.
  - cbn [find_groups]. unfold prober_at at 1. cbn [pr_index].
    assert (H1 : exists n, j + n <= 2 ^ k /\
      map (probe k (home k (hash key))) (map (N.add j) (seqN n)) = [probe k (home k (hash key)) j]).
    { exists 1. split; [lia|]. change (seqN 1) with [0]. cbn [map]. now rewrite N.add_0_r. }
    destruct H1 as (n1 & Hn1 & E1).
    destruct (geti (t_groups _ _ t) (pr_index (prober_at k (home k (hash key)) j))) as [g|].
    2:{ exists n1. auto. }
    destruct (scan_keys _ _ _ _ _ _ _ _) as [[p|]|e]; try (exists n1; now auto).
    destruct (negb _); [exists n1; now auto|].
    rewrite Hm, next_bucket_at; [|lia|].
    2:{ pose proof (pow_small k Hk). rewrite two64_eq. lia. }
    destruct (N.leb_spec (j + 1) (2 ^ k - 1)); [|exists n1; now auto].
    destruct (IH (j + 1) ltac:(lia)) as (n & Hn & En). exists (n + 1). split; [lia|].
    rewrite En, seqN_succ. cbn [map]. rewrite N.add_0_r. f_equal. f_equal.
    rewrite !map_map. apply map_ext. intros. lia.
Qed.

Lemma groups_read_spec fuel t key : Inv0 t ->
  NoDup (groups_read K V hash keq kd fuel t key)
  /\ N.of_nat (length (groups_read K V hash keq kd fuel t key)) <= group_capacity K V t
  /\ Forall (fun gi => gi < N.of_nat (length (t_groups _ _ t))) (groups_read K V hash keq kd fuel t key).
Proof.
  intros I. unfold groups_read, ctrl_for_hash, index_for_hash. destruct (t_alloc _ _ t) eqn:Ea.
  - destruct (iv_alloc _ _ _ _ _ I Ea) as (k & G & Hm & Hs). rewrite Hs.
    fold (home k (hash key)).
    pose proof (gv_big _ _ _ _ _ _ _ G) as Hbig. apply (k_small kd L) in Hbig.
    pose proof (gv_k _ _ _ _ _ _ _ G) as Hk1.
    pose proof (home_lt k (hash key) Hk1 ltac:(lia) (lw_hash _ _ LW key)) as Hh.
    rewrite (prober_init_at k) by auto. pose proof (pow2_pos k).
    destruct (find_groups_spec k t key (gv_len _ _ _ _ _ _ _ G) Hbig Hm fuel 0 ltac:(lia)) as (n & Hn & E).
    rewrite E, map_map. rewrite !map_length.
    split; [|split].
    + apply NoDup_map_in; [|apply seqN_NoDup].
      intros a b Ha Hb Hab. rewrite !N.add_0_l in Hab. apply seqN_In in Ha, Hb.
      apply (probe_inj k (home k (hash key))); auto; lia.
    + unfold seqN. rewrite map_length, seq_length. unfold group_capacity. rewrite Hm.
      pose proof (pow_small k Hbig). rewrite wadd_small by (rewrite two64_eq; lia). lia.
    + apply Forall_forall. intros x Hx. apply in_map_iff in Hx. destruct Hx as (y & <- & _).
      rewrite (gv_len _ _ _ _ _ _ _ G). apply probe_lt.
  - rewrite (iv_unalloc _ _ _ _ _ I Ea). destruct (kl_static _ L) as (g & Eg & Hv & Hc & Ho).
    cbn [empty_table t_shift t_gmask t_groups]. change (wadd 0 1) with 1.
    assert (Hi : N.shiftr (hash key) 63 < 2).
    { destruct (shiftr63_cases (hash key) (lw_hash _ _ LW key)) as [->| ->]; lia. }
    assert (H1 : exists l, find_groups K V keq kd fuel (empty_table K V kd (t_mlf _ _ t)) key
        (kd_reduce kd (hash key)) (prober_init (N.shiftr (hash key) 63)) = l
        /\ (l = [] \/ l = [N.shiftr (hash key) 63])).
    { eexists. split; [reflexivity|]. destruct fuel; [now left|right].
      cbn [find_groups empty_table t_groups t_slots t_gmask]. unfold prober_init at 1. cbn [pr_index]. f_equal.
      destruct (geti _ _) as [g'|]; auto.
      destruct (scan_keys _ _ _ _ _ _ _ _) as [[p|]|e]; auto.
      destruct (negb _); auto. }
    destruct H1 as (l & -> & Hl). change (group_capacity K V (empty_table K V kd (t_mlf K V t))) with 1.
    rewrite Eg. cbn [length].
    destruct Hl as [->| ->]; (split; [repeat constructor; cbn; tauto|split; [cbn; lia|]]).
    + constructor.
    + constructor; [|constructor]. change (N.of_nat 2) with 2. exact Hi.
Qed.

Lemma find_loop_mono key t : forall f1 f2 ch pr, (f1 <= f2)%nat ->
  find_loop K V keq kd f1 t key ch pr <> Err ELoop ->
  find_loop K V keq kd f2 t key ch pr = find_loop K V keq kd f1 t key ch pr.
Proof.
  induction f1 as [|f1 IH]; intros f2 ch pr Hf Hr; [now cbn in Hr|].
  destruct f2 as [|f2]; [lia|]. cbn [find_loop] in *.
  destruct (geti _ _) as [g|]; auto.
  destruct (scan_keys _ _ _ _ _ _ _ _) as [[p|]|e]; auto. cbn [rbind] in *.
  destruct (negb _); auto. destruct (next_bucket _ _) as [pr' more]. destruct more; auto.
  apply IH; auto. lia.
Qed.

(** ** Home group *)

Lemma home_exists t h : Inv0 t -> h < two64 ->
  index_for_hash K V t h < N.of_nat (length (t_groups _ _ t)).
Proof.
  intros I Hh. unfold index_for_hash. destruct (t_alloc _ _ t) eqn:Ea.
  - destruct (iv_alloc _ _ _ _ _ I Ea) as (k & G & Hm & Hs). rewrite Hs, (gv_len _ _ _ _ _ _ _ G).
    pose proof (gv_big _ _ _ _ _ _ _ G) as Hbig. apply (k_small kd L) in Hbig.
    apply home_lt; auto; [apply (gv_k _ _ _ _ _ _ _ G)|lia].
  - rewrite (iv_unalloc _ _ _ _ _ I Ea). destruct (kl_static _ L) as (g & Eg & _).
    cbn [empty_table t_shift t_groups]. rewrite Eg. change (N.of_nat (length [g; g])) with 2.
    destruct (shiftr63_cases h Hh) as [->| ->]; lia.
Qed.

(** The code of a live slot. *)
Lemma stored_code t i e : Inv0 t -> geti (t_slots _ _ t) i = Some (Some e) ->
  exists g, geti (t_groups _ _ t) (i / kd_S kd) = Some g
    /\ kl_code kd L g (i mod kd_S kd) = kd_reduce kd (hash (fst e)).
Proof.
  intros I Hi.
  assert (Ha : t_alloc _ _ t = true).
  { destruct (t_alloc _ _ t) eqn:E; auto. rewrite (iv_unalloc _ _ _ _ _ I E) in Hi.
    unfold geti in Hi. cbn in Hi. destruct (N.to_nat i); discriminate. }
  destruct (iv_alloc _ _ _ _ _ I Ha) as (k & G & _).
  destruct (slot_group _ _ _ _ _ _ _ _ _ G Hi) as (g & Hg & Hgi & Hp & Es & Hsent).
  exists g. split; auto. apply (gv_some _ _ _ _ _ _ _ G _ _ _ _ Hg Hp). now rewrite Es.
Qed.

End Generic.

(** ** Reserving for n insertions *)

Lemma thr16_enough n k : 1 <= k -> n * 256 / 224 <= 2 ^ (k + 4) -> n <= thr_of k16 224 k.
Proof.
  intros Hk H. unfold thr_of, kMinCapacity, TableInv.scap. cbn [k16 kd_W kd_S kd_sent].
  rewrite N.pow_add_r in H. change (2 ^ 4) with 16 in H. pose proof (pow2_pos k).
  change (16 * 2) with 32. destruct (N.ltb_spec 32 (2 ^ k * 16)) as [Hc|Hc].
  - assert (exists q, 2 ^ k = 4 * q) as [q Hq].
    { exists (2 ^ (k - 2)). change 4 with (2 ^ 2). rewrite <- N.pow_add_r. f_equal.
      destruct (N.le_gt_cases 2 k) as [|Hlt]; [lia|]. exfalso.
      assert (k = 1) by lia. subst k. change (2 ^ 1) with 2 in Hc. lia. }
    rewrite Hq in *. lia.
  - assert (2 ^ 1 <= 2 ^ k) by (apply pow2_le; lia). change (2 ^ 1) with 2 in *. lia.
Qed.

Lemma thr15_enough n m k : 1 <= k -> n * 256 / 224 <= 2 ^ (k + 4) -> 16 * (m + 2) <= 15 * n ->
  m <= thr_of k15 224 k.
Proof.
  intros Hk H Hm. unfold thr_of, kMinCapacity, TableInv.scap. cbn [k15 kd_W kd_S kd_sent].
  rewrite N.pow_add_r in H. change (2 ^ 4) with 16 in H. pose proof (pow2_pos k).
  change (16 * 2) with 32. destruct (N.ltb_spec 32 (2 ^ k * 15 - 1)) as [Hc|Hc]; lia.
Qed.

Lemma reserve_insert16 n alloc t r calls : sane alloc -> n <> 0 -> n < 2 ^ 56 ->
  step K V hash keq k16 alloc (OReserve _ _ n) (new_map K V k16) = Ret t r ->
  Forall (fun c => sane (fst c) /\ is_insert (snd c) = true) calls ->
  N.of_nat (length calls) <= n ->
  exists outs t', run K V hash keq k16 calls t = Ok (outs, t')
    /\ capacity K V k16 t' = capacity K V k16 t /\ Forall (fun x => threw x = false) outs.
Proof.
  intros HA H0 Hn E HF Hl.
  destruct (reserve_new k16 k16_laws alloc n t r HA H0 Hn E) as (c & Hc & Hcap & HR).
  change (kl_w k16 k16_laws) with 4 in *.
  apply (run_roomy k16 k16_laws (c - 4) (thr_of k16 224 (c - 4)) calls (thr_of k16 224 (c - 4))); auto.
  pose proof (thr16_enough n (c - 4) ltac:(lia)) as H. replace (c - 4 + 4) with c in H by lia.
  specialize (H Hcap). lia.
Qed.

Lemma reserve_insert15 n alloc t r calls : sane alloc -> n <> 0 -> n < 2 ^ 56 ->
  step K V hash keq k15 alloc (OReserve _ _ n) (new_map K V k15) = Ret t r ->
  Forall (fun c => sane (fst c) /\ is_insert (snd c) = true) calls ->
  16 * (N.of_nat (length calls) + 2) <= 15 * n ->
  exists outs t', run K V hash keq k15 calls t = Ok (outs, t')
    /\ capacity K V k15 t' = capacity K V k15 t /\ Forall (fun x => threw x = false) outs.
Proof.
  intros HA H0 Hn E HF Hl.
  destruct (reserve_new k15 k15_laws alloc n t r HA H0 Hn E) as (c & Hc & Hcap & HR).
  change (kl_w k15 k15_laws) with 4 in *.
  apply (run_roomy k15 k15_laws (c - 4) (thr_of k15 224 (c - 4)) calls (thr_of k15 224 (c - 4))); auto.
  pose proof (thr15_enough n (N.of_nat (length calls)) (c - 4) ltac:(lia)) as H.
  replace (c - 4 + 4) with c in H by lia. auto.
Qed.

(** ** Control bytes *)

Section Built.

Context (kd : kind) (HK : group_kind kd).
Notation built := (built K V hash keq kd).
Notation traverse := (traverse K V kd).
Notation lookup := (lookup K V hash keq kd).
Notation step := (step K V hash keq kd).
Notation capacity := (capacity K V kd).

(** ** Copies *)

Lemma built_copy_spec t t' alloc past : built t -> sane alloc ->
  copy_construct K V hash kd alloc past t = Ret t' tt ->
  (capacity t' <> capacity t \/ t_size _ _ t = 0) ->
  t_size _ _ t' = t_size _ _ t
  /\ exists l l', traverse past t = Ok l /\ traverse past t' = Ok l' /\ Permutation l' l.
Proof.
  intros B HA E Hor. destruct (kind_laws kd HK) as [L R].
  pose proof (built_Inv0 hash keq kd L LW t R B) as I.
  assert (B' : built t') by (eapply built_copy; eauto).
  rewrite (built_traverse hash keq LW kd HK t past B), (built_traverse hash keq LW kd HK t' past B').
  destruct (N.eq_dec (t_size _ _ t) 0) as [Hz|Hz].
  - unfold copy_construct in E. rewrite Hz in E. cbn in E. injection E as <-.
    split; [now rewrite Hz|]. eexists _, _. split; [reflexivity|]. split; [reflexivity|].
    rewrite (size0_content hash keq kd L t I Hz). cbn. constructor.
  - destruct (copy_construct_spec hash keq kd L LW alloc past t R HA I Hz)
      as (c & Hc & _ & [(_ & H)|[(Hne & t1 & H & I1 & HK1 & Hs & HP & _)|(He & t1 & H & Ha & Hg & Hsl & Hs & Hgm & Hrest)]]);
      rewrite H in E; try discriminate; injection E as <-.
    + split; auto. eexists _, _. eauto.
    + exfalso. destruct Hor as [Hne|]; [|lia]. apply Hne.
      assert (Hat : t_alloc _ _ t = true).
      { destruct (t_alloc _ _ t) eqn:Ea; auto. exfalso. apply Hz.
        now rewrite (iv_unalloc _ _ _ _ _ I Ea). }
      unfold TableModel.capacity, group_capacity. now rewrite Ha, Hat, Hgm.
Qed.

(** Copies of equal capacity look empty although lookups find the elements. *)
Lemma built_copy_equal t t' alloc past : built t -> sane alloc -> t_size _ _ t <> 0 ->
  copy_construct K V hash kd alloc past t = Ret t' tt -> capacity t' = capacity t ->
  t_size _ _ t' = 0 /\ traverse past t' = Ok []
  /\ forall k, lookup t' k = lookup t k.
Proof.
  intros B HA Hz E Hcap. destruct (kind_laws kd HK) as [L R].
  pose proof (built_Inv0 hash keq kd L LW t R B) as I.
  assert (Hat : t_alloc _ _ t = true).
  { destruct (t_alloc _ _ t) eqn:Ea; auto. exfalso. apply Hz.
    now rewrite (iv_unalloc _ _ _ _ _ I Ea). }
  destruct (copy_construct_spec hash keq kd L LW alloc past t R HA I Hz)
    as (c & Hc & _ & [(_ & H)|[(Hne & t1 & H & I1 & HK1 & Hs & HP & _)|(He & t1 & H & Ha & Hg & Hsl & Hs & Hgm & Hsh & Hrest)]]);
    rewrite H in E; try discriminate; injection E as <-.
  - exfalso. pose proof (ctrl_capacity_kof kd L _ _ HK1) as Ecc.
    replace (c - kl_w kd L + kl_w kd L) with c in Ecc by lia.
    assert (Ha1 : t_alloc _ _ t1 = true) by apply HK1.
    destruct (N.lt_total (ctrl_capacity K V kd t) (ctrl_capacity K V kd t1)) as [Hl|[Hl|Hl]]; [|congruence|].
    + pose proof (capacity_lt kd L t t1 I I1 Hl Ha1). lia.
    + pose proof (capacity_lt kd L t1 t I1 I Hl Hat). lia.
  - split; auto. split.
    + unfold CopyModel.traverse. destruct (kd_sent kd).
      * unfold traverse15, begin15. rewrite Hs. cbn. reflexivity.
      * unfold traverse16, begin16. rewrite Hs. cbn. unfold end16. now rewrite N.eqb_refl.
    + intros k. unfold TableModel.lookup, find, index_for_hash. rewrite Hgm, Hsh.
      assert (EF : forall f ch pr, find_loop K V keq kd f t1 k ch pr = find_loop K V keq kd f t k ch pr).
      { induction f as [|f IH]; intros; cbn [find_loop]; auto. rewrite Hg, Hsl, Hgm.
        destruct (geti _ _); auto. destruct (scan_keys _ _ _ _ _ _ _ _) as [[]|]; auto.
        destruct (negb _); auto. destruct (next_bucket _ _) as [pr' more]. destruct more; auto. }
      rewrite EF. now rewrite Hsl.
Qed.

(** ** Moves *)

Lemma built_move_spec t past : built t ->
  traverse past (fst (move_construct K V kd t)) = traverse past t
  /\ t_size _ _ (fst (move_construct K V kd t)) = t_size _ _ t
  /\ snd (move_construct K V kd t) = new_map K V kd.
Proof.
  intros _. rewrite (move_construct_eq kd). cbn [fst snd]. repeat split.
Qed.

Lemma swap_spec (a b : table) : swap_content K V a b = (b, a).
Proof. apply swap_content_eq. Qed.

Lemma built_move_assign_spec t1 t2 : built t1 -> move_assign K V kd t1 t2 = Ok (t2, new_map K V kd).
Proof.
  intros B. destruct (kind_laws kd HK) as [L R].
  apply (move_assign_eq hash keq kd L). now apply (built_Inv0 hash keq kd L LW).
Qed.

(** ** Ranges *)

Lemma built_range_spec t t' alloc e l past : built t -> sane alloc ->
  range_insert K V hash keq kd alloc (e :: l) t = Ret t' tt ->
  exists m m', traverse past t = Ok m /\ traverse past t' = Ok m'
   /\ Permutation m' (put_new K V keq (fst e) (snd e) m).
Proof.
  intros B HA E. destruct (kind_laws kd HK) as [L R].
  pose proof (built_Inv0 hash keq kd L LW t R B) as I.
  pose proof (range_insert_spec hash keq kd L LW alloc e l t HA I) as H. rewrite E in H.
  destruct H as [I' HP]. exists (content t), (content t').
  rewrite (traverse_spec hash keq kd L past t R I), (traverse_spec hash keq kd L past t' R I'). auto.
Qed.

(** ** The groups read by lookups *)

Lemma built_groups_read t k fuel : built t ->
  NoDup (groups_read K V hash keq kd fuel t k)
  /\ N.of_nat (length (groups_read K V hash keq kd fuel t k)) <= group_capacity K V t
  /\ Forall (fun gi => gi < N.of_nat (length (t_groups _ _ t))) (groups_read K V hash keq kd fuel t k).
Proof.
  intros B. destruct (kind_laws kd HK) as [L R]. apply (groups_read_spec kd L).
  now apply (built_Inv0 hash keq kd L LW).
Qed.

Lemma built_find_ok t k : built t -> exists r, find K V hash keq kd t k = Ok r.
Proof.
  intros B. destruct (kind_laws kd HK) as [L R].
  pose proof (built_Inv0 hash keq kd L LW t R B) as I.
  destruct (find_spec hash keq kd L LW t k I) as [(gi & p & kv & -> & _)|(-> & _)]; eauto.
Qed.

Lemma built_home t k : built t ->
  index_for_hash K V t (hash k) < N.of_nat (length (t_groups _ _ t)).
Proof.
  intros B. destruct (kind_laws kd HK) as [L R]. apply (home_exists kd L).
  - now apply (built_Inv0 hash keq kd L LW).
  - apply (lw_hash _ _ LW).
Qed.

(** ** Capacity *)

Lemma built_reserve_capacity t t' r alloc n : built t -> sane alloc -> n < 2 ^ 56 ->
  step alloc (OReserve _ _ n) t = Ret t' r -> n <= capacity t'.
Proof.
  intros B HA Hn E. destruct (kind_laws kd HK) as [L R].
  destruct (N.eq_dec n 0) as [->|Hz]; [lia|].
  eapply (reserve_capacity kd L); eauto. now apply (built_Inv0 hash keq kd L LW).
Qed.

Lemma built_mlf_grows t t' r alloc m : built t -> sane alloc ->
  step alloc (OMlf _ _ m) t = Ret t' r -> capacity t < capacity t'.
Proof.
  intros B HA E. destruct (kind_laws kd HK) as [L R].
  eapply (mlf_grows kd L); eauto. now apply (built_Inv0 hash keq kd L LW).
Qed.

Lemma built_reserve0 t alloc past : built t ->
  exists t', step alloc (OReserve _ _ 0) t = Ret t' (RUnit _ _)
    /\ t_size _ _ t' = 0 /\ capacity t' = 0 /\ traverse past t' = Ok [].
Proof.
  intros B. destruct (kind_laws kd HK) as [L R].
  pose proof (built_Inv0 hash keq kd L LW t R B) as I.
  cbn [TableModel.step]. unfold reserve. cbn [N.eqb negb].
  pose proof (destroy_spec hash keq kd L t I) as E.
  rewrite E. cbn [lift obind].
  eexists. split; [reflexivity|]. split; [reflexivity|]. split; [reflexivity|].
  unfold CopyModel.traverse, traverse15, traverse16, begin15, begin16. cbn.
  destruct (kd_sent kd); reflexivity.
Qed.

End Built.

(** ** The byte of a live slot *)

Lemma live_byte kd (L : klaws kd) (t : table) s (e : K * V) : Inv0 hash keq kd L t ->
  (forall g, kl_valid kd L g -> N.of_nat (length g) = kd_W kd) ->
  geti (t_slots _ _ t) s = Some (Some e) ->
  exists g, ctrl_byte kd (t_groups _ _ t) (s / kd_S kd * kd_W kd + s mod kd_S kd)
            = Some (byte g (s mod kd_S kd))
    /\ kl_code kd L g (s mod kd_S kd) = kd_reduce kd (hash (fst e)).
Proof.
  intros I HL Hs. destruct (stored_code kd L t s e I Hs) as (g & Hg & Hc). exists g. split; auto.
  assert (Ha : t_alloc _ _ t = true).
  { destruct (t_alloc _ _ t) eqn:E; auto. rewrite (iv_unalloc _ _ _ _ _ I E) in Hs.
    unfold geti in Hs. cbn in Hs. destruct (N.to_nat s); discriminate. }
  destruct (iv_alloc _ _ _ _ _ I Ha) as (k & G & _).
  pose proof (gv_valid _ _ _ _ _ _ _ G _ _ Hg) as Hv. apply HL in Hv.
  pose proof (kl_S _ L) as HS. pose proof (S_pos kd L).
  assert (Hp : s mod kd_S kd < kd_S kd) by (apply N.mod_lt; lia).
  unfold ctrl_byte.
  destruct (divmod_at (kd_W kd) (s / kd_S kd) (s mod kd_S kd) ltac:(lia) ltac:(lia)) as [-> ->].
  rewrite Hg. rewrite byte_geti. destruct (geti_lt g (s mod kd_S kd) ltac:(lia)) as [x ->]. reflexivity.
Qed.

Lemma built_byte15 t s e : built K V hash keq k15 t ->
  geti (t_slots _ _ t) s = Some (Some e) ->
  ctrl_byte k15 (t_groups _ _ t) (s / 15 * 16 + s mod 15) = Some (reduced_hash15 (hash (fst e))).
Proof.
  intros B Hs. pose proof (built_Inv0 hash keq k15 k15_laws LW t readable15 B) as I.
  destruct (live_byte k15 k15_laws t s e I) as (g & Hb & Hc); auto.
  { intros g [Hl _]. cbn [k15 kd_W]. lia. }
  cbn [k15 kd_S kd_W] in *. rewrite Hb. f_equal. exact Hc.
Qed.

Lemma built_byte16 t s e : built K V hash keq k16 t ->
  geti (t_slots _ _ t) s = Some (Some e) ->
  exists b, ctrl_byte k16 (t_groups _ _ t) s = Some b /\ N.land b 127 = reduced_hash16 (hash (fst e)).
Proof.
  intros B Hs. pose proof (built_Inv0 hash keq k16 k16_laws LW t readable16 B) as I.
  destruct (live_byte k16 k16_laws t s e I) as (g & Hb & Hc); auto.
  { intros g [Hl _]. cbn [k16 kd_W]. lia. }
  cbn [k16 kd_S kd_W] in *. replace (s / 16 * 16 + s mod 16) with s in Hb by lia.
  eexists. split; [exact Hb|]. rewrite land_127. exact Hc.
Qed.

(** ** erase(iterator) and erase_if of group16 *)

Lemma walk16_at t past it kv : Inv0 hash keq k16 k16_laws t ->
  geti (t_slots _ _ t) it = Some (Some kv) ->
  walk16 K V k16 (N.to_nat (t_size _ _ t)) past t it = Ok (from (t_slots _ _ t) it).
Proof.
  intros I Hs. apply (walk16_spec hash keq k16 k16_laws (rd_len _ _ readable16) eq_refl (rd_nosent _ _ readable16 eq_refl)); auto.
  - split; [lia|]. split; auto. right. eauto.
  - pose proof (upto_from (t_slots _ _ t) it) as E. apply (f_equal (@length _)) in E.
    rewrite app_length in E. rewrite (iv_size _ _ _ _ _ I). lia.
Qed.

Lemma built_erase_iter_spec t past it kv : built K V hash keq k16 t ->
  deref16 K V t it = Ok kv ->
  exists t' it' a b, erase_iter16 K V k16 past t it = Ok (t', it')
    /\ traverse K V k16 past t = Ok (a ++ kv :: b)
    /\ walk16 K V k16 (N.to_nat (t_size _ _ t)) past t it = Ok (kv :: b)
    /\ traverse K V k16 past t' = Ok (a ++ b)
    /\ walk16 K V k16 (N.to_nat (t_size _ _ t')) past t' it' = Ok b
    /\ capacity K V k16 t' = capacity K V k16 t.
Proof.
  intros B Hd. pose proof (built_Inv0 hash keq k16 k16_laws LW t readable16 B) as I.
  assert (Hs : geti (t_slots _ _ t) it = Some (Some kv)).
  { unfold deref16 in Hd. destruct (geti _ _) as [[|]|]; congruence. }
  pose proof (rd_len _ _ readable16) as HL. pose proof (rd_nosent _ _ readable16 eq_refl) as HC.
  destruct (erase_iter16_spec hash keq k16 k16_laws HL eq_refl HC past t it kv I Hs)
    as (t' & j & E & I' & Hcap & El & El' & HN & Hfr & _).
  exists t', j, (upto (t_slots _ _ t) it), (from (t_slots _ _ t) (it + 1)).
  split; auto. split; [|split; [|split; [|split; auto]]].
  - rewrite (traverse_spec hash keq k16 k16_laws past t readable16 I). now f_equal.
  - rewrite (walk16_at t past it kv I Hs). f_equal. now rewrite (from_step _ _ _ Hs).
  - rewrite (traverse_spec hash keq k16 k16_laws past t' readable16 I'). now f_equal.
  - rewrite <- Hfr. apply (walk16_spec hash keq k16 k16_laws HL eq_refl HC); auto.
    rewrite Hfr, (iv_size _ _ _ _ _ I'), El', app_length. lia.
Qed.

Lemma built_erase_if_spec t past pred : built K V hash keq k16 t ->
  exists t' l, erase_if16 K V k16 past pred t = Ok t' /\ built K V hash keq k16 t'
    /\ traverse K V k16 past t = Ok l
    /\ traverse K V k16 past t' = Ok (filter (fun e => negb (pred e)) l)
    /\ capacity K V k16 t' = capacity K V k16 t.
Proof.
  intros B. pose proof (built_Inv0 hash keq k16 k16_laws LW t readable16 B) as I.
  destruct (erase_if16_spec hash keq k16 k16_laws readable16 eq_refl past pred t I) as (t' & E & I' & Hc & El).
  exists t', (content t). split; auto. split; [eapply built_erase_if; eauto; reflexivity|].
  rewrite (traverse_spec hash keq k16 k16_laws past t readable16 I),
    (traverse_spec hash keq k16 k16_laws past t' readable16 I'), El. auto.
Qed.

(** The same algorithm on a non-empty group15 map. *)
Lemma built_erase_if15 t pred : built K V hash keq k15 t -> t_size _ _ t <> 0 ->
  erase_if15 K V k15 pred t = Err EUndef.
Proof.
  intros B Hz. pose proof (built_Inv0 hash keq k15 k15_laws LW t readable15 B) as I.
  pose proof (begin15_spec hash keq k15 k15_laws eq_refl t I) as HN.
  unfold erase_if15. destruct (begin15 K V k15 t); [reflexivity|].
  exfalso. cbn [next_of] in HN. rewrite from_0 in HN. rewrite (iv_size _ _ _ _ _ I), HN in Hz. now cbn in Hz.
Qed.

(** ** Iterators forwards and backwards *)

Lemma upto_le {A} (sl : list (option A)) i j : i <= j -> (length (upto sl i) <= length (upto sl j))%nat.
Proof.
  intros H. unfold upto. assert (HH : (N.to_nat i <= N.to_nat j)%nat) by lia. revert HH.
  generalize (N.to_nat i) (N.to_nat j). clear. induction sl as [|a sl IH]; intros n m H.
  - now rewrite !firstn_nil.
  - destruct n; [cbn; lia|]. destruct m; [lia|]. cbn [firstn].
    change (elems (a :: firstn n sl)) with (opt_list a ++ elems (firstn n sl)).
    change (elems (a :: firstn m sl)) with (opt_list a ++ elems (firstn m sl)).
    rewrite !app_length. specialize (IH n m ltac:(lia)). lia.
Qed.

Lemma upto_pos {A} (sl : list (option A)) i j x y :
  geti sl i = Some (Some x) -> geti sl j = Some (Some y) -> upto sl (i + 1) = upto sl (j + 1) -> i = j.
Proof.
  intros Hi Hj E.
  pose proof (upto_step sl i (Some x) Hi) as Ei. pose proof (upto_step sl j (Some y) Hj) as Ej.
  apply (f_equal (@length _)) in Ei, Ej, E. cbn [opt_list] in Ei, Ej.
  rewrite app_length in Ei, Ej. cbn [length] in Ei, Ej.
  destruct (N.lt_total i j) as [H|[H|H]]; auto; exfalso.
  - pose proof (upto_le sl (i + 1) j ltac:(lia)). lia.
  - pose proof (upto_le sl (j + 1) i ltac:(lia)). lia.
Qed.

Lemma upto_of_from {A} (sl : list (option A)) i j : from sl i = from sl j -> upto sl i = upto sl j.
Proof.
  intros H. pose proof (upto_from sl i) as E1. pose proof (upto_from sl j) as E2.
  rewrite H in E1. rewrite <- E2 in E1. now apply app_inv_tail in E1.
Qed.

Lemma client15_points t it : built K V hash keq k15 t -> client_iter15 K V k15 t it ->
  exists s0, next_of k15 (t_slots _ _ t) s0 it.
Proof.
  intros B C. pose proof (built_Inv0 hash keq k15 k15_laws LW t readable15 B) as I.
  induction C as [|it it' C IH Hne E].
  - exists 0. apply (begin15_spec hash keq k15 k15_laws eq_refl t I).
  - destruct IH as [s0 HN]. destruct it as [[c s]|]; [|congruence]. destruct HN as [HP _].
    destruct (incr15_spec hash keq k15 k15_laws (rd_len _ _ readable15) eq_refl (rd_sent _ _ readable15 eq_refl) t c s I HP) as (r & Er & HN).
    rewrite Er in E. injection E as <-. eauto.
Qed.

Lemma client15_moves t it : built K V hash keq k15 t -> client_iter15 K V k15 t it -> it <> None ->
  exists it' kv, deref15 K V t it = Ok kv /\ incr15 K V k15 t it = Ok it'
    /\ (it' <> None -> decr15 K V k15 t it' = Ok it).
Proof.
  intros B C Hne. pose proof (built_Inv0 hash keq k15 k15_laws LW t readable15 B) as I.
  destruct (client15_points t it B C) as [s0 HN].
  destruct it as [[c s]|]; [|congruence]. destruct HN as [HP _].
  destruct (incr15_spec hash keq k15 k15_laws (rd_len _ _ readable15) eq_refl (rd_sent _ _ readable15 eq_refl) t c s I HP) as (r & Er & HN).
  destruct HP as (gi & p & kv & Hp & Hc & Hs & Hsl).
  exists r, kv. split; [cbn [deref15]; now rewrite Hsl|]. split; auto. intros Hr.
  destruct r as [[c' s']|]; [|congruence]. destruct HN as [HP' Hf].
  apply upto_of_from in Hf. rewrite (upto_step _ _ _ Hsl) in Hf. cbn [opt_list] in Hf.
  destruct (decr15_spec hash keq k15 k15_laws (rd_len _ _ readable15) (rd_sent _ _ readable15 eq_refl) t c' s' I HP') as (r & Ed & c2 & s2 & -> & HP2 & Hu).
  { rewrite <- Hf. now destruct (upto (t_slots _ _ t) s). }
  rewrite Ed. destruct HP2 as (gi2 & p2 & kv2 & Hp2 & Hc2 & Hs2 & Hsl2).
  assert (s2 = s).
  { apply (upto_pos (t_slots _ _ t) s2 s kv2 kv); auto. rewrite <- Hu, <- Hf.
    now rewrite (upto_step _ _ _ Hsl). }
  assert (c2 = c) by (unfold slot_index in *; cbn [k15 kd_S kd_W] in *; lia).
  now rewrite H, H0.
Qed.

Lemma client16_next past t it : built K V hash keq k16 t -> client_iter16 K V k16 past t it ->
  exists s0, next16 (t_slots _ _ t) s0 it.
Proof.
  intros B C. pose proof (built_Inv0 hash keq k16 k16_laws LW t readable16 B) as I.
  pose proof (end16_length hash keq k16 k16_laws t I) as EE.
  pose proof (rd_len _ _ readable16) as HL. pose proof (rd_nosent _ _ readable16 eq_refl) as HC.
  induction C as [it E|it it' C IH Hne E].
  - destruct (begin16_spec hash keq k16 k16_laws HL eq_refl HC t I) as (i & Ei & HN).
    rewrite Ei in E. injection E as <-. eauto.
  - destruct IH as [s0 (Hle & Hf & [Hend|[kv Hkv]])]; [congruence|].
    destruct (incr16_spec hash keq k16 k16_laws HL eq_refl HC past t it kv I Hkv) as (j & Ej & HN).
    rewrite Ej in E. injection E as <-. eauto.
Qed.

Lemma client16_moves past t it : built K V hash keq k16 t -> client_iter16 K V k16 past t it ->
  it <> end16 K V k16 t ->
  exists it' kv, deref16 K V t it = Ok kv /\ incr16 K V k16 past t it = Ok it'
    /\ decr16 K V k16 t it' = Ok it.
Proof.
  intros B C Hne. pose proof (built_Inv0 hash keq k16 k16_laws LW t readable16 B) as I.
  pose proof (end16_length hash keq k16 k16_laws t I) as EE.
  pose proof (rd_len _ _ readable16) as HL. pose proof (rd_nosent _ _ readable16 eq_refl) as HC.
  destruct (client16_next past t it B C) as [s0 (_ & _ & [Hend|[kv Hkv]])]; [congruence|].
  destruct (incr16_spec hash keq k16 k16_laws HL eq_refl HC past t it kv I Hkv) as (j & Ej & Hle & Hf & Hor).
  exists j, kv. split; [unfold deref16; now rewrite Hkv|]. split; auto.
  apply upto_of_from in Hf. rewrite (upto_step _ _ _ Hkv) in Hf. cbn [opt_list] in Hf.
  destruct (decr16_spec hash keq k16 k16_laws HL eq_refl HC t j I) as (j2 & kv2 & E2 & Hkv2 & Hu).
  - rewrite EE. destruct Hor as [->|[kv' Hk']]; [lia|]. apply geti_Some_lt in Hk'. lia.
  - rewrite <- Hf. now destruct (upto (t_slots _ _ t) it).
  - rewrite E2. f_equal. apply (upto_pos (t_slots _ _ t) j2 it kv2 kv); auto.
    rewrite (upto_step _ _ _ Hkv), (upto_step _ _ _ Hkv2). cbn [opt_list]. congruence.
Qed.

End Props.
