(** The robin16 map: growth is amortised while nothing is erased. *)
From Coq Require Import NArith ZArith List Bool Lia Permutation.
From Coq Require Import ZifyBool ZifyNat ZifyN.
From Verif Require Import Base BaseFacts BitsModel BitsFacts GroupModel TableInv TableModel MapSpec MapFacts
  HashModel Flat16Model Flat16Spec Flat16Calls RobinFacts RobinOps Robin16Model Robin16Spec Robin16Ring Robin16Scan
  Robin16Facts Robin16Moves Robin16Ops Robin16Refine ReserveSpec Robin16Reserve GrowthSpec Growth2Spec Growth2Facts.
Import ListNotations.
Open Scope N_scope.

Section Growth.

Context {K V : Type} (hash : K -> N) (keq : K -> K -> bool) (LW : tame hash keq) (wide trivial : bool).

Notation qmap := (qmap K V).
Notation oracle := (bool -> N -> bool).
Notation good := (good hash keq trivial).
Notation hq := (hq (V := V) hash).
Notation roomy b := (roomy hq (2 ^ b) 128).
Notation cap := (q_cap K V).
Notation size := (q_size K V).
Notation step := (fun (c : oracle * op K V) t => q_step K V hash keq wide trivial (fst c) (snd c) t).
Notation G2 X := (g_b2 _ _ _ _ _ _ X).
Notation G44 X := (g_b44 _ _ _ _ _ _ X).
Notation GS X := (g_size _ _ _ _ _ _ X).

Definition half (b : N) (t : qmap) : Prop := q_mlf _ _ t = 32768 /\ 2 * q_thr _ _ t = 2 ^ b /\ mlf_ok t.

Definition steady (t : qmap) : Prop :=
  exists b A, good b t A /\ half b t /\ q_fine K V hash (ents A) /\ 2 * size t <= 2 ^ b.

Definition plain (c : oracle * op K V) (t : qmap) : Prop :=
  f_sane (fst c) /\ adds K V (snd c) = true /\ q_client K V hash keq (snd c) t
  /\ forall l, q_traverse K V wide t = Ok l -> q_fine K V hash (fst (spec_step K V keq (snd c) l)).

Lemma half_pow b : 2 <= b -> 2 * (2 ^ b * 32768 / 65536) = 2 ^ b.
Proof.
  intros Hb. assert (exists c, 2 ^ b = 2 * c) as (c & ->).
  { exists (2 ^ (b - 1)). rewrite <- N.pow_succ_r'. f_equal. lia. }
  replace (2 * c * 32768) with (c * 65536) by lia. rewrite N.div_mul; lia.
Qed.

Lemma calc_pow b : 2 <= b -> b <= 60 -> q_calc_capacity (2 ^ b) = Ok (2 ^ b).
Proof.
  intros H2 H60. unfold q_calc_capacity, qMinCapacity.
  pose proof (N.pow_le_mono_r 2 2 b ltac:(lia) H2) as H4. change (2 ^ 2) with 4 in H4.
  rewrite N.max_l by lia.
  replace (is_pow2 (2 ^ b)) with true; auto. symmetry. apply is_pow2_spec; [lia| |eauto].
  pose proof (N.pow_le_mono_r 2 b 60 ltac:(lia) H60). unfold two64. change (2 ^ 60) with 1152921504606846976 in *. lia.
Qed.

Lemma grow_exact alloc t A b : good b t A -> half b t -> f_sane alloc -> q_fine K V hash (ents A) ->
  (exists t', q_grow K V hash keq wide trivial alloc t = Throw t')
  \/ exists t' A', q_grow K V hash keq wide trivial alloc t = Ret t' tt
       /\ good (b + 1) t' A' /\ half (b + 1) t' /\ Permutation (ents A') (ents A).
Proof.
  intros X (EM & ET & M) HA HF. unfold q_grow. fold (cap t). rewrite (good_cap _ _ _ _ _ _ X).
  pose proof (cap44 b (G44 X)) as HC. change (2 ^ 44) with 17592186044416 in HC.
  rewrite wmul_small by (unfold two64; lia).
  replace (2 ^ b * 2) with (2 ^ (b + 1)) by (rewrite N.pow_add_r; reflexivity).
  pose proof (G2 X). pose proof (G44 X). unfold q_rehash_impl. rewrite calc_pow by lia. cbn [orb].
  destruct (create_spec hash keq trivial alloc t (b + 1) HA ltac:(lia) ltac:(lia) M) as [(t1 & E1)|(nt & E1 & Y & M' & Z & HT)].
  { rewrite E1. left. eauto. }
  rewrite E1. right.
  pose proof (good_len _ _ _ _ _ _ X) as HL.
  assert (HL2 : N.of_nat (length (ents A)) <= 2 ^ (b + 1)) by (rewrite N.pow_add_r; change (2 ^ 1) with 2; lia).
  destruct (fill_spec hash keq LW wide trivial alloc t A b (b + 1) nt X HA Y Z) as (t2 & A' & E2 & G & P & E3 & E4 & E5); auto.
  { apply spread_roomy. apply HF; auto. lia. }
  rewrite E2. exists t2, A'. split; [reflexivity|]. split; auto. split; auto.
  pose proof (create_fields _ _ _ _ E1) as EF. split; [congruence|]. split.
  - rewrite E3, HT, EF, EM. apply half_pow. lia.
  - unfold mlf_ok in *. now rewrite E4, E5.
Qed.

(** find_or_prepare_insert, of a key that is not there. *)
Lemma prepare_half alloc t A b k f : f_sane alloc -> good b t A -> half b t -> q_fine K V hash (ents A) ->
  16 <= 2 ^ b \/ q_tag K hash k <> 0 -> has K V keq k (ents A) = false -> 2 * size t <= 2 ^ b ->
  (exists t', q_prepare K V hash keq wide trivial (S (S f)) alloc k t = Throw t')
  \/ exists t' b' A' n, q_prepare K V hash keq wide trivial (S (S f)) alloc k t
        = Ret t' ((hash k mod 2 ^ b' + n) mod 2 ^ b', n mod 2 ^ b', false)
      /\ stopat (2 ^ b') A' (hash k mod 2 ^ b') n /\ good b' t' A' /\ half b' t'
      /\ Permutation (ents A') (ents A) /\ 2 * size t < 2 ^ b'
      /\ 2 ^ b' = (if 2 * size t =? 2 ^ b then 2 * 2 ^ b else 2 ^ b).
Proof.
  intros HA X H HF Hs Hh HZ. destruct (N.eqb_spec (2 * size t) (2 ^ b)) as [E|NE].
  - destruct (grow_exact alloc t A b X H HA HF) as [(t1 & EG)|(t1 & A1 & EG & X1 & H1 & P1)].
    + left. exists t1. cbn [q_prepare].
      destruct (look_spec hash keq LW wide trivial b t A k 4 X Hs (or_intror eq_refl))
        as [(i & d & kv & _ & _ & _ & _ & Hin & Hk)|(n & -> & St & _)];
        [exfalso; rewrite has_false in Hh; rewrite (Hh kv Hin) in Hk; discriminate|].
      unfold q_need_grow. destruct H as (_ & HT & _).
      replace (q_thr _ _ t <=? size t) with true by lia. now rewrite EG.
    + right.
      assert (EP : 2 ^ (b + 1) = 2 * 2 ^ b) by (rewrite N.pow_add_r; change (2 ^ 1) with 2; lia).
      assert (ES : size t1 = size t) by (rewrite (GS X1), (GS X), (Permutation_length P1); reflexivity).
      assert (0 < 2 ^ b) by (apply N.neq_0_lt_0, N.pow_nonzero; lia).
      destruct (quiet_prepare hash keq LW wide trivial alloc t1 A1 (b + 1) k f X1) as (n & EQ & St).
      * destruct Hs; [left; lia|now right].
      * now rewrite (has_perm _ _ _ _ P1).
      * destruct H1 as (_ & HT1 & _). lia.
      * exists t1, (b + 1), A1, n. split.
        { remember (S f) as f1 eqn:Ef. cbn [q_prepare].
          destruct (look_spec hash keq LW wide trivial b t A k 4 X Hs (or_intror eq_refl))
            as [(i & d & kv & _ & _ & _ & _ & Hin & Hk)|(n0 & -> & _ & _)];
            [exfalso; rewrite has_false in Hh; rewrite (Hh kv Hin) in Hk; discriminate|].
          unfold q_need_grow. destruct H as (_ & HT & _).
          replace (q_thr _ _ t <=? size t) with true by lia. rewrite EG. cbn [obind]. exact EQ. }
        split; auto. split; auto. split; auto. split; auto. split; [lia|auto].
  - right. destruct (quiet_prepare hash keq LW wide trivial alloc t A b k (S f) X Hs Hh) as (n & EQ & St).
    + destruct H as (_ & HT & _). lia.
    + exists t, b, A, n. split; [exact EQ|]. split; auto. split; auto.
      split; auto. split; auto. split; [lia|auto].
Qed.

(** emplace_impl, of a key that is not there. *)
Lemma emplace_half alloc (update : bool) t A b k v fuel : f_sane alloc -> good b t A -> half b t ->
  q_fine K V hash (ents A) -> 16 <= 2 ^ b \/ q_tag K hash k <> 0 -> has K V keq k (ents A) = false ->
  2 * size t <= 2 ^ b -> q_fine K V hash ((k, v) :: ents A) ->
  (exists t', q_emplace K V hash keq wide trivial (S fuel) alloc update k v t = Throw t')
  \/ exists t' i b' A', q_emplace K V hash keq wide trivial (S fuel) alloc update k v t = Ret t' (i, true)
       /\ good b' t' A' /\ half b' t' /\ Permutation (ents A') ((k, v) :: ents A)
       /\ geti (q_slots _ _ t') i = Some (Some (k, v)) /\ 2 * size t < 2 ^ b'
       /\ 2 ^ b' = (if 2 * size t =? 2 ^ b then 2 * 2 ^ b else 2 ^ b).
Proof.
  intros HA X H HF Hs Hh HZ EN. cbn [q_emplace].
  destruct (prepare_half alloc t A b k 62 HA X H HF Hs Hh HZ)
    as [(t' & ->)|(t1 & b1 & A1 & n & -> & St & X1 & H1 & P1 & HZ1 & C1)].
  - left. cbn [obind]. eauto.
  - right. cbn [obind].
    assert (HL : N.of_nat (length (ents A1)) < 2 ^ b1).
    { rewrite (Permutation_length P1), <- (GS X). lia. }
    assert (HR : roomy b1 ((k, v) :: ents A1)).
    { apply (roomy_perm hash b1 _ ((k, v) :: ents A)); [constructor; now symmetry|]. apply spread_roomy.
      apply EN; [apply (G2 X1)|]. cbn [length]. rewrite (Permutation_length P1) in HL. lia. }
    destruct (insert_at_spec hash trivial b1 (G2 X1) (b50 _ (G44 X1)) false t1 A1 (hash k mod 2 ^ b1) n (k, v))
      as (C & S & A' & E1 & E2 & E3 & E4); auto.
    { apply (g_st _ _ _ _ _ _ X1). }
    { apply N.mod_lt. apply N.pow_nonzero. lia. }
    rewrite E1. eexists _, _, b1, A'. split; [reflexivity|].
    split; [|split; [exact H1|split; [|split; [exact E2|split; [exact HZ1|exact C1]]]]].
    + apply (good_insert hash keq LW trivial b1 t1 A1 C S A' (k, v)); auto. cbn [fst]. now rewrite (has_perm _ _ _ _ P1).
    + rewrite E4. now constructor.
Qed.

(** emplace_impl, of a key that is there. *)
Lemma emplace_keeps alloc (update : bool) t A b k v fuel : good b t A ->
  16 <= 2 ^ b \/ q_tag K hash k <> 0 -> has K V keq k (ents A) = true ->
  exists t' i, q_emplace K V hash keq wide trivial (S fuel) alloc update k v t = Ret t' (i, false)
    /\ q_mlf _ _ t' = q_mlf _ _ t /\ q_thr _ _ t' = q_thr _ _ t.
Proof.
  intros X Hs Hh. cbn [q_emplace].
  destruct (look_spec hash keq LW wide trivial b t A k 4 X Hs (or_intror eq_refl))
    as [(i & d & kv & E & _ & _ & Hsl & _)|(n & _ & _ & E)]; [|congruence].
  rewrite (prepare_old _ _ _ _ _ _ _ _ _ E) by lia. cbn [obind]. unfold q_read. rewrite Hsl.
  destruct update; eexists _, i; split; [reflexivity|split; reflexivity|reflexivity|split; reflexivity].
Qed.

Lemma grown_emplace alloc (update : bool) k v t f : f_sane alloc -> steady t ->
  q_seen K V hash k t ->
  (forall l, q_traverse K V wide t = Ok l -> q_fine K V hash
     (fst (spec_step K V keq (if update then OAssign K V k v else OInsert K V k v) l))) ->
  match q_ins K V (q_emplace K V hash keq wide trivial (S f) alloc update k v t) with
  | Ret t' _ => steady t' /\ doubles cap size t t'
  | Throw _ => True
  | Fail _ => False
  end.
Proof.
  intros HA (b & A & X & H & HF & HZ) Hs HN.
  assert (Hs' : 16 <= 2 ^ b \/ q_tag K hash k <> 0) by (apply (seen_spec hash keq trivial b t A); auto).
  specialize (HN (ents A) (traverse_spec hash wide trivial b (G2 X) (b50 _ (G44 X)) t A (g_st _ _ _ _ _ _ X))).
  destruct (has K V keq k (ents A)) eqn:Hh.
  - destruct (emplace_old hash keq LW wide trivial alloc update t A b k v f X (proj2 (proj2 H)) Hs' Hh)
      as (t' & i & kv & A' & E & EG & X' & M' & P & ES).
    rewrite E. cbn [q_ins obind]. unfold q_deref, q_read. rewrite ES. cbn [q_lift].
    assert (EL : length (ents A') = length (ents A)).
    { rewrite (Permutation_length P). destruct update; auto. now rewrite map_length. }
    assert (EZ : size t' = size t) by (rewrite (GS X'), (GS X), EL; reflexivity).
    assert (EF : q_mlf _ _ t' = q_mlf _ _ t /\ q_thr _ _ t' = q_thr _ _ t).
    { destruct (emplace_keeps alloc update t A b k v f X Hs' Hh) as (t2 & i2 & EK & K1 & K2).
      rewrite E in EK. injection EK as <- _. auto. }
    split.
    + exists b, A'. split; auto. split; [|split; [|lia]].
      * destruct H as (H1 & H2 & H3). destruct EF as [EF1 EF2]. split; [congruence|]. split; [lia|auto].
      * apply (fine_perm hash _ _ (Permutation_sym P)).
        destruct update; cbn [spec_step fst] in HN; unfold put, put_new in HN; now rewrite Hh in HN.
    + left. rewrite (good_cap _ _ _ _ _ _ X'), (good_cap _ _ _ _ _ _ X). lia.
  - assert (EN : q_fine K V hash ((k, v) :: ents A)).
    { destruct update; cbn [spec_step fst] in HN; unfold put, put_new in HN; now rewrite Hh in HN. }
    destruct (emplace_half alloc update t A b k v f HA X H HF Hs' Hh HZ EN)
      as [(t' & E)|(t' & i & b1 & A' & E & X' & H1 & PE & E2 & HZ1 & C1)]; rewrite E; [exact I|].
    cbn [q_ins obind]. unfold q_deref, q_read. rewrite E2. cbn [q_lift].
    assert (EZ : size t' = size t + 1).
    { rewrite (GS X'), (Permutation_length PE), (GS X). cbn [length]. lia. }
    assert (exists c, 2 ^ b1 = 2 * c) as (c & Hc).
    { exists (2 ^ (b1 - 1)). rewrite <- N.pow_succ_r'. f_equal. pose proof (G2 X'). lia. }
    pose proof (N.pow_le_mono_r 2 2 b ltac:(lia) (G2 X)) as H4. change (2 ^ 2) with 4 in H4.
    split.
    + exists b1, A'. split; [exact X'|]. split; [exact H1|]. split; [|lia].
      exact (fine_perm hash _ _ (Permutation_sym PE) EN).
    + unfold doubles. rewrite (good_cap _ _ _ _ _ _ X'), (good_cap _ _ _ _ _ _ X), EZ, C1.
      destruct (N.eqb_spec (2 * size t) (2 ^ b)); [right; left; lia|left; lia].
Qed.

Lemma grown_step c t : steady t -> plain c t ->
  match step c t with Ret t' _ => steady t' /\ doubles cap size t t' | Throw _ => True | Fail _ => False end.
Proof.
  intros J (HA & HO & HC & HN). destruct c as [alloc o]. cbn [fst snd] in *.
  assert (SAME : steady t /\ doubles cap size t t) by (split; [auto|left; lia]).
  pose proof J as (b & A & X & H & HF & HZ).
  assert (NF : adds K V o = true ->
    match q_step K V hash keq wide trivial alloc o t with Fail _ => False | _ => True end).
  { intros _. pose proof (step_spec hash keq LW wide trivial alloc o t (ents A) HA) as F.
    pose proof (traverse_spec hash wide trivial b (G2 X) (b50 _ (G44 X)) t A (g_st _ _ _ _ _ _ X)) as ET.
    specialize (F ltac:(split; [exact (proj2 (proj2 H))|split; [exact HF|exists b, A; auto]]) HC (HN _ ET)).
    destruct (q_step K V hash keq wide trivial alloc o t); auto. }
  destruct o; try discriminate; cbn [q_step] in *.
  - apply (grown_emplace alloc false _ _ _ 63); auto.
  - apply (grown_emplace alloc true _ _ _ 63); auto.
  - specialize (NF eq_refl). unfold q_lift in *. destruct (q_find_obs _ _ _ _ _ t _); auto.
  - specialize (NF eq_refl). unfold q_lift in *. destruct (q_find_index _ _ _ _ _ t _); auto.
  - exact SAME.
Qed.

Theorem robin16_growth alloc n t0 calls : f_sane alloc -> n <= 2 ^ 44 -> q_new K V alloc n = Ret t0 tt ->
  obeys2 step plain calls t0 ->
  match costs2 step cap size calls t0 with
  | Ret t (r, m) => 2 * size t <= cap t /\ m <= 2 * size t
      /\ ((r = 0 /\ cap t = cap t0) \/ (cap t = 2 ^ r * cap t0 /\ cap t <= 4 * size t))
  | Throw _ => True
  | Fail _ => False
  end.
Proof.
  intros HA Hn E O.
  assert (J : steady t0 /\ 4 <= cap t0).
  { unfold q_new, q_create_init in E. destruct (calc_spec n ltac:(change (2 ^ 63) with 9223372036854775808; change (2 ^ 44) with 17592186044416 in Hn; lia))
      as (b & EC & Hb2 & Hnb & Hb63). rewrite EC in E.
    destruct (create_spec hash keq trivial alloc (q_blank K V) b HA Hb2 Hb63 (blank_ok)) as [(t1 & E1)|(nt & E1 & Y & M' & Z & HT)];
      [rewrite E1 in E; discriminate|].
    rewrite E1 in E. injection E as ->.
    pose proof (create_fields _ _ _ _ E1) as EF. cbn in EF.
    pose proof (N.pow_le_mono_r 2 2 b ltac:(lia) Hb2) as H4. change (2 ^ 2) with 4 in H4.
    assert (EE : ents (repeat (@None (N * (K * V))) (N.to_nat (2 ^ b))) = []).
    { generalize (N.to_nat (2 ^ b)). intros x. unfold ents. induction x as [|x IH]; auto. }
    split; [|now rewrite (good_cap _ _ _ _ _ _ Y)].
    exists b, (repeat None (N.to_nat (2 ^ b))). split; auto. split.
    { split; [exact EF|]. split; auto. rewrite HT, EF. now apply half_pow. }
    rewrite EE. split; [|lia]. intros b' _ _ a x _ _ _. unfold q_wanted. cbn. lia. }
  destruct J as [J H4].
  pose proof (costs_bound step cap size plain steady) as H.
  specialize (H ltac:(intros t (b' & A' & X' & _ & _ & H'); now rewrite (good_cap _ _ _ _ _ _ X')) grown_step calls t0 J O).
  destruct (costs2 _ _ _ calls t0) as [t [r m]| |]; auto.
  destruct H as (H1 & H2 & H3). split; auto. split; auto.
  now replace (N.max (cap t0) 2) with (cap t0) in H3 by lia.
Qed.

End Growth.
