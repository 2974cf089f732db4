(** Calls that cannot loop forever. *)
From Coq Require Import NArith ZArith List Bool Lia Permutation.
From Coq Require Import ZifyBool ZifyNat ZifyN.
From Verif Require Import Base BaseFacts BitsModel BitsFacts ProberModel ProberFacts
  GroupModel GroupFacts TableModel TableInv TableFind TableInsert TableLoops TableCap TableOps
  MapSpec MapFacts RunModel Refine.
Import ListNotations.
Open Scope N_scope.

Section Progress.

Context {K V : Type} (hash : K -> N) (keq : K -> K -> bool) (kd : kind) (L : klaws kd).
Context (LW : tame hash keq).

Notation table := (table K V).
Notation S' := (kd_S kd).
Notation w := (kl_w kd L).
Notation sidx := (slot_index kd).
Notation Inv0 := (@TableInv.Inv0 K V hash keq kd L).
Notation rehashed := (@TableCap.rehashed K V hash keq kd L).
Notation kof := (@TableCap.kof K V kd).
Notation scap := (scap kd).
Notation marked := (@TableOps.marked K V hash kd).
Notation pristine := (TableInsert.pristine kd L).
Notation step := (step K V hash keq kd).
Notation absent := (@TableFind.absent K V keq).
Notation ovf := (kd_is_overflow kd).
Notation erase_free := (RunModel.erase_free K V kd).

Lemma kof_geom t t' k : same_geom t t' ->
  length (t_slots _ _ t') = length (t_slots _ _ t) -> (kof t' k <-> kof t k).
Proof.
  intros (Ga & Gm & Gs & Gl) Hl. unfold TableCap.kof. rewrite Ga, Gm, Hl. tauto.
Qed.

(** ** Tables without erasures *)

(** The growth limit does not exceed the number of slots and no group with an empty
    slot has an overflow flag. *)
Definition Inv2 (t : table) : Prop :=
  Inv0 t /\ forall k, kof t k -> t_thr _ _ t <= scap k /\ pristine (t_groups _ _ t).

Lemma rehashed_Inv2 t nt c : Inv0 t -> rehashed t nt c -> Inv2 nt.
Proof.
  intros I (I' & Hk & _ & _ & Ht & _ & Hp). split; auto. intros k Hk'.
  assert (k = c - w) by (eapply kof_inj; eauto). subst k. split; auto.
  rewrite Ht. apply thr_of_le. apply (iv_mlf _ _ _ _ _ I).
Qed.

Lemma empty_kof m k : ~ kof (empty_table K V kd m) k.
Proof. intros (H & _). discriminate. Qed.

Lemma empty_Inv2 m : 128 <= m <= 224 -> Inv2 (empty_table K V kd m).
Proof.
  intros. split; [now apply empty_Inv0|]. intros k Hk. now apply empty_kof in Hk.
Qed.

Definition keeps (P : table -> Prop) {A} (r : out table A) : Prop :=
  match r with Ret t' _ | Throw t' => P t' | Fail _ => False end.

Lemma keeps_obind (P : table -> Prop) {A B} (r : out table A) (f : table -> A -> out table B) :
  keeps P r -> (forall t a, r = Ret t a -> P t -> keeps P (f t a)) -> keeps P (obind r f).
Proof. destruct r; simpl; auto. Qed.

Lemma entry_at_seti (t : table) i kv o : geti (t_slots _ _ t) i = Some o ->
  forall t2, t_slots _ _ t2 = seti (t_slots _ _ t) i (Some kv) -> entry_at K V t2 i = Ok kv.
Proof.
  intros H t2 E. unfold entry_at. rewrite E, geti_seti_eq; auto. eapply geti_Some_lt; eauto.
Qed.

Lemma emplace_keeps2 alloc (upd : bool) t k v : alloc_ok alloc -> Inv2 t ->
  keeps Inv2 (observe_ins K V (emplace_impl K V hash keq kd alloc upd true t k v)).
Proof.
  intros HA [I H2]. unfold observe_ins.
  destruct (emplace_spec hash keq kd L LW alloc upd t k v HA I)
    as [(gi & p & kv & Ef & Hp & Ha & Hs & Hk & E)|(Habs & Ef & [(Hn & E)|(t1 & kk & HR & Hk & I1 & H)])].
  - rewrite E. cbn [obind fst snd]. destruct upd.
    + rewrite (entry_at_seti t _ (fst kv, v) _ Hs) by reflexivity. cbn [keeps]. split.
      * now apply set_slot_Inv0.
      * intros k' Hk'. apply H2. apply (kof_geom t _ k') in Hk'; auto.
        -- unfold same_geom. cbn [set_slot t_alloc t_gmask t_shift t_mlf]. auto.
        -- apply seti_length.
    + unfold entry_at. rewrite Hs. cbn [keeps]. split; auto.
  - rewrite E. cbn [obind keeps]. split; auto.
  - assert (H21 : Inv2 t1).
    { destruct HR as [[-> _]|(_ & c & R & _)]; [split; auto|]. exact (rehashed_Inv2 t t1 c I R). }
    destruct H21 as [_ H21]. destruct (H21 kk Hk) as [Ht1 Hpr1].
    destruct H as [(E & Et & Hfull)|(t2 & i & E & (I2 & SG & Hi & Hsl & Hsz & Ht & Hpr))];
      rewrite E; cbn [obind fst snd].
    + exfalso. subst t1. destruct HR as [[_ Hn]|(Hn & c & (_ & Hk' & _) & _ & _ & _ & Hc & _)].
      * unfold need_grow in Hn. lia.
      * assert (kk = c - w) by (eapply kof_inj; eauto). subst kk. lia.
    + rewrite (entry_at_seti t1 i (k, v) _ Hi t2 Hsl). cbn [keeps]. split; auto.
      intros k' Hk'. apply (kof_geom t1 t2 k') in Hk'; auto; [|rewrite Hsl; apply seti_length].
      assert (k' = kk) by (eapply kof_inj; eauto). subst k'. split; [|apply Hpr; auto].
      destruct Ht as [-> |(_ & _ & Hnp)]; [auto|now destruct Hnp].
Qed.

Lemma set_mlf_Inv2 t m : 128 <= m <= 224 -> Inv2 t -> Inv2 (set_mlf K V t m).
Proof. intros Hm [I H]. split; [now apply set_mlf_Inv0|]. exact H. Qed.

Lemma resized_keeps2 t r : Inv2 t -> resized hash keq kd L t r -> keeps Inv2 r.
Proof.
  intros I [-> |[-> |(nt & c & -> & R & _)]]; auto. cbn [keeps].
  eapply rehashed_Inv2; eauto. apply I.
Qed.

Lemma rehash_resized alloc n t : alloc_ok alloc -> Inv0 t -> n <= 2 ^ 63 ->
  resized hash keq kd L t (rehash K V hash kd alloc n t)
  \/ rehash K V hash kd alloc n t = Ret (empty_table K V kd (t_mlf _ _ t)) tt.
Proof.
  intros HA I Hn. unfold rehash.
  pose proof (fit_le hash keq kd L t (t_size _ _ t) I) as Hfit.
  assert (2 ^ 57 <= 2 ^ 63) by (apply pow2_le; lia).
  set (n' := N.max (shrink_to_fit_capacity K V t (t_size _ _ t)) n).
  assert (n' <= 2 ^ 63) by (unfold n'; lia).
  destruct (N.eqb_spec n' 0) as [E|E]; cbn [negb].
  - right. rewrite (destroy_spec hash keq kd L) by auto. reflexivity.
  - left. apply rehash_fits; auto. unfold n'. lia.
Qed.

(** shrink_to_fit always comes back, except in its "read only" mode on the tables
    that have a sentinel. *)
Lemma shrink_returns alloc b t : alloc_ok alloc -> Inv0 t -> (b = true -> kd_sent kd = false) ->
  resized hash keq kd L t (shrink_to_fit K V hash kd alloc b t)
  \/ shrink_to_fit K V hash kd alloc b t = Ret (empty_table K V kd (t_mlf _ _ t)) tt.
Proof.
  intros HA I Hb. unfold shrink_to_fit.
  pose proof (fit_le hash keq kd L t (t_size _ _ t) I) as Hfit.
  pose proof (size_small hash keq kd L t I) as Hs.
  assert (2 ^ 57 <= 2 ^ 63) by (apply pow2_le; lia).
  assert (2 ^ 55 <= 2 ^ 63) by (apply pow2_le; lia).
  set (n := if b then _ else _).
  assert (Hn : n <= 2 ^ 63) by (unfold n; destruct b; lia).
  destruct (N.eqb_spec n 0) as [E|E]; cbn [negb].
  { right. rewrite (destroy_spec hash keq kd L) by auto. reflexivity. }
  left. destruct b; [|apply rehash_fits; auto; unfold n; lia].
  destruct (rehash_impl_spec hash keq kd L LW alloc true t n HA I Hn)
    as (c & Ec & Hc & Hnc & Hsc & Hlo & H'). cbv zeta in H'.
  destruct H' as [[_ E']|[(_ & _ & E')|(_ & _ & [(H1 & nt & E' & R)|(H1 & E')])]].
  - now left.
  - right. now left.
  - right. right. exists nt, c. split; auto. split; auto. split; auto. lia.
  - exfalso. unfold TableInv.scap in H1. rewrite (Hb eq_refl) in H1.
    rewrite (kl_S_nosent _ L (Hb eq_refl)), <- (pow_cw kd L c) in H1 by lia. lia.
Qed.

(** Calls that do not erase, and do not call shrink_to_fit(true) on a table with
    a sentinel. *)
Lemma step_keeps2 alloc o t : alloc_ok alloc -> Inv2 t -> erase_free o t ->
  keeps Inv2 (step alloc o t).
Proof.
  intros HA I2 Ho. pose proof (proj1 I2) as I.
  pose proof (iv_mlf _ _ _ _ _ I) as Hml.
  assert (Hfin : forall r : out table unit, keeps Inv2 r ->
     keeps Inv2 (obind r (fun t' _ => Ret t' (RUnit K V)))).
  { intros r Hr. apply keeps_obind; auto. }
  destruct o as [k v|k v|k|k|k| |b|n|n|b|m]; cbn [TableModel.step].
  - now apply emplace_keeps2.
  - now apply emplace_keeps2.
  - destruct Ho.
  - rewrite (lookup_correct hash keq kd L LW t k I). exact I2.
  - rewrite (lookup_correct hash keq kd L LW t k I). exact I2.
  - exact I2.
  - apply Hfin. unfold clear. destruct b.
    + rewrite (destroy_spec hash keq kd L) by auto. cbn [lift keeps]. now apply empty_Inv2.
    + destruct (t_alloc _ _ t) eqn:Ea.
      * destruct (clear_data_alloc hash keq kd L t I Ea) as (t' & E & I' & SG & Hsl & Hs & Ht & Hp).
        rewrite E. cbn [lift keeps]. split; auto. intros k' Hk'. split; auto.
        rewrite Ht. apply (proj2 I2). apply (kof_geom t t' k') in Hk'; auto.
        now rewrite Hsl, repeat_length.
      * rewrite (clear_data_unalloc hash keq kd L t I Ea).
        cbn [RunModel.erase_free client_ok] in Ho. unfold capacity in Ho. rewrite Ea in Ho.
        destruct (kd_sent kd); [now destruct (Ho eq_refl)|]. exact I2.
  - apply Hfin. cbn [RunModel.erase_free client_ok] in Ho. unfold reserve.
    rewrite (proj2 (N.eqb_neq _ _) Ho). cbn [negb]. apply resized_keeps2 with t; auto.
    apply grown_resized; auto. apply rehash_grow; auto.
    pose proof (fit_le hash keq kd L t n I). assert (2 ^ 57 <= 2 ^ 63) by (apply pow2_le; lia). lia.
  - apply Hfin. cbn [RunModel.erase_free client_ok] in Ho.
    destruct (rehash_resized alloc n t HA I Ho) as [H| ->].
    + now apply resized_keeps2 with t.
    + now apply empty_Inv2.
  - apply Hfin. destruct (shrink_returns alloc b t HA I) as [H| ->].
    + intros ->. exact Ho.
    + now apply resized_keeps2 with t.
    + now apply empty_Inv2.
  - apply Hfin. destruct (mlf_rehash hash keq kd L alloc m t HA I) as (cap & E & Hcap). rewrite E.
    pose proof (set_mlf_Inv2 t _ (clamp_range m) I2) as I1.
    assert (2 ^ 58 <= 2 ^ 63) by (apply pow2_le; lia).
    destruct (rehash_resized alloc cap _ HA (proj1 I1) ltac:(lia)) as [H'| ->].
    + now apply resized_keeps2 with (set_mlf K V t (clamp m)).
    + apply empty_Inv2. apply clamp_range.
Qed.

(** ** Tables that never raise the growth limit (group15, group30) *)

Section NoCount.
Context (NC : kd_count_deleted kd = false) (NS : kd_rehash_shrinks kd = false).

Definition unmarked_elem (t : table) : Prop :=
  exists gi p kv, p < S' /\ geti (t_slots _ _ t) (sidx gi p) = Some (Some kv)
    /\ marked t gi p = false.

(** The number of elements is within the limit, or exceeds it by one element. *)
Definition Inv1 (t : table) : Prop :=
  Inv0 t /\ forall k, kof t k -> t_thr _ _ t <= scap k
    /\ (t_size _ _ t <= t_thr _ _ t
        \/ t_size _ _ t = t_thr _ _ t + 1 /\ unmarked_elem t).

Lemma empty_Inv1 m : 128 <= m <= 224 -> Inv1 (empty_table K V kd m).
Proof.
  intros. split; [now apply empty_Inv0|]. intros k Hk. now apply empty_kof in Hk.
Qed.

Lemma set_mlf_Inv1 t m : 128 <= m <= 224 -> Inv1 t -> Inv1 (set_mlf K V t m).
Proof. intros Hm [I H]. split; [now apply set_mlf_Inv0|]. exact H. Qed.

Lemma rehashed_Inv1 t nt c : Inv0 t -> rehashed t nt c -> t_size _ _ t <= t_thr _ _ nt -> Inv1 nt.
Proof.
  intros I (I' & Hk & _ & Hs & Ht & _ & _) Hle. split; auto. intros k Hk'.
  assert (k = c - w) by (eapply kof_inj; eauto). subst k. split.
  - rewrite Ht. apply thr_of_le. apply (iv_mlf _ _ _ _ _ I).
  - left. lia.
Qed.

Lemma grown_keeps1 t r : Inv1 t -> grown hash keq kd L t r -> keeps Inv1 r.
Proof.
  intros I [-> |[-> |(nt & c & -> & R & _ & Ht & _)]]; auto. cbn [keeps].
  eapply rehashed_Inv1; eauto. apply I.
Qed.

Lemma set_slot_Inv1 t gi p kv v : Inv1 t -> p < S' ->
  geti (t_slots _ _ t) (sidx gi p) = Some (Some kv) ->
  Inv1 (set_slot t (sidx gi p) (fst kv, v)).
Proof.
  intros [I H1] Hp Hs. split.
  - now apply set_slot_Inv0.
  - intros k' Hk'. apply (kof_geom t _ k') in Hk'.
    + destruct (H1 _ Hk') as [Ht Hd]. split; auto.
      destruct Hd as [Hd|(Hd & gi' & p' & kv' & Hp' & Hs' & Hm')]; [now left|right].
      split; auto. destruct (N.eq_dec (sidx gi p) (sidx gi' p')) as [E'|Hne].
      * destruct (sidx_inj kd _ _ _ _ Hp Hp' E') as [<- <-].
        assert (kv' = kv) by congruence. subst kv'.
        exists gi, p, (fst kv, v). unfold TableOps.marked in *. cbn [set_slot t_slots t_groups].
        rewrite geti_seti_eq by (eapply geti_Some_lt; eauto). split; auto. split; auto.
        rewrite Hs' in Hm'. exact Hm'.
      * exists gi', p', kv'. cbn [set_slot t_slots]. split; auto.
        rewrite geti_seti_neq by auto. split; auto.
        unfold TableOps.marked in *. cbn [set_slot t_slots t_groups].
        rewrite geti_seti_neq by auto. exact Hm'.
    + unfold same_geom. cbn [set_slot t_alloc t_gmask t_shift t_mlf]. auto.
    + apply seti_length.
Qed.

Lemma emplace_keeps1 alloc (upd : bool) t k v : alloc_ok alloc -> Inv1 t ->
  keeps Inv1 (observe_ins K V (emplace_impl K V hash keq kd alloc upd true t k v)).
Proof.
  intros HA [I H1]. unfold observe_ins.
  destruct (emplace_spec hash keq kd L LW alloc upd t k v HA I)
    as [(gi & p & kv & Ef & Hp & Ha & Hs & Hk & E)|(Habs & Ef & [(Hn & E)|(t1 & kk & HR & Hk & I1 & H)])].
  - rewrite E. cbn [obind fst snd]. destruct upd.
    + rewrite (entry_at_seti t _ (fst kv, v) _ Hs) by reflexivity. cbn [keeps].
      apply set_slot_Inv1; auto. split; auto.
    + unfold entry_at. rewrite Hs. cbn [keeps]. split; auto.
  - rewrite E. cbn [obind keeps]. split; auto.
  - assert (Hkey : t_thr _ _ t1 <= scap kk /\ (t_size _ _ t1 < t_thr _ _ t1
        \/ t_size _ _ t1 <= t_thr _ _ t1 /\ pristine (t_groups _ _ t1))).
    { destruct HR as [[-> Hn]|(Hn & c & R & _ & _ & _ & _ & Hle)].
      - destruct (H1 kk Hk) as [Ht _]. split; auto. left. unfold need_grow in Hn. lia.
      - pose proof R as (_ & Hk' & _ & Hs & Ht & _ & Hp).
        assert (kk = c - w) by (eapply kof_inj; eauto). subst kk. split.
        + rewrite Ht. apply thr_of_le. apply (iv_mlf _ _ _ _ _ I).
        + right. split; auto. lia. }
    destruct Hkey as [Hts Hsz1].
    destruct H as [(E & Et & Hfull)|(t2 & i & E & (I2 & SG & Hi & Hsl & Hsz & Ht & Hpr))];
      rewrite E; cbn [obind fst snd].
    + exfalso. subst t1. destruct HR as [[_ Hn]|(Hn & c & (_ & Hk' & _) & _ & _ & _ & Hc & _)].
      * unfold need_grow in Hn. lia.
      * assert (kk = c - w) by (eapply kof_inj; eauto). subst kk. lia.
    + rewrite (entry_at_seti t1 i (k, v) _ Hi t2 Hsl). cbn [keeps]. split; auto.
      intros k' Hk'. apply (kof_geom t1 t2 k') in Hk'; auto; [|rewrite Hsl; apply seti_length].
      assert (k' = kk) by (eapply kof_inj; eauto). subst k'.
      destruct Ht as [Ht|(Hc & _)]; [|congruence]. rewrite Ht. split; auto.
      rewrite Hsz. destruct (N.lt_ge_cases (t_size _ _ t1) (t_thr _ _ t1)) as [Hlt|Hge]; [left; lia|].
      destruct Hsz1 as [|[Hle Hp]]; [lia|]. right. split; [lia|].
      destruct (Hpr Hp) as [_ (gi & p & g' & Ei & Hpp & Hg & Ho)].
      exists gi, p, (k, v). split; auto. rewrite Hsl, Ei.
      rewrite Ei in Hi. rewrite geti_seti_eq by (eapply geti_Some_lt; eauto). split; auto.
      unfold TableOps.marked. rewrite Hg, Hsl, Ei.
      rewrite geti_seti_eq by (eapply geti_Some_lt; eauto). exact Ho.
Qed.

Lemma erase_slot_Inv1 t gi p kv : Inv1 t -> t_alloc _ _ t = true -> p < S' ->
  geti (t_slots _ _ t) (sidx gi p) = Some (Some kv) ->
  exists t', erase_slot K V kd t gi p = Ok t'
    /\ t_slots _ _ t' = seti (t_slots _ _ t) (sidx gi p) None /\ Inv1 t'.
Proof.
  intros [I H1] Ha Hp Hs.
  destruct (erase_slot_spec hash keq kd L t gi p kv I Ha Hp Hs)
    as (t' & Ee & I' & SG & Hsl & Hsz & Hs1 & Ht & Hm).
  exists t'. split; auto. split; auto. split; auto. intros k' Hk'.
  apply (kof_geom t t' k') in Hk'; auto; [|rewrite Hsl; apply seti_length].
  destruct (H1 k' Hk') as [Hts Hd].
  assert (Hb : t_thr _ _ t < two64).
  { destruct Hk' as (_ & _ & _ & Hb & _). pose proof (scap_le kd L k').
    change (2 ^ 55) with 36028797018963968 in Hb. rewrite two64_eq. lia. }
  assert (Hun : forall gi' p' kv', p' < S' -> geti (t_slots _ _ t) (sidx gi' p') = Some (Some kv') ->
     marked t gi' p' = false -> sidx gi' p' <> sidx gi p -> unmarked_elem t').
  { intros gi' p' kv' Hp' Hs' Hm' Hne. exists gi', p', kv'. split; auto. split.
    - rewrite Hsl. rewrite geti_seti_neq by auto. auto.
    - rewrite Hm; auto. }
  destruct (marked t gi p) eqn:Em; cbn [N.b2n] in Ht.
  - destruct Hd as [Hd|(Hd & gi' & p' & kv' & Hp' & Hs' & Hm')].
    + rewrite wsub_small in Ht by (auto; lia). split; [lia|]. left. lia.
    + assert (Hne : sidx gi' p' <> sidx gi p).
      { intros Ee'. destruct (sidx_inj kd _ _ _ _ Hp' Hp Ee'). subst. congruence. }
      assert (Hs2 : 2 <= t_size _ _ t).
      { rewrite (iv_size _ _ _ _ _ I).
        pose proof (Permutation_length (elems_seti_None _ _ _ Hs)) as E1. simpl length in E1.
        assert (Hin : In kv' (elems (seti (t_slots K V t) (sidx gi p) None))).
        { apply In_elems. exists (sidx gi' p'). rewrite geti_seti_neq; auto. }
        destruct (elems (seti (t_slots K V t) (sidx gi p) None)); [easy|]. simpl length in E1. lia. }
      rewrite wsub_small in Ht by (auto; lia). split; [lia|]. right. split; [lia|]. eauto.
  - rewrite wsub_0 in Ht by auto. rewrite Ht. split; auto. left.
    destruct Hd as [Hd|(Hd & _)]; lia.
Qed.

Lemma erase_keeps1 t k : Inv1 t ->
  keeps Inv1 (obind (find_and_erase K V hash keq kd t k) (fun t' n => Ret t' (RNum K V n))).
Proof.
  intros [I H1]. unfold find_and_erase. destruct (find_spec hash keq kd L LW t k I)
    as [(gi & p & kv & E & Ha & Hp & Hs & Hk)|[E Habs]]; rewrite E; cbn [obind keeps].
  2:{ split; auto. }
  destruct (erase_slot_Inv1 t gi p kv) as (t' & Ee & _ & H'); auto; [split; auto|].
  rewrite Ee. exact H'.
Qed.

Lemma rehash_grown alloc n t : alloc_ok alloc -> Inv0 t -> n <= 2 ^ 63 ->
  grown hash keq kd L t (rehash K V hash kd alloc n t)
  \/ rehash K V hash kd alloc n t = Ret (empty_table K V kd (t_mlf _ _ t)) tt.
Proof.
  intros HA I Hn. unfold rehash. rewrite NS.
  pose proof (fit_le hash keq kd L t (t_size _ _ t) I) as Hfit.
  assert (2 ^ 57 <= 2 ^ 63) by (apply pow2_le; lia).
  set (n' := N.max (shrink_to_fit_capacity K V t (t_size _ _ t)) n).
  assert (n' <= 2 ^ 63) by (unfold n'; lia).
  destruct (N.eqb_spec n' 0) as [E|E]; cbn [negb].
  - right. rewrite (destroy_spec hash keq kd L) by auto. reflexivity.
  - left. apply rehash_grow; auto.
Qed.

Lemma step_keeps1 alloc o t : alloc_ok alloc -> Inv1 t -> client_noshrink K V kd o t ->
  keeps Inv1 (step alloc o t).
Proof.
  intros HA I1 Ho. pose proof (proj1 I1) as I.
  pose proof (iv_mlf _ _ _ _ _ I) as Hml.
  assert (Hfin : forall r : out table unit, keeps Inv1 r ->
     keeps Inv1 (obind r (fun t' _ => Ret t' (RUnit K V)))).
  { intros r Hr. apply keeps_obind; auto. }
  destruct o as [k v|k v|k|k|k| |b|n|n|b|m]; cbn [TableModel.step].
  - now apply emplace_keeps1.
  - now apply emplace_keeps1.
  - now apply erase_keeps1.
  - rewrite (lookup_correct hash keq kd L LW t k I). exact I1.
  - rewrite (lookup_correct hash keq kd L LW t k I). exact I1.
  - exact I1.
  - apply Hfin. unfold clear. destruct b.
    + rewrite (destroy_spec hash keq kd L) by auto. cbn [lift keeps]. now apply empty_Inv1.
    + destruct (t_alloc _ _ t) eqn:Ea.
      * destruct (clear_data_alloc hash keq kd L t I Ea) as (t' & E & I' & SG & Hsl & Hs & Ht & Hp).
        rewrite E. cbn [lift keeps]. split; auto. intros k' Hk'. rewrite Ht.
        apply (kof_geom t t' k') in Hk'; auto; [|now rewrite Hsl, repeat_length].
        split; [now apply (proj2 I1)|]. left. rewrite Hs. apply N.le_0_l.
      * rewrite (clear_data_unalloc hash keq kd L t I Ea).
        cbn [client_noshrink client_ok] in Ho. unfold capacity in Ho. rewrite Ea in Ho.
        destruct (kd_sent kd); [now destruct (Ho eq_refl)|]. exact I1.
  - apply Hfin. cbn [client_noshrink client_ok] in Ho. unfold reserve.
    rewrite (proj2 (N.eqb_neq _ _) Ho). cbn [negb]. apply grown_keeps1 with t; auto.
    apply rehash_grow; auto.
    pose proof (fit_le hash keq kd L t n I). assert (2 ^ 57 <= 2 ^ 63) by (apply pow2_le; lia). lia.
  - apply Hfin. cbn [client_noshrink client_ok] in Ho.
    destruct (rehash_grown alloc n t HA I Ho) as [H| ->].
    + now apply grown_keeps1 with t.
    + now apply empty_Inv1.
  - destruct Ho.
  - apply Hfin. destruct (mlf_rehash hash keq kd L alloc m t HA I) as (cap & E & Hcap). rewrite E.
    pose proof (set_mlf_Inv1 t _ (clamp_range m) I1) as I1'.
    assert (2 ^ 58 <= 2 ^ 63) by (apply pow2_le; lia).
    destruct (rehash_grown alloc cap _ HA (proj1 I1') ltac:(lia)) as [H'| ->].
    + now apply grown_keeps1 with (set_mlf K V t (clamp m)).
    + apply empty_Inv1. apply clamp_range.
Qed.

End NoCount.

(** ** Runs *)

Lemma run_keeps (P : table -> Prop) (ok : op K V -> table -> Prop) :
  (forall alloc o t, alloc_ok alloc -> P t -> ok o t -> keeps P (step alloc o t)) ->
  forall calls t, allocs_ok calls -> P t -> obeys K V hash keq kd ok calls t ->
  exists outs t', run K V hash keq kd calls t = Ok (outs, t') /\ P t'.
Proof.
  intros HS calls. induction calls as [|[alloc o] calls IH]; intros t HA HP Ho.
  - exists [], t. auto.
  - inversion HA as [|x y HA1 HA2]; subst. cbn [obeys] in Ho. destruct Ho as [Ho1 Ho2].
    cbn [run]. pose proof (HS alloc o t HA1 HP Ho1) as Hs.
    destruct (step alloc o t) as [t1 r|t1|e]; cbn [keeps] in Hs.
    + destruct (IH t1 HA2 Hs Ho2) as (outs & t' & E & HP'). rewrite E. cbn [rbind]. eauto.
    + destruct (IH t1 HA2 Hs Ho2) as (outs & t' & E & HP'). rewrite E. cbn [rbind]. eauto.
    + destruct Hs.
Qed.

End Progress.
