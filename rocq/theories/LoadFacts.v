(** The load factor of group15 maps. *)
From Coq Require Import NArith ZArith List Bool Lia Permutation.
From Coq Require Import ZifyBool ZifyNat ZifyN.
From Verif Require Import Base BaseFacts BitsModel BitsFacts GroupModel GroupFacts
  TableModel TableInv TableFind TableInsert TableLoops TableCap TableOps CopyModel CopyFacts
  MapSpec MapFacts RunModel Refine Progress ReachModel ReachFacts MapProps LoadSpec.
Import ListNotations.
Open Scope N_scope.
Ltac Zify.zify_post_hook ::= Z.div_mod_to_equations.

Section Load.

Context {K V : Type} (hash : K -> N) (keq : K -> K -> bool).
Context (LW : lawful hash keq).
Context (kd : kind) (L : klaws kd).

Notation table := (table K V).
Notation w := (kl_w kd L).
Notation scap := (TableInv.scap kd).
Notation Inv0 := (@TableInv.Inv0 K V hash keq kd L).
Notation Inv1 := (@Progress.Inv1 K V hash keq kd L).
Notation kof := (@TableCap.kof K V kd).
Notation step := (step K V hash keq kd).
Context (NC : kd_count_deleted kd = false) (NS : kd_rehash_shrinks kd = false).

(** The growth limit is not above the one computed from the load factor. *)
Definition limited (t : table) : Prop :=
  forall k, kof t k -> t_thr _ _ t <= thr_of kd (t_mlf _ _ t) k.

Lemma rehashed_limited t nt c : rehashed hash keq kd L t nt c -> limited nt.
Proof.
  intros (I' & Hk & _ & _ & Ht & Hm & _) k Hk'.
  assert (k = c - w) by (eapply kof_inj; eauto). subst k. rewrite Ht, Hm. lia.
Qed.

Lemma same_limited t t' : same_geom t t' -> length (t_slots _ _ t') = length (t_slots _ _ t) ->
  t_thr _ _ t' <= t_thr _ _ t -> limited t -> limited t'.
Proof.
  intros SG Hl Ht H k Hk. apply (kof_geom kd t t' k) in Hk; auto. specialize (H k Hk).
  destruct SG as (_ & _ & _ & Hm). rewrite Hm. lia.
Qed.

Lemma emplace_limited alloc (upd : bool) t k v t' r : alloc_ok alloc -> Inv0 t -> limited t ->
  emplace_impl K V hash keq kd alloc upd true t k v = Ret t' r -> limited t'.
Proof.
  intros HA I H.
  destruct (emplace_spec hash keq kd L LW alloc upd t k v HA I)
    as [(gi & p & kv & Ef & Hp & Ha & Hs & Hk & E)|(Habs & Ef & [(Hn & E)|(t1 & kk & HR & Hk & I1 & X)])].
  - rewrite E. intros [= <- _]. destruct upd; auto. apply same_limited with t; auto.
    + unfold same_geom. cbn [set_slot t_alloc t_gmask t_shift t_mlf]. auto.
    + apply seti_length.
    + cbn. lia.
  - rewrite E. discriminate.
  - destruct X as [(E & _)|(t2 & i & E & (I2 & SG & Hi & Hsl & Hsz & Ht & _))]; rewrite E; [discriminate|].
    intros [= <- _]. apply same_limited with t1; auto.
    + rewrite Hsl. apply seti_length.
    + destruct Ht as [Ht|(Hc & _)]; [lia|congruence].
    + destruct HR as [[-> _]|(_ & c & R & _)]; auto. eapply rehashed_limited; eauto.
Qed.

Lemma erase_limited t k t' n : Inv1 t -> limited t ->
  find_and_erase K V hash keq kd t k = Ret t' n -> limited t'.
Proof.
  intros I1 H E.
  pose proof (erase_keeps1 hash keq kd L LW t k I1) as H1. rewrite E in H1. cbn [obind keeps] in H1.
  destruct I1 as [I _]. unfold find_and_erase in E.
  destruct (find_spec hash keq kd L LW t k I)
    as [(gi & p & kv & Ef & Ha & Hp & Hs & Hk)|[Ef Habs]]; rewrite Ef in E.
  2:{ injection E as <- _. exact H. }
  destruct (erase_slot_spec hash keq kd L t gi p kv I Ha Hp Hs)
    as (t1 & Ee & I' & SG & Hsl & Hsz & Hs1 & Ht & Hm).
  rewrite Ee in E. injection E as <- _.
  intros k' Hk'. destruct (proj2 H1 k' Hk') as [Hb _].
  assert (Hbig : scap k' < two64 - 1).
  { destruct Hk' as (_ & _ & _ & Hb' & _). pose proof (scap_le kd L k').
    change (2 ^ 55) with 36028797018963968 in Hb'. rewrite two64_eq. lia. }
  apply (kof_geom kd t t1 k') in Hk'; auto; [|rewrite Hsl; apply seti_length].
  specialize (H k' Hk'). destruct SG as (_ & _ & _ & Hml). rewrite Hml.
  assert (Htl : t_thr _ _ t < two64).
  { pose proof (thr_of_le kd (t_mlf _ _ t) k'). pose proof (iv_mlf _ _ _ _ _ I). lia. }
  destruct (marked _ _ _) eqn:Em in Ht; cbn [N.b2n] in Ht.
  - destruct (N.eq_dec (t_thr _ _ t) 0) as [E0|E0].
    + rewrite E0 in Ht. change (wsub 0 1) with (two64 - 1) in Ht. lia.
    + rewrite wsub_small in Ht by (auto; lia). lia.
  - rewrite wsub_0 in Ht by auto. lia.
Qed.

Lemma grown_limited t r t' u : limited t -> grown hash keq kd L t r -> r = Ret t' u -> limited t'.
Proof.
  intros H [-> |[-> |(nt & c & -> & R & _)]] E.
  - injection E as <- _. exact H.
  - discriminate.
  - injection E as <- _. eapply rehashed_limited; eauto.
Qed.

Lemma empty_limited m : limited (empty_table K V kd m).
Proof. intros k Hk. now apply empty_kof in Hk. Qed.

Lemma unit_ret (r : out table unit) t' x :
  obind r (fun t1 _ => Ret t1 (RUnit K V)) = Ret t' x -> r = Ret t' tt.
Proof. destruct r as [t1 []|t1|e]; cbn [obind]; congruence. Qed.

Lemma ins_ret (r : out table (N * bool)) t' x :
  observe_ins K V r = Ret t' x -> exists u, r = Ret t' u.
Proof.
  unfold observe_ins. destruct r as [t1 [i b]|t1|e]; cbn [obind]; try discriminate.
  destruct (entry_at K V t1 (fst (i, b))); intros E; [|discriminate].
  exists (i, b). congruence.
Qed.

Lemma step_limited alloc o t t' r : alloc_ok alloc -> Inv1 t -> limited t -> client_noshrink K V kd o t ->
  step alloc o t = Ret t' r -> limited t'.
Proof.
  intros HA I1 H Ho E. pose proof (proj1 I1) as I. pose proof (iv_mlf _ _ _ _ _ I) as Hml.
  destruct o as [k v|k v|k|k|k| |b|n|n|b|m]; cbn [TableModel.step] in E.
  - apply ins_ret in E. destruct E as [u E]. eapply emplace_limited; eauto.
  - apply ins_ret in E. destruct E as [u E]. eapply emplace_limited; eauto.
  - destruct (find_and_erase K V hash keq kd t k) as [t1 n|t1|e] eqn:Ee; cbn [obind] in E; try discriminate.
    injection E as <- _. eapply erase_limited; eauto.
  - rewrite (lookup_correct hash keq kd L LW t k I) in E. injection E as <- _. exact H.
  - rewrite (lookup_correct hash keq kd L LW t k I) in E. injection E as <- _. exact H.
  - injection E as <- _. exact H.
  - apply unit_ret in E. unfold clear in E. destruct b.
    + rewrite (destroy_spec hash keq kd L) in E by auto. injection E as <-. apply empty_limited.
    + destruct (t_alloc _ _ t) eqn:Ea.
      * destruct (clear_data_alloc hash keq kd L t I Ea) as (t1 & E1 & I' & SG & Hsl & Hs & Ht & Hp).
        rewrite E1 in E. injection E as <-. apply same_limited with t; auto.
        -- now rewrite Hsl, repeat_length.
        -- lia.
      * rewrite (clear_data_unalloc hash keq kd L t I Ea) in E.
        destruct (kd_sent kd); [discriminate|]. injection E as <-. exact H.
  - apply unit_ret in E. cbn [client_noshrink client_ok] in Ho. unfold reserve in E.
    rewrite (proj2 (N.eqb_neq _ _) Ho) in E. cbn [negb] in E.
    eapply grown_limited; [exact H|apply (rehash_grow hash keq kd L LW)|exact E]; auto.
    pose proof (fit_le hash keq kd L t n I). assert (2 ^ 57 <= 2 ^ 63) by (apply pow2_le; lia). lia.
  - apply unit_ret in E. cbn [client_noshrink client_ok] in Ho.
    destruct (rehash_grown hash keq kd L LW NS alloc n t HA I Ho) as [X|X].
    + eapply grown_limited; eauto.
    + rewrite X in E. injection E as <-. apply empty_limited.
  - destruct Ho.
  - apply unit_ret in E. destruct (mlf_rehash hash keq kd L alloc m t HA I) as (cap & E1 & Hcap).
    rewrite E1 in E.
    pose proof (set_mlf_Inv1 hash keq kd L t _ (clamp_range m) I1) as I1'.
    assert (2 ^ 58 <= 2 ^ 63) by (apply pow2_le; lia).
    assert (Hg : grown hash keq kd L (set_mlf K V t (clamp m)) (rehash K V hash kd alloc cap (set_mlf K V t (clamp m)))
       \/ rehash K V hash kd alloc cap (set_mlf K V t (clamp m)) = Ret (empty_table K V kd (clamp m)) tt)
      by (apply (rehash_grown hash keq kd L LW NS); auto; [apply I1'|lia]).
    destruct Hg as [[X|[X|(nt & c & X & R & _)]]|X]; rewrite X in E.
    + (* no growth: impossible for a map with storage *)
      injection E as <-. intros k Hk. exfalso.
      assert (Hk0 : kof t k) by exact Hk.
      unfold rehash in X. rewrite NS in X.
      set (n' := N.max (shrink_to_fit_capacity K V (set_mlf K V t (clamp m)) (t_size _ _ (set_mlf K V t (clamp m)))) cap) in X.
      assert (Hn' : n' <= 2 ^ 63).
      { unfold n'. pose proof (fit_le hash keq kd L (set_mlf K V t (clamp m)) (t_size _ _ (set_mlf K V t (clamp m))) (proj1 I1')).
        assert (2 ^ 57 <= 2 ^ 63) by (apply pow2_le; lia). lia. }
      assert (Hcn : ctrl_capacity K V kd t < n') by (unfold n'; lia).
      destruct (N.eqb_spec n' 0) as [E0|E0]; cbn [negb] in X; [lia|].
      destruct (rehash_impl_spec hash keq kd L LW alloc false (set_mlf K V t (clamp m)) n' HA (proj1 I1') Hn')
        as (c & _ & _ & Hnc & _ & _ & Y). cbv zeta in Y.
      change (ctrl_capacity K V kd (set_mlf K V t (clamp m))) with (ctrl_capacity K V kd t) in Y.
      replace (ctrl_capacity K V kd t <? 2 ^ c) with true in Y by (symmetry; apply N.ltb_lt; lia).
      destruct Y as [[[=] _]|[(_ & _ & Y)|(_ & _ & [(_ & nt & Y & R)|(_ & Y)])]]; rewrite Y in X;
        try discriminate.
      injection X as ->. destruct R as (_ & Hk' & _).
      pose proof (ctrl_capacity_kof kd L _ _ Hk') as Ecc.
      change (ctrl_capacity K V kd (set_mlf K V t (clamp m))) with (ctrl_capacity K V kd t) in Ecc.
      destruct Hk' as (_ & _ & Hk1 & _). rewrite Ecc in Hcn.
      replace (c - w + w) with c in Hcn by lia. lia.
    + discriminate.
    + injection E as <-. eapply rehashed_limited; eauto.
    + injection E as <-. apply empty_limited.
Qed.

Lemma throw_same alloc o t t' : alloc_ok alloc -> Inv0 t -> client_ok K V kd o t ->
  match o with OMlf _ _ _ => False | _ => True end -> step alloc o t = Throw t' -> t' = t.
Proof.
  intros HA I Ho Hm E. pose proof (step_refines hash keq kd L LW alloc o t HA I Ho) as H.
  rewrite E in H. destruct H as [H|(m & -> & _)]; auto. destruct Hm.
Qed.

Lemma noshrink_ok o t : client_noshrink K V kd o t -> client_ok K V kd o t.
Proof. destruct o; cbn [client_noshrink]; auto. intros []. Qed.

Lemma loaded_limited t : loaded K V hash keq kd t -> Inv1 t /\ limited t.
Proof.
  induction 1 as [alloc n t HA E|alloc o t t' r _ [I1 IH] HA Hok E|alloc o t t' _ [I1 IH] HA Hok Hm E].
  - destruct (construct_spec hash keq kd L alloc n t HA E) as (I & Hsz & Hs & _).
    split; [now apply (Inv2_Inv1_empty hash keq kd L)|].
    unfold construct in E. change kDefaultMaxLoadFactor with 224 in E. destruct (negb (n =? 0)).
    + destruct (reserve_for_insert_spec (V:=V) hash keq kd L alloc n 224 HA ltac:(lia)) as (c & Hc & _ & H).
      destruct H as [[_ E']|(nt & E' & _ & HK & _ & _ & Ht & Hm & _)]; rewrite E' in E; [discriminate|].
      injection E as <-. intros k Hk. assert (k = c - w) by (eapply kof_inj; eauto). subst k.
      rewrite Ht, Hm. lia.
    + injection E as <-. apply empty_limited.
  - split.
    + pose proof (step_keeps1 hash keq kd L LW NC NS alloc o t HA I1 Hok) as H. now rewrite E in H.
    + eapply step_limited; eauto.
  - assert (t' = t) by (eapply throw_same; eauto; [apply I1|now apply noshrink_ok]). subst t'. auto.
Qed.

Lemma loaded_load t : loaded K V hash keq kd t -> kMinCapacity kd < capacity K V kd t ->
  256 * t_size _ _ t <= t_mlf _ _ t * capacity K V kd t + 256.
Proof.
  intros H Hc. apply loaded_limited in H. destruct H as [[I H1] HL].
  destruct (t_alloc _ _ t) eqn:Ea.
  2:{ unfold capacity in Hc. rewrite Ea in Hc. pose proof (kl_w_range _ L). lia. }
  destruct (Inv0_kof hash keq kd L t I Ea) as [k Hk].
  rewrite (capacity_kof kd L t k Hk) in *. specialize (HL k Hk). destruct (H1 k Hk) as [_ Hd].
  unfold thr_of in HL. replace (kMinCapacity kd <? scap k) with true in HL by (symmetry; apply N.ltb_lt; lia).
  assert (t_size _ _ t <= t_thr _ _ t + 1) by (destruct Hd as [Hd|[Hd _]]; lia).
  pose proof (N.mul_div_le (scap k * t_mlf _ _ t) 256 ltac:(lia)). lia.
Qed.

End Load.
