(** Every state that a client can reach satisfies the invariant. *)
From Coq Require Import NArith ZArith List Bool Lia Permutation.
From Coq Require Import ZifyBool ZifyNat ZifyN.
From Verif Require Import Base BaseFacts BitsModel BitsFacts GroupModel GroupFacts
  TableModel TableInv TableFind TableInsert TableLoops TableCap TableOps IterModel IterFacts
  CopyModel CopyFacts MapSpec MapFacts RunModel Refine Progress ReachModel.
Import ListNotations.
Open Scope N_scope.
Ltac Zify.zify_post_hook ::= Z.div_mod_to_equations.

Lemma readable15 : readable k15 k15_laws.
Proof.
  constructor.
  - intros g [H _]. cbn [k15 kd_W]. lia.
  - reflexivity.
  - discriminate.
Qed.

Lemma readable16 : readable k16 k16_laws.
Proof.
  constructor.
  - intros g [H _]. cbn [k16 kd_W]. lia.
  - discriminate.
  - intros _ g p. cbn. now rewrite land_127.
Qed.

Section Reach.

Context {K V : Type} (hash : K -> N) (keq : K -> K -> bool) (kd : kind) (L : klaws kd).
Context (LW : lawful hash keq).

Notation table := (table K V).
Notation w := (kl_w kd L).
Notation Inv0 := (@TableInv.Inv0 K V hash keq kd L).
Notation Inv1 := (@Progress.Inv1 K V hash keq kd L).
Notation Inv2 := (@Progress.Inv2 K V hash keq kd L).
Notation scap := (TableInv.scap kd).
Notation kof := (@TableCap.kof K V kd).
Notation content t := (elems (t_slots _ _ t)).

Lemma sane_ok alloc : sane alloc -> alloc_ok alloc.
Proof. exact (fun H => H). Qed.

Lemma construct_spec alloc n t : alloc_ok alloc -> construct K V kd alloc n = Ret t tt ->
  Inv2 t /\ content t = [] /\ t_size _ _ t = 0 /\ t_mlf _ _ t = 224.
Proof.
  intros HA. unfold construct. change kDefaultMaxLoadFactor with 224.
  destruct (N.eqb_spec n 0); cbn [negb].
  - intros [= <-]. split; [|auto]. apply empty_Inv2. lia.
  - destruct (reserve_for_insert_spec (V:=V) hash keq kd L alloc n 224 HA ltac:(lia)) as (c & Hc & _ & H).
    destruct H as [[_ E]|(nt & E & I & HK & Hs & Hsl & Ht & Hm & Hp)]; rewrite E; intros Ex;
      [discriminate|injection Ex as <-].
    split; [|split; [|split]]; auto.
    + split; auto. intros k Hk. assert (k = c - w) by (eapply kof_inj; eauto). subst k.
      split; auto. rewrite Ht. apply thr_of_le. lia.
    + rewrite Hsl. apply elems_repeat_None.
Qed.

Lemma Inv2_Inv1_empty t : Inv2 t -> t_size _ _ t = 0 -> Inv1 t.
Proof.
  intros [I H] Hs. split; auto. intros k Hk. destruct (H k Hk). split; auto. left. lia.
Qed.

Lemma reachable_Inv0 t : reachable K V hash keq kd (client_ok K V kd) t -> Inv0 t.
Proof.
  induction 1 as [alloc n t HA E|alloc o t t' r _ IH HA Hok E|alloc o t t' _ IH HA Hok E].
  - apply (construct_spec alloc n t HA E).
  - pose proof (step_refines hash keq kd L LW alloc o t HA IH Hok) as H. rewrite E in H. apply H.
  - pose proof (step_refines hash keq kd L LW alloc o t HA IH Hok) as H. rewrite E in H.
    apply (step_ok_Throw hash keq kd L o t); auto.
Qed.

Lemma reachable_Inv1 t : kd_count_deleted kd = false -> kd_rehash_shrinks kd = false ->
  reachable K V hash keq kd (client_noshrink K V kd) t -> Inv1 t.
Proof.
  intros ND NS.
  induction 1 as [alloc n t HA E|alloc o t t' r _ IH HA Hok E|alloc o t t' _ IH HA Hok E].
  - destruct (construct_spec alloc n t HA E) as (I & _ & Hs & _). now apply Inv2_Inv1_empty.
  - pose proof (step_keeps1 hash keq kd L LW ND NS alloc o t HA IH Hok) as H. now rewrite E in H.
  - pose proof (step_keeps1 hash keq kd L LW ND NS alloc o t HA IH Hok) as H. now rewrite E in H.
Qed.

Lemma reachable_Inv2 t : reachable K V hash keq kd (erase_free K V kd) t -> Inv2 t.
Proof.
  induction 1 as [alloc n t HA E|alloc o t t' r _ IH HA Hok E|alloc o t t' _ IH HA Hok E].
  - apply (construct_spec alloc n t HA E).
  - pose proof (step_keeps2 hash keq kd L LW alloc o t HA IH Hok) as H. now rewrite E in H.
  - pose proof (step_keeps2 hash keq kd L LW alloc o t HA IH Hok) as H. now rewrite E in H.
Qed.

Lemma capacity_kof t k : kof t k -> capacity K V kd t = scap k.
Proof.
  intros (Ha & Hm & Hk & Hb & _). unfold capacity, group_capacity. rewrite Ha, Hm.
  pose proof (W_pos kd L). pose proof (pow2_pos k).
  change (2 ^ 55) with 36028797018963968 in Hb.
  rewrite wadd_small by (rewrite two64_eq; nia).
  replace (2 ^ k - 1 + 1) with (2 ^ k) by lia. now apply (calc_slot_capacity_scap kd L).
Qed.

Lemma swap_content_eq (a b : table) : swap_content K V a b = (b, a).
Proof. destruct a, b. reflexivity. Qed.

Lemma move_construct_eq (a : table) :
  move_construct K V kd a = (a, empty_table K V kd kDefaultMaxLoadFactor).
Proof. destruct a. reflexivity. Qed.

Lemma move_assign_eq t1 t2 : Inv0 t1 ->
  move_assign K V kd t1 t2 = Ok (t2, empty_table K V kd kDefaultMaxLoadFactor).
Proof.
  intros I. unfold move_assign. rewrite move_construct_eq, swap_content_eq.
  now rewrite (destroy_spec hash keq kd L) by auto.
Qed.

Lemma default_Inv0 : Inv0 (empty_table K V kd kDefaultMaxLoadFactor).
Proof. apply empty_Inv0. unfold kDefaultMaxLoadFactor. lia. Qed.

Lemma ctrl_cap_cap t t' k : Inv0 t -> t_alloc _ _ t = true -> kof t' k ->
  capacity K V kd t' <> capacity K V kd t -> 2 ^ (k + w) <> ctrl_capacity K V kd t.
Proof.
  intros I Ha Hk Hne E. apply Hne. destruct (Inv0_kof hash keq kd L t I Ha) as [k0 Hk0].
  rewrite (capacity_kof _ _ Hk), (capacity_kof _ _ Hk0).
  rewrite (ctrl_capacity_kof kd L _ _ Hk0) in E. apply N.pow_inj_r in E; [|lia].
  f_equal. lia.
Qed.

Lemma copy_Inv0 alloc past t t' : readable kd L -> alloc_ok alloc -> Inv0 t ->
  copy_construct K V hash kd alloc past t = Ret t' tt ->
  capacity K V kd t' <> capacity K V kd t \/ t_size _ _ t = 0 ->
  Inv0 t' /\ Permutation (content t') (content t) /\ t_size _ _ t' = t_size _ _ t
  /\ t_mlf _ _ t' = t_mlf _ _ t.
Proof.
  intros R HA I E Hor. destruct (N.eq_dec (t_size _ _ t) 0) as [E0|Hne].
  - unfold copy_construct in E. rewrite E0 in E. cbn in E. injection E as <-.
    split; [apply empty_Inv0, (iv_mlf _ _ _ _ _ I)|]. cbn [empty_table t_slots t_size t_mlf].
    rewrite (size0_content hash keq kd L t I E0). cbn. auto.
  - destruct Hor as [Hc|]; [|contradiction].
    assert (Ha : t_alloc _ _ t = true).
    { destruct (t_alloc _ _ t) eqn:Ea; auto. exfalso. apply Hne.
      rewrite (iv_unalloc _ _ _ _ _ I Ea). reflexivity. }
    destruct (copy_construct_spec hash keq kd L LW alloc past t R HA I Hne)
      as (c & Hcw & _ & [[_ H]|[(_ & t1 & H & I1 & _ & Hs & HP & Hm)|(Eq & t1 & H & Ha1 & Hg & Hsl & Hs & Hgm & Hsh & Hml)]]);
      rewrite H in E; [discriminate|injection E as <-|injection E as <-]; auto.
    exfalso. apply Hc. unfold capacity, group_capacity. now rewrite Ha1, Ha, Hgm.
Qed.

Lemma lift_Ret (r : res table) t : lift K V r = Ret t tt -> r = Ok t.
Proof. destruct r; cbn; congruence. Qed.

Lemma built_Inv0 t : readable kd L -> built K V hash keq kd t -> Inv0 t.
Proof.
  intros R. induction 1 as
    [alloc n t HA E|alloc o t t' r _ IH HA Hok E|alloc o t t' _ IH HA Hok E
    |alloc past t t' _ IH HA E Hor|alloc past t1 t2 t' _ IH1 _ IH2 HA E Hor
    |t _ IH|t _ IH|t1 t2 t1' t2' _ IH1 _ IH2 E|t1 t2 t1' t2' _ IH1 _ IH2 E
    |alloc t t1 t2 _ IH HA E Hor|alloc t t1 t2 _ IH HA E Hor
    |t1 t2 _ IH1 _ IH2|t1 t2 _ IH1 _ IH2|alloc l t t' _ IH HA E
    |past t it t' it' Hk _ IH [kv Hd] E|past pred t t' Hk _ IH E].
  - apply (construct_spec alloc n t HA E).
  - pose proof (step_refines hash keq kd L LW alloc o t HA IH Hok) as H. rewrite E in H. apply H.
  - pose proof (step_refines hash keq kd L LW alloc o t HA IH Hok) as H. rewrite E in H.
    apply (step_ok_Throw hash keq kd L o t); auto.
  - apply (copy_Inv0 alloc past t t'); auto.
  - unfold copy_assign in E. destruct (copy_construct K V hash kd alloc past t2) as [tmp []|tmp|e] eqn:Ec;
      try discriminate.
    rewrite swap_content_eq in E. destruct (destroy K V kd t1); try discriminate. injection E as <-.
    apply (copy_Inv0 alloc past t2 tmp); auto.
  - rewrite move_construct_eq. exact IH.
  - rewrite move_construct_eq. apply default_Inv0.
  - rewrite move_assign_eq in E by auto. now injection E as <- <-.
  - rewrite move_assign_eq in E by auto. injection E as <- <-. apply default_Inv0.
  - destruct (N.eq_dec (t_size _ _ t) 0) as [E0|Hne].
    + unfold move_construct_alloc in E. rewrite E0 in E. cbn in E. injection E as <- <-. apply default_Inv0.
    + destruct Hor as [Hc|]; [|contradiction].
      destruct (move_construct_alloc_spec hash keq kd L LW alloc t HA IH Hne) as (c & Hcw & _ & H & Heq).
      assert (Ha : t_alloc _ _ t = true).
      { destruct (t_alloc _ _ t) eqn:Ea; auto. exfalso. apply Hne.
        rewrite (iv_unalloc _ _ _ _ _ IH Ea). reflexivity. }
      destruct (N.eq_dec (2 ^ c) (ctrl_capacity K V kd t)) as [Eq|Nq].
      * exfalso. destruct (Heq Eq _ _ E) as [Ha1 Hg1]. apply Hc.
        unfold capacity, group_capacity. now rewrite Ha1, Ha, Hg1.
      * destruct (H Nq) as [H1|(t3 & H1 & I1 & _)]; rewrite H1 in E; [discriminate|].
        injection E as <- <-. exact I1.
  - destruct (N.eq_dec (t_size _ _ t) 0) as [E0|Hne].
    + unfold move_construct_alloc in E. rewrite E0 in E. cbn in E. injection E as <- <-.
      apply empty_Inv0, (iv_mlf _ _ _ _ _ IH).
    + assert (t2 = empty_table K V kd (t_mlf _ _ t)); [|subst; apply empty_Inv0, (iv_mlf _ _ _ _ _ IH)].
      unfold move_construct_alloc in E.
      repeat match type of E with context [match ?x with _ => _ end] => destruct x end;
        try discriminate; injection E as <- <-; reflexivity.
  - rewrite swap_content_eq. exact IH2.
  - rewrite swap_content_eq. exact IH1.
  - destruct l as [|e l].
    + cbn in E. now injection E as <-.
    + pose proof (range_insert_spec hash keq kd L LW alloc e l t HA IH) as H. rewrite E in H. apply H.
  - unfold deref16 in Hd. destruct (geti (t_slots K V t) it) as [[kv'|]|] eqn:Hg; try discriminate.
    destruct (erase_iter16_spec hash keq kd L (rd_len _ _ R) Hk (rd_nosent _ _ R Hk) past t it kv' IH Hg)
      as (t1 & j & E1 & I1 & _). rewrite E1 in E. now injection E as <- <-.
  - destruct (erase_if16_spec hash keq kd L R Hk past pred t IH) as (t1 & E1 & I1 & _).
    rewrite E1 in E. now injection E as <-.
Qed.

End Reach.
