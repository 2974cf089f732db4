(** Capacity arithmetic, storage creation and rehashing. *)
From Coq Require Import NArith ZArith List Bool Lia Permutation.
From Coq Require Import ZifyBool ZifyNat ZifyN.
From Verif Require Import Base BaseFacts BitsModel BitsFacts ProberModel ProberFacts
  GroupModel GroupFacts TableModel TableInv TableFind TableInsert TableLoops.
Import ListNotations.
Open Scope N_scope.
Ltac Zify.zify_post_hook ::= Z.div_mod_to_equations.

(** No allocator gives out more than 2^55 slots (a slot is at least one byte). *)
Definition alloc_ok (alloc : N -> bool) : Prop := forall n, alloc n = true -> n <= 2 ^ 55.

Section Cap.

Context {K V : Type} (hash : K -> N) (keq : K -> K -> bool) (kd : kind) (L : klaws kd).
Context (LW : tame hash keq).

Notation table := (table K V).
Notation S' := (kd_S kd).
Notation w := (kl_w kd L).
Notation code := (kl_code kd L).
Notation valid := (kl_valid kd L).
Notation sidx := (slot_index kd).
Notation gsinv := (@TableInv.gsinv K V hash keq kd L).
Notation Inv0 := (@TableInv.Inv0 K V hash keq kd L).
Notation ovf := (kd_is_overflow kd).
Notation scap := (scap kd).

Lemma kMin_pow : kMinCapacity kd = 2 ^ (w + 1).
Proof. unfold kMinCapacity. rewrite (kl_W _ L), N.pow_add_r. reflexivity. Qed.

Lemma kMin_range : 32 <= kMinCapacity kd <= 64.
Proof. unfold kMinCapacity. destruct (W_cases kd L) as [-> | ->]; lia. Qed.

(** The capacity chosen for a request of [n]. *)
Lemma calc_capacity_spec t n : n <= 2 ^ 63 -> t_size K V t <= 2 ^ 63 ->
  exists c, calc_capacity K V kd t n = Ok (2 ^ c) /\ w + 1 <= c <= 63
    /\ n <= 2 ^ c /\ t_size _ _ t <= 2 ^ c
    /\ 2 ^ (c - 1) < N.max (N.max n (kMinCapacity kd)) (t_size _ _ t).
Proof.
  intros Hn Hs. unfold calc_capacity. pose proof kMin_range as HR. pose proof kMin_pow as HP.
  set (c0 := N.max (N.max n (kMinCapacity kd)) (t_size _ _ t)).
  assert (E63 : 2 ^ 63 = 9223372036854775808) by reflexivity.
  assert (Hc0 : 32 <= c0 <= 2 ^ 63) by (unfold c0; lia).
  assert (Hc1 : c0 < two64) by (rewrite two64_eq; lia).
  pose proof (is_pow2_spec c0 ltac:(lia) Hc1) as P2.
  destruct (is_pow2 c0).
  - destruct (proj1 P2 eq_refl) as [q Eq]. exists q. rewrite Eq. split; auto.
    assert (Hq : q <= 63).
    { destruct (N.le_gt_cases q 63); auto. assert (2 ^ 63 < 2 ^ q) by (apply pow2_lt; lia). lia. }
    assert (Hq1 : w + 1 <= q).
    { destruct (N.le_gt_cases (w + 1) q); auto.
      assert (2 ^ q < 2 ^ (w + 1)) by (apply pow2_lt; lia). unfold c0 in *. lia. }
    split; [lia|]. rewrite <- Eq. split; [unfold c0; lia|]. split; [unfold c0; lia|].
    fold c0. rewrite Eq. apply pow2_lt. lia.
  - destruct (round_up_spec (kMinCapacity kd) c0 ltac:(lia) ltac:(lia)) as (q & Eq & Hq & Hlo & Hhi).
    exists q. split; auto.
    assert (Hq1 : w + 1 <= q).
    { destruct (N.le_gt_cases (w + 1) q); auto.
      assert (2 ^ q < 2 ^ (w + 1)) by (apply pow2_lt; lia). unfold c0 in *. lia. }
    split; [lia|]. split; [unfold c0 in *; lia|]. split; [unfold c0 in *; lia|]. exact Hhi.
Qed.

(** ** Geometry of a new table *)

Lemma pow_cw c : w <= c -> 2 ^ c = 2 ^ (c - w) * kd_W kd.
Proof. intros. rewrite (kl_W _ L), <- N.pow_add_r. f_equal. lia. Qed.

Lemma W_pos : 0 < kd_W kd.
Proof. destruct (W_cases kd L) as [-> | ->]; lia. Qed.

Lemma calc_group_capacity_pow c : w + 1 <= c -> c <= 55 ->
  calc_group_capacity kd (2 ^ c) = 2 ^ (c - w).
Proof.
  intros H1 H2. unfold calc_group_capacity. pose proof W_pos.
  assert (2 ^ c <= 2 ^ 55) by (apply pow2_le; lia).
  change (2 ^ 55) with 36028797018963968 in *.
  rewrite wadd_small by (rewrite two64_eq; destruct (W_cases kd L) as [-> | ->]; lia).
  rewrite (pow_cw c) by lia.
  rewrite N.add_comm, N.div_add by lia.
  rewrite N.div_small by lia. lia.
Qed.

Lemma calc_index_shift_pow c : w + 1 <= c -> calc_index_shift kd (2 ^ c) = 64 - (c - w).
Proof.
  intros H1. unfold calc_index_shift. pose proof W_pos. rewrite (pow_cw c) by lia.
  rewrite N.div_mul by lia. f_equal.
  destruct (N.leb_spec (2 ^ (c - w)) 2) as [Hle|Hgt].
  - destruct (N.eq_dec (c - w) 1) as [|Hne]; [lia|].
    assert (2 ^ 2 <= 2 ^ (c - w)) by (apply pow2_le; lia). change (2 ^ 2) with 4 in *. lia.
  - unfold bsr. apply N.log2_pow2. lia.
Qed.

Lemma scap_le k : scap k <= 2 ^ k * kd_W kd.
Proof.
  unfold TableInv.scap. pose proof (kl_S _ L).
  assert (2 ^ k * S' <= 2 ^ k * kd_W kd) by (apply N.mul_le_mono_l; lia).
  destruct (kd_sent kd); lia.
Qed.

Lemma calc_slot_capacity_scap k : 2 ^ k * kd_W kd <= 2 ^ 55 ->
  calc_slot_capacity kd (2 ^ k) = scap k.
Proof.
  intros H. unfold calc_slot_capacity, TableInv.scap. pose proof (kl_S _ L).
  pose proof (S_pos kd L). pose proof (pow2_pos k).
  change (2 ^ 55) with 36028797018963968 in *. pose proof two64_eq.
  assert (2 ^ k * S' <= 2 ^ k * kd_W kd) by (apply N.mul_le_mono_l; lia).
  destruct (kd_sent kd) eqn:E.
  - rewrite wmul_small by lia. rewrite wsub_small by nia. reflexivity.
  - rewrite wmul_small by lia. now rewrite (kl_S_nosent _ L E).
Qed.

(** The growth limit of a table with 2^k groups. *)
Definition thr_of (mlf k : N) : N :=
  if kMinCapacity kd <? scap k then scap k * mlf / 256 else scap k.

Lemma calc_slot_threshold_of mlf k : 2 ^ k * kd_W kd <= 2 ^ 55 -> mlf <= 224 ->
  calc_slot_threshold kd mlf (scap k) = thr_of mlf k.
Proof.
  intros H Hm. unfold calc_slot_threshold, thr_of, kSmallCapacity, kMinCapacity, kAmplify.
  pose proof (scap_le k). change (2 ^ 55) with 36028797018963968 in *.
  rewrite wmul_small; auto. rewrite two64_eq. nia.
Qed.

Lemma thr_of_le mlf k : mlf <= 224 -> thr_of mlf k <= scap k.
Proof.
  intros. unfold thr_of. destruct (_ <? _); [|lia].
  apply N.div_le_upper_bound; [lia|]. nia.
Qed.

Lemma scap_pos k : 1 <= k -> 0 < scap k.
Proof.
  intros. unfold TableInv.scap. pose proof (S_pos kd L).
  assert (2 ^ 1 <= 2 ^ k) by (apply pow2_le; lia). change (2 ^ 1) with 2 in *.
  destruct (kd_sent kd); nia.
Qed.

Lemma scap_mono k k' : k <= k' -> scap k <= scap k'.
Proof.
  intros. unfold TableInv.scap. assert (2 ^ k <= 2 ^ k') by now apply pow2_le.
  destruct (kd_sent kd); nia.
Qed.

(** Doubling the table makes the limit at least the old number of slots. *)
Lemma thr_of_grow mlf k k' : 128 <= mlf -> k + 1 <= k' -> scap k <= thr_of mlf k'.
Proof.
  intros Hm Hk. unfold thr_of.
  assert (H2 : 2 * scap k <= scap k').
  { pose proof (scap_mono (k + 1) k' Hk). pose proof (S_pos kd L). pose proof (pow2_pos k).
    assert (E : 2 * scap k <= scap (k + 1)); [|lia].
    unfold TableInv.scap. rewrite N.add_1_r, N.pow_succ_r'. destruct (kd_sent kd); nia. }
  destruct (_ <? _); [|lia].
  apply N.div_le_lower_bound; [lia|]. nia.
Qed.

Lemma fresh_groups_at k gi g : geti (fresh_groups kd (2 ^ k)) gi = Some g ->
  valid g /\ (forall p, p < S' -> code g p = if is_sent kd k gi p then 1 else 0)
  /\ (forall h, ovf g h = false).
Proof.
  unfold fresh_groups, set_sentinel_mark. pose proof (pow2_pos k) as HP. intros H.
  assert (Hlast : geti (repeat (kd_init kd) (N.to_nat (2 ^ k))) (2 ^ k - 1) = Some (kd_init kd)).
  { apply geti_repeat. lia. }
  destruct (kd_sent kd) eqn:Es.
  - rewrite Hlast in H. destruct (N.eq_dec (2 ^ k - 1) gi) as [<-|Hne].
    + rewrite geti_seti_eq in H by (rewrite repeat_length; lia). injection H as <-.
      split; [apply (kl_sentinel_valid _ L), (kl_init_valid _ L)|]. split.
      * intros p Hp. rewrite (kl_sentinel_code _ L) by (auto; apply (kl_init_valid _ L)).
        unfold is_sent. rewrite Es, N.eqb_refl. cbn [andb].
        destruct (p =? S' - 1); auto. now apply (kl_init_code _ L).
      * intros h. rewrite (kl_sentinel_ovf _ L) by apply (kl_init_valid _ L). apply (kl_init_ovf _ L).
    + rewrite geti_seti_neq in H by auto. apply geti_In, repeat_spec in H. subst g.
      split; [apply (kl_init_valid _ L)|]. split; [|apply (kl_init_ovf _ L)].
      intros p Hp. unfold is_sent. rewrite Es. destruct (N.eqb_spec gi (2 ^ k - 1)); [congruence|].
      cbn [andb]. now apply (kl_init_code _ L).
  - apply geti_In, repeat_spec in H. subst g.
    split; [apply (kl_init_valid _ L)|]. split; [|apply (kl_init_ovf _ L)].
    intros p Hp. unfold is_sent. rewrite Es. cbn [andb]. now apply (kl_init_code _ L).
Qed.

Lemma fresh_groups_length k : N.of_nat (length (fresh_groups kd (2 ^ k))) = 2 ^ k.
Proof.
  unfold fresh_groups, set_sentinel_mark. destruct (kd_sent kd).
  - destruct (geti _ _); rewrite ?seti_length, repeat_length; lia.
  - rewrite repeat_length. lia.
Qed.

Lemma geti_repeat_inv {A} (x : A) n i y : geti (repeat x n) i = Some y -> y = x.
Proof. intros H. now apply geti_In, repeat_spec in H. Qed.

Lemma fresh_gsinv k : 1 <= k -> 2 ^ k * kd_W kd <= 2 ^ 55 ->
  gsinv k (fresh_groups kd (2 ^ k)) (repeat None (N.to_nat (scap k))).
Proof.
  intros Hk Hb. constructor; auto.
  - apply fresh_groups_length.
  - rewrite repeat_length. lia.
  - intros gi g H. now apply fresh_groups_at in H.
  - intros gi p g H Hp Hs. apply fresh_groups_at in H. destruct H as (_ & H & _).
    rewrite H by auto. now rewrite Hs.
  - intros gi p g H Hp _ Hs. apply fresh_groups_at in H. destruct H as (_ & H & _).
    rewrite H by auto. now rewrite Hs.
  - intros gi p g kv _ _ H. apply geti_repeat_inv in H. discriminate.
  - intros gi p kv _ _ H. apply geti_repeat_inv in H. discriminate.
  - intros i j e1 e2 H. apply geti_repeat_inv in H. discriminate.
Qed.

Lemma fresh_pristine k : pristine kd L (fresh_groups kd (2 ^ k)).
Proof. intros gi g p h H _ _. apply fresh_groups_at in H. apply H. Qed.

Lemma create_slots_spec alloc t c : alloc_ok alloc ->
  w + 1 <= c -> 128 <= t_mlf K V t <= 224 ->
  (alloc (2 ^ c) = false /\ create_slots K V kd alloc t (2 ^ c) = Throw t)
  \/ (alloc (2 ^ c) = true /\ exists nt, create_slots K V kd alloc t (2 ^ c) = Ret nt tt
       /\ Inv0 nt /\ t_alloc _ _ nt = true /\ t_gmask _ _ nt = 2 ^ (c - w) - 1
       /\ 1 <= c - w /\ 2 ^ (c - w) * kd_W kd <= 2 ^ 55
       /\ t_slots _ _ nt = repeat None (N.to_nat (scap (c - w)))
       /\ t_size _ _ nt = 0 /\ t_thr _ _ nt = thr_of (t_mlf _ _ t) (c - w)
       /\ t_mlf _ _ nt = t_mlf _ _ t /\ pristine kd L (t_groups _ _ nt)).
Proof.
  intros HA Hc Hm. unfold create_slots. destruct (alloc (2 ^ c)) eqn:E; [right|left; auto].
  apply HA in E. split; auto.
  assert (Hc55 : c <= 55).
  { destruct (N.le_gt_cases c 55); auto. assert (2 ^ 55 < 2 ^ c) by (apply pow2_lt; lia). lia. }
  rewrite calc_group_capacity_pow, calc_index_shift_pow by auto.
  assert (Hb : 2 ^ (c - w) * kd_W kd <= 2 ^ 55) by (rewrite <- pow_cw by lia; auto).
  rewrite calc_slot_capacity_scap by auto. rewrite calc_slot_threshold_of by (auto; lia).
  eexists. split; [reflexivity|].
  assert (Hw : wsub (2 ^ (c - w)) 1 = 2 ^ (c - w) - 1).
  { apply wsub_small; [pose proof (pow2_pos (c - w)); lia|]. pose proof W_pos.
    change (2 ^ 55) with 36028797018963968 in Hb. rewrite two64_eq. nia. }
  split.
  { constructor; cbn [t_slots t_alloc t_groups t_size t_thr t_gmask t_shift t_mlf].
    - discriminate.
    - intros _. exists (c - w). split; [apply fresh_gsinv; auto; lia|]. auto.
    - rewrite elems_repeat_None. reflexivity.
    - auto. }
  cbn [t_slots t_alloc t_groups t_size t_thr t_gmask t_shift t_mlf].
  split; auto. split; auto. split; [lia|]. split; auto. split; auto. split; auto.
  split; auto. split; auto. apply fresh_pristine.
Qed.

(** ** Rehashing *)

Definition kof (t : table) (k : N) : Prop :=
  t_alloc _ _ t = true /\ t_gmask _ _ t = 2 ^ k - 1 /\ 1 <= k /\ 2 ^ k * kd_W kd <= 2 ^ 55
  /\ N.of_nat (length (t_slots _ _ t)) = scap k.

Lemma Inv0_kof t : Inv0 t -> t_alloc _ _ t = true -> exists k, kof t k.
Proof.
  intros I Ha. destruct (iv_alloc _ _ _ _ _ I Ha) as (k & G & Hm & Hs). exists k.
  repeat split; auto; destruct G; auto.
Qed.

Lemma kof_inj t k k' : kof t k -> kof t k' -> k = k'.
Proof.
  intros (_ & H & _) (_ & H' & _). apply (N.pow_inj_r 2); [lia|].
  pose proof (pow2_pos k). pose proof (pow2_pos k'). lia.
Qed.

Lemma kof_size t k : Inv0 t -> kof t k -> t_size _ _ t <= scap k.
Proof.
  intros I (_ & _ & _ & _ & H). rewrite (iv_size _ _ _ _ _ I), <- H.
  pose proof (elems_length_le (t_slots _ _ t)). lia.
Qed.

Lemma size_small t : Inv0 t -> t_size _ _ t <= 2 ^ 55.
Proof.
  intros I. destruct (t_alloc _ _ t) eqn:E.
  - destruct (Inv0_kof _ I E) as [k Hk]. pose proof (kof_size _ _ I Hk).
    pose proof (scap_le k). destruct Hk as (_ & _ & _ & Hb & _). lia.
  - rewrite (iv_unalloc _ _ _ _ _ I E). cbn [empty_table t_size]. apply N.le_0_l.
Qed.

Lemma ctrl_capacity_kof t k : kof t k -> ctrl_capacity K V kd t = 2 ^ (k + w).
Proof.
  intros (Ha & Hm & Hk & Hb & _). unfold ctrl_capacity, group_capacity. rewrite Ha, Hm.
  pose proof W_pos. pose proof (pow2_pos k).
  change (2 ^ 55) with 36028797018963968 in Hb.
  rewrite wadd_small by (rewrite two64_eq; nia).
  replace (2 ^ k - 1 + 1) with (2 ^ k) by lia.
  rewrite wmul_small by (rewrite two64_eq; nia).
  rewrite N.pow_add_r. now rewrite (kl_W _ L).
Qed.

(** What a rehash to 2^c control bytes does when it happens. *)
Definition rehashed (t nt : table) (c : N) : Prop :=
  Inv0 nt /\ kof nt (c - w) /\ Permutation (elems (t_slots _ _ nt)) (elems (t_slots _ _ t))
  /\ t_size _ _ nt = t_size _ _ t
  /\ t_thr _ _ nt = thr_of (t_mlf _ _ t) (c - w)
  /\ t_mlf _ _ nt = t_mlf _ _ t
  /\ pristine kd L (t_groups _ _ nt).

Lemma transfer_transfer_i gi p st :
  transfer K V hash kd gi p st = transfer_i hash kd (sidx gi p) st.
Proof. destruct st. reflexivity. Qed.

Lemma rehash_impl_spec alloc (shrink : bool) t n : alloc_ok alloc -> Inv0 t -> n <= 2 ^ 63 ->
  exists c, calc_capacity K V kd t n = Ok (2 ^ c) /\ w + 1 <= c <= 63
    /\ n <= 2 ^ c /\ t_size _ _ t <= 2 ^ c
    /\ 2 ^ (c - 1) < N.max (N.max n (kMinCapacity kd)) (t_size _ _ t) /\
  let go := if shrink then negb (2 ^ c =? ctrl_capacity K V kd t)
            else ctrl_capacity K V kd t <? 2 ^ c in
  (go = false /\ rehash_impl K V hash kd alloc shrink t n = Ret t tt)
  \/ (go = true /\ alloc (2 ^ c) = false /\ rehash_impl K V hash kd alloc shrink t n = Throw t)
  \/ (go = true /\ alloc (2 ^ c) = true
      /\ (t_size _ _ t <= scap (c - w) /\
            (exists nt, rehash_impl K V hash kd alloc shrink t n = Ret nt tt /\ rehashed t nt c)
          \/ scap (c - w) < t_size _ _ t
             /\ rehash_impl K V hash kd alloc shrink t n = Fail ELoop)).
Proof.
  intros HA I Hn. pose proof (size_small t I) as Hsz.
  assert (2 ^ 55 <= 2 ^ 63) by (apply pow2_le; lia).
  destruct (calc_capacity_spec t n Hn ltac:(lia)) as (c & Ec & Hc & Hnc & Hsc & Hlo).
  exists c. split; auto. split; auto. split; auto. split; auto. split; auto. intros go.
  unfold rehash_impl. rewrite Ec. fold go. destruct go; [right|left; auto].
  destruct (create_slots_spec alloc t c HA ltac:(lia) (iv_mlf _ _ _ _ _ I))
    as [[Ea E]|(Ea & nt & E & In' & Ha & Hm & Hk & Hb & Hsl & Hs0 & Ht & Hml & Hpr)];
    [left|right]; rewrite E; auto.
  split; auto. split; auto.
  assert (Hkof : kof nt (c - w)).
  { repeat split; auto. rewrite Hsl, repeat_length. lia. }
  destruct (t_alloc _ _ t) eqn:Eal.
  - destruct (iv_alloc _ _ _ _ _ I Eal) as (k & G & Hmk & Hsk).
    rewrite (each_group_fold hash keq kd L (transfer K V hash kd) (transfer_i hash kd)
               transfer_transfer_i k _ _ _ G).
    set (l := filter (occ (t_slots _ _ t)) (seqN (2 ^ k * S'))).
    assert (Hlen : N.of_nat (length l) = t_size _ _ t).
    { rewrite (iv_size _ _ _ _ _ I).
      rewrite <- (map_length Some (elems (t_slots _ _ t))).
      rewrite (elems_occ _ (2 ^ k * S')), map_length; [reflexivity|].
      rewrite (gv_slen _ _ _ _ _ _ _ G). unfold TableInv.scap. destruct (kd_sent kd); lia. }
    destruct (fold_transfer hash keq kd L LW (c - w) l nt (t_slots _ _ t)) as [Hok Hloop]; auto.
    + apply NoDup_filter, seqN_NoDup.
    + intros i Hi. apply filter_In in Hi. tauto.
    + intros. eapply gv_uniq; eauto.
    + intros i e _ j kv Hj. rewrite Hsl in Hj. apply geti_repeat_inv in Hj. discriminate.
    + rewrite Hs0 in *. rewrite Hlen in *.
      destruct (N.le_gt_cases (t_size _ _ t) (scap (c - w))) as [Hle|Hgt].
      * left. split; auto.
        destruct Hok as (nt' & os' & E' & I' & SG & Ht' & Hs' & Hp & Hpr' & Hl' & H3 & H4); [lia|].
        rewrite E'.
        assert (Hnone : elems os' = []).
        { destruct (elems os') as [|e r] eqn:Ee; auto. exfalso.
          assert (Hin : In e (elems os')) by (rewrite Ee; now left).
          apply In_elems in Hin. destruct Hin as [i Hi].
          destruct (in_dec N.eq_dec i l) as [Hin|Hni].
          - rewrite H3 in Hi by auto. discriminate.
          - pose proof Hi as Hi2. rewrite H4 in Hi2 by auto. apply Hni. apply filter_In. split.
            + apply seqN_In. apply geti_Some_lt in Hi2. rewrite (gv_slen _ _ _ _ _ _ _ G) in Hi2.
              unfold TableInv.scap in Hi2. destruct (kd_sent kd); lia.
            + apply occ_true. eauto. }
        rewrite (proj2 (elems_nil_all_none os') Hnone).
        exists nt'. split; auto. destruct SG as (Sa & Sm & Ss & Sl).
        split; auto. split.
        { destruct Hkof as (K1 & K2 & K3 & K4 & K5). unfold kof. rewrite Sa, Sm.
          repeat split; auto.
          destruct (iv_alloc _ _ _ _ _ I') as (k2 & G2 & Hm2 & _); [congruence|].
          assert (k2 = c - w).
          { apply (N.pow_inj_r 2); [lia|]. pose proof (pow2_pos k2). pose proof (pow2_pos (c - w)). lia. }
          subst k2. apply (gv_slen _ _ _ _ _ _ _ G2). }
        split.
        { rewrite Hnone, app_nil_r, Hsl, elems_repeat_None in Hp. exact Hp. }
        split; [lia|]. split; [congruence|]. split; [congruence|]. auto.
      * right. split; auto. now rewrite Hloop by lia.
  - left. split.
    { rewrite (iv_unalloc _ _ _ _ _ I Eal). cbn [empty_table t_size]. apply N.le_0_l. }
    exists nt. split; auto. split; auto. split; auto.
    rewrite (iv_unalloc _ _ _ _ _ I Eal). cbn [empty_table t_slots t_size elems flat_map].
    rewrite Hsl, elems_repeat_None. auto.
Qed.

End Cap.
