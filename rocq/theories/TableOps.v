(** Every member function against its effect on the contents. *)
From Coq Require Import NArith ZArith List Bool Lia Permutation.
From Coq Require Import ZifyBool ZifyNat ZifyN.
From Verif Require Import Base BaseFacts BitsModel BitsFacts ProberModel ProberFacts
  GroupModel GroupFacts TableModel TableInv TableFind TableInsert TableLoops TableCap.
Import ListNotations.
Open Scope N_scope.
Ltac Zify.zify_post_hook ::= Z.div_mod_to_equations.

Lemma scap_lt_succ kd (L : klaws kd) k : scap kd k < scap kd (k + 1).
Proof.
  unfold scap. rewrite N.add_1_r, N.pow_succ_r'. pose proof (S_pos kd L).
  pose proof (pow2_pos k). assert (0 < 2 ^ k * kd_S kd) by (apply N.mul_pos_pos; lia).
  rewrite <- N.mul_assoc. destruct (kd_sent kd); lia.
Qed.

Lemma fit_arith s m c : 128 <= m <= 224 -> s * 256 / m <= c -> s * 8 <= 7 * c + 7.
Proof.
  intros Hm H. pose proof (N.mul_succ_div_gt (s * 256) m ltac:(lia)) as H1.
  assert (m * N.succ (s * 256 / m) <= 224 * (c + 1)) by (apply N.mul_le_mono; lia). lia.
Qed.

Section Ops.

Context {K V : Type} (hash : K -> N) (keq : K -> K -> bool) (kd : kind) (L : klaws kd).
Context (LW : tame hash keq).

Notation table := (table K V).
Notation S' := (kd_S kd).
Notation w := (kl_w kd L).
Notation code := (kl_code kd L).
Notation valid := (kl_valid kd L).
Notation sidx := (slot_index kd).
Notation gsinv := (@TableInv.gsinv K V hash keq kd L).
Notation Inv0 := (@TableInv.Inv0 K V hash keq kd L).
Notation ovf := (kd_is_overflow kd).
Notation scap := (scap kd).
Notation kof := (@TableCap.kof K V kd).
Notation rehashed := (@TableCap.rehashed K V hash keq kd L).
Notation pristine := (TableInsert.pristine kd L).
Notation absent := (@TableFind.absent K V keq).

(** ** Growth *)

Lemma grow_spec alloc t : alloc_ok alloc -> Inv0 t ->
  (grow_if_necessary K V hash kd alloc t = Throw t)
  \/ (exists nt c, grow_if_necessary K V hash kd alloc t = Ret nt tt /\ rehashed t nt c
        /\ w + 1 <= c /\ (forall k, kof t k -> c = k + 1 + w)
        /\ (t_alloc _ _ t = false -> c = w + 1)
        /\ t_size _ _ t < scap (c - w) /\ t_size _ _ t <= t_thr _ _ nt).
Proof.
  intros HA I. unfold grow_if_necessary.
  assert (E56 : 2 ^ 56 <= 2 ^ 63) by (apply pow2_le; lia).
  assert (E55 : 2 ^ 56 = 2 * 2 ^ 55) by reflexivity.
  change (2 ^ 55) with 36028797018963968 in *. pose proof (W_cases kd L) as HW.
  pose proof (kl_w_range _ L) as Hw. pose proof (kl_W _ L) as HWw.
  destruct (t_alloc _ _ t) eqn:Ea.
  - destruct (Inv0_kof hash keq kd L t I Ea) as [k Hk].
    rewrite (ctrl_capacity_kof kd L t k Hk).
    pose proof Hk as (_ & Hm & Hk1 & Hb & Hsl).
    rewrite HWw, <- N.pow_add_r in Hb.
    change (2 ^ 55) with 36028797018963968 in Hb.
    rewrite wmul_small by (rewrite two64_eq; lia).
    replace (2 ^ (k + w) * 2) with (2 ^ (k + w + 1)) by (rewrite N.pow_add_r; reflexivity).
    assert (Hn : 2 ^ (k + w + 1) <= 2 ^ 63) by (rewrite N.pow_add_r; change (2 ^ 1) with 2; lia).
    destruct (rehash_impl_spec hash keq kd L LW alloc false t _ HA I Hn)
      as (c & Ec & Hc & Hnc & Hsc & Hlo & H).
    pose proof (kof_size hash keq kd L t k I Hk) as Hs.
    pose proof (scap_le kd L k) as Hsl'. rewrite HWw, <- N.pow_add_r in Hsl'.
    assert (Hmin : kMinCapacity kd <= 2 ^ (k + w + 1)).
    { rewrite (kMin_pow kd L). apply pow2_le. lia. }
    assert (Ecc : c = k + 1 + w).
    { assert (k + w + 1 <= c).
      { destruct (N.le_gt_cases (k + w + 1) c); auto.
        assert (2 ^ c < 2 ^ (k + w + 1)) by (apply pow2_lt; lia). lia. }
      assert (c - 1 < k + w + 1); [|lia].
      destruct (N.le_gt_cases (k + w + 1) (c - 1)) as [Hge|]; auto.
      apply pow2_le in Hge. assert (2 ^ (k + w) <= 2 ^ (k + w + 1)) by (apply pow2_le; lia). lia. }
    rewrite (ctrl_capacity_kof kd L t k Hk) in H.
    assert (Hgo : (2 ^ (k + w) <? 2 ^ c) = true) by (apply N.ltb_lt, pow2_lt; lia).
    rewrite Hgo in H. cbv zeta in H.
    assert (Hs2 : t_size _ _ t < scap (c - w)).
    { replace (c - w) with (k + 1) by lia. eapply N.le_lt_trans; [exact Hs|].
      apply (scap_lt_succ kd L). }
    destruct H as [[? _]|[(_ & _ & E)|(_ & _ & [(H1 & nt & E & R)|(H1 & _)])]].
    + discriminate.
    + now left.
    + right. exists nt, c. split; auto. split; auto. split; [lia|]. split.
      { intros k' Hk'. pose proof (kof_inj kd _ _ _ Hk Hk'). now subst k'. }
      split; [discriminate|]. split; auto.
      destruct R as (_ & _ & _ & _ & Ht & _). rewrite Ht. eapply N.le_trans; [exact Hs|].
      apply (thr_of_grow kd L); [apply (iv_mlf _ _ _ _ _ I)|lia].
    + lia.
  - rewrite (iv_unalloc _ _ _ _ _ I Ea).
    pose proof (iv_mlf _ _ _ _ _ I) as Hml. set (m := t_mlf _ _ t) in *.
    assert (I0 : Inv0 (empty_table K V kd m)) by now apply empty_Inv0.
    assert (Ecap : ctrl_capacity K V kd (empty_table K V kd m) = kd_empty_cap kd) by reflexivity.
    rewrite Ecap. pose proof (kl_empty_cap _ L) as Hec.
    rewrite wmul_small by (rewrite two64_eq; lia).
    destruct (rehash_impl_spec hash keq kd L LW alloc false _ (kd_empty_cap kd * 2) HA I0 ltac:(lia))
      as (c & Ec & Hc & Hnc & Hsc & Hlo & H).
    assert (Ecc : c = w + 1).
    { assert (c - 1 < w + 1); [|lia].
      destruct (N.le_gt_cases (w + 1) (c - 1)) as [Hge|]; auto.
      apply pow2_le in Hge. rewrite <- (kMin_pow kd L) in Hge. unfold kMinCapacity in *.
      cbn [empty_table t_size] in Hlo. lia. }
    rewrite Ecap in H.
    assert (Hgo : (kd_empty_cap kd <? 2 ^ c) = true).
    { apply N.ltb_lt. rewrite Ecc, <- (kMin_pow kd L). unfold kMinCapacity. lia. }
    rewrite Hgo in H. cbv zeta in H.
    assert (Hs2 : 0 < scap (c - w)) by (apply (scap_pos kd L); lia).
    destruct H as [[? _]|[(_ & _ & E)|(_ & _ & [(H1 & nt & E & R)|(H1 & _)])]].
    + discriminate.
    + now left.
    + right. exists nt, c. split; auto. split; auto. split; [lia|]. split.
      { intros k' (Hk' & _). discriminate. }
      split; auto. cbn [empty_table t_size]. split; auto. apply N.le_0_l.
    + cbn [empty_table t_size] in H1. lia.
Qed.

(** ** Insertion *)

(** The table just before the search for an empty slot: the old one, or a bigger
    one with the same elements. *)
Definition ready (t t1 : table) : Prop :=
  (t1 = t /\ need_grow K V t = false)
  \/ (need_grow K V t = true /\ exists c, rehashed t t1 c /\ w + 1 <= c
        /\ (forall k, kof t k -> c = k + 1 + w) /\ (t_alloc _ _ t = false -> c = w + 1)
        /\ t_size _ _ t < scap (c - w) /\ t_size _ _ t <= t_thr _ _ t1).

(** The result of constructing (key, v) in a free slot of [t1]. *)
Definition inserted (t1 t2 : table) (key : K) (v : V) (i : N) : Prop :=
  Inv0 t2 /\ same_geom t1 t2
  /\ geti (t_slots _ _ t1) i = Some None
  /\ t_slots _ _ t2 = seti (t_slots _ _ t1) i (Some (key, v))
  /\ t_size _ _ t2 = t_size _ _ t1 + 1
  /\ (t_thr _ _ t2 = t_thr _ _ t1
      \/ kd_count_deleted kd = true /\ t_thr _ _ t2 = wadd (t_thr _ _ t1) 1
         /\ ~ pristine (t_groups _ _ t1))
  /\ (pristine (t_groups _ _ t1) -> pristine (t_groups _ _ t2)
       /\ exists gi p g', i = sidx gi p /\ p < S' /\ geti (t_groups _ _ t2) gi = Some g'
              /\ ovf g' (kd_reduce kd (hash key)) = false).

Definition set_slot (t : table) (i : N) (kv : K * V) : table :=
  mkT _ _ (t_alloc _ _ t) (t_groups _ _ t) (seti (t_slots _ _ t) i (Some kv))
      (t_size _ _ t) (t_thr _ _ t) (t_gmask _ _ t) (t_shift _ _ t) (t_mlf _ _ t).

Lemma emplace_spec alloc (upd : bool) t key v : alloc_ok alloc -> Inv0 t ->
  (exists gi p kv, find K V hash keq kd t key = Ok (Some (gi, p)) /\ p < S'
      /\ t_alloc _ _ t = true
      /\ geti (t_slots _ _ t) (sidx gi p) = Some (Some kv) /\ keq key (fst kv) = true
      /\ emplace_impl K V hash keq kd alloc upd true t key v
         = Ret (if upd then set_slot t (sidx gi p) (fst kv, v) else t) (sidx gi p, false))
  \/ (absent (t_slots _ _ t) key /\ find K V hash keq kd t key = Ok None /\
      ((need_grow K V t = true
        /\ emplace_impl K V hash keq kd alloc upd true t key v = Throw t)
       \/ exists t1 k, ready t t1 /\ kof t1 k /\ Inv0 t1 /\
          ((emplace_impl K V hash keq kd alloc upd true t key v = Fail ELoop
            /\ t1 = t /\ t_size _ _ t = scap k)
           \/ exists t2 i,
              emplace_impl K V hash keq kd alloc upd true t key v = Ret t2 (i, true)
              /\ inserted t1 t2 key v i))).
Proof.
  intros HA I. unfold emplace_impl, find_or_insert.
  destruct (find_spec hash keq kd L LW t key I)
    as [(gi & p & kv & E & Ha & Hp & Hs & Hk)|[E Habs]]; rewrite E.
  - left. exists gi, p, kv. repeat (split; [assumption||reflexivity|]). cbn [obind].
    destruct upd; auto. rewrite Hs. destruct kv. reflexivity.
  - right. split; auto. split; auto.
    assert (Hins : forall t1 k, ready t t1 -> kof t1 k -> Inv0 t1 -> absent (t_slots _ _ t1) key ->
      (t_size _ _ t1 = scap k -> t1 = t) ->
      let r := obind (obind (Ret t1 tt)
                  (fun t1 _ => match find_empty_to_insert K V kd true t1 (hash key) with
                   | Ok (t2, loc) => Ret t2 (loc, true) | Err e => Fail e end))
               (fun t1 r => let '(gi, p, need_insert) := r in
                 if need_insert then
                   match construct_at K V t1 (sidx gi p) (key, v) with
                   | Ok t2 => Ret t2 (sidx gi p, true) | Err e => Fail e end
                 else if upd then
                   match geti (t_slots _ _ t1) (sidx gi p) with
                   | Some (Some (k', _)) => Ret (set_slot t1 (sidx gi p) (k', v)) (sidx gi p, false)
                   | _ => Fail EUndef
                   end
                 else Ret t1 (sidx gi p, false)) in
      (r = Fail ELoop /\ t1 = t /\ t_size _ _ t = scap k)
      \/ exists t2 i, r = Ret t2 (i, true) /\ inserted t1 t2 key v i).
    { intros t1 k HR Hk I1 Habs1 Hfull r.
      pose proof Hk as (Ha & Hm & _ & _ & _).
      destruct (find_empty_insert hash keq kd L LW true k t1 key v I1 Ha Hm Habs1)
        as [[E1 Hf]|(t1' & gi & p & t2 & E1 & E2 & Hp & Hgi & Hn & Hsl & I2 & SG & Hs2 & Ht2 & Hpr)].
      - left. unfold r. cbn [obind]. rewrite E1. cbn [obind]. split; auto.
        specialize (Hfull Hf). split; auto. now rewrite <- Hfull.
      - right. unfold r. cbn [obind]. rewrite E1. cbn [obind]. rewrite E2.
        exists t2, (sidx gi p). split; auto. split; auto. split; auto. split; auto. split; auto.
        split; auto. split; [exact Ht2|]. intros HP. destruct (Hpr HP) as [P1 (g' & Pg & Po)].
        split; auto. exists gi, p, g'. auto. }
    destruct (need_grow K V t) eqn:En.
    + destruct (grow_spec alloc t HA I) as [Eg|(nt & c & Eg & R & Hc & Hkc & Hua & Hs & Ht)];
        rewrite Eg; cbn [obind]; [left; auto|right].
      pose proof R as (In' & Hk' & Hp & Hsz & _).
      assert (HR : ready t nt) by (right; split; [exact En|]; exists c; repeat (split; [assumption|]); assumption).
      exists nt, (c - w). split; auto. split; auto. split; auto. apply (Hins nt (c - w)); auto.
      * apply absent_lookup. apply absent_lookup in Habs.
        destruct (lookup_list keq key (elems (t_slots _ _ nt))) as [e|] eqn:El; auto. exfalso.
        apply find_some in El. destruct El as [Hin Hke].
        apply (Permutation_in _ Hp) in Hin. unfold lookup_list in Habs.
        apply find_none with (x := e) in Habs; auto. congruence.
      * rewrite Hsz. lia.
    + assert (Ha : t_alloc _ _ t = true).
      { destruct (t_alloc _ _ t) eqn:Ea; auto. rewrite (iv_unalloc _ _ _ _ _ I Ea) in En. discriminate. }
      right. destruct (Inv0_kof hash keq kd L t I Ha) as [k Hk].
      assert (HR : ready t t) by (left; auto).
      exists t, k. split; [exact HR|]. split; [exact Hk|]. split; [exact I|]. apply (Hins t k); auto.
Qed.

(** Replacing the value of an element keeps the invariant. *)
Lemma set_slot_Inv0 t i kv v : Inv0 t -> geti (t_slots _ _ t) i = Some (Some kv) ->
  Inv0 (set_slot t i (fst kv, v)).
Proof.
  intros I Hi.
  assert (Hl : i < N.of_nat (length (t_slots _ _ t))) by (eapply geti_Some_lt; eauto).
  assert (Hback : forall j o, geti (seti (t_slots _ _ t) i (Some (fst kv, v))) j = Some o ->
    exists o', geti (t_slots _ _ t) j = Some o' /\
      match o, o' with Some e, Some e' => fst e = fst e' | None, None => True | _, _ => False end).
  { intros j o H. destruct (N.eq_dec i j) as [<-|Hne].
    - rewrite geti_seti_eq in H by auto. injection H as <-. exists (Some kv). auto.
    - rewrite geti_seti_neq in H by auto. exists o. split; auto. destruct o; auto. }
  constructor; cbn [set_slot t_alloc t_groups t_slots t_size t_thr t_gmask t_shift t_mlf].
  - intros Ha. rewrite (iv_unalloc _ _ _ _ _ I Ha) in Hi. unfold geti in Hi. simpl in Hi.
    destruct (N.to_nat i); discriminate.
  - intros Ha. destruct (iv_alloc _ _ _ _ _ I Ha) as (k & G & Hm & Hs). exists k.
    split; [|auto]. destruct G. constructor; auto.
    + now rewrite seti_length.
    + intros gi p g Hg Hp Hn Hsn. destruct (Hback _ _ Hn) as ([e|] & He & Hf); [easy|]. eauto.
    + intros gi p g e Hg Hp Hn. destruct (Hback _ _ Hn) as ([e'|] & He & Hf); [|easy].
      rewrite Hf. eauto.
    + intros gi p e Hg Hp Hn. destruct (Hback _ _ Hn) as ([e'|] & He & Hf); [|easy].
      rewrite Hf. eauto.
    + intros a b e1 e2 H1 H2. destruct (Hback _ _ H1) as ([e1'|] & He1 & Hf1); [|easy].
      destruct (Hback _ _ H2) as ([e2'|] & He2 & Hf2); [|easy]. rewrite Hf1, Hf2. eauto.
  - rewrite (iv_size _ _ _ _ _ I). destruct (geti_split _ _ _ Hi) as (a & b & E & _ & Es).
    rewrite Es, E, !elems_app, !app_length. reflexivity.
  - apply (iv_mlf _ _ _ _ _ I).
Qed.

(** ** Erasure *)

(** The element at slot [i] is marked: the overflow flag of its class is set in
    its group. *)
Definition marked (t : table) (gi p : N) : bool :=
  match geti (t_groups _ _ t) gi, geti (t_slots _ _ t) (sidx gi p) with
  | Some g, Some (Some kv) => ovf g (kd_reduce kd (hash (fst kv)))
  | _, _ => false
  end.

Lemma erase_slot_spec t gi p kv : Inv0 t -> t_alloc _ _ t = true -> p < S' ->
  geti (t_slots _ _ t) (sidx gi p) = Some (Some kv) ->
  exists t', erase_slot K V kd t gi p = Ok t' /\ Inv0 t' /\ same_geom t t'
    /\ t_slots _ _ t' = seti (t_slots _ _ t) (sidx gi p) None
    /\ t_size _ _ t' = t_size _ _ t - 1 /\ 1 <= t_size _ _ t
    /\ t_thr _ _ t' = wsub (t_thr _ _ t) (N.b2n (marked t gi p))
    /\ (forall gi' p', p' < S' -> sidx gi' p' <> sidx gi p -> marked t' gi' p' = marked t gi' p').
Proof.
  intros I Ha Hp Hs. destruct (iv_alloc _ _ _ _ _ I Ha) as (k & G & Hm & Hsh).
  assert (Hgi : gi < 2 ^ k /\ exists g, geti (t_groups _ _ t) gi = Some g).
  { destruct (slot_group _ _ _ _ _ _ _ _ _ G Hs) as (g & Hg & Hgi & Hp' & Es & Hsn).
    destruct (sidx_inj kd _ _ _ _ Hp' Hp Es) as [<- _]. eauto. }
  destruct Hgi as [Hgi [g Hg]].
  pose proof (gv_valid _ _ _ _ _ _ _ G _ _ Hg) as Hv.
  assert (Hgl : gi < N.of_nat (length (t_groups _ _ t))) by (eapply geti_Some_lt; eauto).
  assert (Hsl : sidx gi p < N.of_nat (length (t_slots _ _ t))) by (eapply geti_Some_lt; eauto).
  unfold erase_slot. rewrite Hs, Hg.
  assert (Eov : ovf g (byte g p) = marked t gi p).
  { unfold marked. rewrite Hg, Hs, (kl_overflow_byte _ L) by auto.
    now rewrite (gv_some _ _ _ _ _ _ _ G _ _ _ _ Hg Hp Hs). }
  rewrite Eov. pose proof (elems_seti_None _ _ _ Hs) as HP. pose proof (Permutation_length HP) as HPl.
  simpl length in HPl.
  assert (Hs1 : 1 <= t_size _ _ t) by (rewrite (iv_size _ _ _ _ _ I); lia).
  assert (Hs2 : t_size _ _ t < two64).
  { pose proof (size_small hash keq kd L t I). rewrite two64_eq.
    change (2 ^ 55) with 36028797018963968 in *. lia. }
  assert (Hsent : is_sent kd k gi p = false).
  { destruct (is_sent kd k gi p) eqn:E; auto.
    rewrite (sent_slot _ _ _ _ _ _ _ _ _ G E) in Hs. discriminate. }
  eexists. split; [reflexivity|].
  cbn [t_alloc t_groups t_slots t_size t_thr t_gmask t_shift t_mlf].
  assert (Hgat : forall j g', geti (seti (t_groups _ _ t) gi (kd_set_empty kd g p)) j = Some g' ->
    exists g0, geti (t_groups _ _ t) j = Some g0 /\ valid g'
      /\ (forall q, q < S' -> code g' q = if (j =? gi) && (q =? p) then 0 else code g0 q)
      /\ forall h, ovf g' h = ovf g0 h).
  { intros j g' H. destruct (N.eq_dec gi j) as [<-|Hne].
    - rewrite geti_seti_eq in H by auto. injection H as <-. exists g. split; auto.
      split; [apply (kl_set_empty_valid _ L); auto|]. split.
      + intros q Hq. rewrite N.eqb_refl. cbn [andb]. now apply (kl_set_empty_code _ L).
      + intros h. now apply (kl_set_empty_ovf _ L).
    - rewrite geti_seti_neq in H by auto. exists g'. split; auto.
      split; [eapply gv_valid; eauto|]. split; auto.
      intros q Hq. destruct (N.eqb_spec j gi); [congruence|reflexivity]. }
  assert (Hmk : forall gi' p', p' < S' -> sidx gi' p' <> sidx gi p ->
    marked (mkT K V (t_alloc K V t) (seti (t_groups K V t) gi (kd_set_empty kd g p))
      (seti (t_slots K V t) (sidx gi p) None) (wsub (t_size K V t) 1)
      (wsub (t_thr K V t) (N.b2n (marked t gi p))) (t_gmask K V t) (t_shift K V t) (t_mlf K V t))
      gi' p' = marked t gi' p').
  { intros gi' p' Hp' Hne. unfold marked at 1 3.
    cbn [t_alloc t_groups t_slots t_size t_thr t_gmask t_shift t_mlf].
    rewrite (geti_seti_neq _ (sidx gi p)) by auto.
    destruct (N.eq_dec gi gi') as [<-|Hg'].
    - rewrite geti_seti_eq by auto. rewrite Hg.
      destruct (geti (t_slots _ _ t) (sidx gi p')) as [[e|]|]; auto.
      now apply (kl_set_empty_ovf _ L).
    - now rewrite geti_seti_neq by auto. }
  split; [|split; [|split; [|split; [|split; [|split]]]]]; auto.
  - constructor; cbn [t_alloc t_groups t_slots t_size t_thr t_gmask t_shift t_mlf].
    + rewrite Ha. discriminate.
    + intros _. exists k. split; [|auto]. constructor.
      * eapply gv_k; eauto.
      * eapply gv_big; eauto.
      * rewrite seti_length. eapply gv_len; eauto.
      * rewrite seti_length. eapply gv_slen; eauto.
      * intros j g' H. destruct (Hgat _ _ H) as (g0 & H0 & Hv' & _). auto.
      * intros j q g' H Hq Hsn. destruct (Hgat _ _ H) as (g0 & H0 & _ & Hc & _).
        rewrite Hc by auto. destruct (N.eqb_spec j gi) as [->|]; cbn [andb].
        -- destruct (N.eqb_spec q p) as [->|]; [congruence|]. eapply gv_sent; eauto.
        -- eapply gv_sent; eauto.
      * intros j q g' H Hq Hn Hsn. destruct (Hgat _ _ H) as (g0 & H0 & _ & Hc & _).
        rewrite Hc by auto. destruct ((j =? gi) && (q =? p)) eqn:E; auto.
        rewrite geti_seti_neq in Hn; [eapply gv_none; eauto|].
        intros E2. destruct (sidx_inj kd _ _ _ _ Hp Hq E2) as [<- <-].
        rewrite !N.eqb_refl in E. discriminate.
      * intros j q g' e H Hq Hn. destruct (Hgat _ _ H) as (g0 & H0 & _ & Hc & _).
        destruct (N.eq_dec (sidx gi p) (sidx j q)) as [E2|Hne].
        -- rewrite <- E2, geti_seti_eq in Hn by auto. discriminate.
        -- rewrite geti_seti_neq in Hn by auto. rewrite Hc by auto.
           destruct (N.eqb_spec j gi) as [->|]; cbn [andb].
           ++ destruct (N.eqb_spec q p) as [->|]; [congruence|]. eapply gv_some; eauto.
           ++ eapply gv_some; eauto.
      * intros j q e Hj Hq Hn. destruct (N.eq_dec (sidx gi p) (sidx j q)) as [E2|Hne].
        -- rewrite <- E2, geti_seti_eq in Hn by auto. discriminate.
        -- rewrite geti_seti_neq in Hn by auto.
           destruct (gv_chain _ _ _ _ _ _ _ G _ _ _ Hj Hq Hn) as (j1 & Hj1 & E1 & Hch).
           exists j1. split; auto. split; auto. intros i g' Hi H.
           destruct (Hgat _ _ H) as (g0 & H0 & _ & _ & Ho). rewrite Ho. eapply Hch; eauto.
      * intros a b e1 e2 H1 H2 Hk.
        destruct (N.eq_dec (sidx gi p) a) as [<-|Hna].
        { rewrite geti_seti_eq in H1 by auto. discriminate. }
        destruct (N.eq_dec (sidx gi p) b) as [<-|Hnb].
        { rewrite geti_seti_eq in H2 by auto. discriminate. }
        rewrite geti_seti_neq in H1 by auto. rewrite geti_seti_neq in H2 by auto.
        eapply gv_uniq; eauto.
    + rewrite wsub_small by auto. rewrite (iv_size _ _ _ _ _ I). lia.
    + apply (iv_mlf _ _ _ _ _ I).
  - unfold same_geom. cbn [t_alloc t_groups t_slots t_size t_thr t_gmask t_shift t_mlf]. auto.
  - now rewrite wsub_small by auto.
Qed.

(** ** Clearing *)

Lemma clear_slots_spec t : Inv0 t ->
  clear_slots K V kd t = Ok (mkT _ _ (t_alloc _ _ t) (t_groups _ _ t)
    (repeat None (length (t_slots _ _ t))) 0 (t_thr _ _ t) (t_gmask _ _ t) (t_shift _ _ t)
    (t_mlf _ _ t)).
Proof.
  intros I. unfold clear_slots. destruct (t_alloc _ _ t) eqn:Ea.
  - destruct (iv_alloc _ _ _ _ _ I Ea) as (k & G & Hm & Hs).
    rewrite (destroy_all hash keq kd L k _ _ G). reflexivity.
  - rewrite (iv_unalloc _ _ _ _ _ I Ea). reflexivity.
Qed.

Lemma repeat_none_all {A} n : forallb is_none (repeat (@None A) n) = true.
Proof. induction n; auto. Qed.

Lemma destroy_spec t : Inv0 t ->
  destroy K V kd t = Ok (empty_table K V kd (t_mlf _ _ t)).
Proof.
  intros I. unfold destroy. rewrite clear_slots_spec by auto. cbn [t_slots t_mlf].
  now rewrite repeat_none_all.
Qed.

Lemma clear_data_alloc t : Inv0 t -> t_alloc _ _ t = true ->
  exists t', clear_data K V kd t = Ok t' /\ Inv0 t' /\ same_geom t t'
    /\ t_slots _ _ t' = repeat None (length (t_slots _ _ t)) /\ t_size _ _ t' = 0
    /\ t_thr _ _ t' = t_thr _ _ t /\ pristine (t_groups _ _ t').
Proof.
  intros I Ea. unfold clear_data. rewrite clear_slots_spec by auto.
  cbn [t_alloc t_groups t_slots t_size t_thr t_gmask t_shift t_mlf]. rewrite Ea.
  eexists. split; [reflexivity|].
  destruct (iv_alloc _ _ _ _ _ I Ea) as (k & G & Hm & Hs).
  pose proof (gv_big _ _ _ _ _ _ _ G) as Hb. pose proof (W_pos kd L) as HW.
  pose proof (pow2_pos k) as HP.
  assert (Egc : forall g sl s th, group_capacity K V
      (mkT _ _ true g sl s th (t_gmask _ _ t) (t_shift _ _ t) (t_mlf _ _ t)) = 2 ^ k).
  { intros. unfold group_capacity. cbn [t_gmask]. rewrite Hm.
    change (2 ^ 55) with 36028797018963968 in Hb. rewrite wadd_small by (rewrite two64_eq; nia). lia. }
  rewrite Egc. cbn [t_alloc t_groups t_slots t_size t_thr t_gmask t_shift t_mlf].
  split; [|split; [|split; [|split; [|split]]]]; auto.
  - constructor; cbn [t_alloc t_groups t_slots t_size t_thr t_gmask t_shift t_mlf].
    + discriminate.
    + intros _. exists k. split; [|auto].
      replace (length (t_slots K V t)) with (N.to_nat (scap k))
        by (rewrite <- (gv_slen _ _ _ _ _ _ _ G); lia).
      apply fresh_gsinv; auto. eapply gv_k; eauto.
    + now rewrite elems_repeat_None.
    + apply (iv_mlf _ _ _ _ _ I).
  - unfold same_geom. cbn [t_alloc t_gmask t_shift t_mlf]. auto.
  - apply fresh_pristine.
Qed.

Lemma clear_data_unalloc t : Inv0 t -> t_alloc _ _ t = false ->
  clear_data K V kd t = if kd_sent kd then Err EUndef else Ok t.
Proof.
  intros I Ea. unfold clear_data. rewrite clear_slots_spec by auto.
  cbn [t_alloc t_groups t_slots t_size t_thr t_gmask t_shift t_mlf].
  rewrite (iv_unalloc _ _ _ _ _ I Ea). reflexivity.
Qed.

(** ** Capacity operations *)

Lemma fit_le t n : Inv0 t -> shrink_to_fit_capacity K V t n <= 2 ^ 57.
Proof.
  intros I. unfold shrink_to_fit_capacity. pose proof (iv_mlf _ _ _ _ _ I) as Hm.
  pose proof (w64_lt (n * kAmplify)) as Hw. fold (wmul n kAmplify) in Hw.
  rewrite two64_eq in Hw. change (2 ^ 57) with 144115188075855872.
  apply N.div_le_upper_bound; [lia|]. nia.
Qed.

Lemma fit_size t : Inv0 t ->
  shrink_to_fit_capacity K V t (t_size _ _ t) = t_size _ _ t * 256 / t_mlf _ _ t.
Proof.
  intros I. unfold shrink_to_fit_capacity, kAmplify.
  pose proof (size_small hash keq kd L t I). change (2 ^ 55) with 36028797018963968 in *.
  rewrite wmul_small; auto. rewrite two64_eq. lia.
Qed.

Lemma fit_size_0 t : Inv0 t -> shrink_to_fit_capacity K V t (t_size _ _ t) = 0 -> t_size _ _ t = 0.
Proof.
  intros I. rewrite fit_size by auto. pose proof (iv_mlf _ _ _ _ _ I) as Hm. intros E.
  apply N.div_small_iff in E; [|lia]. lia.
Qed.

(** The possible outcomes of a resize. *)
Definition resized (t : table) (r : out table unit) : Prop :=
  r = Ret t tt \/ r = Throw t
  \/ (exists nt c, r = Ret nt tt /\ rehashed t nt c /\ w + 1 <= c
        /\ t_size _ _ t <= scap (c - w)).

Definition grown (t : table) (r : out table unit) : Prop :=
  r = Ret t tt \/ r = Throw t
  \/ (exists nt c, r = Ret nt tt /\ rehashed t nt c /\ w + 1 <= c
        /\ t_size _ _ t <= t_thr _ _ nt /\ ctrl_capacity K V kd t < 2 ^ c).

Lemma rehash_grow alloc t n : alloc_ok alloc -> Inv0 t -> n <= 2 ^ 63 ->
  grown t (rehash_impl K V hash kd alloc false t n).
Proof.
  intros HA I Hn.
  destruct (rehash_impl_spec hash keq kd L LW alloc false t n HA I Hn)
    as (c & Ec & Hc & Hnc & Hsc & Hlo & H). cbv zeta in H.
  assert (Hthr : ctrl_capacity K V kd t < 2 ^ c ->
     t_size _ _ t <= thr_of kd (t_mlf _ _ t) (c - w)).
  { intros Hlt. destruct (t_alloc _ _ t) eqn:Ea.
    - destruct (Inv0_kof hash keq kd L t I Ea) as [k Hk].
      rewrite (ctrl_capacity_kof kd L t k Hk) in Hlt.
      pose proof (kof_size hash keq kd L t k I Hk) as Hs. eapply N.le_trans; [exact Hs|].
      apply (thr_of_grow kd L); [apply (iv_mlf _ _ _ _ _ I)|].
      assert (k + w < c); [|lia]. destruct (N.le_gt_cases c (k + w)) as [Hle|]; auto.
      apply pow2_le in Hle. lia.
    - rewrite (iv_unalloc _ _ _ _ _ I Ea). cbn [empty_table t_size]. apply N.le_0_l. }
  destruct H as [[_ E]|[(_ & _ & E)|(Hgo & _ & [(H1 & nt & E & R)|(H1 & _)])]].
  - now left.
  - right. now left.
  - right. right. exists nt, c. split; auto. split; auto. split; [lia|].
    apply N.ltb_lt in Hgo. split; auto.
    destruct R as (_ & _ & _ & _ & Ht & _). rewrite Ht. auto.
  - exfalso. apply N.ltb_lt in Hgo. specialize (Hthr Hgo).
    pose proof (thr_of_le kd (t_mlf _ _ t) (c - w) ltac:(apply (iv_mlf _ _ _ _ _ I))). lia.
Qed.

Lemma grown_resized t r : Inv0 t -> grown t r -> resized t r.
Proof.
  intros I [H|[H|(nt & c & E & R & Hc & Ht & _)]]; [left|right; left|right; right]; auto.
  exists nt, c. split; auto. split; auto. split; auto.
  destruct R as (_ & _ & _ & _ & Ht' & _). rewrite Ht' in Ht.
  pose proof (thr_of_le kd (t_mlf _ _ t) (c - w) ltac:(apply (iv_mlf _ _ _ _ _ I))). lia.
Qed.

Lemma rehash_any alloc (shrink : bool) t n : alloc_ok alloc -> Inv0 t -> n <= 2 ^ 63 ->
  resized t (rehash_impl K V hash kd alloc shrink t n)
  \/ (shrink = true /\ rehash_impl K V hash kd alloc shrink t n = Fail ELoop).
Proof.
  intros HA I Hn. destruct shrink.
  - destruct (rehash_impl_spec hash keq kd L LW alloc true t n HA I Hn)
      as (c & Ec & Hc & Hnc & Hsc & Hlo & H). cbv zeta in H.
    destruct H as [[_ E]|[(_ & _ & E)|(_ & _ & [(H1 & nt & E & R)|(H1 & E)])]]; auto.
    + left. now left.
    + left. right. now left.
    + left. right. right. exists nt, c. split; auto. split; auto. split; auto. lia.
  - left. apply grown_resized; auto. now apply rehash_grow.
Qed.

(** A capacity that was computed from the load factor is large enough. *)
Lemma rehash_fits alloc (shrink : bool) t n : alloc_ok alloc -> Inv0 t -> n <= 2 ^ 63 ->
  shrink_to_fit_capacity K V t (t_size _ _ t) <= n ->
  resized t (rehash_impl K V hash kd alloc shrink t n).
Proof.
  intros HA I Hn Hfit. destruct shrink; [|apply grown_resized; auto; now apply rehash_grow].
  destruct (rehash_impl_spec hash keq kd L LW alloc true t n HA I Hn)
    as (c & Ec & Hc & Hnc & Hsc & Hlo & H). cbv zeta in H.
  destruct H as [[_ E]|[(_ & _ & E)|(_ & _ & [(H1 & nt & E & R)|(H1 & E)])]].
  - now left.
  - right. now left.
  - right. right. exists nt, c. split; auto. split; auto. split; auto. lia.
  - exfalso. rewrite fit_size in Hfit by auto. pose proof (iv_mlf _ _ _ _ _ I) as Hm.
    assert (Hcap : t_size _ _ t * 256 / t_mlf _ _ t <= 2 ^ c) by lia.
    pose proof (pow_cw kd L c ltac:(lia)) as Epc.
    assert (Hs8 : t_size _ _ t * 8 <= 7 * (2 ^ c) + 7).
    { apply (fit_arith _ (t_mlf _ _ t)); auto. }
    assert (Hk : 1 <= c - w) by lia.
    assert (2 ^ 1 <= 2 ^ (c - w)) by (apply pow2_le; lia). change (2 ^ 1) with 2 in *.
    unfold TableInv.scap in H1. pose proof (kl_S _ L) as HS. pose proof (W_cases kd L) as HW.
    pose proof (kl_S_nosent _ L) as HSn.
    destruct (kd_sent kd).
    + assert (HSW : 2 ^ (c - w) * (kd_W kd * 15) <= 2 ^ (c - w) * (S' * 16))
        by (apply N.mul_le_mono_l; lia).
      rewrite !N.mul_assoc, <- Epc in HSW.
      assert (Hmin : 2 ^ (w + 1) <= 2 ^ c) by (apply pow2_le; lia).
      rewrite <- (kMin_pow kd L) in Hmin. pose proof (kMin_range kd L). lia.
    + rewrite (HSn eq_refl) in H1. rewrite <- Epc in H1.
      assert (Hmin : 2 ^ (w + 1) <= 2 ^ c) by (apply pow2_le; lia).
      rewrite <- (kMin_pow kd L) in Hmin. pose proof (kMin_range kd L). lia.
Qed.

End Ops.
