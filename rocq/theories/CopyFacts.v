(** Copies, moves, range insertion and erase_if. *)
From Coq Require Import NArith ZArith List Bool Lia Permutation.
From Coq Require Import ZifyBool ZifyNat ZifyN.
From Verif Require Import Base BaseFacts BitsModel BitsFacts GroupModel GroupFacts
  TableModel TableInv TableFind TableInsert TableLoops TableCap TableOps IterModel IterFacts
  CopyModel MapSpec MapFacts RunModel Refine.
Import ListNotations.
Open Scope N_scope.
Ltac Zify.zify_post_hook ::= Z.div_mod_to_equations.

Section Copy.

Context {K V : Type} (hash : K -> N) (keq : K -> K -> bool) (kd : kind) (L : klaws kd).
Context (LW : lawful hash keq).

Notation table := (table K V).
Notation S' := (kd_S kd).
Notation w := (kl_w kd L).
Notation sidx := (slot_index kd).
Notation Inv0 := (@TableInv.Inv0 K V hash keq kd L).
Notation scap := (TableInv.scap kd).
Notation kof := (@TableCap.kof K V kd).
Notation content t := (elems (t_slots _ _ t)).
Notation absent := (@TableFind.absent K V keq).

(** A capacity computed for [s] elements has room for them. *)
Lemma fit_scap s m c : 128 <= m <= 224 -> w + 1 <= c -> s * 256 / m <= 2 ^ c ->
  s <= scap (c - w).
Proof.
  intros Hm Hc Hcap. destruct (N.le_gt_cases s (scap (c - w))) as [|H1]; auto. exfalso.
  pose proof (pow_cw kd L c ltac:(lia)) as Epc.
  assert (Hs8 : s * 8 <= 7 * (2 ^ c) + 7) by (apply (fit_arith _ m); auto).
  assert (Hmin : 2 ^ (w + 1) <= 2 ^ c) by (apply pow2_le; lia).
  rewrite <- (kMin_pow kd L) in Hmin. pose proof (kMin_range kd L).
  unfold TableInv.scap in H1. pose proof (kl_S _ L) as HS. pose proof (W_cases kd L) as HW.
  pose proof (kl_S_nosent _ L) as HSn.
  destruct (kd_sent kd).
  - assert (HSW : 2 ^ (c - w) * (kd_W kd * 15) <= 2 ^ (c - w) * (S' * 16))
      by (apply N.mul_le_mono_l; lia).
    rewrite !N.mul_assoc, <- Epc in HSW. lia.
  - rewrite (HSn eq_refl), <- Epc in H1. lia.
Qed.

(** reserve_for_insert on a map without elements. *)
Lemma reserve_for_insert_spec alloc n mlf : alloc_ok alloc -> 128 <= mlf <= 224 ->
  exists c, w + 1 <= c /\ wmul n 256 / mlf <= 2 ^ c /\
  ((alloc (2 ^ c) = false
    /\ reserve_for_insert K V kd alloc n (empty_table K V kd mlf) = Throw (empty_table K V kd mlf))
   \/ exists nt, reserve_for_insert K V kd alloc n (empty_table K V kd mlf) = Ret nt tt
      /\ Inv0 nt /\ kof nt (c - w) /\ t_size _ _ nt = 0
      /\ t_slots _ _ nt = repeat None (N.to_nat (scap (c - w)))
      /\ t_thr _ _ nt = thr_of kd mlf (c - w) /\ t_mlf _ _ nt = mlf
      /\ pristine kd L (t_groups _ _ nt)).
Proof.
  intros HA Hm. pose proof (empty_Inv0 (V:=V) hash keq kd L mlf Hm) as IE.
  pose proof (fit_le hash keq kd L _ n IE) as Hf.
  assert (2 ^ 57 <= 2 ^ 63) by (apply pow2_le; lia).
  destruct (calc_capacity_spec kd L (empty_table K V kd mlf)
              (shrink_to_fit_capacity K V (empty_table K V kd mlf) n)) as (c & Ec & Hc & Hn & _ & _).
  { lia. } { cbn. lia. }
  exists c. split; [lia|]. split; [exact Hn|].
  unfold reserve_for_insert. rewrite Ec.
  destruct (create_slots_spec (V:=V) hash keq kd L alloc (empty_table K V kd mlf) c HA ltac:(lia) Hm)
    as [[Ea E]|(Ea & nt & E & In' & Ha & Hgm & Hk & Hb & Hsl & Hs0 & Ht & Hml & Hpr)].
  - left. auto.
  - right. exists nt. split; auto. split; auto. split.
    { repeat split; auto. rewrite Hsl, repeat_length. lia. }
    split; auto.
Qed.

Lemma absent_perm sl sl' key e : Permutation (elems sl') (e :: elems sl) ->
  keq key (fst e) = false -> absent sl key -> absent sl' key.
Proof.
  intros HP Hk Ha. apply absent_lookup. rewrite <- absent_lookup in *.
  intros i kv Hi. assert (Hin : In kv (elems sl')) by (apply In_elems; eauto).
  apply (Permutation_in _ HP) in Hin. destruct Hin as [<-|Hin]; auto.
  apply In_elems in Hin. destruct Hin as [j Hj]. eapply Ha; eauto.
Qed.

Lemma unique_insert_spec k l : forall t, Inv0 t -> kof t k -> distinct_keys K V keq l ->
  (forall e, In e l -> absent (t_slots _ _ t) (fst e)) ->
  t_size _ _ t + N.of_nat (length l) <= scap k ->
  exists t', unique_insert K V hash kd l t = Ok t' /\ Inv0 t' /\ kof t' k
    /\ t_size _ _ t' = t_size _ _ t + N.of_nat (length l)
    /\ t_thr _ _ t' = t_thr _ _ t /\ t_mlf _ _ t' = t_mlf _ _ t
    /\ Permutation (content t') (l ++ content t).
Proof.
  induction l as [|e l IH]; intros t I HK HD Habs Hsz.
  - exists t. cbn. split; auto. split; auto. split; auto. split; [lia|]. auto.
  - cbn [length] in Hsz. destruct HD as [Hh HD].
    pose proof HK as (Ha & Hm & Hk1 & Hb & Hl).
    destruct e as [key v].
    destruct (no_grow_unique_insert_spec hash keq kd L LW k t key v I Ha Hm)
      as (t2 & E2 & I2 & SG & Hthr & Hsz2 & Hperm & Hpr).
    { apply (Habs (key, v)). now left. } { lia. }
    destruct SG as (Sa & Sm & Ss & Sl).
    assert (HK2 : kof t2 k).
    { destruct (Inv0_kof hash keq kd L t2 I2) as [k2 HK2]; [congruence|].
      assert (k2 = k).
      { destruct HK2 as (_ & Hm2 & _). apply (N.pow_inj_r 2); [lia|].
        pose proof (pow2_pos k). pose proof (pow2_pos k2). lia. }
      now subst k2. }
    destruct (IH t2) as (t' & E & I' & HK' & Hs' & Ht' & Hm' & HP'); auto.
    + intros e He. apply (absent_perm (t_slots _ _ t) _ _ _ Hperm).
      * cbn [fst]. destruct (keq (fst e) key) eqn:Ek; auto.
        assert (has K V keq key l = true).
        { unfold has. apply existsb_exists. exists e. split; auto.
          now apply (lw_sym _ _ LW). }
        cbn [fst] in Hh. congruence.
      * apply Habs. now right.
    + lia.
    + exists t'. cbn [unique_insert]. rewrite E2. cbn [rbind]. split; auto. split; auto.
      split; auto. split; [cbn [length]; lia|]. split; [congruence|]. split; [congruence|].
      eapply perm_trans; [exact HP'|]. eapply perm_trans; [apply Permutation_app_head, Hperm|].
      cbn [app]. symmetry. apply Permutation_middle.
Qed.

(** ** Reading a table through its iterators *)

Record readable : Prop := {
  rd_len : forall g, kl_valid kd L g -> N.of_nat (length g) = kd_W kd;
  rd_sent : kd_sent kd = true -> forall g p, kl_code kd L g p = byte g p;
  rd_nosent : kd_sent kd = false -> forall g p, kl_code kd L g p = N.land (byte g p) 127
}.

Lemma traverse_spec past t : readable -> Inv0 t -> traverse K V kd past t = Ok (content t).
Proof.
  intros R I. unfold traverse. destruct (kd_sent kd) eqn:E.
  - now apply (traverse15_spec hash keq kd L (rd_len R) E (rd_sent R E)).
  - now apply (traverse16_spec hash keq kd L (rd_len R) E (rd_nosent R E)).
Qed.

(** ** Copy construction *)

Definition copy_i (src : list (option (K * V))) (i : N) (os : list (option (K * V))) :=
  match geti src i, geti os i with
  | Some (Some kv), Some None => Ok (seti os i (Some kv))
  | _, _ => Err EUndef
  end.

Lemma fold_copy src l : forall os, NoDup l -> (forall i, In i l -> occ src i = true) ->
  (forall i, In i l -> geti os i = Some None) ->
  exists os', fold_res (copy_i src) l os = Ok os' /\ length os' = length os
    /\ (forall i, In i l -> geti os' i = geti src i)
    /\ (forall i, ~ In i l -> geti os' i = geti os i).
Proof.
  induction l as [|i l IH]; intros os Hnd Hocc Hn.
  - exists os. simpl. repeat split; auto; tauto.
  - inversion Hnd; subst. cbn [fold_res].
    destruct (proj1 (occ_true _ _) (Hocc i ltac:(now left))) as [kv Hi].
    unfold copy_i at 1. rewrite Hi, (Hn i) by now left. cbn [rbind].
    destruct (IH (seti os i (Some kv))) as (os' & E & Hl & H3 & H4); auto.
    + intros j Hj. apply Hocc. now right.
    + intros j Hj. rewrite geti_seti_neq by congruence. apply Hn. now right.
    + exists os'. split; auto. rewrite seti_length in Hl. split; auto. split.
      * intros j [<-|Hj]; auto. rewrite H4 by auto. rewrite Hi. apply geti_seti_eq.
        eapply geti_Some_lt. apply (Hn i). now left.
      * intros j Hj. rewrite H4 by (intros ?; apply Hj; now right).
        apply geti_seti_neq. intros ->. apply Hj. now left.
Qed.

Lemma copy_all k gs sl : TableInv.gsinv hash keq kd L k gs sl ->
  each_group kd _ (copy_one K V kd sl) gs 0 (repeat None (length sl)) = Ok sl.
Proof.
  intros G. rewrite (each_group_fold hash keq kd L (copy_one K V kd sl) (copy_i sl)
                       (fun _ _ _ => eq_refl) k gs sl _ G).
  destruct (fold_copy sl (filter (occ sl) (seqN (2 ^ k * S'))) (repeat None (length sl)))
    as (os' & E & Hl & H3 & H4).
  - apply NoDup_filter, seqN_NoDup.
  - intros i Hi. apply filter_In in Hi. tauto.
  - intros i Hi. apply filter_In in Hi. destruct Hi as [_ Hi]. apply occ_true in Hi.
    destruct Hi as [kv Hi]. apply geti_repeat. eapply geti_Some_lt; eauto.
  - rewrite E. f_equal. apply geti_ext. intros i. rewrite repeat_length in Hl.
    destruct (N.lt_ge_cases i (N.of_nat (length sl))) as [Hlt|Hge].
    + destruct (occ sl i) eqn:Eo.
      * apply H3. apply filter_In. split; auto. apply seqN_In.
        rewrite (gv_slen _ _ _ _ _ _ _ G) in Hlt. unfold TableInv.scap in Hlt. destruct (kd_sent kd); lia.
      * rewrite H4 by (intros Hin; apply filter_In in Hin; destruct Hin; congruence).
        rewrite geti_repeat by auto.
        destruct (geti_lt sl i Hlt) as [[kv|] Hi]; auto.
        unfold occ in Eo. rewrite Hi in Eo. discriminate.
    + rewrite !geti_ge; auto. lia.
Qed.

(** The two outcomes of copying a non-empty map, according to the capacity chosen for
    the copy. *)
Lemma copy_construct_spec alloc past t : readable -> alloc_ok alloc -> Inv0 t ->
  t_size _ _ t <> 0 ->
  exists c, w + 1 <= c /\ t_size _ _ t * 256 / t_mlf _ _ t <= 2 ^ c /\
  ((alloc (2 ^ c) = false
    /\ copy_construct K V hash kd alloc past t = Throw (empty_table K V kd (t_mlf _ _ t)))
   \/ (2 ^ c <> ctrl_capacity K V kd t /\ exists t',
         copy_construct K V hash kd alloc past t = Ret t' tt /\ Inv0 t' /\ kof t' (c - w)
         /\ t_size _ _ t' = t_size _ _ t /\ Permutation (content t') (content t)
         /\ t_mlf _ _ t' = t_mlf _ _ t)
   \/ (2 ^ c = ctrl_capacity K V kd t /\ exists t',
         copy_construct K V hash kd alloc past t = Ret t' tt
         /\ t_alloc _ _ t' = true /\ t_groups _ _ t' = t_groups _ _ t
         /\ t_slots _ _ t' = t_slots _ _ t /\ t_size _ _ t' = 0
         /\ t_gmask _ _ t' = t_gmask _ _ t /\ t_shift _ _ t' = t_shift _ _ t
         /\ t_mlf _ _ t' = t_mlf _ _ t)).
Proof.
  intros R HA I Hne. pose proof (iv_mlf _ _ _ _ _ I) as Hm.
  assert (Ha : t_alloc _ _ t = true).
  { destruct (t_alloc _ _ t) eqn:E; auto. exfalso. apply Hne.
    rewrite (iv_unalloc _ _ _ _ _ I E). reflexivity. }
  destruct (Inv0_kof hash keq kd L t I Ha) as [k HK].
  destruct (reserve_for_insert_spec alloc (t_size _ _ t) (t_mlf _ _ t) HA Hm)
    as (c & Hc & Hn & H).
  assert (Ew : wmul (t_size _ _ t) 256 / t_mlf _ _ t = t_size _ _ t * 256 / t_mlf _ _ t).
  { apply (fit_size hash keq kd L t I). }
  rewrite Ew in Hn. exists c. split; auto. split; auto.
  unfold copy_construct. replace (t_size _ _ t =? 0) with false by lia. cbn [negb].
  destruct H as [[Ea E]|(nt & E & In' & HKn & Hs0 & Hsl & Ht & Hml & Hpr)]; rewrite E; cbn [obind].
  - left. auto.
  - right. rewrite (ctrl_capacity_kof kd L nt _ HKn).
    replace (c - w + w) with c by lia.
    destruct (N.eqb_spec (2 ^ c) (ctrl_capacity K V kd t)) as [Eq|Ne].
    + right. split; auto.
      rewrite (ctrl_capacity_kof kd L t _ HK) in Eq.
      apply N.pow_inj_r in Eq; [|lia]. assert (k = c - w) by lia. subst k.
      destruct (iv_alloc _ _ _ _ _ I Ha) as (k2 & G & Hgm & Hsh).
      assert (k2 = c - w).
      { destruct HK as (_ & Hm2 & _). apply (N.pow_inj_r 2); [lia|].
        pose proof (pow2_pos k2). pose proof (pow2_pos (c - w)). lia. }
      subst k2.
      unfold fast_copy.
      assert (El : t_slots _ _ nt = repeat None (length (t_slots _ _ t))).
      { rewrite Hsl. f_equal. pose proof (gv_slen _ _ _ _ _ _ _ G). lia. }
      rewrite El, (copy_all (c - w) _ _ G). cbn [lift]. eexists. split; [reflexivity|].
      cbn [t_alloc t_groups t_slots t_size t_gmask t_shift t_mlf].
      destruct HKn as (K1 & K2 & K3 & K4 & K5). split; auto. split; auto. split; auto.
      split; auto. split; [congruence|].
      destruct (iv_alloc _ _ _ _ _ In' K1) as (k3 & G3 & Hgm3 & Hsh3).
      assert (k3 = c - w).
      { apply (N.pow_inj_r 2); [lia|]. pose proof (pow2_pos k3). pose proof (pow2_pos (c - w)). lia. }
      subst k3. split; congruence.
    + left. split; auto. rewrite (traverse_spec past t R I). cbn [rbind].
      destruct (unique_insert_spec (c - w) (content t) nt) as (t' & E' & I' & HK' & Hs' & Ht' & Hm' & HP'); auto.
      * now apply (Inv0_distinct hash keq kd L).
      * intros e _ j kv Hj. rewrite Hsl in Hj. apply geti_repeat_inv in Hj. discriminate.
      * rewrite Hs0, <- (iv_size _ _ _ _ _ I). cbn. now apply (fit_scap _ (t_mlf _ _ t)).
      * rewrite E'. cbn [lift]. exists t'. split; auto. split; auto. split; auto.
        split; [rewrite Hs', Hs0, (iv_size _ _ _ _ _ I); lia|]. split; [|congruence].
        rewrite Hsl, elems_repeat_None, app_nil_r in HP'. exact HP'.
Qed.

(** ** Range insertion *)

(** What the loop does: it inserts the first element only. *)
Lemma emplace_present alloc t k v : alloc_ok alloc -> Inv0 t -> has K V keq k (content t) = true ->
  exists i, emplace_impl K V hash keq kd alloc false true t k v = Ret t (i, false).
Proof.
  intros HA I Hh. unfold emplace_impl, find_or_insert.
  destruct (find_spec hash keq kd L LW t k I) as [(gi & p & kv & E & _)|[E Hab]].
  - rewrite E. cbn [obind]. eauto.
  - exfalso. rewrite (absent_has keq _ _ Hab) in Hh. discriminate.
Qed.

Lemma range_loop_present alloc e l : alloc_ok alloc -> forall t, Inv0 t ->
  has K V keq (fst e) (content t) = true ->
  range_insert_loop K V hash keq kd alloc e l t = Ret t tt.
Proof.
  intros HA. induction l as [|x l IH]; intros t I Hh; cbn [range_insert_loop]; auto.
  destruct (emplace_present alloc t (fst e) (snd e) HA I Hh) as [i ->]. cbn [obind]. auto.
Qed.

Lemma range_insert_spec alloc e l t : alloc_ok alloc -> Inv0 t ->
  match range_insert K V hash keq kd alloc (e :: l) t with
  | Ret t' _ => Inv0 t' /\ Permutation (content t') (put_new K V keq (fst e) (snd e) (content t))
  | Throw t' => t' = t
  | Fail er => er = ELoop
  end.
Proof.
  intros HA I. cbn [range_insert range_insert_loop].
  pose proof (insert_ok hash keq kd L LW alloc false t (fst e) (snd e) HA I) as HI.
  cbv zeta in HI. cbn [step] in HI. unfold observe_ins in HI.
  destruct (emplace_impl K V hash keq kd alloc false true t (fst e) (snd e)) as [t1 [i b]|t1|er];
    cbn [obind fst snd] in HI |- *.
  - unfold entry_at in HI. destruct (geti (t_slots K V t1) i) as [[kv|]|]; cbn [step_ok] in HI;
      [|discriminate HI|discriminate HI].
    + destruct HI as (I1 & HP & _). cbn [spec_step fst] in HP.
      rewrite range_loop_present; auto.
      rewrite (has_perm keq _ _ _ HP). unfold put_new.
      destruct (has K V keq (fst e) (content t)) eqn:Eh; auto.
      cbn. now rewrite (lw_refl _ _ LW).
  - destruct HI as [->|(m & Hm & _)]; auto. discriminate.
  - exact HI.
Qed.

(** ** Move construction with another allocator *)

Lemma move_construct_alloc_spec alloc t : alloc_ok alloc -> Inv0 t ->
  t_size _ _ t <> 0 ->
  exists c, w + 1 <= c /\ t_size _ _ t * 256 / 224 <= 2 ^ c /\
  (2 ^ c <> ctrl_capacity K V kd t ->
    move_construct_alloc K V hash kd alloc t = Throw (empty_table K V kd 224, t)
    \/ exists t', move_construct_alloc K V hash kd alloc t
                  = Ret (t', empty_table K V kd (t_mlf _ _ t)) tt
        /\ Inv0 t' /\ t_size _ _ t' = t_size _ _ t /\ Permutation (content t') (content t))
  /\ (2 ^ c = ctrl_capacity K V kd t ->
      forall t1 t2, move_construct_alloc K V hash kd alloc t = Ret (t1, t2) tt ->
        t_alloc _ _ t1 = true /\ t_gmask _ _ t1 = t_gmask _ _ t).
Proof.
  intros HA I Hne.
  assert (Ha : t_alloc _ _ t = true).
  { destruct (t_alloc _ _ t) eqn:E; auto. exfalso. apply Hne.
    rewrite (iv_unalloc _ _ _ _ _ I E). reflexivity. }
  destruct (reserve_for_insert_spec alloc (t_size _ _ t) 224 HA ltac:(lia)) as (c & Hc & Hn & H).
  assert (Ew : wmul (t_size _ _ t) 256 = t_size _ _ t * 256).
  { apply wmul_small. pose proof (size_small hash keq kd L t I).
    change (2 ^ 55) with 36028797018963968 in *. unfold two64. lia. }
  rewrite Ew in Hn. exists c. split; auto. split; auto. split.
  2:{ intros Eq t1 t2. unfold move_construct_alloc.
      replace (t_size _ _ t =? 0) with false by lia. cbn [negb].
      change kDefaultMaxLoadFactor with 224.
      destruct H as [[Ea E]|(nt & E & In' & HKn & _)]; rewrite E; [discriminate|].
      rewrite (ctrl_capacity_kof kd L nt _ HKn). replace (c - w + w) with c by lia.
      rewrite <- Eq, N.eqb_refl.
      destruct (each_group _ _ _ _ _ _) as [[sl src]|e]; [|discriminate].
      destruct (forallb is_none src); [|discriminate]. intros Ex. injection Ex as <- <-.
      cbn [t_alloc t_gmask]. destruct (Inv0_kof hash keq kd L t I Ha) as [k0 Hk0].
      rewrite (ctrl_capacity_kof kd L _ _ Hk0) in Eq. apply N.pow_inj_r in Eq; [|lia].
      pose proof HKn as (K1 & K2 & _). destruct Hk0 as (_ & K3 & _). split; auto.
      rewrite K2, K3. do 2 f_equal. lia. }
  intros Hneq. unfold move_construct_alloc. replace (t_size _ _ t =? 0) with false by lia. cbn [negb].
  change kDefaultMaxLoadFactor with 224.
  destruct H as [[Ea E]|(nt & E & In' & HKn & Hs0 & Hsl & Ht & Hml & Hpr)]; rewrite E.
  - left. auto.
  - right. rewrite (ctrl_capacity_kof kd L nt _ HKn). replace (c - w + w) with c by lia.
    destruct (N.eqb_spec (2 ^ c) (ctrl_capacity K V kd t)) as [Eq|Ne]; [contradiction|].
    destruct (iv_alloc _ _ _ _ _ I Ha) as (k & G & Hmk & Hsk).
    rewrite (each_group_fold hash keq kd L (transfer K V hash kd) (transfer_i hash kd)
               (transfer_transfer_i hash kd) k _ _ _ G).
    set (l := filter (occ (t_slots _ _ t)) (seqN (2 ^ k * S'))).
    assert (Hlen : N.of_nat (length l) = t_size _ _ t).
    { rewrite (iv_size _ _ _ _ _ I).
      rewrite <- (map_length Some (elems (t_slots _ _ t))).
      rewrite (elems_occ _ (2 ^ k * S')), map_length; [reflexivity|].
      rewrite (gv_slen _ _ _ _ _ _ _ G). unfold TableInv.scap. destruct (kd_sent kd); lia. }
    pose proof HKn as (K1 & K2 & K3 & K4 & K5).
    destruct (fold_transfer hash keq kd L LW (c - w) l nt (t_slots _ _ t)) as [Hok _]; auto.
    + apply NoDup_filter, seqN_NoDup.
    + intros i Hi. apply filter_In in Hi. tauto.
    + intros. eapply gv_uniq; eauto.
    + intros i e _ j kv Hj. rewrite Hsl in Hj. apply geti_repeat_inv in Hj. discriminate.
    + destruct Hok as (nt' & os' & E' & I' & SG & Ht' & Hs' & Hp & Hpr' & Hl' & H3 & H4).
      { rewrite Hs0, Hlen. cbn. apply (fit_scap _ 224); auto; lia. }
      rewrite E'.
      assert (Hnone : elems os' = []).
      { destruct (elems os') as [|e r] eqn:Ee; auto. exfalso.
        assert (Hin : In e (elems os')) by (rewrite Ee; now left).
        apply In_elems in Hin. destruct Hin as [i Hi].
        destruct (in_dec N.eq_dec i l) as [Hin|Hni].
        - rewrite H3 in Hi by auto. discriminate.
        - pose proof Hi as Hi2. rewrite H4 in Hi2 by auto. apply Hni. apply filter_In. split.
          + apply seqN_In. apply geti_Some_lt in Hi2. rewrite (gv_slen _ _ _ _ _ _ _ G) in Hi2.
            unfold TableInv.scap in Hi2. destruct (kd_sent kd); lia.
          + apply occ_true. eauto. }
      rewrite (proj2 (elems_nil_all_none os') Hnone).
      exists nt'. split; auto. split; auto. split; [lia|].
      rewrite Hnone, app_nil_r, Hsl, elems_repeat_None in Hp. exact Hp.
Qed.

(** ** erase_if of group16 *)

Section EraseIf.

Hypothesis R : readable.
Hypothesis Hk : kd_sent kd = false.

Lemma upto_none (sl : list (option (K * V))) i : upto sl i = [] ->
  forall j kv, j < i -> geti sl j <> Some (Some kv).
Proof.
  intros E j kv Hj Hg.
  assert (Hin : In kv (upto sl i)); [|rewrite E in Hin; destruct Hin].
  unfold upto. apply In_elems. exists j. unfold geti in *.
  assert (HH : (N.to_nat j < N.to_nat i)%nat) by lia. revert HH Hg.
  generalize (N.to_nat i) (N.to_nat j). clear. induction sl as [|a sl IH]; intros n m H Hg.
  - destruct m; discriminate.
  - destruct n; [lia|]. destruct m; cbn [firstn nth_error] in *; auto. apply IH; auto. lia.
Qed.

Lemma upto_mem (sl : list (option (K * V))) i j kv : j < i -> geti sl j = Some (Some kv) ->
  upto sl i <> [].
Proof. intros Hj Hg E. exact (upto_none sl i E j kv Hj Hg). Qed.

Lemma erase_if_loop16_spec past pred first kv0 : forall fuel t it, Inv0 t ->
  first <= it -> it <= end16 K V kd t -> upto (t_slots _ _ t) first = [] ->
  geti (t_slots _ _ t) first = Some (Some kv0) \/ it = first ->
  (length (upto (t_slots _ _ t) it) <= fuel)%nat ->
  exists t', erase_if_loop16 K V kd fuel past pred first t it = Ok t' /\ Inv0 t'
    /\ capacity K V kd t' = capacity K V kd t
    /\ content t' = filter (fun e => negb (pred e)) (upto (t_slots _ _ t) it)
                    ++ from (t_slots _ _ t) it.
Proof.
  pose proof (rd_len R) as HL. pose proof (rd_nosent R Hk) as HC.
  induction fuel as [|f IH]; intros t it I Hfi Hie Hf0 Hf Hn; cbn [erase_if_loop16].
  - destruct (N.eqb_spec it first) as [->|Ne].
    + exists t. rewrite Hf0. cbn. split; auto. split; auto. split; auto.
      rewrite <- (upto_from _ first), Hf0. reflexivity.
    + exfalso. destruct Hf as [Hf|]; [|lia].
      apply (upto_mem _ it first kv0 ltac:(lia) Hf).
      destruct (upto _ it); auto. cbn in Hn. lia.
  - destruct (N.eqb_spec it first) as [->|Ne].
    + exists t. rewrite Hf0. cbn. split; auto. split; auto. split; auto.
      rewrite <- (upto_from _ first), Hf0. reflexivity.
    + destruct Hf as [Hf|]; [|lia].
      destruct (decr16_spec hash keq kd L HL Hk HC t it I Hie) as (j & kv & Ej & Hj & Eu).
      { apply (upto_mem _ it first kv0); auto. lia. }
      rewrite Ej. cbn [rbind]. unfold deref16. rewrite Hj. cbn [rbind].
      rewrite Eu, app_length in Hn. cbn [length] in Hn.
      assert (Hfj : first <= j).
      { destruct (N.le_gt_cases first j); auto. exfalso. eapply (upto_none _ first Hf0 j); eauto. }
      assert (Hjlt : j < end16 K V kd t).
      { rewrite (end16_length hash keq kd L t I). eapply geti_Some_lt; eauto. }
      assert (Hfrom : from (t_slots _ _ t) (j + 1) = from (t_slots _ _ t) it).
      { pose proof (upto_from (t_slots _ _ t) it) as E1. pose proof (upto_from (t_slots _ _ t) j) as E2.
        rewrite (from_step _ _ _ Hj) in E2. rewrite Eu in E1. rewrite <- app_assoc in E1.
        rewrite <- E2 in E1. apply app_inv_head in E1. cbn in E1. now injection E1. }
      rewrite Eu, filter_app. cbn [filter].
      destruct (pred kv) eqn:Ep; cbn [negb].
      * destruct (erase_iter16_spec hash keq kd L HL Hk HC past t j kv I Hj)
          as (t1 & j' & E1 & I1 & Ec & _ & Eel & HN & Efr & Eup & Elow).
        rewrite E1. cbn [rbind fst].
        destruct (IH t1 j) as (t' & E' & I' & Ec' & El'); auto.
        -- unfold end16 in *. lia.
        -- rewrite Eup by lia. exact Hf0.
        -- destruct (N.eq_dec j first); auto. left. rewrite Elow by lia. exact Hf.
        -- rewrite Eup by lia. lia.
        -- exists t'. split; auto. split; auto. split; [congruence|].
           rewrite El'. rewrite (Eup j) by lia. rewrite app_nil_r. f_equal.
           rewrite <- Hfrom, <- Efr.
           pose proof (upto_from (t_slots _ _ t1) j) as E2. rewrite Eel, (Eup j) in E2 by lia.
           apply app_inv_head in E2. rewrite E2. symmetry. exact Efr.
      * destruct (IH t j) as (t' & E' & I' & Ec' & El'); auto.
        -- unfold end16 in *. lia.
        -- lia.
        -- exists t'. split; auto. split; auto. split; auto. rewrite El'.
           rewrite (from_step _ _ _ Hj), Hfrom. cbn [opt_list app].
           now rewrite <- app_assoc.
Qed.

Lemma erase_if16_spec past pred t : Inv0 t ->
  exists t', erase_if16 K V kd past pred t = Ok t' /\ Inv0 t'
    /\ capacity K V kd t' = capacity K V kd t
    /\ content t' = filter (fun e => negb (pred e)) (content t).
Proof.
  pose proof (rd_len R) as HL. pose proof (rd_nosent R Hk) as HC.
  intros I. unfold erase_if16.
  destruct (begin16_spec hash keq kd L HL Hk HC t I) as (i & Ei & _ & Hfr & Hi).
  rewrite Ei. cbn [rbind].
  assert (Hu : upto (t_slots _ _ t) i = []).
  { pose proof (upto_from (t_slots _ _ t) i) as E. rewrite <- Hfr, from_0 in E.
    apply (f_equal (@length _)) in E. rewrite app_length in E.
    apply length_zero_iff_nil. lia. }
  pose proof (end16_length hash keq kd L t I) as Ee.
  assert (Eall : upto (t_slots _ _ t) (end16 K V kd t) = content t).
  { rewrite Ee. unfold upto. rewrite firstn_all2 by lia. reflexivity. }
  assert (Enone : from (t_slots _ _ t) (end16 K V kd t) = []) by (apply from_end; lia).
  assert (HH : forall kv0, geti (t_slots _ _ t) i = Some (Some kv0) \/ end16 K V kd t = i ->
    i <= end16 K V kd t -> exists t', erase_if_loop16 K V kd (N.to_nat (t_size _ _ t)) past pred i t (end16 K V kd t) = Ok t' /\ Inv0 t'
    /\ capacity K V kd t' = capacity K V kd t
    /\ content t' = filter (fun e => negb (pred e)) (content t)).
  { intros kv0 Hor Hle.
    destruct (erase_if_loop16_spec past pred i kv0 (N.to_nat (t_size _ _ t)) t (end16 K V kd t))
      as (t' & E' & I' & Ec' & El'); auto.
    - lia.
    - rewrite Eall, (iv_size _ _ _ _ _ I). lia.
    - exists t'. split; auto. split; auto. split; auto. rewrite El', Eall, Enone. apply app_nil_r. }
  destruct Hi as [->|[kv Hkv]].
  - destruct (content t) as [|kv0 r] eqn:Ect.
    + destruct (t_size _ _ t) eqn:Es.
      * cbn [N.to_nat]. cbn [erase_if_loop16]. rewrite Ee, N.eqb_refl. exists t. cbn. auto.
      * rewrite (iv_size _ _ _ _ _ I), Ect in Es. discriminate.
    + apply (HH kv0); [right; auto|lia].
  - apply (HH kv); [auto|]. rewrite Ee. apply geti_Some_lt in Hkv. lia.
Qed.

End EraseIf.

End Copy.
