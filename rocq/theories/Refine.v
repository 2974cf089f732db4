(** The tables refine the abstract map. *)
From Coq Require Import NArith ZArith List Bool Lia Permutation.
From Coq Require Import ZifyBool ZifyNat ZifyN.
From Verif Require Import Base BaseFacts BitsModel BitsFacts ProberModel ProberFacts
  GroupModel GroupFacts TableModel TableInv TableFind TableInsert TableLoops TableCap TableOps
  MapSpec MapFacts RunModel.
Import ListNotations.
Open Scope N_scope.

Section Refine.

Context {K V : Type} (hash : K -> N) (keq : K -> K -> bool) (kd : kind) (L : klaws kd).
Context (LW : tame hash keq).

Notation table := (table K V).
Notation S' := (kd_S kd).
Notation w := (kl_w kd L).
Notation sidx := (slot_index kd).
Notation Inv0 := (@TableInv.Inv0 K V hash keq kd L).
Notation rehashed := (@TableCap.rehashed K V hash keq kd L).
Notation step := (step K V hash keq kd).
Notation sstep := (spec_step K V keq).
Notation client_ok := (client_ok K V kd).
Notation content t := (elems (t_slots _ _ t)).
Notation absent := (@TableFind.absent K V keq).

Lemma Inv0_distinct t : Inv0 t -> distinct_keys K V keq (content t).
Proof. intros I. apply uniq_distinct. eapply Inv0_uniq; eauto. Qed.

Lemma absent_get sl k : absent sl k -> get K V keq k (elems sl) = None.
Proof. apply absent_lookup. Qed.

Lemma absent_has sl k : absent sl k -> has K V keq k (elems sl) = false.
Proof. intros H. now rewrite has_get, absent_get. Qed.

Lemma found_get t i kv k : Inv0 t -> geti (t_slots _ _ t) i = Some (Some kv) ->
  keq k (fst kv) = true -> get K V keq k (content t) = Some kv.
Proof. intros. eapply slot_lookup; eauto. Qed.

Lemma found_has t i kv k : Inv0 t -> geti (t_slots _ _ t) i = Some (Some kv) ->
  keq k (fst kv) = true -> has K V keq k (content t) = true.
Proof. intros. now rewrite has_get, (found_get t i kv). Qed.

(** The other elements are not equivalent to [k]. *)
Lemma others t i kv k a b : Inv0 t -> geti (t_slots _ _ t) i = Some (Some kv) ->
  keq k (fst kv) = true -> content t = a ++ kv :: b ->
  forall e, In e (a ++ b) -> keq k (fst e) = false.
Proof.
  intros I Hi Hk E e He.
  pose proof (Inv0_uniq hash keq kd L t I) as U.
  destruct (keq k (fst e)) eqn:Ee; auto. exfalso.
  assert (Hkk : keq (fst kv) (fst e) = true).
  { eapply (tm_trans _ _ LW); [|exact Ee]. now apply (tm_sym _ _ LW). }
  apply in_app_iff in He. destruct He as [He|He]; apply in_split in He; destruct He as (x & y & ->).
  - specialize (U x e y kv b). rewrite E, <- app_assoc in U. specialize (U eq_refl).
    apply (tm_sym _ _ LW) in Hkk. congruence.
  - specialize (U a kv x e y). rewrite E in U. specialize (U eq_refl). congruence.
Qed.

Lemma map_id_on {A} (f : A -> A) l : (forall x, In x l -> f x = x) -> map f l = l.
Proof. induction l; simpl; intros H; auto. rewrite H by auto. f_equal. auto. Qed.

Lemma filter_all {A} (f : A -> bool) l : (forall x, In x l -> f x = true) -> filter f l = l.
Proof. induction l; simpl; intros H; auto. rewrite H by auto. f_equal. auto. Qed.

Lemma assign_found t i kv k v : Inv0 t -> geti (t_slots _ _ t) i = Some (Some kv) ->
  keq k (fst kv) = true ->
  elems (seti (t_slots _ _ t) i (Some (fst kv, v))) = put K V keq k v (content t).
Proof.
  intros I Hi Hk. unfold put. rewrite (found_has t i kv) by auto.
  destruct (geti_split _ _ _ Hi) as (a & b & E & _ & Es).
  assert (E2 : content t = elems a ++ kv :: elems b) by (rewrite E, elems_app; reflexivity).
  rewrite Es, E2, elems_app, map_app. cbn [map].
  pose proof (others t i kv k _ _ I Hi Hk E2) as Ho.
  rewrite Hk, !map_id_on.
  - reflexivity.
  - intros x Hx. rewrite Ho; auto. apply in_app_iff. auto.
  - intros x Hx. rewrite Ho; auto. apply in_app_iff. auto.
Qed.

Lemma erase_found t i kv k : Inv0 t -> geti (t_slots _ _ t) i = Some (Some kv) ->
  keq k (fst kv) = true ->
  elems (seti (t_slots _ _ t) i None) = remove K V keq k (content t).
Proof.
  intros I Hi Hk. unfold remove.
  destruct (geti_split _ _ _ Hi) as (a & b & E & _ & Es).
  assert (E2 : content t = elems a ++ kv :: elems b) by (rewrite E, elems_app; reflexivity).
  rewrite Es, E2, elems_app, filter_app. cbn [filter].
  pose proof (others t i kv k _ _ I Hi Hk E2) as Ho.
  rewrite Hk. cbn [negb]. rewrite !filter_all.
  - reflexivity.
  - intros x Hx. rewrite Ho; auto. apply in_app_iff. auto.
  - intros x Hx. rewrite Ho; auto. apply in_app_iff. auto.
Qed.

Lemma erase_absent sl k : absent sl k -> remove K V keq k (elems sl) = elems sl.
Proof.
  intros H. unfold remove. apply filter_all. intros x Hx.
  pose proof (absent_has _ _ H) as Hh. rewrite has_false in Hh. now rewrite Hh.
Qed.

Definition clamp (m : N) : N := N.min kMaxLoadFactor (N.max kMinLoadFactor m).

Lemma clamp_range m : 128 <= clamp m <= 224.
Proof. unfold clamp, kMaxLoadFactor, kMinLoadFactor. lia. Qed.

Lemma set_mlf_Inv0 t m : Inv0 t -> 128 <= m <= 224 -> Inv0 (set_mlf K V t m).
Proof.
  intros I Hm. constructor;
    cbn [set_mlf t_alloc t_groups t_slots t_size t_thr t_gmask t_shift t_mlf]; auto.
  - intros Ha. unfold set_mlf. rewrite (iv_unalloc _ _ _ _ _ I Ha). reflexivity.
  - apply (iv_alloc _ _ _ _ _ I).
  - apply (iv_size _ _ _ _ _ I).
Qed.

(** Outcome of a call, as seen through the contents. *)
Definition step_ok (o : op K V) (t : table) (r : out table (obs K V)) : Prop :=
  match r with
  | Ret t' x => Inv0 t' /\ Permutation (content t') (fst (sstep o (content t)))
                /\ x = snd (sstep o (content t))
  | Throw t' => t' = t \/ exists m, o = OMlf _ _ m /\ t' = set_mlf K V t (clamp m)
  | Fail e => e = ELoop
  end.

Lemma insert_ok alloc (upd : bool) t k v : alloc_ok alloc -> Inv0 t ->
  let o := if upd then OAssign _ _ k v else OInsert _ _ k v in
  step_ok o t (step alloc o t).
Proof.
  intros HA I o.
  assert (Eo : step alloc o t = observe_ins K V (emplace_impl K V hash keq kd alloc upd true t k v)).
  { unfold o. destruct upd; reflexivity. }
  rewrite Eo. unfold observe_ins.
  destruct (emplace_spec hash keq kd L LW alloc upd t k v HA I)
    as [(gi & p & kv & Ef & Hp & Ha & Hs & Hk & E)|(Habs & Ef & [(Hn & E)|(t1 & kk & HR & Hk & I1 & H)])].
  - rewrite E. cbn [obind fst snd]. unfold o. destruct upd.
    + unfold entry_at. cbn [set_slot t_slots].
      rewrite geti_seti_eq by (eapply geti_Some_lt; eauto).
      split; [now apply set_slot_Inv0|]. cbn [spec_step fst snd set_slot t_slots].
      split; [rewrite (assign_found t _ kv k v) by auto; reflexivity|].
      unfold the. rewrite (found_get t (sidx gi p) kv), (found_has t (sidx gi p) kv) by auto. reflexivity.
    + unfold entry_at. rewrite Hs. split; auto. cbn [spec_step fst snd].
      unfold put_new, the. rewrite (found_get t (sidx gi p) kv), (found_has t (sidx gi p) kv) by auto.
      split; auto.
  - rewrite E. cbn [obind]. left. reflexivity.
  - destruct H as [(E & _ & _)|(t2 & i & E & (I2 & SG & Hi & Hsl & _))]; rewrite E; cbn [obind fst snd].
    + reflexivity.
    + unfold entry_at. rewrite Hsl, geti_seti_eq by (eapply geti_Some_lt; eauto).
      assert (HP : Permutation (content t2) ((k, v) :: content t)).
      { rewrite Hsl. rewrite (elems_seti_Some _ _ (k, v) Hi). apply perm_skip.
        destruct HR as [[-> _]|(_ & c & R & _)]; [reflexivity|]. apply R. }
      pose proof (absent_get _ _ Habs) as Hg. pose proof (absent_has _ _ Habs) as Hh.
      unfold o. destruct upd; cbn [spec_step fst snd step_ok]; (split; [exact I2|]);
        unfold put, put_new, the; rewrite Hg, Hh; auto.
Qed.

Lemma resized_ok o t r : Inv0 t -> resized hash keq kd L t r ->
  sstep o (content t) = (content t, RUnit _ _) ->
  step_ok o t (obind r (fun t' _ => Ret t' (RUnit _ _))).
Proof.
  intros I H Eo. destruct H as [-> |[-> |(nt & c & -> & R & _)]]; cbn [obind step_ok];
    rewrite ?Eo; cbn [fst snd]; auto.
  destruct R as (I' & _ & HP & _). auto.
Qed.

Lemma size0_content t : Inv0 t -> t_size _ _ t = 0 -> content t = [].
Proof.
  intros I H. rewrite (iv_size _ _ _ _ _ I) in H. destruct (content t); auto. simpl in H. lia.
Qed.

Lemma destroy_ok o t : Inv0 t -> sstep o (content t) = ([], RUnit _ _) ->
  step_ok o t (obind (lift _ _ (destroy K V kd t)) (fun t' _ => Ret t' (RUnit _ _))).
Proof.
  intros I Eo. rewrite (destroy_spec hash keq kd L) by auto. cbn [lift obind step_ok].
  rewrite Eo. cbn [fst snd]. split; [|auto]. apply empty_Inv0. apply (iv_mlf _ _ _ _ _ I).
Qed.

Lemma rehash_ok alloc o n t : alloc_ok alloc -> Inv0 t -> n <= 2 ^ 63 ->
  sstep o (content t) = (content t, RUnit _ _) ->
  step_ok o t (obind (rehash K V hash kd alloc n t) (fun t' _ => Ret t' (RUnit _ _))).
Proof.
  intros HA I Hn Eo. unfold rehash.
  pose proof (fit_le hash keq kd L t (t_size _ _ t) I) as Hfit.
  assert (2 ^ 57 <= 2 ^ 63) by (apply pow2_le; lia).
  set (n' := N.max (shrink_to_fit_capacity K V t (t_size _ _ t)) n).
  assert (n' <= 2 ^ 63) by (unfold n'; lia).
  destruct (N.eqb_spec n' 0) as [E|E]; cbn [negb].
  - assert (E0 : t_size _ _ t = 0).
    { apply (fit_size_0 hash keq kd L t I). unfold n' in E. lia. }
    apply destroy_ok; auto. rewrite Eo. now rewrite (size0_content t I E0).
  - apply resized_ok; auto. apply rehash_fits; auto. unfold n'. lia.
Qed.

(** max_load_factor always ends in a rehash. *)
Lemma mlf_rehash alloc m t : alloc_ok alloc -> Inv0 t -> exists cap,
  max_load_factor K V hash kd alloc m t = rehash K V hash kd alloc cap (set_mlf K V t (clamp m))
  /\ ctrl_capacity K V kd t < cap <= 2 ^ 58.
Proof.
  intros HA I. pose proof (clamp_range m) as Hc. pose proof (set_mlf_Inv0 t _ I Hc) as I1.
  unfold max_load_factor. fold (clamp m). set (t1 := set_mlf K V t (clamp m)) in *.
  assert (Ecc : ctrl_capacity K V kd t1 = ctrl_capacity K V kd t) by reflexivity.
  pose proof (fit_le hash keq kd L t1 (ctrl_capacity K V kd t1) I1) as Hfit.
  set (n := shrink_to_fit_capacity K V t1 (ctrl_capacity K V kd t1)) in *.
  pose proof (size_small hash keq kd L t1 I1) as Hs.
  assert (2 ^ 55 <= 2 ^ 57) by (apply pow2_le; lia).
  assert (2 ^ 57 <= 2 ^ 63) by (apply pow2_le; lia).
  destruct (calc_capacity_spec kd L t1 n ltac:(lia) ltac:(lia)) as (c & Ec & Hcw & Hnc & Hsc & Hlo).
  rewrite Ec.
  assert (Hlt : ctrl_capacity K V kd t < 2 ^ c).
  { destruct (t_alloc _ _ t) eqn:Ea.
    - destruct (Inv0_kof hash keq kd L t I Ea) as [k Hk].
      assert (Hn : n = 2 ^ (k + w) * 256 / clamp m).
      { unfold n. rewrite Ecc, (ctrl_capacity_kof kd L t k Hk). unfold shrink_to_fit_capacity, kAmplify.
        destruct Hk as (_ & _ & _ & Hb & _). rewrite (kl_W _ L), <- N.pow_add_r in Hb.
        change (2 ^ 55) with 36028797018963968 in Hb.
        rewrite wmul_small by (rewrite two64_eq; lia). reflexivity. }
      rewrite (ctrl_capacity_kof kd L t k Hk). eapply N.lt_le_trans; [|exact Hnc].
      rewrite Hn. assert (16 <= 2 ^ (k + w)).
      { change 16 with (2 ^ 4). apply pow2_le. pose proof (kl_w_range _ L). lia. }
      apply N.lt_le_trans with (2 ^ (k + w) * 256 / 224).
      + apply N.lt_le_trans with (2 ^ (k + w) + 1); [lia|].
        apply N.div_le_lower_bound; lia.
      + apply N.div_le_compat_l. lia.
    - rewrite (iv_unalloc _ _ _ _ _ I Ea). change (kd_empty_cap kd < 2 ^ c).
      pose proof (kl_empty_cap _ L). rewrite (pow_cw kd L c) by lia.
      assert (2 ^ 1 <= 2 ^ (c - w)) by (apply pow2_le; lia). change (2 ^ 1) with 2 in *.
      pose proof (W_pos kd L). nia. }
  rewrite Ecc. rewrite (proj2 (N.ltb_lt _ _) Hlt). exists (2 ^ c). split; auto. split; auto.
  apply pow2_le. assert (c - 1 < 58); [|lia].
  destruct (N.le_gt_cases 58 (c - 1)) as [H58|]; [|auto]. exfalso.
  apply pow2_le in H58. pose proof (kMin_range kd L).
  assert (2 ^ 57 < 2 ^ 58) by (apply pow2_lt; lia). change (2 ^ 58) with 288230376151711744 in *. lia.
Qed.

Lemma step_refines alloc o t : alloc_ok alloc -> Inv0 t -> client_ok o t ->
  step_ok o t (step alloc o t).
Proof.
  intros HA I Hok. destruct o as [k v|k v|k|k|k| |b|n|n|b|m]; cbn [TableModel.step].
  - apply (insert_ok alloc false); auto.
  - apply (insert_ok alloc true); auto.
  - unfold find_and_erase. destruct (find_spec hash keq kd L LW t k I)
      as [(gi & p & kv & E & Ha & Hp & Hs & Hk)|[E Habs]]; rewrite E.
    + destruct (erase_slot_spec hash keq kd L t gi p kv I Ha Hp Hs) as (t' & Ee & I' & _ & Hsl & _).
      rewrite Ee. cbn [obind step_ok spec_step fst snd]. split; auto. rewrite Hsl.
      split; [rewrite (erase_found t _ kv k) by auto; reflexivity|].
      unfold count. now rewrite (found_has t (sidx gi p) kv).
    + cbn [obind step_ok spec_step fst snd]. split; auto. split.
      * now rewrite erase_absent.
      * unfold count. now rewrite absent_has.
  - rewrite (lookup_correct hash keq kd L LW t k I). cbn [observe_res step_ok spec_step fst snd]. auto.
  - rewrite (lookup_correct hash keq kd L LW t k I). cbn [observe_res step_ok spec_step fst snd].
    split; auto. split; auto. f_equal. rewrite has_get. unfold lookup_list, get.
    destruct (List.find _ _); reflexivity.
  - cbn [step_ok spec_step fst snd]. split; auto. split; auto.
    now rewrite (iv_size _ _ _ _ _ I).
  - unfold clear. destruct b.
    + apply destroy_ok; auto.
    + destruct (t_alloc _ _ t) eqn:Ea.
      * destruct (clear_data_alloc hash keq kd L t I Ea) as (t' & E & I' & _ & Hsl & _).
        rewrite E. cbn [lift obind step_ok spec_step fst snd]. split; auto.
        rewrite Hsl, elems_repeat_None. auto.
      * rewrite (clear_data_unalloc hash keq kd L t I Ea).
        cbn [RunModel.client_ok] in Hok. unfold capacity in Hok. rewrite Ea in Hok.
        destruct (kd_sent kd); [now destruct (Hok eq_refl)|].
        cbn [lift obind step_ok spec_step fst snd]. split; auto.
        rewrite (iv_unalloc _ _ _ _ _ I Ea). auto.
  - cbn [RunModel.client_ok] in Hok. unfold reserve.
    rewrite (proj2 (N.eqb_neq _ _) Hok). cbn [negb].
    apply resized_ok; auto. apply grown_resized; auto. apply rehash_grow; auto.
    pose proof (fit_le hash keq kd L t n I). assert (2 ^ 57 <= 2 ^ 63) by (apply pow2_le; lia). lia.
  - cbn [RunModel.client_ok] in Hok. apply rehash_ok; auto.
  - unfold shrink_to_fit. pose proof (fit_le hash keq kd L t (t_size _ _ t) I) as Hfit.
    pose proof (size_small hash keq kd L t I) as Hs.
    assert (2 ^ 57 <= 2 ^ 63) by (apply pow2_le; lia).
    assert (2 ^ 55 <= 2 ^ 63) by (apply pow2_le; lia).
    set (n := if b then _ else _).
    assert (n <= 2 ^ 63) by (unfold n; destruct b; lia).
    destruct (N.eqb_spec n 0) as [E|E]; cbn [negb].
    + assert (E0 : t_size _ _ t = 0).
      { unfold n in E. destruct b; auto. now apply (fit_size_0 hash keq kd L t I). }
      apply destroy_ok; auto. cbn [spec_step]. now rewrite (size0_content t I E0).
    + destruct (rehash_any hash keq kd L LW alloc true t n HA I ltac:(auto)) as [H'|[_ E']].
      * apply resized_ok; auto.
      * rewrite E'. reflexivity.
  - destruct (mlf_rehash alloc m t HA I) as (cap & E & Hcap). rewrite E.
    pose proof (set_mlf_Inv0 t _ I (clamp_range m)) as I1.
    assert (2 ^ 58 <= 2 ^ 63) by (apply pow2_le; lia).
    pose proof (rehash_ok alloc (OMlf _ _ m) cap _ HA I1 ltac:(lia) eq_refl) as H'.
    destruct (obind _ _) as [t' x|t'|e]; auto.
    cbn [step_ok] in *. destruct H' as [-> |(m' & Em & ->)].
    + right. eauto.
    + injection Em as <-. right. exists m. split; auto.
Qed.

(** ** Runs *)

Notation run := (run K V hash keq kd).
Notation obeys := (obeys K V hash keq kd).

Definition allocs_ok (calls : list (call K V)) : Prop :=
  Forall (fun c => alloc_ok (fst c)) calls.

Lemma step_ok_Throw o t t' : Inv0 t -> step_ok o t (Throw t') ->
  Inv0 t' /\ content t' = content t.
Proof.
  intros I [-> |(m & _ & ->)]; auto. split; [|reflexivity].
  apply set_mlf_Inv0; auto. apply clamp_range.
Qed.

Lemma run_refines calls : forall t, allocs_ok calls -> Inv0 t -> obeys client_ok calls t ->
  match run calls t with
  | Ok (outs, t') => Inv0 t'
      /\ Permutation (content t')
           (fst (spec_run K V keq (map snd calls) (map threw outs) (content t)))
      /\ outs = snd (spec_run K V keq (map snd calls) (map threw outs) (content t))
  | Err e => e = ELoop
  end.
Proof.
  induction calls as [|[alloc o] calls IH]; intros t HA I Ho; cbn [RunModel.run].
  - cbn [map spec_run fst snd]. auto.
  - inversion HA as [|x y HA1 HA2]; subst. cbn [RunModel.obeys] in Ho. destruct Ho as [Ho1 Ho2].
    pose proof (step_refines alloc o t HA1 I Ho1) as Hs.
    destruct (step alloc o t) as [t1 r|t1|e] eqn:E.
    + destruct Hs as (I1 & HP & Er). specialize (IH t1 HA2 I1 Ho2).
      destruct (run calls t1) as [[outs t']|e]; cbn [rbind]; auto.
      destruct IH as (I' & HP' & Eo). split; auto.
      cbn [map snd]. cbn [threw is_none map]. cbn [spec_run].
      destruct (sstep o (content t)) as [m1 r1]. cbn [fst snd] in *. subst r1.
      pose proof (spec_run_perm hash keq LW (map snd calls) (map threw outs) _ _ HP
                    (Inv0_distinct _ I1)) as [Hp1 Hp2].
      destruct (spec_run K V keq (map snd calls) (map threw outs) m1) as [m2 rs2].
      cbn [fst snd] in *. split.
      * etransitivity; eauto.
      * f_equal. congruence.
    + pose proof (step_ok_Throw o t t1 I Hs) as [I1 Ec]. specialize (IH t1 HA2 I1 Ho2).
      destruct (run calls t1) as [[outs t']|e]; cbn [rbind]; auto.
      destruct IH as (I' & HP' & Eo). split; auto.
      cbn [map snd]. cbn [threw is_none map]. cbn [spec_run].
      rewrite Ec in HP', Eo.
      destruct (spec_run K V keq (map snd calls) (map threw outs) (content t)) as [m2 rs2].
      cbn [fst snd] in *. split; auto. f_equal. congruence.
    + exact Hs.
Qed.

End Refine.
