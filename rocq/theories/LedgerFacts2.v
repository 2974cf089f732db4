(** The calls of the allocators made by a map. *)
From Coq Require Import NArith ZArith List Bool Permutation Lia ZifyBool ZifyNat ZifyN.
From Verif Require Import Base GroupModel TableModel LayoutModel RunModel ReachModel BaseFacts GroupFacts TableInv TableFind TableCap MapSpec TableOps Refine ReachFacts MapProps LedgerModel LedgerSpec LedgerFacts.
Import ListNotations.
Open Scope N_scope.
Ltac Zify.zify_post_hook ::= Z.div_mod_to_equations.

Section Ledger.

Context {K V : Type} (hash : K -> N) (keq : K -> K -> bool) (kd : kind) (L : klaws kd).
Context (LW : lawful hash keq) (sz : N).
Notation table := (table K V).
Notation w := (kl_w kd L).
Notation fit := (shrink_to_fit_capacity K V).
Notation Inv0 := (@TableInv.Inv0 K V hash keq kd L).

Definition slot_block (addr : N) (t : table) : block :=
  mkBlock PSlot addr
    (if kd_sent kd then total_slot_alloc_count sz (group_capacity _ _ t) (calc_slot_capacity kd (group_capacity _ _ t))
     else calc_slot_capacity kd (group_capacity _ _ t)).
Definition group_block (addr : N) (t : table) : block :=
  mkBlock PGroup addr (total_group_alloc_count (group_capacity _ _ t)).

Definition held (addr : N) (t : table) : list block :=
  if t_alloc _ _ t then
    if kd_sent kd then [slot_block addr t] else [slot_block addr t; group_block addr t]
  else [].

Lemma held_shape addr t t' : shape K V t' = shape K V t -> held addr t' = held addr t.
Proof.
  unfold shape. intro E. injection E as E1 E2.
  unfold held, slot_block, group_block, group_capacity. now rewrite E1, E2.
Qed.

Lemma held_addr addr next t l : addr < next -> Forall (fun b => b_addr b < next) l ->
  Forall (fun b => b_addr b < next) (held addr t ++ l).
Proof.
  intros. apply Forall_app. split; auto. unfold held.
  destruct (t_alloc _ _ t), (kd_sent kd); repeat constructor; cbn; assumption.
Qed.

Lemma destroy_plays addr t l live : Permutation live (held addr t ++ l) ->
  live_is (play live (destroy_events K V kd sz addr t)) l.
Proof.
  intro HP. unfold destroy_events. unfold held, slot_block, group_block in HP. unfold capacity.
  destruct (t_alloc _ _ t); [|now apply live_nil].
  destruct (kd_sent kd); cbn [app] in HP.
  - eapply play_free; [exact HP|]. intros; now apply live_nil.
  - eapply play_free; [exact HP|]. intros live' HP'. eapply play_free; [exact HP'|]. intros; now apply live_nil.
Qed.

Lemma rehash_free_plays addr t l live : Permutation live (held addr t ++ l) ->
  live_is (play live (rehash_free_events K V kd sz addr t)) l.
Proof.
  intro HP. unfold rehash_free_events. unfold held, slot_block, group_block in HP. unfold capacity.
  destruct (t_alloc _ _ t); [|now apply live_nil].
  destruct (kd_sent kd); cbn [app] in HP.
  - eapply play_free; [exact HP|]. intros; now apply live_nil.
  - eapply play_free; [rewrite HP; apply perm_swap|].
    intros live' HP'. eapply play_free; [exact HP'|]. intros; now apply live_nil.
Qed.

(** Blocks left behind: only group arrays of group16, and none if the second request
    is granted whenever the first one is. *)
Definition careful (a : answers) : Prop :=
  kd_sent kd = false -> forall n, a_group a n = true -> a_slot a n = true.

Definition lost (a : answers) (next : N) (l l' : list block) : Prop :=
  Forall (fun b => b_addr b < next) l' /\
  (exists m, l' = m ++ l /\ Forall (fun b => b_pool b = PGroup) m) /\
  (careful a -> l' = l).

Lemma lost_none a next l : Forall (fun b => b_addr b < next) l -> lost a (next + 1) l l.
Proof.
  intro H. split; [|split; [exists []; auto|auto]]. eapply Forall_impl; [|exact H]. cbn. intros; lia.
Qed.

(** What one call does. *)
Definition good (a : answers) (addr next : N) (t t' : table) (es : list event) : Prop :=
  forall l live, Forall (fun b => b_addr b < next) l -> Permutation live (held addr t ++ l) ->
  exists l', lost a (next + 1) l l' /\
    live_is (play live es) (held (if moved es then next else addr) t' ++ l').

Lemma good_nil a addr next t t' : shape K V t' = shape K V t -> good a addr next t t' [].
Proof.
  intros E l live Hl HP. exists l. split; [now apply lost_none|]. cbn [moved existsb].
  apply live_nil. now rewrite (held_shape _ _ _ E).
Qed.

Lemma good_destroy a addr next t t' : t_alloc _ _ t' = false ->
  good a addr next t t' (destroy_events K V kd sz addr t).
Proof.
  intros E l live Hl HP. exists l. split; [now apply lost_none|].
  replace (held _ t') with (@nil block) by (unfold held; rewrite E; reflexivity).
  cbn [app]. now apply destroy_plays with (addr := addr).
Qed.

Lemma new_group_capacity (t' : table) c : w + 1 <= c -> c <= 55 ->
  shape K V t' = (true, wsub (calc_group_capacity kd (2 ^ c)) 1) ->
  t_alloc _ _ t' = true /\ group_capacity _ _ t' = 2 ^ (c - w).
Proof.
  intros H1 H2 E. unfold shape in E. injection E as E1 E2. split; auto.
  unfold group_capacity. rewrite E2, (calc_group_capacity_pow kd L) by auto.
  pose proof (pow2_pos (c - w)). assert (2 ^ (c - w) <= 2 ^ 55) by (apply pow2_le; lia).
  assert (2 ^ 55 < two64) by reflexivity.
  rewrite wsub_small by lia. rewrite wadd_small by lia. lia.
Qed.

Lemma rehash_impl_good a sh addr next t n :
  sane (granted kd a) -> n <= 2 ^ 63 -> t_size _ _ t <= 2 ^ 63 -> addr < next ->
  match rehash_impl K V hash kd (granted kd a) sh t n with
  | Ret t' _ | Throw t' => good a addr next t t' (rehash_impl_events K V kd sz a sh addr next t n)
  | Fail _ => True
  end.
Proof.
  intros HA Hn Hs Hadr. pose proof (shape_rehash_impl K V hash kd (granted kd a) sh t n) as H.
  destruct (calc_capacity_spec kd L t n Hn Hs) as (c & Ec & Hc & _).
  unfold rehash_impl_events. rewrite Ec.
  destruct (rehash_impl _ _ _ _ _ _ _ _) as [t' u|t'|e]; auto.
  - destruct H as (cap & E & H). rewrite Ec in E. injection E as <-.
    destruct (if sh then _ else _); [|subst t'; now apply good_nil].
    destruct H as [HG Hsh]. rewrite HG. pose proof (HA _ HG) as Hcap.
    assert (Hc55 : c <= 55).
    { destruct (N.le_gt_cases c 55); auto. assert (2 ^ 55 < 2 ^ c) by (apply pow2_lt; lia). lia. }
    destruct (new_group_capacity t' c ltac:(lia) Hc55 Hsh) as [Ha' Hg'].
    pose proof (calc_group_capacity_pow kd L c ltac:(lia) Hc55) as Hgc.
    intros l live Hl HP. exists l. split; [now apply lost_none|].
    pose proof (held_addr addr next t l Hadr Hl) as HF.
    assert (HF' : Forall (fun b => b_addr b < next) live) by (eapply Permutation_Forall; [symmetry; exact HP|exact HF]).
    unfold create_events, granted in *. rewrite Hgc.
    set (fr := rehash_free_events K V kd sz addr t).
    assert (Hcap16 : kd_sent kd = false -> calc_slot_capacity kd (2 ^ (c - w)) = 2 ^ c).
    { intro Es. unfold calc_slot_capacity. rewrite Es.
      rewrite wmul_small; [symmetry; apply (pow_cw kd L); lia|].
      rewrite <- (pow_cw kd L) by lia. assert (2 ^ c <= 2 ^ 55) by (apply pow2_le; lia).
      assert (2 ^ 55 < two64) by reflexivity. lia. }
    unfold held at 1. rewrite Ha'. unfold slot_block, group_block. rewrite Hg'.
    destruct (kd_sent kd).
    + rewrite HG. cbn [app].
      cbn [moved existsb orb play]. rewrite existsb_clash by exact HF'.
      apply rehash_free_plays with (addr := addr). rewrite HP. apply Permutation_middle.
    + apply andb_true_iff in HG. destruct HG as [HG1 HG2]. rewrite HG1, HG2. cbn [app].
      cbn [moved existsb orb play]. rewrite existsb_clash by exact HF'. cbn [existsb clash b_pool pool_eqb andb orb].
      rewrite existsb_clash by exact HF'. rewrite (Hcap16 eq_refl).
      apply rehash_free_plays with (addr := addr). rewrite HP.
      rewrite <- !Permutation_middle. reflexivity.
  - destruct H as (cap & E & HB & HG & ->). rewrite Ec in E. injection E as <-.
    rewrite HB, HG. rewrite app_nil_r. intros l live Hl HP.
    pose proof (held_addr addr next t l Hadr Hl) as HF.
    assert (HF' : Forall (fun b => b_addr b < next) live) by (eapply Permutation_Forall; [symmetry; exact HP|exact HF]).
    unfold create_events, granted in *.
    destruct (kd_sent kd) eqn:Es.
    + rewrite HG. cbn [moved existsb]. exists l. split; [now apply lost_none|]. now apply live_nil.
    + destruct (a_group a (2 ^ c)) eqn:E1; cbn [andb] in HG.
      * rewrite HG. cbn [moved existsb orb play]. rewrite existsb_clash by exact HF'.
        exists (mkBlock PGroup next (total_group_alloc_count (calc_group_capacity kd (2 ^ c))) :: l). split.
        -- split; [constructor; [cbn; lia|eapply Forall_impl; [|exact Hl]; cbn; intros; lia]|].
           split; [eexists [_]; split; [reflexivity|repeat constructor]|].
           intro HC. specialize (HC Es _ E1). congruence.
        -- apply live_nil. rewrite HP. apply Permutation_middle.
      * cbn [moved existsb]. exists l. split; [now apply lost_none|]. now apply live_nil.
Qed.

Lemma good_shape a addr next t t1 t' es : shape K V t1 = shape K V t' ->
  good a addr next t t1 es -> good a addr next t t' es.
Proof.
  intros E H l live Hl HP. destruct (H l live Hl HP) as (l' & H1 & H2). exists l'.
  split; auto. now rewrite <- (held_shape _ t' t1 E).
Qed.

Lemma grow_arg t : Inv0 t -> wmul (ctrl_capacity K V kd t) 2 <= 2 ^ 63.
Proof.
  intro I. destruct (t_alloc K V t) eqn:Ea.
  - destruct (Inv0_kof hash keq kd L t I Ea) as [k Hk].
    rewrite (ctrl_capacity_kof kd L t k Hk).
    destruct Hk as (_ & _ & _ & Hk & _).
    assert (2 ^ (k + w) <= 2 ^ 55) by (rewrite (pow_cw kd L (k + w)) by lia; replace (k + w - w) with k by lia; exact Hk).
    assert (E55 : 2 ^ 55 * 2 = 2 ^ 56) by reflexivity. assert (2 ^ 56 <= 2 ^ 63) by (apply pow2_le; lia).
    assert (2 ^ 63 < two64) by reflexivity.
    rewrite wmul_small by lia. lia.
  - unfold ctrl_capacity. rewrite Ea.
    pose proof (kl_empty_cap _ L). assert (kd_W kd <= 32) by (destruct (W_cases kd L) as [-> | ->]; lia).
    assert (64 <= 2 ^ 63) by (change 64 with (2 ^ 6); apply pow2_le; lia). assert (2 ^ 63 < two64) by reflexivity.
    rewrite wmul_small by lia. lia.
Qed.

Lemma insert_good a upd addr next t k v :
  sane (granted kd a) -> Inv0 t -> addr < next ->
  match observe_ins K V (emplace_impl K V hash keq kd (granted kd a) upd true t k v) with
  | Ret t' _ | Throw t' => good a addr next t t' (insert_events K V hash keq kd sz a addr next t k)
  | Fail _ => True
  end.
Proof.
  intros HA I Hadr. unfold emplace_impl, find_or_insert, insert_events.
  destruct (find_spec hash keq kd L LW t k I) as [(gi & p & kv & E & _ & _ & Hs & _)|[E _]]; rewrite E.
  - cbn [obind]. destruct upd.
    + destruct (geti (t_slots K V t) _) as [[[k' v']|]|]; try exact Logic.I.
      cbn [observe_ins obind fst snd]. destruct (entry_at _ _ _ _); [|exact Logic.I].
      now apply good_nil.
    + cbn [observe_ins obind fst snd]. destruct (entry_at _ _ _ _); [|exact Logic.I].
      now apply good_nil.
  - set (es := if need_grow K V t then rehash_impl_events K V kd sz a false addr next t (wmul (ctrl_capacity K V kd t) 2) else []).
    assert (HG : match (if need_grow K V t then grow_if_necessary K V hash kd (granted kd a) t else Ret t tt) with
                 | Ret t1 _ | Throw t1 => good a addr next t t1 es
                 | Fail _ => True
                 end).
    { unfold es. destruct (need_grow K V t); [|now apply good_nil].
      unfold grow_if_necessary. apply rehash_impl_good; auto.
      - pose proof (grow_arg t I). lia.
      - pose proof (size_small hash keq kd L t I). assert (2 ^ 55 <= 2 ^ 63) by (apply pow2_le; lia). lia. }
    clearbody es. destruct (if need_grow K V t then grow_if_necessary K V hash kd (granted kd a) t else Ret t tt) as [t1 u|t1|e]; cbn [obind]; auto.
    destruct (find_empty_to_insert _ _ _ _ _ _) as [[t2 [gi p]]|] eqn:E2; cbn [obind]; [|exact Logic.I].
    destruct (construct_at _ _ _ _ _) as [t3|] eqn:E3; [|exact Logic.I].
    cbn [observe_ins obind fst snd]. destruct (entry_at _ _ _ _); [|exact Logic.I].
    eapply good_shape; [|exact HG]. symmetry.
    rewrite (shape_construct _ _ _ _ _ _ E3). eapply shape_find_empty; eassumption.
Qed.

Lemma lift_destroy_good a addr next t :
  match lift K V (destroy K V kd t) with
  | Ret t' _ | Throw t' => good a addr next t t' (destroy_events K V kd sz addr t)
  | Fail _ => True
  end.
Proof.
  destruct (destroy K V kd t) as [t'|] eqn:E; cbn [lift]; auto.
  apply good_destroy. eapply destroy_shape; eassumption.
Qed.

Lemma size63 t : Inv0 t -> t_size _ _ t <= 2 ^ 63.
Proof.
  intro I. pose proof (size_small hash keq kd L t I).
  assert (2 ^ 55 <= 2 ^ 63) by (apply pow2_le; lia). lia.
Qed.

Lemma fit63 t n : Inv0 t -> fit t n <= 2 ^ 63.
Proof.
  intro I. pose proof (fit_le hash keq kd L t n I).
  assert (2 ^ 57 <= 2 ^ 63) by (apply pow2_le; lia). lia.
Qed.

Lemma rehash_good a addr next n t :
  sane (granted kd a) -> Inv0 t -> addr < next -> n <= 2 ^ 63 ->
  match rehash K V hash kd (granted kd a) n t with
  | Ret t' _ | Throw t' => good a addr next t t' (rehash_events K V kd sz a addr next n t)
  | Fail _ => True
  end.
Proof.
  intros HA I Hadr Hn. unfold rehash, rehash_events.
  pose proof (fit63 t (t_size _ _ t) I). destruct (negb _).
  - apply rehash_impl_good; auto; [lia|now apply size63].
  - apply lift_destroy_good.
Qed.

Lemma unit_good a addr next t es (r : out table unit) :
  match r with Ret t' _ | Throw t' => good a addr next t t' es | Fail _ => True end ->
  match obind r (fun t' _ => Ret t' (RUnit K V)) with
  | Ret t' _ | Throw t' => good a addr next t t' es
  | Fail _ => True
  end.
Proof. now destruct r. Qed.

Lemma set_mlf_good a addr next t m t' es :
  good a addr next (set_mlf K V t m) t' es -> good a addr next t t' es.
Proof. exact (fun H => H). Qed.

Lemma op_good a addr next o t :
  sane (granted kd a) -> Inv0 t -> client_ok K V kd o t -> addr < next ->
  match step K V hash keq kd (granted kd a) o t with
  | Ret t' _ | Throw t' => good a addr next t t' (op_events K V hash keq kd sz a addr next o t)
  | Fail _ => True
  end.
Proof.
  intros HA I Hok Hadr. destruct o as [k v|k v|k|k|k| |b|n|n|b|m]; cbn [step op_events].
  - now apply insert_good.
  - now apply insert_good.
  - unfold find_and_erase. destruct (find _ _ _ _ _ _ _) as [[[gi p]|]|]; cbn [obind]; auto; [|now apply good_nil].
    destruct (erase_slot _ _ _ _ _ _) eqn:E; cbn [obind]; auto. apply good_nil.
    eapply shape_erase_slot; eassumption.
  - destruct (lookup _ _ _ _ _ _ _); cbn [observe_res]; auto. now apply good_nil.
  - destruct (lookup _ _ _ _ _ _ _); cbn [observe_res]; auto. now apply good_nil.
  - now apply good_nil.
  - apply unit_good. unfold clear. destruct b; [apply lift_destroy_good|].
    unfold clear_data. destruct (clear_slots _ _ _ _) as [t1|] eqn:E; cbn [lift]; auto.
    pose proof (shape_clear_slots _ _ _ _ _ E) as Hs.
    destruct (t_alloc K V t1) eqn:Ea; cbn [lift].
    + apply good_nil. rewrite <- Hs. unfold shape. cbn [t_alloc t_gmask]. now rewrite Ea.
    + destruct (kd_sent kd); cbn [lift]; auto. now apply good_nil.
  - apply unit_good. unfold reserve. destruct (negb _); [|apply lift_destroy_good].
    apply rehash_impl_good; auto; [now apply fit63|now apply size63].
  - apply unit_good. now apply rehash_good.
  - apply unit_good. unfold shrink_to_fit. destruct b; (destruct (negb _); [|apply lift_destroy_good]);
      apply rehash_impl_good; auto; try (now apply fit63); now apply size63.
  - apply unit_good. unfold max_load_factor. set (m' := N.min _ _).
    assert (Hm : 128 <= m' <= 224) by (unfold m', kMaxLoadFactor, kMinLoadFactor; lia).
    pose proof (set_mlf_Inv0 hash keq kd L t m' I Hm) as I1.
    destruct (calc_capacity_spec kd L (set_mlf K V t m') _ (fit63 _ (ctrl_capacity K V kd (set_mlf K V t m')) I1) (size63 _ I1))
      as (c & Ec & Hc & _). rewrite Ec.
    destruct (_ <? _); [|now apply good_nil].
    pose proof (rehash_good a addr next (2 ^ c) _ HA I1 Hadr ltac:(apply pow2_le; lia)) as H.
    destruct (rehash _ _ _ _ _ _ _); auto; now apply set_mlf_good in H.
Qed.

Lemma run_good calls : forall addr next t,
  Forall (fun c => sane (granted kd (fst c))) calls ->
  let cs := map (fun c => (granted kd (fst c), snd c)) calls in
  obeys K V hash keq kd (client_ok K V kd) cs t -> Inv0 t -> addr < next ->
  forall rs t', run K V hash keq kd cs t = Ok (rs, t') ->
  forall l live, Forall (fun b => b_addr b < next) l -> Permutation live (held addr t ++ l) ->
  exists m, live_is (play live (run_events K V hash keq kd sz calls addr next t)) (m ++ l)
    /\ Forall (fun b => b_pool b = PGroup) m
    /\ (Forall (fun c => careful (fst c)) calls -> m = []).
Proof.
  induction calls as [|[a o] calls IH]; intros addr next t HS cs Hob I Hadr rs t' Hr l live Hl HP.
  - exists []. split; [|auto]. cbn [run_events app]. now apply destroy_plays with (addr := addr).
  - cbn [cs map fst snd obeys run] in *. destruct Hob as [Hok Hob].
    inversion HS as [|x y HA HS' E1]; subst. cbn [fst] in HA.
    pose proof (op_good a addr next o t HA I Hok Hadr) as HG.
    pose proof (step_refines hash keq kd L LW (granted kd a) o t HA I Hok) as HI.
    cbn [run_events]. set (es := op_events K V hash keq kd sz a addr next o t) in *.
    assert (Hgo : forall t1, Inv0 t1 -> good a addr next t t1 es ->
      obeys K V hash keq kd (client_ok K V kd) (map (fun c => (granted kd (fst c), snd c)) calls) t1 ->
      (exists rs', run K V hash keq kd (map (fun c => (granted kd (fst c), snd c)) calls) t1 = Ok (rs', t')) ->
      exists m, live_is (play live (es ++ run_events K V hash keq kd sz calls (if moved es then next else addr) (next + 1) t1)) (m ++ l)
        /\ Forall (fun b => b_pool b = PGroup) m
        /\ (Forall (fun c => careful (fst c)) ((a, o) :: calls) -> m = [])).
    { intros t1 I1 HG1 Hob1 [rs' Er]. destruct (HG1 l live Hl HP) as (l1 & (HL1 & (m1 & El1 & Hm1) & HC1) & (live1 & Ep & HP1)).
      rewrite play_app, Ep.
      destruct (IH (if moved es then next else addr) (next + 1) t1 HS' Hob1 I1
                  ltac:(destruct (moved es); lia) rs' t' Er l1 live1 HL1 HP1) as (m2 & HL2 & Hm2 & HC2).
      exists (m2 ++ m1). split; [rewrite <- app_assoc, <- El1; exact HL2|]. split; [now apply Forall_app|].
      intro HF. inversion HF as [|x y Ha HF' E1]; subst. cbn [fst] in Ha.
      rewrite (HC2 HF'). apply HC1 in Ha. apply (f_equal (@length _)) in Ha. rewrite app_length in Ha.
      destruct m1; [reflexivity|]. cbn [length] in Ha. lia. }
    destruct (step _ _ _ _ _ _ _ _) as [t1 r|t1|e]; [| |discriminate].
    + apply Hgo; auto.
      * destruct HI as [HI _]; exact HI.
      * destruct (run _ _ _ _ _ _ t1) as [[rs' t'']|]; [|discriminate]. cbn [rbind] in Hr.
        injection Hr as _ <-. eauto.
    + apply Hgo; auto.
      * destruct HI as [->|(m & _ & ->)]; [exact I|]. apply set_mlf_Inv0; auto. apply clamp_range.
      * destruct (run _ _ _ _ _ _ t1) as [[rs' t'']|]; [|discriminate]. cbn [rbind] in Hr.
        injection Hr as _ <-. eauto.
Qed.

End Ledger.

(** A program with one map: construction without a capacity, calls, destruction. *)
Lemma ledger_balanced {K V} (hash : K -> N) keq (LW : lawful hash keq) kd (HK : group_kind kd) sz calls :
  Forall (fun c => sane (granted kd (fst c))) calls ->
  Forall (fun c => kd = k16 -> forall n, a_group (fst c) n = true -> a_slot (fst c) n = true) calls ->
  obeys K V hash keq kd (client_ok K V kd) (map (fun c => (granted kd (fst c), snd c)) calls) (new_map K V kd) ->
  (exists r, run K V hash keq kd (map (fun c => (granted kd (fst c), snd c)) calls) (new_map K V kd) = Ok r) ->
  play [] (run_events K V hash keq kd sz calls 0 1 (new_map K V kd)) = Some [].
Proof.
  intros HA HC Ho [[rs t'] Hr]. destruct (kind_laws kd HK) as [L R].
  destruct (run_good hash keq kd L LW sz calls 0 1 (new_map K V kd) HA Ho (default_Inv0 hash keq kd L)
              ltac:(lia) rs t' Hr [] [] (Forall_nil _) (Permutation_refl _)) as (m & (live & E & HP) & _ & HM).
  rewrite E. rewrite HM in HP.
  - apply Permutation_sym, Permutation_nil in HP. now rewrite HP.
  - eapply Forall_impl; [|exact HC]. intros [a o] H Hs. apply H.
    destruct HK as [-> | ->]; [discriminate Hs|reflexivity].
Qed.

(** Without the condition on the answers a group16 map may leave group arrays
    behind, and nothing else goes wrong. *)
Lemma ledger_sizes {K V} (hash : K -> N) keq (LW : lawful hash keq) kd (HK : group_kind kd) sz calls :
  Forall (fun c => sane (granted kd (fst c))) calls ->
  obeys K V hash keq kd (client_ok K V kd) (map (fun c => (granted kd (fst c), snd c)) calls) (new_map K V kd) ->
  (exists r, run K V hash keq kd (map (fun c => (granted kd (fst c), snd c)) calls) (new_map K V kd) = Ok r) ->
  exists left, play [] (run_events K V hash keq kd sz calls 0 1 (new_map K V kd)) = Some left
    /\ Forall (fun b => b_pool b = PGroup) left.
Proof.
  intros HA Ho [[rs t'] Hr]. destruct (kind_laws kd HK) as [L R].
  destruct (run_good hash keq kd L LW sz calls 0 1 (new_map K V kd) HA Ho (default_Inv0 hash keq kd L)
              ltac:(lia) rs t' Hr [] [] (Forall_nil _) (Permutation_refl _)) as (m & (live & E & HP) & HM & _).
  exists live. split; auto. rewrite app_nil_r in HP. eapply Permutation_Forall; [symmetry; exact HP|exact HM].
Qed.
