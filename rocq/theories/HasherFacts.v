(** Insertion, rehashing and copying when the hasher throws. *)
From Coq Require Import NArith ZArith List Bool Lia Permutation.
From Coq Require Import ZifyBool ZifyNat ZifyN.
From Verif Require Import Base BaseFacts BitsModel BitsFacts ProberModel ProberFacts GroupModel GroupFacts
  TableModel TableInv TableFind TableInsert TableLoops TableCap TableOps IterModel IterFacts
  CopyModel CopyFacts MapSpec MapFacts RunModel Refine Progress ReachModel ReachFacts MapProps MapProps2
  MapProps3 WitnessModel WitnessFacts ExampleFacts ThrowFacts HasherModel HasherSpec.
Import ListNotations.
Open Scope N_scope.

Section Hasher.

Context {K V : Type} (hash : K -> N) (keq : K -> K -> bool) (kd : kind) (L : klaws kd).
Context (LW : lawful hash keq).

Notation table := (table K V).
Notation S' := (kd_S kd).
Notation w := (kl_w kd L).
Notation sidx := (slot_index kd).
Notation Inv0 := (@TableInv.Inv0 K V hash keq kd L).
Notation scap := (TableInv.scap kd).
Notation kof := (@TableCap.kof K V kd).
Notation content t := (elems (t_slots _ _ t)).
Notation absent := (@TableFind.absent K V keq).

Lemma Inv0_behaves (R : readable kd L) t : Inv0 t -> behaves_as K V hash keq kd t (content t).
Proof.
  intros I calls past HA Ho. pose proof (run_refines hash keq kd L LW calls t HA I Ho) as H.
  destruct (run K V hash keq kd calls t) as [[outs t']|e]; [|exact H].
  destruct H as (I' & HP & HO). split; [exact HO|].
  exists (content t'). split; [now apply (traverse_spec hash keq kd L)|exact HP].
Qed.

Definition transfer_i_h (i : N) (st : table * list (option (K * V)) * option nat)
  : res (table * list (option (K * V)) * option nat) :=
  let '(nt, os, r) := st in
  match r with
  | None => Ok st
  | Some more =>
      match geti os i with
      | Some (Some kv) =>
          match more with
          | O => Ok (nt, os, None)
          | S n => rbind (no_grow_unique_insert K V hash kd nt kv) (fun nt' =>
                   Ok (nt', seti os i None, Some n))
          end
      | _ => Err EUndef
      end
  end.

Lemma transfer_h_i gi p st : transfer_h K V hash kd gi p st = transfer_i_h (sidx gi p) st.
Proof. destruct st as [[nt os] [more|]]; reflexivity. Qed.

Lemma fold_h_stop l nt os : fold_res transfer_i_h l (nt, os, None) = Ok (nt, os, None).
Proof. induction l as [|i l IH]; cbn; auto. Qed.

Lemma fold_h_same l : forall nt os nt' os' n, fold_res (transfer_i hash kd) l (nt, os) = Ok (nt', os') ->
  fold_res transfer_i_h l (nt, os, Some (length l + n)%nat) = Ok (nt', os', Some n).
Proof.
  induction l as [|i l IH]; intros nt os nt' os' n E; cbn [fold_res length Nat.add] in *.
  - now injection E as <- <-.
  - unfold transfer_i at 1 in E. unfold transfer_i_h at 1.
    destruct (geti os i) as [[kv|]|]; [|discriminate E|discriminate E].
    destruct (no_grow_unique_insert K V hash kd nt kv) as [nt1|] eqn:En; [|discriminate E].
    cbn [rbind] in *. now apply IH.
Qed.

Lemma nodup_front {A} (l1 : list A) : forall l2, NoDup (l1 ++ l2) -> NoDup l1.
Proof.
  induction l1 as [|a l1 IH]; intros l2 H; [constructor|]. inversion H as [|x y Ha H']; subst.
  constructor; [|now apply (IH l2)]. intros Hi. apply Ha. apply in_app_iff. now left.
Qed.

(** Rehashing to another capacity with [m] hash values computed. *)
Lemma rehash_impl_h_spec alloc shrink t n t' m : alloc_ok alloc -> Inv0 t -> n <= 2 ^ 63 ->
  rehash_impl K V hash kd alloc shrink t n = Ret t' tt ->
  (t_size _ _ t <= N.of_nat m \/ ctrl_capacity K V kd t' = ctrl_capacity K V kd t ->
     rehash_impl_h K V hash kd m alloc shrink t n = Ret (t', []) tt)
  /\ (ctrl_capacity K V kd t' <> ctrl_capacity K V kd t -> N.of_nat m < t_size _ _ t ->
     exists t1 old, rehash_impl_h K V hash kd m alloc shrink t n = Throw (t1, old)
       /\ Inv0 t1 /\ t_size _ _ t1 = N.of_nat m
       /\ t_alloc _ _ t1 = true /\ t_gmask _ _ t1 = t_gmask _ _ t'
       /\ Permutation (content t1 ++ elems old) (content t)).
Proof.
  intros HA I Hn ER.
  destruct (rehash_impl_spec hash keq kd L LW alloc shrink t n HA I Hn)
    as (c & Ec & Hc & Hnc & Hsc & Hlo & Hgo). cbv zeta in Hgo.
  unfold rehash_impl_h. rewrite Ec.
  destruct Hgo as [(Eg & Er)|[(Eg & _ & Er)|(Eg & Ea & Hgo)]]; rewrite Eg.
  - rewrite Er in ER. injection ER as <-. split; auto. congruence.
  - rewrite Er in ER. discriminate.
  - destruct Hgo as [(Hfit & nt2 & Er & RH)|(_ & Er)]; rewrite Er in ER; [|discriminate].
    injection ER as ->.
    unfold rehash_impl in Er. rewrite Ec, Eg in Er.
    destruct (create_slots_spec hash keq kd L alloc t c HA ltac:(lia) (iv_mlf _ _ _ _ _ I))
      as [[Ea' _]|(_ & nt & E & In' & Ha & Hm & Hk & Hb & Hsl & Hs0 & Ht & Hml & Hpr)]; [congruence|].
    rewrite E in *.
    assert (Hcap : ctrl_capacity K V kd t' <> ctrl_capacity K V kd t).
    { destruct RH as (_ & HK' & _). rewrite (ctrl_capacity_kof kd L t' _ HK').
      replace (c - w + w) with c by lia. destruct shrink; lia. }
    destruct (t_alloc _ _ t) eqn:Eal.
    + destruct (iv_alloc _ _ _ _ _ I Eal) as (k & G & Hmk & Hsk).
      rewrite (each_group_fold hash keq kd L (transfer K V hash kd) (transfer_i hash kd)
                 (transfer_transfer_i hash kd) k _ _ _ G) in Er.
      rewrite (each_group_fold hash keq kd L (transfer_h K V hash kd) transfer_i_h
                 transfer_h_i k _ _ _ G).
      set (l := filter (occ (t_slots _ _ t)) (seqN (2 ^ k * S'))) in *.
      assert (Hlen : N.of_nat (length l) = t_size _ _ t).
      { rewrite (iv_size _ _ _ _ _ I).
        rewrite <- (map_length Some (elems (t_slots _ _ t))).
        rewrite (elems_occ _ (2 ^ k * S')), map_length; [reflexivity|].
        rewrite (gv_slen _ _ _ _ _ _ _ G). unfold TableInv.scap. destruct (kd_sent kd); lia. }
      assert (Hnd : NoDup l) by apply NoDup_filter, seqN_NoDup.
      assert (Hocc : forall i, In i l -> occ (t_slots _ _ t) i = true).
      { intros i Hi. apply filter_In in Hi. tauto. }
      split.
      * intros [Hz|Hz]; [|contradiction].
        destruct (fold_res (transfer_i hash kd) l (nt, t_slots _ _ t)) as [[t3 os3]|] eqn:F; [|discriminate].
        replace m with (length l + (m - length l))%nat by lia.
        rewrite (fold_h_same _ _ _ _ _ _ F). destruct (forallb is_none os3); [|discriminate].
        now injection Er as <-.
      * intros _ Hz.
        assert (Hfl : length (firstn m l) = m) by (apply firstn_length_le; lia).
        destruct (fold_transfer hash keq kd L LW (c - w) (firstn m l) nt (t_slots _ _ t))
          as [Hok _]; auto.
        { rewrite <- (firstn_skipn m l) in Hnd. eapply nodup_front; eauto. }
        { intros i Hi. apply Hocc. eapply (proj1 (Forall_forall (fun i => In i l) (firstn m l))); [|exact Hi].
          apply Forall_forall. intros j Hj. rewrite <- (firstn_skipn m l). apply in_app_iff. now left. }
        { intros. eapply gv_uniq; eauto. }
        { intros i e _ j kv Hj. rewrite Hsl in Hj. apply geti_repeat_inv in Hj. discriminate. }
        destruct Hok as (t1 & os1 & F & I1 & SG & Ht1 & Hs1 & Hp & Hpr' & Hl' & H3 & H4).
        { rewrite Hs0, Hfl. lia. }
        destruct (skipn m l) as [|i r] eqn:Es.
        { exfalso. pose proof (skipn_length m l) as Hx. rewrite Es in Hx. cbn [length] in Hx. lia. }
        assert (Hil : In i l /\ ~ In i (firstn m l)).
        { split.
          - rewrite <- (firstn_skipn m l), Es. apply in_app_iff. right. now left.
          - intros Hi. rewrite <- (firstn_skipn m l), Es in Hnd. apply NoDup_remove_2 in Hnd.
            apply Hnd. apply in_app_iff. now left. }
        destruct Hil as [Hi Hni].
        destruct (proj1 (occ_true _ _) (Hocc i Hi)) as [kv Hkv].
        exists t1, os1. rewrite <- (firstn_skipn m l), Es.
        pose proof (fold_h_same _ _ _ _ _ 0%nat F) as F2. rewrite Hfl, Nat.add_0_r in F2.
        rewrite fold_res_app, F2. cbn [rbind fold_res]. unfold transfer_i_h at 1.
        rewrite H4 by exact Hni. rewrite Hkv. cbn [rbind]. rewrite fold_h_stop.
        destruct SG as (Sa & Sm & _). destruct RH as (_ & (_ & Hm' & _) & _).
        split; auto. split; auto. split; [lia|]. split; [congruence|]. split; [congruence|].
        rewrite Hsl, elems_repeat_None in Hp. exact Hp.
    + split; [intros _; now injection Er as <-|].
      intros _ Hz. exfalso. rewrite (iv_unalloc _ _ _ _ _ I Eal) in Hz. cbn in Hz. lia.
Qed.

Lemma rehash_impl_h_throw alloc shrink t n t' m :
  rehash_impl K V hash kd alloc shrink t n = Throw t' ->
  rehash_impl_h K V hash kd m alloc shrink t n = Throw (t', []).
Proof.
  unfold rehash_impl, rehash_impl_h. destruct (calc_capacity K V kd t n) as [c|]; [|discriminate].
  destruct (if shrink then _ else _); [|discriminate].
  destruct (create_slots K V kd alloc t c) as [nt []|t2|e]; try discriminate.
  - destruct (t_alloc _ _ t); [|discriminate].
    destruct (each_group _ _ _ _ _ _) as [[nt' os]|]; [|discriminate].
    destruct (forallb is_none os); discriminate.
  - intros E. now injection E as <-.
Qed.

Lemma unique_insert_h_same l : forall t t' n, unique_insert K V hash kd l t = Ok t' ->
  unique_insert_h K V hash kd l t (length l + n) = Ok (t', Some n).
Proof.
  induction l as [|kv l IH]; intros t t' n E; cbn [unique_insert unique_insert_h length Nat.add] in *.
  - now injection E as <-.
  - destruct (no_grow_unique_insert K V hash kd t kv) as [t1|]; cbn [rbind] in *; [|discriminate]. auto.
Qed.

Lemma unique_insert_h_stop l1 : forall e l2 t t', unique_insert K V hash kd l1 t = Ok t' ->
  unique_insert_h K V hash kd (l1 ++ e :: l2) t (length l1) = Ok (t', None).
Proof.
  induction l1 as [|kv l IH]; intros e l2 t t' E; cbn [unique_insert unique_insert_h length app] in *.
  - now injection E as <-.
  - destruct (no_grow_unique_insert K V hash kd t kv) as [t1|]; cbn [rbind] in *; [|discriminate]. auto.
Qed.

Lemma distinct_front (a b : list (K * V)) : distinct_keys K V keq (a ++ b) -> distinct_keys K V keq a.
Proof.
  induction a as [|e a IH]; cbn [app distinct_keys]; auto. intros [H1 H2]. split; auto.
  unfold has in *. rewrite existsb_app in H1. now apply orb_false_iff in H1.
Qed.

Lemma copy_construct_h_spec alloc past t t' m : readable kd L -> alloc_ok alloc -> Inv0 t ->
  t_size _ _ t <> 0 -> copy_construct K V hash kd alloc past t = Ret t' tt ->
  (t_size _ _ t <= N.of_nat m \/ ctrl_capacity K V kd t' = ctrl_capacity K V kd t ->
     copy_construct_h K V hash kd m alloc past t = Ret t' tt)
  /\ (N.of_nat m < t_size _ _ t -> ctrl_capacity K V kd t' <> ctrl_capacity K V kd t ->
     copy_construct_h K V hash kd m alloc past t = Throw (empty_table K V kd (t_mlf _ _ t))).
Proof.
  intros R HA I Hne EC. pose proof (iv_mlf _ _ _ _ _ I) as Hm.
  assert (Ha : t_alloc _ _ t = true).
  { destruct (t_alloc _ _ t) eqn:E; auto. exfalso. apply Hne.
    rewrite (iv_unalloc _ _ _ _ _ I E). reflexivity. }
  destruct (reserve_for_insert_spec (V:=V) hash keq kd L alloc (t_size _ _ t) (t_mlf _ _ t) HA Hm)
    as (c & Hc & Hn & H).
  assert (Ew : wmul (t_size _ _ t) 256 / t_mlf _ _ t = t_size _ _ t * 256 / t_mlf _ _ t).
  { apply (fit_size hash keq kd L t I). }
  rewrite Ew in Hn. unfold copy_construct in EC. unfold copy_construct_h.
  replace (t_size _ _ t =? 0) with false in * by lia. cbn [negb] in *.
  destruct H as [[Ea E]|(nt & E & In' & HKn & Hs0 & Hsl & Ht & Hml & Hpr)]; rewrite E in *; cbn [obind] in *;
    [discriminate|].
  destruct (N.eqb_spec (ctrl_capacity K V kd nt) (ctrl_capacity K V kd t)) as [Eq|Ne].
  - split; [intros _; exact EC|]. intros _ Hx. exfalso. apply Hx.
    unfold fast_copy in EC. destruct (each_group _ _ _ _ _ _); [|discriminate].
    cbn [lift] in EC. injection EC as <-. exact Eq.
  - rewrite (traverse_spec hash keq kd L past t R I) in *. cbn [rbind] in *.
    pose proof (iv_size _ _ _ _ _ I) as Hz.
    destruct (unique_insert K V hash kd (content t) nt) as [t2|] eqn:EU; [|discriminate].
    cbn [lift] in EC. injection EC as <-.
    assert (Habs : forall e : K * V, absent (t_slots _ _ nt) (fst e)).
    { intros e j kv Hj. rewrite Hsl in Hj. apply geti_repeat_inv in Hj. discriminate. }
    assert (Hfit : t_size _ _ nt + N.of_nat (length (content t)) <= scap (c - w)).
    { rewrite Hs0, <- Hz. cbn. now apply (fit_scap kd L _ (t_mlf _ _ t)). }
    pose proof (Inv0_distinct hash keq kd L t I) as HD.
    split.
    + intros [Hsz|Hsz].
      * replace m with (length (content t) + (m - length (content t)))%nat by lia.
        now rewrite (unique_insert_h_same _ _ _ _ EU).
      * exfalso. apply Ne. rewrite <- Hsz.
        destruct (unique_insert_spec hash keq kd L LW (c - w) (content t) nt In' HKn HD (fun e _ => Habs e) Hfit)
          as (t3 & E3 & _ & HK3 & _). rewrite EU in E3. injection E3 as <-.
        now rewrite (ctrl_capacity_kof kd L _ _ HKn), (ctrl_capacity_kof kd L _ _ HK3).
    + intros Hsz _. set (l := content t) in *.
      assert (Hfl : length (firstn m l) = m) by (apply firstn_length_le; lia).
      destruct (unique_insert_spec hash keq kd L LW (c - w) (firstn m l) nt In' HKn)
        as (t3 & E3 & I3 & _ & _ & _ & Hm3 & _).
      { rewrite <- (firstn_skipn m l) in HD. eapply distinct_front; eauto. }
      { intros e _. apply Habs. }
      { lia. }
      destruct (skipn m l) as [|e r] eqn:Es.
      { exfalso. pose proof (skipn_length m l) as Hx. rewrite Es in Hx. cbn [length] in Hx. lia. }
      rewrite <- (firstn_skipn m l), Es. rewrite <- Hfl at 2.
      rewrite (unique_insert_h_stop _ _ _ _ _ E3).
      rewrite (destroy_spec hash keq kd L) by exact I3. congruence.
Qed.

Lemma emplace_h_spec alloc upd t k v m : alloc_ok alloc -> Inv0 t ->
  match emplace_impl K V hash keq kd alloc upd true t k v with
  | Ret t' r =>
      (t_size _ _ t <= N.of_nat m \/ ctrl_capacity K V kd t' = ctrl_capacity K V kd t ->
         emplace_h K V hash keq kd (S m) alloc upd t k v = Ret (t', []) r)
      /\ (ctrl_capacity K V kd t' <> ctrl_capacity K V kd t -> N.of_nat m < t_size _ _ t ->
         exists t1 old, emplace_h K V hash keq kd (S m) alloc upd t k v = Throw (t1, old)
         /\ Inv0 t1 /\ t_size _ _ t1 = N.of_nat m
         /\ t_alloc _ _ t1 = true /\ t_gmask _ _ t1 = t_gmask _ _ t'
         /\ Permutation (content t1 ++ elems old) (content t))
  | Throw t' => emplace_h K V hash keq kd (S m) alloc upd t k v = Throw (t', [])
  | Fail _ => True
  end
  /\ (forall t' r, emplace_impl K V hash keq kd alloc upd true t k v = Ret t' r ->
       (t' = t \/ Inv0 t' /\ t_alloc _ _ t' = true)).
Proof.
  intros HA I. split.
  2: { intros t' r E. destruct (emplace_spec hash keq kd L LW alloc upd t k v HA I)
         as [(gi & p & kv & Ef & Hp & Ha & Hs & Hk & E2)|(Habs & Ef & [(Hn & E2)|(t1 & kk & HR & Hk & I1 & H)])].
       - rewrite E2 in E. injection E as <- <-. destruct upd; [|now left]. right.
         split; [|exact Ha]. now apply (set_slot_Inv0 hash keq kd L).
       - congruence.
       - destruct H as [(E2 & _)|(t2 & i & E2 & HI)]; [congruence|]. rewrite E2 in E. injection E as <- _.
         right. destruct HI as (I2 & SG & _). split; auto. destruct SG as (Sa & _). rewrite Sa. apply Hk. }
  unfold emplace_impl, find_or_insert, emplace_h.
  destruct (find_spec hash keq kd L LW t k I) as [(gi & p & kv & E & Ha & Hp & Hs & Hk)|[E Habs]]; rewrite E.
  - cbn [obind]. destruct upd.
    + rewrite Hs. destruct kv as [k' v']. cbn [fst snd]. split; [auto|]. intros Hc. now contradiction Hc.
    + split; [auto|]. intros Hc. now contradiction Hc.
  - destruct (need_grow K V t) eqn:Eg; cbn [obind].
    + destruct (grow_spec hash keq kd L LW alloc t HA I)
        as [Er|(nt & c & Er & RH & Hc1 & Hck & Hc0 & Hsz & _)].
      * rewrite Er. cbn [obind]. unfold grow_if_necessary in Er.
        now rewrite (rehash_impl_h_throw _ _ _ _ _ m Er).
      * rewrite Er. cbn [obind]. unfold grow_if_necessary in Er.
        assert (Hn63 : wmul (ctrl_capacity K V kd t) 2 <= 2 ^ 63).
        { destruct (t_alloc _ _ t) eqn:Ea.
          - destruct (Inv0_kof hash keq kd L t I Ea) as [k0 Hk0].
            rewrite (ctrl_capacity_kof kd L t k0 Hk0). pose proof Hk0 as (_ & _ & _ & Hb & _).
            rewrite (kl_W _ L), <- N.pow_add_r in Hb.
            unfold wmul, w64, two64. change (2 ^ 55) with 36028797018963968 in Hb.
            rewrite N.mod_small by lia. lia.
          - rewrite (iv_unalloc _ _ _ _ _ I Ea).
            pose proof (kl_empty_cap _ L) as Hec. pose proof (W_cases kd L) as HW.
            change (ctrl_capacity K V kd (empty_table K V kd (t_mlf K V t))) with (kd_empty_cap kd).
            rewrite wmul_small by (rewrite two64_eq; lia). lia. }
        destruct (rehash_impl_h_spec alloc false t _ nt m HA I Hn63 Er) as [H1 H2].
        destruct RH as (In' & HKn & _).
        destruct (find_empty_to_insert K V kd true nt (hash k)) as [[t2 [gi p]]|e] eqn:E2; [|cbn [obind]; auto].
        cbn [obind]. destruct (construct_at K V t2 (sidx gi p) (k, v)) as [t3|e] eqn:E3; [|auto].
        assert (Hsame : ctrl_capacity K V kd t3 = ctrl_capacity K V kd nt /\ t_gmask _ _ t3 = t_gmask _ _ nt).
        { unfold construct_at in E3. destruct (geti (t_slots _ _ t2) (sidx gi p)) as [[x|]|]; try discriminate.
          injection E3 as <-. unfold find_empty_to_insert in E2.
          destruct (negb (t_alloc _ _ nt)); [discriminate|].
          destruct (find_empty_loop _ _ _ _ _ _) as [[gs loc]|e]; [|discriminate].
          destruct loc as [gi' p'].
          injection E2 as <- _ _. split; reflexivity. }
        destruct Hsame as [Hs1 Hs2]. rewrite Hs1, Hs2. split.
        -- intros Hor. rewrite (H1 Hor). cbn [obind fst]. rewrite E2, E3. reflexivity.
        -- intros Hc' Hlt. destruct (H2 Hc' Hlt) as (t1 & old & F & F1 & F2 & F3 & F4 & F5).
           exists t1, old. rewrite F. cbn [obind]. split; [reflexivity|]. auto.
    + destruct (find_empty_to_insert K V kd true t (hash k)) as [[t2 [gi p]]|e] eqn:E2; [|cbn [obind]; auto].
      cbn [obind fst]. rewrite E2.
      destruct (construct_at K V t2 (sidx gi p) (k, v)) as [t3|e] eqn:E3; [|auto].
      split; [auto|]. intros Hc. exfalso. apply Hc.
      unfold construct_at in E3. destruct (geti (t_slots _ _ t2) (sidx gi p)) as [[x|]|]; try discriminate.
      injection E3 as <-. unfold find_empty_to_insert in E2.
      destruct (negb (t_alloc _ _ t)); [discriminate|].
      destruct (find_empty_loop _ _ _ _ _ _) as [[gs loc]|e]; [|discriminate].
      destruct loc as [gi' p']. injection E2 as <- _ _. reflexivity.
Qed.

End Hasher.

Section Built.

Context {K V : Type} (hash : K -> N) (keq : K -> K -> bool).
Context (LW : lawful hash keq) (kd : kind) (HK : group_kind kd).
Notation built := (built K V hash keq kd).
Notation traverse := (traverse K V kd).
Notation capacity := (capacity K V kd).

Lemma capacity_iff L (t t' : table K V) : Inv0 hash keq kd L t -> t_alloc _ _ t = true ->
  (t' = t \/ Inv0 hash keq kd L t' /\ t_alloc _ _ t' = true) ->
  (capacity t' = capacity t <-> ctrl_capacity K V kd t' = ctrl_capacity K V kd t).
Proof.
  intros I Hat [->|[I' Ha']]; [tauto|].
  destruct (N.lt_total (ctrl_capacity K V kd t) (ctrl_capacity K V kd t')) as [Hl|[Hl|Hl]].
  - pose proof (capacity_lt hash keq kd L t t' I I' Hl Ha'). split; lia.
  - split; [auto|]. intros _.
    destruct (Inv0_kof hash keq kd L t I Hat) as [k1 K1]. destruct (Inv0_kof hash keq kd L t' I' Ha') as [k2 K2].
    rewrite (ctrl_capacity_kof kd L _ _ K1), (ctrl_capacity_kof kd L _ _ K2) in Hl.
    apply N.pow_inj_r in Hl; [|lia]. assert (k1 = k2) by lia. subst k2.
    destruct K1 as (_ & M1 & _). destruct K2 as (_ & M2 & _).
    apply same_ctrl_same_capacity; congruence.
  - pose proof (capacity_lt hash keq kd L t' t I' I Hl Hat). split; lia.
Qed.

Lemma nonempty_alloc L (t : table K V) : Inv0 hash keq kd L t -> t_size _ _ t <> 0 -> t_alloc _ _ t = true.
Proof.
  intros I Hz. destruct (t_alloc _ _ t) eqn:Ea; auto. exfalso. apply Hz.
  now rewrite (iv_unalloc _ _ _ _ _ I Ea).
Qed.

Lemma built_rehash_h t t' alloc shrink n past m : built t -> sane alloc -> n <= 2 ^ 63 ->
  rehash_impl K V hash kd alloc shrink t n = Ret t' tt ->
  (t_size _ _ t <= N.of_nat m \/ capacity t' = capacity t ->
     rehash_impl_h K V hash kd m alloc shrink t n = Ret (t', []) tt)
  /\ (capacity t' <> capacity t -> N.of_nat m < t_size _ _ t ->
     exists t1 old kept l, rehash_impl_h K V hash kd m alloc shrink t n = Throw (t1, old)
       /\ behaves_as K V hash keq kd t1 kept /\ capacity t1 = capacity t'
       /\ traverse past t = Ok l /\ Permutation (kept ++ elems old) l /\ length kept = m).
Proof.
  intros B HA Hn E. destruct (kind_laws kd HK) as [L R].
  pose proof (built_Inv0 hash keq kd L LW t R B) as I.
  destruct (rehash_impl_h_spec hash keq kd L LW alloc shrink t n t' m HA I Hn E) as [H1 H2].
  destruct (rehash_impl_spec hash keq kd L LW alloc shrink t n HA I Hn)
    as (c & _ & Hc & _ & _ & _ & Hgo). cbv zeta in Hgo.
  assert (HI : t' = t \/ Inv0 hash keq kd L t' /\ t_alloc _ _ t' = true).
  { destruct Hgo as [(_ & Er)|[(_ & _ & Er)|(_ & _ & [(_ & nt & Er & RH)|(_ & Er)])]]; rewrite Er in E;
      try discriminate; injection E as ->; auto. right. destruct RH as (I' & HK' & _). split; auto. apply HK'. }
  destruct (N.eq_dec (t_size _ _ t) 0) as [Hz|Hz].
  { split; [intros _; apply H1; left; lia|lia]. }
  pose proof (nonempty_alloc L t I Hz) as Hat.
  pose proof (capacity_iff L t t' I Hat HI) as Heq.
  split.
  - intros [H|H]; apply H1; [now left|right; now apply Heq].
  - intros H Hm. destruct H2 as (t1 & old & F & I1 & F2 & F3 & F4 & F5); auto.
    { intros Hc'. apply H, Heq, Hc'. }
    exists t1, old, (elems (t_slots _ _ t1)), (elems (t_slots _ _ t)).
    split; auto. split; [now apply (Inv0_behaves hash keq kd L LW R)|]. split.
    { apply same_ctrl_same_capacity; auto.
      destruct HI as [->|[_ Ha']]; auto. }
    split; [now apply (built_traverse hash keq LW kd HK)|]. split; auto.
    pose proof (iv_size _ _ _ _ _ I1). lia.
Qed.

Lemma built_emplace_h t alloc upd k v past : built t -> sane alloc ->
  emplace_h K V hash keq kd 0 alloc upd t k v = Throw (t, [])
  /\ forall m, match emplace_impl K V hash keq kd alloc upd true t k v with
  | Ret t' r =>
      (t_size _ _ t <= N.of_nat m \/ capacity t' = capacity t ->
         emplace_h K V hash keq kd (S m) alloc upd t k v = Ret (t', []) r)
      /\ (capacity t' <> capacity t -> N.of_nat m < t_size _ _ t ->
         exists t1 old kept l, emplace_h K V hash keq kd (S m) alloc upd t k v = Throw (t1, old)
         /\ behaves_as K V hash keq kd t1 kept /\ capacity t1 = capacity t'
         /\ traverse past t = Ok l /\ Permutation (kept ++ elems old) l /\ length kept = m)
  | Throw t' => emplace_h K V hash keq kd (S m) alloc upd t k v = Throw (t', [])
  | Fail _ => True
  end.
Proof.
  intros B HA. split; [reflexivity|]. intros m. destruct (kind_laws kd HK) as [L R].
  pose proof (built_Inv0 hash keq kd L LW t R B) as I.
  destruct (emplace_h_spec hash keq kd L LW alloc upd t k v m HA I) as [H HI].
  destruct (emplace_impl K V hash keq kd alloc upd true t k v) as [t' r|t'|e]; auto.
  specialize (HI t' r eq_refl). destruct H as [H1 H2].
  destruct (N.eq_dec (t_size _ _ t) 0) as [Hz|Hz].
  { split; [intros _; apply H1; left; lia|lia]. }
  pose proof (nonempty_alloc L t I Hz) as Hat.
  pose proof (capacity_iff L t t' I Hat HI) as Heq.
  split.
  - intros [H|H]; apply H1; [now left|right; now apply Heq].
  - intros H Hm. destruct H2 as (t1 & old & F & I1 & F2 & F3 & F4 & F5); auto.
    { intros Hc'. apply H, Heq, Hc'. }
    exists t1, old, (elems (t_slots _ _ t1)), (elems (t_slots _ _ t)).
    split; auto. split; [now apply (Inv0_behaves hash keq kd L LW R)|]. split.
    { apply same_ctrl_same_capacity; auto.
      destruct HI as [->|[_ Ha']]; auto. }
    split; [now apply (built_traverse hash keq LW kd HK)|]. split; auto.
    pose proof (iv_size _ _ _ _ _ I1). lia.
Qed.

Lemma built_copy_h t t' alloc past m : built t -> sane alloc -> t_size _ _ t <> 0 ->
  copy_construct K V hash kd alloc past t = Ret t' tt -> capacity t' <> capacity t ->
  copy_construct_h K V hash kd m alloc past t =
  if t_size _ _ t <=? N.of_nat m then Ret t' tt else Throw (empty_table K V kd (t_mlf _ _ t)).
Proof.
  intros B HA Hz E Hne. destruct (kind_laws kd HK) as [L R].
  pose proof (built_Inv0 hash keq kd L LW t R B) as I.
  destruct (copy_construct_h_spec hash keq kd L LW alloc past t t' m R HA I Hz E) as [H1 H2].
  destruct (N.leb_spec (t_size _ _ t) (N.of_nat m)) as [Hle|Hgt]; [now apply H1; left|].
  apply H2; auto. intros Hc. apply Hne.
  pose proof (nonempty_alloc L t I Hz) as Hat.
  destruct (copy_construct_spec hash keq kd L LW alloc past t R HA I Hz)
    as (c & Hc1 & _ & [(_ & Ec)|[(_ & t2 & Ec & I2 & HK2 & _)|(He & t2 & Ec & Ha & _ & _ & _ & Hgm & _)]]);
    rewrite Ec in E; try discriminate; injection E as ->.
  - apply (capacity_iff L t t' I Hat); auto. right. split; auto. apply HK2.
  - now apply same_ctrl_same_capacity.
Qed.

End Built.

Lemma tmp_outcome : forall (K V : Type) (hash : K -> N) (keq : K -> K -> bool) kd alloc upd (t : table K V) k v,
  emplace_tmp K V hash keq kd alloc upd t (k, v) =
  match emplace_impl K V hash keq kd alloc upd true t k v with
  | Ret t' (i, true) => Fail EUndef
  | Ret t' (i, false) => Ret t' (i, false)
  | Throw _ => Fail ELeak
  | Fail e => Fail e
  end.
Proof.
  intros. unfold emplace_tmp, emplace_impl. cbn [fst snd].
  destruct (find_or_insert K V hash keq kd alloc t k) as [t1 [[gi p] b]|t1|e]; cbn [obind]; auto.
  destruct b.
  - destruct (construct_at K V t1 (slot_index kd gi p) (k, v)); reflexivity.
  - destruct upd; [|reflexivity].
    destruct (geti (t_slots _ _ t1) (slot_index kd gi p)) as [[[k' v']|]|]; reflexivity.
Qed.
