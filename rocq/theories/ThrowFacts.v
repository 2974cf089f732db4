(** Copying and rehashing when an element's constructor throws. *)
From Coq Require Import NArith ZArith List Bool Lia Permutation Sorted.
From Coq Require Import ZifyBool ZifyNat ZifyN.
From Verif Require Import Base BaseFacts BitsModel BitsFacts ProberModel ProberFacts GroupModel GroupFacts
  TableModel TableInv TableFind TableInsert TableLoops TableCap TableOps IterModel IterFacts
  CopyModel CopyFacts MapSpec MapFacts RunModel Refine Progress ReachModel ReachFacts MapProps MapProps2
  MapProps3 TraceModel WitnessModel WitnessFacts ExampleFacts WitnessFacts2 ThrowModel.
Import ListNotations.
Open Scope N_scope.

Section Throw.

Context {K V : Type} (hash : K -> N) (keq : K -> K -> bool) (kd : kind) (L : klaws kd).
Context (LW : lawful hash keq).

Notation table := (table K V).
Notation S' := (kd_S kd).
Notation w := (kl_w kd L).
Notation sidx := (slot_index kd).
Notation Inv0 := (@TableInv.Inv0 K V hash keq kd L).
Notation scap := (TableInv.scap kd).
Notation kof := (@TableCap.kof K V kd).
Notation content t := (elems (t_slots _ _ t)).
Notation absent := (@TableFind.absent K V keq).

(** A slot marked as used and not constructed makes the destructor read raw memory. *)
Lemma marked_destroy t1 t2 i kv : construct_at K V t1 i kv = Ok t2 -> Inv0 t2 ->
  destroy K V kd t1 = Err EUndef.
Proof.
  intros E I2. unfold construct_at in E.
  destruct (geti (t_slots _ _ t1) i) as [[x|]|] eqn:Es; try discriminate. injection E as E.
  assert (Hi2 : geti (t_slots _ _ t2) i = Some (Some kv)).
  { subst t2. cbn [t_slots]. apply geti_seti_eq. eapply geti_Some_lt; eauto. }
  assert (Ha2 : t_alloc _ _ t2 = true).
  { destruct (t_alloc _ _ t2) eqn:Ea; auto. pose proof (iv_unalloc _ _ _ _ _ I2 Ea) as Eu.
    rewrite Eu in Hi2. unfold geti in Hi2. cbn [empty_table t_slots] in Hi2.
    destruct (N.to_nat i); discriminate. }
  assert (Ha1 : t_alloc _ _ t1 = true) by (subst t2; exact Ha2).
  assert (Hg : t_groups _ _ t1 = t_groups _ _ t2) by (subst t2; reflexivity).
  destruct (iv_alloc _ _ _ _ _ I2 Ha2) as (k2 & G & Hm & Hs).
  unfold destroy, clear_slots. rewrite Ha1, Hg.
  rewrite (each_group_fold hash keq kd L (destroy_one K V kd) destroy_i (fun _ _ _ => eq_refl) k2
             (t_groups _ _ t2) (t_slots _ _ t2) (t_slots _ _ t1) G).
  destruct (fold_destroy_hole (filter (occ (t_slots _ _ t2)) (seqN (2 ^ k2 * kd_S kd)))
              (t_slots _ _ t1) i) as (j & Ej & _); auto.
  - apply filter_In. split; [|apply occ_true; eauto]. apply seqN_In.
    pose proof (geti_Some_lt _ _ _ Hi2) as Hl. rewrite (gv_slen _ _ _ _ _ _ _ G) in Hl.
    unfold TableInv.scap in Hl. destruct (kd_sent kd); lia.
  - apply NoDup_filter, seqN_NoDup.
  - now rewrite Ej.
Qed.

Lemma kof_geom t t2 k : Inv0 t2 -> kof t k -> same_geom t t2 -> kof t2 k.
Proof.
  intros I2 (Ha & Hm & Hk1 & Hb & Hl) (Sa & Sm & Ss & Sl).
  destruct (Inv0_kof hash keq kd L t2 I2) as [k2 HK2]; [congruence|].
  assert (k2 = k).
  { destruct HK2 as (_ & Hm2 & _). apply (N.pow_inj_r 2); [lia|].
    pose proof (pow2_pos k). pose proof (pow2_pos k2). lia. }
  now subst k2.
Qed.

Lemma find_empty_same check t h t1 loc : find_empty_to_insert K V kd check t h = Ok (t1, loc) ->
  t_slots _ _ t1 = t_slots _ _ t /\ t_size _ _ t1 = t_size _ _ t.
Proof.
  unfold find_empty_to_insert. destruct (negb (t_alloc _ _ t)); [discriminate|].
  destruct (find_empty_loop _ _ _ _ _ _) as [[gs [gi p]]|e]; [|discriminate].
  intros E. injection E as <- _. auto.
Qed.

Lemma insert_t_spec k t key v : Inv0 t -> kof t k -> absent (t_slots _ _ t) key ->
  t_size _ _ t < scap k ->
  exists t1 t2, insert_t K V hash kd t (key, v) 0 = Ok (t1, None)
    /\ (forall n, insert_t K V hash kd t (key, v) (S n) = Ok (t2, Some n))
    /\ no_grow_unique_insert K V hash kd t (key, v) = Ok t2
    /\ destroy K V kd t1 = Err EUndef /\ t_size _ _ t1 = t_size _ _ t
    /\ t_slots _ _ t1 = t_slots _ _ t
    /\ Inv0 t2 /\ kof t2 k /\ t_size _ _ t2 = t_size _ _ t + 1
    /\ Permutation (content t2) ((key, v) :: content t).
Proof.
  intros I HK Habs Hsz. pose proof HK as (Ha & Hm & Hk1 & Hb & Hl).
  destruct (find_empty_insert hash keq kd L LW false k t key v I Ha Hm Habs)
    as [[_ E]|(t1 & gi & p & t2 & E1 & E2 & Hp & Hgi & Hn & Hsl & I2 & SG & Hs2 & _ & _)]; [lia|].
  exists t1, t2. unfold insert_t, no_grow_unique_insert. cbn [fst]. rewrite E1, E2. cbn [rbind].
  destruct (find_empty_same _ _ _ _ _ E1) as [F1 F2].
  split; auto. split; auto. split; auto. split; [eapply marked_destroy; eauto|].
  split; auto. split; auto. split; auto. split; [eapply kof_geom; eauto|]. split; auto.
  rewrite Hsl. now apply elems_seti_Some.
Qed.

Lemma unique_insert_t_spec k l : forall t n, Inv0 t -> kof t k -> distinct_keys K V keq l ->
  (forall e, In e l -> absent (t_slots _ _ t) (fst e)) ->
  t_size _ _ t + N.of_nat (length l) <= scap k ->
  ((length l <= n)%nat -> exists t', unique_insert K V hash kd l t = Ok t'
     /\ unique_insert_t K V hash kd l t n = Ok (t', Some (n - length l)%nat))
  /\ ((n < length l)%nat -> exists t1, unique_insert_t K V hash kd l t n = Ok (t1, None)
     /\ destroy K V kd t1 = Err EUndef).
Proof.
  induction l as [|[key v] l IH]; intros t n I HK HD Habs Hsz; cbn [length] in *.
  - split; [|lia]. intros _. exists t. cbn. rewrite Nat.sub_0_r. auto.
  - destruct HD as [Hh HD].
    destruct (insert_t_spec k t key v I HK) as
      (t1 & t2 & E0 & ES & EN & Hd & _ & _ & I2 & HK2 & Hs2 & HP).
    { apply (Habs (key, v)). now left. } { lia. }
    cbn [unique_insert unique_insert_t]. rewrite EN. cbn [rbind]. destruct n as [|n].
    + split; [lia|]. intros _. exists t1. rewrite E0. auto.
    + rewrite ES. cbn [rbind].
      destruct (IH t2 n I2 HK2 HD) as [H1 H2].
      * intros e He. apply (absent_perm keq (t_slots _ _ t) _ _ _ HP).
        -- cbn [fst]. destruct (keq (fst e) key) eqn:Ek; auto.
           assert (has K V keq key l = true).
           { unfold has. apply existsb_exists. exists e. split; auto. now apply (lw_sym _ _ LW). }
           cbn [fst] in Hh. congruence.
        -- apply Habs. now right.
      * lia.
      * split; intros H; [apply H1|apply H2]; lia.
Qed.

(** ** The element-wise copy *)

Definition copy_i_t (src : list (option (K * V))) (i : N) (st : list (option (K * V)) * (nat + N))
  : res (list (option (K * V)) * (nat + N)) :=
  match snd st with
  | inr _ => Ok st
  | inl more =>
      match geti src i, geti (fst st) i with
      | Some (Some kv), Some None =>
          match more with
          | O => Ok (fst st, inr i)
          | S n => Ok (seti (fst st) i (Some kv), inl n)
          end
      | _, _ => Err EUndef
      end
  end.

Lemma fold_copy_stop src l os j : fold_res (copy_i_t src) l (os, inr j) = Ok (os, inr j).
Proof. induction l as [|i l IH]; cbn; auto. Qed.

Lemma fold_copy_t src l : forall os n, NoDup l -> (forall i, In i l -> occ src i = true) ->
  (forall i, In i l -> geti os i = Some None) ->
  ((length l <= n)%nat -> exists os', fold_res (copy_i src) l os = Ok os'
     /\ fold_res (copy_i_t src) l (os, inl n) = Ok (os', inl (n - length l)%nat))
  /\ ((n < length l)%nat -> exists os' i, fold_res (copy_i_t src) l (os, inl n) = Ok (os', inr i)
     /\ nth_error l n = Some i /\ geti os' i = Some None).
Proof.
  induction l as [|i l IH]; intros os n Hnd Hocc Hn; cbn [length] in *.
  - split; [|lia]. intros _. exists os. cbn. rewrite Nat.sub_0_r. auto.
  - inversion Hnd as [|? ? Hni Hnd']; subst. cbn [fold_res].
    destruct (proj1 (occ_true _ _) (Hocc i (or_introl eq_refl))) as [kv Hi].
    unfold copy_i at 1, copy_i_t at 1 3. cbn [fst snd].
    rewrite Hi, (Hn i (or_introl eq_refl)). cbn [rbind].
    destruct n as [|n].
    + split; [lia|]. intros _. exists os, i. cbn [rbind]. rewrite fold_copy_stop. cbn [nth_error].
      split; auto. split; auto. apply Hn. now left.
    + cbn [rbind nth_error]. destruct (IH (seti os i (Some kv)) n) as [H1 H2]; auto.
      * intros j Hj. apply Hocc. now right.
      * intros j Hj. rewrite geti_seti_neq by congruence. apply Hn. now right.
      * split; intros H; [apply H1|apply H2]; lia.
Qed.

(** The handler starts with the slot whose construction failed. *)
Lemma unwind_raw k gs sl os i : TableInv.gsinv hash keq kd L k gs sl ->
  @occ K V sl i = true -> geti os i = Some None -> unwind K V kd (N.to_nat i) gs os = Err EUndef.
Proof.
  intros G Ho Hn. apply occ_true in Ho. destruct Ho as [kv Ho].
  pose proof (S_pos kd L) as HS.
  assert (Hi : i < 2 ^ k * S').
  { pose proof (geti_Some_lt _ _ _ Ho) as Hl. rewrite (gv_slen _ _ _ _ _ _ _ G) in Hl.
    unfold TableInv.scap in Hl. destruct (kd_sent kd); lia. }
  set (gi := i / S'). set (p := i mod S').
  assert (Hp : p < S') by (apply N.mod_lt; lia).
  assert (Hgi : gi < 2 ^ k) by (apply N.div_lt_upper_bound; lia).
  assert (Ei : sidx gi p = i).
  { unfold slot_index, gi, p. rewrite (N.div_mod i S') at 3 by lia. lia. }
  destruct (geti_lt gs gi) as [g Hg]; [now rewrite (gv_len _ _ _ _ _ _ _ G)|].
  pose proof (gv_valid _ _ _ _ _ _ _ G _ _ Hg) as Hv.
  rewrite <- Ei in Ho. pose proof (gv_some _ _ _ _ _ _ _ G _ _ _ _ Hg Hp Ho) as Hc.
  assert (Hu : N.testbit (kd_match_used kd g) p = true).
  { apply (kl_match_used _ L); auto. split; auto. rewrite Hc. apply (kl_reduce_0 _ L). }
  assert (Hse : kd_is_sentinel kd g p = false).
  { rewrite (kl_is_sentinel _ L), Hc by auto. destruct (kd_sent kd) eqn:E; [|reflexivity].
    cbn [andb]. apply N.eqb_neq. now apply (kl_reduce_1 _ L). }
  assert (X : forall j, N.of_nat j = i -> unwind K V kd j gs os = Err EUndef).
  { intros j Ej. destruct j; cbn [unwind]; rewrite Ej; fold gi; rewrite Hg; fold p;
      rewrite Hu, Hse, Hn; reflexivity. }
  apply X. lia.
Qed.

(** Copying with [n] constructions that succeed. *)
Lemma copy_construct_t_spec alloc past t t' n : readable kd L -> alloc_ok alloc -> Inv0 t ->
  t_size _ _ t <> 0 -> copy_construct K V hash kd alloc past t = Ret t' tt ->
  (t_size _ _ t <= N.of_nat n -> copy_construct_t K V hash kd n alloc past t = Ret t' tt)
  /\ (N.of_nat n < t_size _ _ t ->
      copy_construct_t K V hash kd n alloc past t = Fail EUndef
      \/ copy_construct_t K V hash kd n alloc past t = Fail ELeak
         /\ n = O /\ ctrl_capacity K V kd t' = ctrl_capacity K V kd t
         /\ exists kv, geti (t_slots _ _ t) 0 = Some (Some kv)).
Proof.
  intros R HA I Hne EC. pose proof (iv_mlf _ _ _ _ _ I) as Hm.
  assert (Ha : t_alloc _ _ t = true).
  { destruct (t_alloc _ _ t) eqn:E; auto. exfalso. apply Hne.
    rewrite (iv_unalloc _ _ _ _ _ I E). reflexivity. }
  destruct (Inv0_kof hash keq kd L t I Ha) as [k HK].
  destruct (reserve_for_insert_spec (V:=V) hash keq kd L alloc (t_size _ _ t) (t_mlf _ _ t) HA Hm)
    as (c & Hc & Hn & H).
  assert (Ew : wmul (t_size _ _ t) 256 / t_mlf _ _ t = t_size _ _ t * 256 / t_mlf _ _ t).
  { apply (fit_size hash keq kd L t I). }
  rewrite Ew in Hn. unfold copy_construct in EC. unfold copy_construct_t.
  replace (t_size _ _ t =? 0) with false in * by lia. cbn [negb] in *.
  destruct H as [[Ea E]|(nt & E & In' & HKn & Hs0 & Hsl & Ht & Hml & Hpr)]; rewrite E in *; cbn [obind] in *;
    [discriminate|].
  destruct (N.eqb_spec (ctrl_capacity K V kd nt) (ctrl_capacity K V kd t)) as [Eq|Ne].
  - pose proof Eq as Eq0. rewrite (ctrl_capacity_kof kd L t _ HK), (ctrl_capacity_kof kd L nt _ HKn) in Eq.
    apply N.pow_inj_r in Eq; [|lia]. assert (k = c - w) by lia. subst k.
    destruct (iv_alloc _ _ _ _ _ I Ha) as (k2 & G & Hgm & Hsh).
    assert (k2 = c - w).
    { destruct HK as (_ & Hm2 & _). apply (N.pow_inj_r 2); [lia|].
      pose proof (pow2_pos k2). pose proof (pow2_pos (c - w)). lia. }
    subst k2. unfold fast_copy in EC.
    rewrite (each_group_fold hash keq kd L (copy_one K V kd (t_slots _ _ t)) (copy_i (t_slots _ _ t))
               (fun _ _ _ => eq_refl) _ _ _ _ G) in EC.
    rewrite (each_group_fold hash keq kd L (copy_one_t K V kd (t_slots _ _ t)) (copy_i_t (t_slots _ _ t))
               (fun _ _ _ => eq_refl) _ _ _ _ G).
    set (l := filter (occ (t_slots _ _ t)) (seqN (2 ^ (c - w) * S'))) in *.
    assert (Hlen : N.of_nat (length l) = t_size _ _ t).
    { rewrite (iv_size _ _ _ _ _ I). rewrite <- (map_length Some (elems (t_slots _ _ t))).
      rewrite (elems_occ _ (2 ^ (c - w) * S')), map_length; [reflexivity|].
      rewrite (gv_slen _ _ _ _ _ _ _ G). unfold TableInv.scap. destruct (kd_sent kd); lia. }
    assert (Hnd : NoDup l) by apply NoDup_filter, seqN_NoDup.
    assert (Hoc : forall i, In i l -> occ (t_slots _ _ t) i = true)
      by (intros i Hi; apply filter_In in Hi; tauto).
    destruct (fold_copy_t (t_slots _ _ t) l (t_slots _ _ nt) n Hnd Hoc) as [H1 H2].
    { intros i Hi. rewrite Hsl. apply geti_repeat. apply Hoc, occ_true in Hi. destruct Hi as [kv Hi].
      apply geti_Some_lt in Hi. rewrite (gv_slen _ _ _ _ _ _ _ G) in Hi. lia. }
    split; intros Hsz.
    + destruct H1 as (os' & F1 & F2); [lia|]. rewrite F2. rewrite F1 in EC. exact EC.
    + destruct H2 as (os' & i & F & Hnth & Hnone); [lia|]. rewrite F.
      pose proof (nth_error_In _ _ Hnth) as Hin.
      destruct (N.eqb_spec i 0) as [E0|E0].
      * right. split; auto. subst i. split; [|split].
        -- assert (HS : StronglySorted N.lt l) by apply sorted_filter, sorted_seqN.
           clearbody l. destruct n as [|n]; auto. exfalso. destruct l as [|a l]; [discriminate|].
           cbn [nth_error] in Hnth. apply nth_error_In in Hnth.
           inversion HS as [|? ? _ Hall]; subst. rewrite Forall_forall in Hall.
           specialize (Hall 0 Hnth). lia.
        -- destruct (fold_res (copy_i (t_slots _ _ t)) l (t_slots _ _ nt)) as [os2|e]; [|discriminate].
           cbn [lift] in EC. injection EC as <-. exact Eq0.
        -- apply occ_true. now apply Hoc.
      * left. rewrite (unwind_raw (c - w) _ (t_slots _ _ t) _ _ G); auto.
  - rewrite (traverse_spec hash keq kd L past t R I) in *. cbn [rbind] in *.
    destruct (unique_insert_t_spec (c - w) (content t) nt n In' HKn) as [H1 H2].
    + now apply (Inv0_distinct hash keq kd L).
    + intros e _ j kv Hj. rewrite Hsl in Hj. apply geti_repeat_inv in Hj. discriminate.
    + rewrite Hs0, <- (iv_size _ _ _ _ _ I). cbn. now apply (fit_scap kd L _ (t_mlf _ _ t)).
    + pose proof (iv_size _ _ _ _ _ I) as Hz. split; intros Hsz.
      * destruct H1 as (t2 & F1 & F2); [lia|]. rewrite F2. rewrite F1 in EC. exact EC.
      * left. destruct H2 as (t1 & F & Hd); [lia|]. now rewrite F, Hd.
Qed.

(** ** Rehashing *)

Definition transfer_i_t (i : N) (st : table * list (option (K * V)) * option nat)
  : res (table * list (option (K * V)) * option nat) :=
  let '(nt, os, r) := st in
  match r with
  | None => Ok st
  | Some more =>
      match geti os i with
      | Some (Some kv) =>
          rbind (insert_t K V hash kd nt kv more) (fun '(nt', r') =>
          Ok (nt', match r' with Some _ => seti os i None | None => os end, r'))
      | _ => Err EUndef
      end
  end.

Lemma transfer_t_i gi p st : transfer_t K V hash kd gi p st = transfer_i_t (sidx gi p) st.
Proof. destruct st as [[nt os] [more|]]; reflexivity. Qed.

Lemma fold_transfer_stop l nt os : fold_res transfer_i_t l (nt, os, None) = Ok (nt, os, None).
Proof. induction l as [|i l IH]; cbn; auto. Qed.

Lemma fold_transfer_t k l : forall nt os n, Inv0 nt -> kof nt k ->
  NoDup l -> (forall i, In i l -> occ os i = true) ->
  (forall i j e1 e2, geti os i = Some (Some e1) -> geti os j = Some (Some e2) ->
      keq (fst e1) (fst e2) = true -> i = j) ->
  (forall i e, geti os i = Some (Some e) -> absent (t_slots _ _ nt) (fst e)) ->
  t_size _ _ nt + N.of_nat (length l) <= scap k ->
  ((length l <= n)%nat -> exists nt' os', fold_res (transfer_i hash kd) l (nt, os) = Ok (nt', os')
     /\ fold_res transfer_i_t l (nt, os, Some n) = Ok (nt', os', Some (n - length l)%nat))
  /\ ((n < length l)%nat -> exists t1 os1, fold_res transfer_i_t l (nt, os, Some n) = Ok (t1, os1, None)
     /\ destroy K V kd t1 = Err EUndef /\ t_size _ _ t1 = t_size _ _ nt + N.of_nat n
     /\ Permutation (content t1 ++ elems os1) (content nt ++ elems os)
     /\ length (content t1) = (length (content nt) + n)%nat).
Proof.
  induction l as [|i l IH]; intros nt os n I HK Hnd Hocc Huq Habs Hsz; cbn [length] in *.
  - split; [|lia]. intros _. exists nt, os. cbn. rewrite Nat.sub_0_r. auto.
  - inversion Hnd as [|? ? Hni Hnd']; subst. cbn [fold_res].
    destruct (proj1 (occ_true _ _) (Hocc i (or_introl eq_refl))) as [[key v] Hi].
    pose proof (Habs _ _ Hi) as Habs_i. cbn [fst] in Habs_i.
    destruct (insert_t_spec k nt key v I HK Habs_i) as
      (t1 & t2 & E0 & ES & EN & Hd & Hs1 & Hsl1 & I2 & HK2 & Hs2 & HP); [lia|].
    unfold transfer_i at 1, transfer_i_t at 1 3. cbv beta iota. rewrite Hi, EN. cbn [rbind].
    destruct n as [|n].
    + split; [lia|]. intros _. exists t1, os. rewrite E0. cbn [rbind]. rewrite fold_transfer_stop.
      split; auto. split; auto. split; [lia|]. rewrite Hsl1. split; [auto|lia].
    + rewrite ES. cbn [rbind].
      assert (Hother : forall j e, geti (seti os i None) j = Some (Some e) ->
                        j <> i /\ geti os j = Some (Some e)).
      { intros j e Hj. destruct (N.eq_dec i j) as [<-|Hne].
        - rewrite geti_seti_eq in Hj by (eapply geti_Some_lt; eauto). discriminate.
        - rewrite geti_seti_neq in Hj by auto. split; auto. }
      destruct (IH t2 (seti os i None) n I2 HK2 Hnd') as [H1 H2].
      * intros j Hj. apply occ_true. rewrite geti_seti_neq by congruence.
        apply occ_true. apply Hocc. now right.
      * intros j1 j2 e1 e2 G1 G2 Hk. apply Hother in G1, G2. eapply Huq; [apply G1|apply G2|auto].
      * intros j e Hj. apply Hother in Hj. destruct Hj as [Hne Hj].
        apply (absent_perm keq (t_slots _ _ nt) _ _ _ HP); [|now apply (Habs j)].
        cbn [fst]. destruct (keq (fst e) key) eqn:Ek; auto. exfalso. apply Hne.
        eapply (Huq j i); eauto.
      * lia.
      * split; intros H; [apply H1; lia|].
        destruct H2 as (t3 & os3 & F & Fd & Fs & Fp & Fl); [lia|]. exists t3, os3.
        split; auto. split; auto. split; [lia|]. pose proof (Permutation_length HP) as HPl.
        cbn [length] in HPl. split; [|lia].
        eapply perm_trans; [exact Fp|]. eapply perm_trans; [apply Permutation_app_tail; exact HP|].
        cbn [app]. eapply perm_trans; [apply Permutation_middle|].
        apply Permutation_app_head. now apply elems_seti_None.
Qed.

(** Rehashing to another capacity with [m] constructions that succeed. *)
Lemma rehash_impl_t_spec alloc shrink t n t' m : alloc_ok alloc -> Inv0 t -> n <= 2 ^ 63 ->
  rehash_impl K V hash kd alloc shrink t n = Ret t' tt ->
  (t_size _ _ t <= N.of_nat m \/ ctrl_capacity K V kd t' = ctrl_capacity K V kd t ->
     rehash_impl_t K V hash kd m alloc shrink t n = Ret (t', []) tt)
  /\ (ctrl_capacity K V kd t' <> ctrl_capacity K V kd t -> N.of_nat m < t_size _ _ t ->
     exists t1 old, rehash_impl_t K V hash kd m alloc shrink t n = Throw (t1, old)
       /\ t_size _ _ t1 = N.of_nat m /\ destroy K V kd t1 = Err EUndef
       /\ Permutation (content t1 ++ elems old) (content t)
       /\ length (content t1) = m).
Proof.
  intros HA I Hn ER.
  destruct (rehash_impl_spec hash keq kd L LW alloc shrink t n HA I Hn)
    as (c & Ec & Hc & Hnc & Hsc & Hlo & Hgo). cbv zeta in Hgo.
  unfold rehash_impl_t. rewrite Ec.
  destruct Hgo as [(Eg & Er)|[(Eg & _ & Er)|(Eg & Ea & Hgo)]]; rewrite Eg.
  - rewrite Er in ER. injection ER as <-. split; auto. congruence.
  - rewrite Er in ER. discriminate.
  - destruct Hgo as [(Hfit & nt2 & Er & RH)|(_ & Er)]; rewrite Er in ER; [|discriminate].
    injection ER as ->.
    unfold rehash_impl in Er. rewrite Ec, Eg in Er.
    destruct (create_slots_spec hash keq kd L alloc t c HA ltac:(lia) (iv_mlf _ _ _ _ _ I))
      as [[Ea' _]|(_ & nt & E & In' & Ha & Hm & Hk & Hb & Hsl & Hs0 & Ht & Hml & Hpr)]; [congruence|].
    rewrite E in *.
    assert (Hkof : kof nt (c - w)).
    { repeat split; auto. rewrite Hsl, repeat_length. lia. }
    assert (Hcap : ctrl_capacity K V kd t' <> ctrl_capacity K V kd t).
    { destruct RH as (_ & HK' & _). rewrite (ctrl_capacity_kof kd L t' _ HK').
      replace (c - w + w) with c by lia. destruct shrink; lia. }
    destruct (t_alloc _ _ t) eqn:Eal.
    + destruct (iv_alloc _ _ _ _ _ I Eal) as (k & G & Hmk & Hsk).
      rewrite (each_group_fold hash keq kd L (transfer K V hash kd) (transfer_i hash kd)
                 (transfer_transfer_i hash kd) k _ _ _ G) in Er.
      rewrite (each_group_fold hash keq kd L (transfer_t K V hash kd) transfer_i_t
                 transfer_t_i k _ _ _ G).
      set (l := filter (occ (t_slots _ _ t)) (seqN (2 ^ k * S'))) in *.
      assert (Hlen : N.of_nat (length l) = t_size _ _ t).
      { rewrite (iv_size _ _ _ _ _ I).
        rewrite <- (map_length Some (elems (t_slots _ _ t))).
        rewrite (elems_occ _ (2 ^ k * S')), map_length; [reflexivity|].
        rewrite (gv_slen _ _ _ _ _ _ _ G). unfold TableInv.scap. destruct (kd_sent kd); lia. }
      destruct (fold_transfer_t (c - w) l nt (t_slots _ _ t) m In' Hkof) as [H1 H2].
      * apply NoDup_filter, seqN_NoDup.
      * intros i Hi. apply filter_In in Hi. tauto.
      * intros. eapply gv_uniq; eauto.
      * intros i e _ j kv Hj. rewrite Hsl in Hj. apply geti_repeat_inv in Hj. discriminate.
      * rewrite Hs0, Hlen. lia.
      * split.
        -- intros [Hz|Hz]; [|contradiction]. destruct H1 as (t3 & os3 & F1 & F2); [lia|].
           rewrite F2. rewrite F1 in Er. destruct (forallb is_none os3); [|discriminate].
           now injection Er as <-.
        -- intros _ Hz. destruct H2 as (t1 & os1 & F & Fd & Fs & Fp & Fl); [lia|].
           exists t1, os1. rewrite F. split; auto. split; [lia|]. split; auto.
           rewrite Hsl, elems_repeat_None in Fp, Fl. auto.
    + split; [intros _; now injection Er as <-|].
      intros _ Hz. exfalso. rewrite (iv_unalloc _ _ _ _ _ I Eal) in Hz. cbn in Hz. lia.
Qed.

End Throw.

Section Built.

Context {K V : Type} (hash : K -> N) (keq : K -> K -> bool).
Context (LW : lawful hash keq) (kd : kind) (HK : group_kind kd).
Notation built := (built K V hash keq kd).
Notation traverse := (traverse K V kd).
Notation capacity := (capacity K V kd).

Lemma same_ctrl_same_capacity (t t' : table K V) :
  t_alloc _ _ t = true -> t_alloc _ _ t' = true -> t_gmask _ _ t = t_gmask _ _ t' -> capacity t = capacity t'.
Proof. intros H1 H2 H3. unfold TableModel.capacity, group_capacity. now rewrite H1, H2, H3. Qed.

Lemma built_copy_t t t' alloc past n : built t -> sane alloc -> t_size _ _ t <> 0 ->
  copy_construct K V hash kd alloc past t = Ret t' tt ->
  (t_size _ _ t <= N.of_nat n -> copy_construct_t K V hash kd n alloc past t = Ret t' tt)
  /\ (N.of_nat n < t_size _ _ t ->
      copy_construct_t K V hash kd n alloc past t = Fail EUndef
      \/ copy_construct_t K V hash kd n alloc past t = Fail ELeak
         /\ n = O /\ capacity t' = capacity t
         /\ exists kv, geti (t_slots _ _ t) 0 = Some (Some kv)).
Proof.
  intros B HA Hz E. destruct (kind_laws kd HK) as [L R].
  pose proof (built_Inv0 hash keq kd L LW t R B) as I.
  destruct (copy_construct_t_spec hash keq kd L LW alloc past t t' n R HA I Hz E) as [H1 H2].
  split; auto. intros H. destruct (H2 H) as [|(H3 & H4 & H5 & H6)]; auto. right.
  split; auto. split; auto. split; auto.
  destruct (copy_construct_spec hash keq kd L LW alloc past t R HA I Hz)
    as (c & Hc & _ & [(_ & Ec)|[(Hne & t2 & Ec & _ & HK2 & _)|(He & t2 & Ec & Ha & _ & _ & _ & Hgm & _)]]);
    rewrite Ec in E; try discriminate; injection E as ->.
  - exfalso. apply Hne. rewrite <- H5, (ctrl_capacity_kof kd L _ _ HK2). f_equal. lia.
  - assert (Hat : t_alloc _ _ t = true).
    { destruct (t_alloc _ _ t) eqn:Ea; auto. exfalso. apply Hz.
      now rewrite (iv_unalloc _ _ _ _ _ I Ea). }
    now apply same_ctrl_same_capacity.
Qed.

Lemma built_rehash_t t t' alloc shrink n past m : built t -> sane alloc -> n <= 2 ^ 63 ->
  rehash_impl K V hash kd alloc shrink t n = Ret t' tt ->
  (t_size _ _ t <= N.of_nat m \/ capacity t' = capacity t ->
     rehash_impl_t K V hash kd m alloc shrink t n = Ret (t', []) tt)
  /\ (capacity t' <> capacity t -> N.of_nat m < t_size _ _ t ->
     exists t1 old l, rehash_impl_t K V hash kd m alloc shrink t n = Throw (t1, old)
       /\ t_size _ _ t1 = N.of_nat m /\ destroy K V kd t1 = Err EUndef
       /\ traverse past t = Ok l /\ Permutation (elems (t_slots _ _ t1) ++ elems old) l
       /\ length (elems (t_slots _ _ t1)) = m).
Proof.
  intros B HA Hn E. destruct (kind_laws kd HK) as [L R].
  pose proof (built_Inv0 hash keq kd L LW t R B) as I.
  destruct (rehash_impl_t_spec hash keq kd L LW alloc shrink t n t' m HA I Hn E) as [H1 H2].
  destruct (rehash_impl_spec hash keq kd L LW alloc shrink t n HA I Hn)
    as (c & _ & Hc & _ & _ & _ & Hgo). cbv zeta in Hgo.
  assert (HI : t' = t \/ Inv0 hash keq kd L t' /\ t_alloc _ _ t' = true).
  { destruct Hgo as [(_ & Er)|[(_ & _ & Er)|(_ & _ & [(_ & nt & Er & RH)|(_ & Er)])]]; rewrite Er in E;
      try discriminate; injection E as ->; auto. right. destruct RH as (I' & HK' & _). split; auto. apply HK'. }
  destruct (N.eq_dec (t_size _ _ t) 0) as [Hz|Hz].
  { split; [intros _; apply H1; left; lia|lia]. }
  assert (Hat : t_alloc _ _ t = true).
  { destruct (t_alloc _ _ t) eqn:Ea; auto. exfalso. apply Hz.
    now rewrite (iv_unalloc _ _ _ _ _ I Ea). }
  assert (Heq : capacity t' = capacity t <-> ctrl_capacity K V kd t' = ctrl_capacity K V kd t).
  { destruct HI as [->|[I' Ha']]; [tauto|].
    destruct (N.lt_total (ctrl_capacity K V kd t) (ctrl_capacity K V kd t')) as [Hl|[Hl|Hl]].
    - pose proof (capacity_lt hash keq kd L t t' I I' Hl Ha'). split; lia.
    - split; [auto|]. intros _.
      destruct (Inv0_kof hash keq kd L t I Hat) as [k1 K1]. destruct (Inv0_kof hash keq kd L t' I' Ha') as [k2 K2].
      rewrite (ctrl_capacity_kof kd L _ _ K1), (ctrl_capacity_kof kd L _ _ K2) in Hl.
      apply N.pow_inj_r in Hl; [|lia]. assert (k1 = k2) by lia. subst k2.
      destruct K1 as (_ & M1 & _). destruct K2 as (_ & M2 & _).
      apply same_ctrl_same_capacity; congruence.
    - pose proof (capacity_lt hash keq kd L t' t I' I Hl Hat). split; lia. }
  split.
  - intros [H|H]; apply H1; [now left|right; now apply Heq].
  - intros H Hm. destruct H2 as (t1 & old & F & F1 & F2 & F3 & F4); auto.
    { intros Hc'. apply H, Heq, Hc'. }
    exists t1, old, (elems (t_slots _ _ t)). split; auto. split; auto. split; auto. split; auto.
    now apply (built_traverse hash keq LW kd HK).
Qed.

End Built.

(** ** Ten entries *)

Lemma small_copy_t kd : group_kind kd ->
  built N N idhash N.eqb kd (small kd) /\ sane roomy_alloc /\ t_size _ _ (small kd) = 10
  /\ (exists t', copy_construct N N idhash kd roomy_alloc 0 (small kd) = Ret t' tt
     /\ copy_construct_t N N idhash kd 10 roomy_alloc 0 (small kd) = Ret t' tt)
  /\ copy_construct_t N N idhash kd 0 roomy_alloc 0 (small kd) = Fail ELeak
  /\ copy_construct_t N N idhash kd 9 roomy_alloc 0 (small kd) = Fail EUndef.
Proof.
  intros H. split; [exact (small_built kd H)|]. split; [exact roomy_sane|].
  destruct H as [-> | ->]; (split; [vm_compute; reflexivity|]);
    (split; [eexists; split; vm_compute; reflexivity|]); split; vm_compute; reflexivity.
Qed.
Lemma ex15_copy_t : copy_construct_t N N idhash k15 3 roomy_alloc 0 ex15 = Fail EUndef
  /\ copy_construct_t N N idhash k16 3 roomy_alloc 0 ex16 = Fail EUndef.
Proof. split; vm_compute; reflexivity. Qed.
Lemma small_rehash_t kd : group_kind kd ->
  built N N idhash N.eqb kd (small kd) /\ sane roomy_alloc /\ t_size _ _ (small kd) = 10
  /\ exists t' t1 old,
  rehash_impl N N idhash kd roomy_alloc false (small kd) 100 = Ret t' tt
  /\ capacity N N kd t' <> capacity N N kd (small kd)
  /\ rehash_impl_t N N idhash kd 4 roomy_alloc false (small kd) 100 = Throw (t1, old)
  /\ t_size _ _ t1 = 4 /\ destroy N N kd t1 = Err EUndef
  /\ length (elems old) = 6%nat.
Proof.
  intros H. split; [exact (small_built kd H)|]. split; [exact roomy_sane|].
  destruct H as [-> | ->]; (split; [vm_compute; reflexivity|]); eexists _, _, _; (split; [vm_compute; reflexivity|]);
    (split; [vm_compute; discriminate|]); (split; [vm_compute; reflexivity|]);
    (split; [reflexivity|]); (split; vm_compute; reflexivity).
Qed.
