(** Iterators walk over the occupied slots in order. *)
From Coq Require Import NArith ZArith List Bool Lia Permutation.
From Coq Require Import ZifyBool ZifyNat ZifyN.
From Verif Require Import Base BaseFacts BitsModel BitsFacts GroupModel GroupFacts
  TableModel TableInv TableFind TableInsert TableLoops TableCap TableOps IterModel.
Import ListNotations.
Open Scope N_scope.
Ltac Zify.zify_post_hook ::= Z.div_mod_to_equations.

(** ** Elements from and before an index *)

Definition from {A} (sl : list (option A)) (i : N) : list A := elems (skipn (N.to_nat i) sl).
Definition upto {A} (sl : list (option A)) (i : N) : list A := elems (firstn (N.to_nat i) sl).

Lemma from_0 {A} (sl : list (option A)) : from sl 0 = elems sl.
Proof. reflexivity. Qed.

Lemma from_step {A} (sl : list (option A)) i o : geti sl i = Some o ->
  from sl i = opt_list o ++ from sl (i + 1).
Proof.
  unfold geti, from. replace (N.to_nat (i + 1)) with (S (N.to_nat i)) by lia.
  generalize (N.to_nat i). clear i. induction sl as [|a sl IH]; intros n H.
  - destruct n; discriminate.
  - destruct n; cbn in H.
    + injection H as ->. reflexivity.
    + exact (IH n H).
Qed.

Lemma from_skip {A} (sl : list (option A)) n : forall i,
  (forall j, i <= j -> j < i + n -> geti sl j = Some None) -> from sl i = from sl (i + n).
Proof.
  induction n as [|n IH] using N.peano_ind; intros i H.
  - f_equal. lia.
  - rewrite (from_step sl i None) by (apply H; lia). cbn [opt_list app].
    rewrite IH by (intros; apply H; lia). f_equal. lia.
Qed.

Lemma from_end {A} (sl : list (option A)) i : N.of_nat (length sl) <= i -> from sl i = [].
Proof. intros H. unfold from. rewrite skipn_all2 by lia. reflexivity. Qed.

Lemma upto_0 {A} (sl : list (option A)) : upto sl 0 = [].
Proof. reflexivity. Qed.

Lemma upto_step {A} (sl : list (option A)) i o : geti sl i = Some o ->
  upto sl (i + 1) = upto sl i ++ opt_list o.
Proof.
  unfold geti, upto. replace (N.to_nat (i + 1)) with (S (N.to_nat i)) by lia.
  generalize (N.to_nat i). clear i. induction sl as [|a sl IH]; intros n H.
  - destruct n; discriminate.
  - destruct n; cbn in H.
    + injection H as ->. cbn. now rewrite app_nil_r.
    + change (firstn (S (S n)) (a :: sl)) with (a :: firstn (S n) sl).
      change (firstn (S n) (a :: sl)) with (a :: firstn n sl).
      change (elems (a :: firstn (S n) sl)) with (opt_list a ++ elems (firstn (S n) sl)).
      change (elems (a :: firstn n sl)) with (opt_list a ++ elems (firstn n sl)).
      rewrite (IH n H). apply app_assoc.
Qed.

Lemma upto_skip {A} (sl : list (option A)) n : forall i,
  (forall j, i <= j -> j < i + n -> geti sl j = Some None) -> upto sl (i + n) = upto sl i.
Proof.
  induction n as [|n IH] using N.peano_ind; intros i H.
  - f_equal. lia.
  - replace (i + N.succ n) with (i + 1 + n) by lia. rewrite IH by (intros; apply H; lia).
    rewrite (upto_step sl i None) by (apply H; lia). now rewrite app_nil_r.
Qed.

Lemma upto_from {A} (sl : list (option A)) i : upto sl i ++ from sl i = elems sl.
Proof. unfold upto, from. now rewrite <- elems_app, firstn_skipn. Qed.

Lemma divmod_at W gi p : 0 < W -> p < W -> (gi * W + p) / W = gi /\ (gi * W + p) mod W = p.
Proof.
  intros HW Hp. split.
  - rewrite N.div_add_l by lia. rewrite N.div_small by auto. lia.
  - rewrite N.add_comm, N.mod_add by lia. now apply N.mod_small.
Qed.

Section Facts.

Context {K V : Type} (hash : K -> N) (keq : K -> K -> bool) (kd : kind) (L : klaws kd).

Notation table := (table K V).
Notation S' := (kd_S kd).
Notation W' := (kd_W kd).
Notation code := (kl_code kd L).
Notation sidx := (slot_index kd).
Notation gsinv := (@TableInv.gsinv K V hash keq kd L).
Notation Inv0 := (@TableInv.Inv0 K V hash keq kd L).
Notation is_sent := (TableInv.is_sent kd).
Notation scap := (TableInv.scap kd).

Lemma S_le_W : 14 <= S' /\ S' <= W'.
Proof. pose proof (S_pos kd L). pose proof (kl_S _ L). lia. Qed.

Lemma sentinel_iff k gs sl gi g p : gsinv k gs sl -> geti gs gi = Some g -> p < S' ->
  kd_is_sentinel kd g p = is_sent k gi p.
Proof.
  intros G Hg Hp. pose proof (gv_valid _ _ _ _ _ _ _ G _ _ Hg) as Hv.
  rewrite (kl_is_sentinel _ L) by auto.
  destruct (is_sent k gi p) eqn:Es.
  - rewrite (gv_sent _ _ _ _ _ _ _ G _ _ _ Hg Hp Es).
    unfold TableInv.is_sent in Es. destruct (kd_sent kd); auto.
  - destruct (kd_sent kd) eqn:Ek; auto. cbn [andb]. apply N.eqb_neq.
    assert (Hgi : gi < 2 ^ k) by (apply geti_Some_lt in Hg; now rewrite (gv_len _ _ _ _ _ _ _ G) in Hg).
    destruct (slot_at _ _ _ _ _ _ _ _ _ G Hgi Hp Es) as [[kv|] Ho].
    + rewrite (gv_some _ _ _ _ _ _ _ G _ _ _ _ Hg Hp Ho). now apply (kl_reduce_1 _ L).
    + rewrite (gv_none _ _ _ _ _ _ _ G _ _ _ Hg Hp Ho Es). discriminate.
Qed.

(** A free position that is not the end mark is a free slot. *)
Lemma code0_slot k gs sl gi g p : gsinv k gs sl -> geti gs gi = Some g -> p < S' ->
  code g p = 0 -> is_sent k gi p = false /\ geti sl (sidx gi p) = Some None.
Proof.
  intros G Hg Hp Hc.
  assert (Es : is_sent k gi p = false).
  { destruct (is_sent k gi p) eqn:Es; auto.
    rewrite (gv_sent _ _ _ _ _ _ _ G _ _ _ Hg Hp Es) in Hc. discriminate. }
  split; auto.
  assert (Hgi : gi < 2 ^ k) by (apply geti_Some_lt in Hg; now rewrite (gv_len _ _ _ _ _ _ _ G) in Hg).
  destruct (slot_at _ _ _ _ _ _ _ _ _ G Hgi Hp Es) as [[kv|] Ho]; auto.
  rewrite (gv_some _ _ _ _ _ _ _ G _ _ _ _ Hg Hp Ho) in Hc. now apply (kl_reduce_0 _ L) in Hc.
Qed.

(** An iterator at an occupied position. *)
Definition points (sl : list (option (K * V))) (c s : N) : Prop :=
  exists gi p kv, p < S' /\ c = gi * W' + p /\ s = sidx gi p /\ geti sl s = Some (Some kv).

(** The result of a search for the next element from index [s] on. *)
Definition next_of (sl : list (option (K * V))) (s : N) (r : iter15) : Prop :=
  match r with
  | None => from sl s = []
  | Some (c', s') => points sl c' s' /\ from sl s = from sl s'
  end.

Lemma next_skip sl s n r :
  (forall j, s <= j -> j < s + n -> geti sl j = Some None) ->
  next_of sl (s + n) r -> next_of sl s r.
Proof.
  intros H. unfold next_of. rewrite (from_skip sl n s H). auto.
Qed.

Lemma cap_scap t k : kof kd t k -> capacity K V kd t = scap k.
Proof.
  intros (Ha & Hm & Hk1 & Hb & Hl).
  unfold capacity. rewrite Ha. unfold group_capacity. rewrite Hm.
  pose proof (pow2_pos k). assert (2 ^ k <= 2 ^ 55) by (pose proof S_le_W; nia).
  rewrite wadd_small by (unfold two64; change (2 ^ 55) with 36028797018963968 in *; lia).
  replace (2 ^ k - 1 + 1) with (2 ^ k) by lia. apply (calc_slot_capacity_scap kd L); auto.
Qed.

Lemma alloc_facts t : Inv0 t -> t_alloc _ _ t = true ->
  exists k, gsinv k (t_groups _ _ t) (t_slots _ _ t) /\ kof kd t k /\ capacity K V kd t = scap k.
Proof.
  intros I Ha. destruct (iv_alloc _ _ _ _ _ I Ha) as (k & G & Hm & Hsh). exists k.
  assert (HK : kof kd t k) by (repeat split; auto; destruct G; auto).
  split; [auto|]. split; [auto|]. now apply cap_scap.
Qed.

(** capacity() is the number of slots. *)
Lemma capacity_slots t : Inv0 t -> capacity K V kd t = N.of_nat (length (t_slots _ _ t)).
Proof.
  intros I. destruct (t_alloc _ _ t) eqn:Ha.
  - destruct (alloc_facts t I Ha) as (k & G & _ & ->). now rewrite (gv_slen _ _ _ _ _ _ _ G).
  - rewrite (iv_unalloc _ _ _ _ _ I Ha). reflexivity.
Qed.

(** What a search inside one group finds. *)
Lemma group_scan k gs sl gi g : gsinv k gs sl -> geti gs gi = Some g ->
  let m := kd_match_used kd g in
  if negb (m =? 0) then
    let p := bsf m in
    if negb (kd_is_sentinel kd g p)
    then next_of sl (sidx gi 0) (Some (gi * W' + p, sidx gi p))
    else next_of sl (sidx gi 0) None
  else (forall j, sidx gi 0 <= j -> j < sidx gi 0 + S' -> geti sl j = Some None)
       /\ (kd_sent kd = true -> gi <> 2 ^ k - 1).
Proof.
  intros G Hg m. pose proof (gv_valid _ _ _ _ _ _ _ G _ _ Hg) as Hv.
  assert (Hgi : gi < 2 ^ k) by (apply geti_Some_lt in Hg; now rewrite (gv_len _ _ _ _ _ _ _ G) in Hg).
  assert (Hfree : forall p, p < S' -> N.testbit m p = false -> geti sl (sidx gi p) = Some None).
  { intros p Hp Hb. apply (code0_slot k gs sl gi g p G Hg Hp).
    destruct (N.eq_dec (code g p) 0); auto.
    assert (N.testbit m p = true) by (apply (kl_match_used _ L); auto). congruence. }
  destruct (N.eqb_spec m 0) as [E|E]; cbn [negb].
  - split.
    + intros j H1 H2. unfold slot_index in *. replace j with (gi * S' + (j - gi * S')) by lia.
      apply Hfree; [lia|]. rewrite E. apply N.bits_0.
    + intros Hk ->. pose proof (S_pos kd L).
      assert (Hb : N.testbit m (S' - 1) = true).
      { apply (kl_match_used _ L); auto. split; [lia|].
        rewrite (gv_sent _ _ _ _ _ _ _ G _ _ _ Hg); [discriminate|lia|].
        unfold TableInv.is_sent. rewrite Hk, !N.eqb_refl. reflexivity. }
      rewrite E, N.bits_0 in Hb. discriminate.
  - pose proof (testbit_bsf m E) as Hb.
    assert (Hlow : forall p, p < bsf m -> N.testbit m p = false).
    { intros p Hp. destruct (N.testbit m p) eqn:E'; auto. apply bsf_lowest in E'. lia. }
    cbv zeta. set (p := bsf m) in *.
    destruct (proj1 (kl_match_used _ L g p Hv) Hb) as [Hp Hc].
    assert (Hskip : forall j, sidx gi 0 <= j -> j < sidx gi 0 + p -> geti sl j = Some None).
    { intros j H1 H2. unfold slot_index in *. replace j with (gi * S' + (j - gi * S')) by lia.
      apply Hfree; [lia|]. apply Hlow. lia. }
    rewrite (sentinel_iff k gs sl gi g p G Hg Hp).
    destruct (is_sent k gi p) eqn:Es; cbn [negb].
    + apply (next_skip sl _ p); auto. unfold next_of. apply from_end.
      rewrite (gv_slen _ _ _ _ _ _ _ G). pose proof (sidx_sent kd L _ _ _ Es) as E1.
      unfold slot_index in *. lia.
    + destruct (code_used _ _ _ _ _ _ _ _ _ _ G Hg Hp Hc Es) as [kv Hkv].
      apply (next_skip sl _ p); auto. unfold next_of. split.
      * exists gi, p, kv. auto.
      * f_equal. unfold slot_index. lia.
Qed.

Lemma sidx_next gi : sidx gi 0 + S' = sidx (gi + 1) 0.
Proof. unfold slot_index. lia. Qed.

(** Search over whole groups. *)
Lemma inc_groups_spec k gs sl : kd_sent kd = true -> gsinv k gs sl ->
  forall fuel gi, gi < 2 ^ k -> 2 ^ k - gi <= N.of_nat fuel ->
  exists r, inc_groups kd fuel gs (gi * W') (sidx gi 0) = Ok r /\ next_of sl (sidx gi 0) r.
Proof.
  intros Hk G. pose proof S_le_W as HSW.
  induction fuel as [|f IH]; intros gi Hgi Hf; [lia|].
  cbn [inc_groups]. rewrite N.div_mul by lia.
  destruct (geti_lt gs gi) as [g Hg]; [now rewrite (gv_len _ _ _ _ _ _ _ G)|].
  rewrite Hg. pose proof (group_scan k gs sl gi g G Hg) as HS. cbv zeta in HS |- *.
  destruct (negb (kd_match_used kd g =? 0)).
  - unfold slot_index in HS |- *. rewrite N.add_0_r in *.
    destruct (negb (kd_is_sentinel kd g (bsf (kd_match_used kd g)))); eauto.
  - destruct HS as [Hfree Hlast]. specialize (Hlast Hk).
    rewrite sidx_next. replace (gi * W' + W') with ((gi + 1) * W') by lia.
    destruct (IH (gi + 1)) as (r & E & HN); [lia|lia|].
    exists r. split; auto. apply (next_skip sl _ S'); auto. now rewrite sidx_next.
Qed.

Lemma first_used_spec k sl : kd_sent kd = true -> forall rest gs pre, gsinv k gs sl ->
  gs = pre ++ rest ->
  N.of_nat (length pre) < 2 ^ k ->
  next_of sl (sidx (N.of_nat (length pre)) 0) (first_used kd rest (N.of_nat (length pre))).
Proof.
  intros Hk. induction rest as [|g rest IH]; intros gs pre G E Hlt.
  - pose proof (gv_len _ _ _ _ _ _ _ G) as HL. rewrite E, app_nil_r in HL. lia.
  - assert (Hg : geti gs (N.of_nat (length pre)) = Some g).
    { unfold geti. rewrite Nat2N.id, E, nth_error_app2, Nat.sub_diag by lia. reflexivity. }
    pose proof (group_scan k gs sl _ g G Hg) as HS. cbn [first_used]. cbv zeta in HS |- *.
    destruct (negb (kd_match_used kd g =? 0)).
    + unfold slot_index in HS |- *.
      destruct (negb (kd_is_sentinel kd g (bsf (kd_match_used kd g)))); auto.
    + destruct HS as [Hfree Hlast]. specialize (Hlast Hk).
      apply (next_skip sl _ S'); auto. rewrite sidx_next.
      replace (N.of_nat (length pre) + 1) with (N.of_nat (length (pre ++ [g])))
        by (rewrite app_length; cbn; lia).
      apply (IH gs); auto.
      * rewrite <- app_assoc. exact E.
      * rewrite app_length. cbn [length]. lia.
Qed.

Section Bytes.

(** The control bytes of the groups. *)
Hypothesis Hlen : forall g, kl_valid kd L g -> N.of_nat (length g) = W'.

Lemma ctrl_byte_at k gs sl gi g p : gsinv k gs sl -> geti gs gi = Some g -> p < S' ->
  ctrl_byte kd gs (gi * W' + p) = Some (byte g p).
Proof.
  intros G Hg Hp. pose proof S_le_W. unfold ctrl_byte.
  destruct (divmod_at W' gi p) as [-> ->]; [lia|lia|]. rewrite Hg.
  pose proof (Hlen g (gv_valid _ _ _ _ _ _ _ G _ _ Hg)) as HL.
  unfold geti, byte. apply nth_error_nth'. lia.
Qed.

Section Sentinel.

Hypothesis Hk : kd_sent kd = true.
Hypothesis Hcode : forall g p, code g p = byte g p.

Lemma inc_ctrls_spec k gs sl : gsinv k gs sl ->
  forall fuel gi p, gi < 2 ^ k -> p < S' -> is_sent k gi p = false ->
  S' - p <= N.of_nat fuel ->
  exists r, inc_ctrls kd fuel gs (gi * W' + p) (sidx gi p) = Ok r
    /\ next_of sl (sidx gi p + 1) r.
Proof.
  intros G. pose proof S_le_W as HSW.
  induction fuel as [|f IH]; intros gi p Hgi Hp Hs Hf; [lia|].
  cbn [inc_ctrls]. cbv zeta. destruct (divmod_at W' gi p) as [_ ->]; [lia|lia|].
  destruct (N.eqb_spec p (S' - 1)) as [Ep|Ep].
  - assert (Hlast : gi + 1 < 2 ^ k).
    { unfold TableInv.is_sent in Hs. rewrite Hk, Ep, N.eqb_refl, andb_true_r in Hs. cbn in Hs. lia. }
    replace (gi * W' + p + (W' - (S' - 1))) with ((gi + 1) * W') by lia.
    replace (sidx gi p + 1) with (sidx (gi + 1) 0) by (unfold slot_index; lia).
    apply (inc_groups_spec k); auto. pose proof (gv_len _ _ _ _ _ _ _ G). lia.
  - destruct (geti_lt gs gi) as [g Hg]; [now rewrite (gv_len _ _ _ _ _ _ _ G)|].
    rewrite <- N.add_assoc. rewrite (ctrl_byte_at k gs sl gi g (p + 1) G Hg) by lia.
    destruct (divmod_at W' gi (p + 1)) as [-> ->]; [lia|lia|]. rewrite Hg.
    replace (sidx gi p + 1) with (sidx gi (p + 1)) by (unfold slot_index; lia).
    destruct (N.eqb_spec (byte g (p + 1)) 0) as [E0|E0].
    + rewrite <- Hcode in E0. destruct (code0_slot k gs sl gi g (p + 1) G Hg) as [Hs' Hn]; [lia|auto|].
      destruct (IH gi (p + 1)) as (r & E & HN); [auto|lia|auto|lia|].
      exists r. split; auto. apply (next_skip sl _ 1); auto.
      intros j H1 H2. replace j with (sidx gi (p + 1)) by lia. exact Hn.
    + rewrite (sentinel_iff k gs sl gi g (p + 1) G Hg) by lia.
      destruct (is_sent k gi (p + 1)) eqn:Es; cbn [negb].
      * exists None. split; auto. unfold next_of. apply from_end.
        rewrite (gv_slen _ _ _ _ _ _ _ G), (sidx_sent kd L _ _ _ Es). lia.
      * rewrite <- Hcode in E0.
        destruct (code_used _ _ _ _ _ _ _ _ _ (p + 1) G Hg) as [kv Hkv]; [lia|auto|auto|].
        exists (Some (gi * W' + (p + 1), sidx gi (p + 1))). split; auto.
        unfold next_of. split; auto. exists gi, (p + 1), kv. repeat split; auto. lia.
Qed.

Lemma points_facts k gs sl gi p kv : gsinv k gs sl -> p < S' ->
  geti sl (sidx gi p) = Some (Some kv) -> gi < 2 ^ k /\ is_sent k gi p = false.
Proof.
  intros G Hp Hs. destruct (slot_group _ _ _ _ _ _ _ _ _ G Hs) as (g & Hg & Hgi & Hp' & Es & Hsn).
  destruct (sidx_inj kd _ _ _ _ Hp' Hp Es) as [E1 E2]. rewrite E1, E2 in Hsn. rewrite E1 in Hgi.
  auto.
Qed.

Lemma incr15_spec t c s : Inv0 t -> points (t_slots _ _ t) c s ->
  exists r, incr15 K V kd t (Some (c, s)) = Ok r /\ next_of (t_slots _ _ t) (s + 1) r.
Proof.
  intros I (gi & p & kv & Hp & -> & -> & Hs).
  assert (Ha : t_alloc _ _ t = true).
  { destruct (t_alloc _ _ t) eqn:E; auto. rewrite (iv_unalloc _ _ _ _ _ I E) in Hs.
    unfold geti in Hs. cbn in Hs. destruct (N.to_nat _); discriminate. }
  destruct (iv_alloc _ _ _ _ _ I Ha) as (k & G & _).
  destruct (points_facts k _ _ _ _ _ G Hp Hs) as [Hgi Hsn].
  unfold incr15. apply (inc_ctrls_spec k); auto. pose proof S_le_W. lia.
Qed.

Lemma begin15_spec t : Inv0 t -> next_of (t_slots _ _ t) 0 (begin15 K V kd t).
Proof.
  intros I. unfold begin15. destruct (N.eqb_spec (t_size _ _ t) 0) as [E|E]; cbn [negb].
  - unfold next_of. rewrite from_0. rewrite (iv_size _ _ _ _ _ I) in E.
    apply length_zero_iff_nil. lia.
  - assert (Ha : t_alloc _ _ t = true).
    { destruct (t_alloc _ _ t) eqn:Ea; auto. rewrite (iv_unalloc _ _ _ _ _ I Ea) in E. now cbn in E. }
    destruct (iv_alloc _ _ _ _ _ I Ha) as (k & G & _).
    apply (first_used_spec k _ Hk _ _ [] G eq_refl). cbn. apply pow2_pos.
Qed.

(** From an iterator on, the loop visits exactly the elements from there on. *)
Lemma walk15_spec t : Inv0 t -> forall fuel s0 it, next_of (t_slots _ _ t) s0 it ->
  (length (from (t_slots _ _ t) s0) <= fuel)%nat ->
  walk15 K V kd fuel t it = Ok (from (t_slots _ _ t) s0).
Proof.
  intros I. induction fuel as [|f IH]; intros s0 [[c s]|] HN Hf; cbn in HN.
  - destruct HN as ((gi & p & kv & Hp & Hc & Hs & Hkv) & E). rewrite E in Hf.
    rewrite (from_step _ _ _ Hkv) in Hf. cbn in Hf. lia.
  - rewrite HN. reflexivity.
  - destruct HN as (HP & E). destruct (incr15_spec t c s I HP) as (r & Er & HN).
    destruct HP as (gi & p & kv & Hp & Hc & Hs & Hkv).
    rewrite E in Hf |- *. rewrite (from_step _ _ _ Hkv) in Hf |- *. cbn in Hf.
    cbn [walk15]. cbn [deref15]. rewrite Hkv. cbn [rbind]. rewrite Er. cbn [rbind].
    rewrite (IH _ r HN) by lia. reflexivity.
  - rewrite HN. reflexivity.
Qed.

Lemma traverse15_spec t : Inv0 t -> traverse15 K V kd t = Ok (elems (t_slots _ _ t)).
Proof.
  intros I. unfold traverse15. rewrite <- from_0.
  apply walk15_spec; auto.
  - now apply begin15_spec.
  - rewrite from_0, (iv_size _ _ _ _ _ I). lia.
Qed.

(** ** Going backwards *)

Definition prev_of (sl : list (option (K * V))) (s : N) (r : iter15) : Prop :=
  exists c' s', r = Some (c', s') /\ points sl c' s' /\ upto sl s = upto sl (s' + 1).

Lemma prev_skip sl s n r :
  (forall j, s <= j -> j < s + n -> geti sl j = Some None) ->
  prev_of sl s r -> prev_of sl (s + n) r.
Proof.
  intros H (c' & s' & -> & HP & E). exists c', s'. repeat split; auto.
  now rewrite (upto_skip sl n s H).
Qed.

Lemma bsr_spec m : m <> 0 -> N.testbit m (bsr m) = true /\
  forall i, N.testbit m i = true -> i <= bsr m.
Proof.
  intros H. unfold bsr. split; [now apply N.bit_log2|].
  intros i Hi. destruct (N.le_gt_cases i (N.log2 m)); auto.
  rewrite N.bits_above_log2 in Hi by auto. discriminate.
Qed.

Lemma dec_groups_spec k gs sl : gsinv k gs sl ->
  forall fuel gi, gi < 2 ^ k - 1 -> gi < N.of_nat fuel -> upto sl (sidx (gi + 1) 0) <> [] ->
  exists r, dec_groups kd fuel gs (gi * W' + (S' - 1)) (sidx gi (S' - 1)) = Ok r
    /\ prev_of sl (sidx (gi + 1) 0) r.
Proof.
  intros G. pose proof S_le_W as HSW.
  induction fuel as [|f IH]; intros gi Hgi Hf Hne; [lia|].
  cbn [dec_groups]. destruct (divmod_at W' gi (S' - 1)) as [-> _]; [lia|lia|].
  destruct (geti_lt gs gi) as [g Hg]; [rewrite (gv_len _ _ _ _ _ _ _ G); lia|].
  rewrite Hg. pose proof (gv_valid _ _ _ _ _ _ _ G _ _ Hg) as Hv.
  set (m := kd_match_used kd g). cbv zeta.
  assert (Hfree : forall p, p < S' -> N.testbit m p = false -> geti sl (sidx gi p) = Some None).
  { intros p Hp Hb. apply (code0_slot k gs sl gi g p G Hg Hp).
    destruct (N.eq_dec (code g p) 0); auto.
    assert (N.testbit m p = true) by (apply (kl_match_used _ L); auto). congruence. }
  destruct (N.eqb_spec m 0) as [E|E]; cbn [negb].
  - assert (Hall : forall j, sidx gi 0 <= j -> j < sidx gi 0 + S' -> geti sl j = Some None).
    { intros j H1 H2. unfold slot_index in *. replace j with (gi * S' + (j - gi * S')) by lia.
      apply Hfree; [lia|]. rewrite E. apply N.bits_0. }
    rewrite <- sidx_next in Hne |- *. rewrite (upto_skip sl _ _ Hall) in Hne.
    destruct (N.eq_dec gi 0) as [->|Hg0].
    { exfalso. apply Hne. unfold slot_index. reflexivity. }
    assert (Hge : W' <= gi * W' + (S' - 1)) by nia.
    apply N.ltb_ge in Hge. rewrite Hge.
    replace (gi * W' + (S' - 1) - W') with ((gi - 1) * W' + (S' - 1)) by nia.
    replace (sidx gi (S' - 1) - S') with (sidx (gi - 1) (S' - 1)) by (unfold slot_index; nia).
    destruct (IH (gi - 1)) as (r & Er & HP); [lia|lia|now replace (gi - 1 + 1) with gi by lia|].
    replace (gi - 1 + 1) with gi in HP by lia. exists r. split; auto. now apply prev_skip.
  - destruct (bsr_spec m E) as [Hb Hhigh]. set (p := bsr m) in *.
    destruct (proj1 (kl_match_used _ L g p Hv) Hb) as [Hp Hc].
    assert (Es : is_sent k gi p = false).
    { unfold TableInv.is_sent. replace (gi =? 2 ^ k - 1) with false by lia. now rewrite andb_false_r. }
    rewrite (sentinel_iff k gs sl gi g p G Hg Hp), Es. cbn [negb].
    destruct (code_used _ _ _ _ _ _ _ _ _ _ G Hg Hp Hc Es) as [kv Hkv].
    eexists. split; [reflexivity|].
    replace (gi * W' + (S' - 1) - (S' - 1 - p)) with (gi * W' + p) by lia.
    replace (sidx gi (S' - 1) - (S' - 1 - p)) with (sidx gi p) by (unfold slot_index; lia).
    replace (sidx (gi + 1) 0) with (sidx gi p + 1 + (S' - 1 - p)) by (unfold slot_index; lia).
    apply prev_skip.
    + intros j H1 H2. unfold slot_index in *. replace j with (gi * S' + (j - gi * S')) by lia.
      apply Hfree; [lia|]. destruct (N.testbit m (j - gi * S')) eqn:E'; auto.
      apply Hhigh in E'. lia.
    + exists (gi * W' + p), (sidx gi p). repeat split; auto. exists gi, p, kv. auto.
Qed.

Lemma dec_ctrls_spec k gs sl : gsinv k gs sl ->
  forall fuel gi p, gi < 2 ^ k -> p < S' -> p < N.of_nat fuel -> upto sl (sidx gi p) <> [] ->
  (is_sent k gi p = true \/ sidx gi p <= N.of_nat (length sl)) ->
  exists r, dec_ctrls kd fuel gs (gi * W' + p) (sidx gi p) = Ok r /\ prev_of sl (sidx gi p) r.
Proof.
  intros G. pose proof S_le_W as HSW.
  induction fuel as [|f IH]; intros gi p Hgi Hp Hf Hne _; [lia|].
  cbn [dec_ctrls]. cbv zeta. destruct (divmod_at W' gi p) as [_ ->]; [lia|lia|].
  destruct (N.eqb_spec (gi * W' + p) 0) as [E0|E0].
  { exfalso. apply Hne. assert (gi = 0) by nia. assert (p = 0) by lia. subst. reflexivity. }
  destruct (N.eqb_spec p 0) as [Ep|Ep].
  - subst p. assert (Hg0 : gi <> 0) by nia.
    replace (gi * W' + 0 - (W' - (S' - 1))) with ((gi - 1) * W' + (S' - 1)) by nia.
    replace (sidx gi 0 - 1) with (sidx (gi - 1) (S' - 1)) by (unfold slot_index; nia).
    pose proof (gv_len _ _ _ _ _ _ _ G) as HL.
    assert (Eg : gi - 1 + 1 = gi) by lia.
    destruct (dec_groups_spec k gs sl G (length gs) (gi - 1)) as (r & Er & HP); [lia|lia| |].
    + now rewrite Eg.
    + rewrite Eg in HP. eauto.
  - destruct (geti_lt gs gi) as [g Hg]; [now rewrite (gv_len _ _ _ _ _ _ _ G)|].
    replace (gi * W' + p - 1) with (gi * W' + (p - 1)) by lia.
    rewrite (ctrl_byte_at k gs sl gi g (p - 1) G Hg) by lia.
    destruct (divmod_at W' gi (p - 1)) as [-> ->]; [lia|lia|]. rewrite Hg.
    replace (sidx gi p - 1) with (sidx gi (p - 1)) by (unfold slot_index; lia).
    assert (Esx : sidx gi p = sidx gi (p - 1) + 1) by (unfold slot_index; lia).
    destruct (N.eqb_spec (byte g (p - 1)) 0) as [Eb|Eb].
    + rewrite <- Hcode in Eb. destruct (code0_slot k gs sl gi g (p - 1) G Hg) as [Hs' Hn]; [lia|auto|].
      assert (Hskip : forall j, sidx gi (p - 1) <= j -> j < sidx gi (p - 1) + 1 -> geti sl j = Some None).
      { intros j H1 H2. replace j with (sidx gi (p - 1)) by lia. exact Hn. }
      rewrite Esx in Hne. rewrite (upto_skip sl 1 _ Hskip) in Hne.
      destruct (IH gi (p - 1)) as (r & E & HP); [auto|lia|lia|auto|..].
      { right. apply geti_Some_lt in Hn. lia. }
      exists r. split; auto. rewrite Esx. now apply prev_skip.
    + assert (Es : is_sent k gi (p - 1) = false).
      { unfold TableInv.is_sent. replace (p - 1 =? S' - 1) with false by lia. apply andb_false_r. }
      rewrite (sentinel_iff k gs sl gi g (p - 1) G Hg) by lia. rewrite Es. cbn [negb].
      rewrite <- Hcode in Eb.
      destruct (code_used _ _ _ _ _ _ _ _ _ (p - 1) G Hg) as [kv Hkv]; [lia|auto|auto|].
      eexists. split; [reflexivity|]. exists (gi * W' + (p - 1)), (sidx gi (p - 1)).
      repeat split; [|now rewrite Esx]. exists gi, (p - 1), kv. repeat split; auto. lia.
Qed.

(** operator-- moves to the element before, if there is one. *)
Lemma decr15_spec t c s : Inv0 t -> points (t_slots _ _ t) c s ->
  upto (t_slots _ _ t) s <> [] ->
  exists r, decr15 K V kd t (Some (c, s)) = Ok r /\ prev_of (t_slots _ _ t) s r.
Proof.
  intros I (gi & p & kv & Hp & -> & -> & Hs) Hne.
  assert (Ha : t_alloc _ _ t = true).
  { destruct (t_alloc _ _ t) eqn:E; auto. rewrite (iv_unalloc _ _ _ _ _ I E) in Hs.
    unfold geti in Hs. cbn in Hs. destruct (N.to_nat _); discriminate. }
  destruct (iv_alloc _ _ _ _ _ I Ha) as (k & G & _).
  destruct (points_facts k _ _ _ _ _ G Hp Hs) as [Hgi Hsn].
  unfold decr15. apply (dec_ctrls_spec k); auto.
  - pose proof S_le_W. lia.
  - right. apply geti_Some_lt in Hs. lia.
Qed.

End Sentinel.

Section Indexed.

Hypothesis Hk : kd_sent kd = false.
Hypothesis Hcode : forall g p, code g p = N.land (byte g p) 127.

Lemma W_S : W' = S'.
Proof. symmetry. now apply (kl_S_nosent _ L). Qed.

Lemma scap_nosent k : scap k = 2 ^ k * S'.
Proof. unfold TableInv.scap. now rewrite Hk. Qed.

Lemma nosent k gi p : is_sent k gi p = false.
Proof. unfold TableInv.is_sent. now rewrite Hk. Qed.

(** A control byte is free exactly if its slot is. *)
Lemma byte_slot k gs sl i : gsinv k gs sl -> i < scap k ->
  exists b, ctrl_byte kd gs i = Some b
    /\ (if ctrl_empty16 b then geti sl i = Some None
        else exists kv, geti sl i = Some (Some kv)).
Proof.
  intros G Hi. destruct (idx_group kd L k i Hi) as [Hgi _].
  destruct (sidx_divmod kd L i) as [Ei Hp].
  destruct (geti_lt gs (i / S')) as [g Hg]; [now rewrite (gv_len _ _ _ _ _ _ _ G)|].
  exists (byte g (i mod S')). split.
  - rewrite <- (ctrl_byte_at k gs sl _ g _ G Hg Hp). f_equal.
    rewrite W_S. unfold slot_index in Ei. now symmetry.
  - unfold ctrl_empty16. rewrite <- Hcode. destruct (N.eqb_spec (code g (i mod S')) 0) as [E|E].
    + rewrite <- Ei. now apply (code0_slot k gs sl _ g _ G Hg Hp).
    + rewrite <- Ei. apply (code_used _ _ _ _ k _ _ _ _ _ G Hg Hp E). apply nosent.
Qed.

(** An index is the next element from [s] on. *)
Definition next16 (sl : list (option (K * V))) (s i : N) : Prop :=
  s <= i /\ from sl s = from sl i
  /\ (i = N.of_nat (length sl) \/ exists kv, geti sl i = Some (Some kv)).

Lemma scan_used_spec k gs sl : gsinv k gs sl -> forall fuel c, c <= scap k ->
  scap k - c < N.of_nat fuel ->
  exists i, scan_used kd fuel gs c (scap k) = Ok i /\ next16 sl c i.
Proof.
  intros G. pose proof (gv_slen _ _ _ _ _ _ _ G) as HL.
  induction fuel as [|f IH]; intros c Hc Hf; [lia|]. cbn [scan_used].
  destruct (N.ltb_spec c (scap k)) as [H|H].
  - destruct (byte_slot k gs sl c G H) as (b & -> & Hb).
    destruct (ctrl_empty16 b); cbn [negb].
    + destruct (IH (c + 1)) as (i & E & Hle & HF & HE); [lia|lia|].
      exists i. split; auto. split; [lia|]. split; auto. rewrite <- HF.
      now rewrite (from_step sl c None Hb).
    + exists c. split; auto. split; [lia|]. auto.
  - exists (scap k). split; auto. split; [lia|]. split; [f_equal; lia|]. left. lia.
Qed.

Lemma inc_loop16_spec k gs sl past : gsinv k gs sl -> forall fuel c, c < scap k ->
  scap k - c < N.of_nat fuel ->
  exists i, inc_loop16 kd fuel gs past c (scap k) = Ok i /\ next16 sl (c + 1) i.
Proof.
  intros G. pose proof (gv_slen _ _ _ _ _ _ _ G) as HL.
  induction fuel as [|f IH]; intros c Hc Hf; [lia|]. cbn [inc_loop16].
  destruct (N.ltb_spec c (scap k)) as [H|H]; [|lia]. cbv zeta.
  destruct (N.eqb_spec (c + 1) (scap k)) as [E|E].
  - exists (scap k). split.
    + destruct (negb (ctrl_empty16 past)); [now rewrite E|].
      rewrite E. destruct f as [|f]; [lia|]. cbn [inc_loop16]. now rewrite N.ltb_irrefl.
    + split; [lia|]. split; [now rewrite E|]. left. lia.
  - destruct (byte_slot k gs sl (c + 1) G) as (b & -> & Hb); [lia|].
    destruct (ctrl_empty16 b); cbn [negb].
    + destruct (IH (c + 1)) as (i & Ei & Hle & HF & HE); [lia|lia|].
      exists i. split; auto. split; [lia|]. split; auto. rewrite <- HF.
      now rewrite (from_step sl (c + 1) None Hb).
    + exists (c + 1). split; auto. split; [lia|]. auto.
Qed.

Lemma incr16_spec past t i kv : Inv0 t -> geti (t_slots _ _ t) i = Some (Some kv) ->
  exists j, incr16 K V kd past t i = Ok j /\ next16 (t_slots _ _ t) (i + 1) j.
Proof.
  intros I Hs.
  assert (Ha : t_alloc _ _ t = true).
  { destruct (t_alloc _ _ t) eqn:E; auto. rewrite (iv_unalloc _ _ _ _ _ I E) in Hs.
    unfold geti in Hs. cbn in Hs. destruct (N.to_nat _); discriminate. }
  destruct (alloc_facts t I Ha) as (k & G & _ & Ec). unfold incr16. rewrite Ec.
  apply (inc_loop16_spec k); auto.
  - apply geti_Some_lt in Hs. now rewrite (gv_slen _ _ _ _ _ _ _ G) in Hs.
  - lia.
Qed.

Lemma end16_length t : Inv0 t -> end16 K V kd t = N.of_nat (length (t_slots _ _ t)).
Proof. apply capacity_slots. Qed.

Lemma begin16_spec t : Inv0 t ->
  exists i, begin16 K V kd t = Ok i /\ next16 (t_slots _ _ t) 0 i.
Proof.
  intros I. unfold begin16. pose proof (end16_length t I) as EE. unfold end16 in EE.
  destruct (N.eqb_spec (t_size _ _ t) 0) as [E|E]; cbn [negb].
  - eexists. split; [reflexivity|]. rewrite EE. split; [lia|]. split; [|auto].
    rewrite from_0, from_end by lia. rewrite (iv_size _ _ _ _ _ I) in E.
    apply length_zero_iff_nil. lia.
  - assert (Ha : t_alloc _ _ t = true).
    { destruct (t_alloc _ _ t) eqn:Ea; auto. rewrite (iv_unalloc _ _ _ _ _ I Ea) in E. now cbn in E. }
    destruct (alloc_facts t I Ha) as (k & G & _ & ->).
    apply (scan_used_spec k); auto; lia.
Qed.

Lemma walk16_spec past t : Inv0 t -> forall fuel s0 i, next16 (t_slots _ _ t) s0 i ->
  (length (from (t_slots _ _ t) s0) <= fuel)%nat ->
  walk16 K V kd fuel past t i = Ok (from (t_slots _ _ t) s0).
Proof.
  intros I. pose proof (end16_length t I) as EE.
  induction fuel as [|f IH]; intros s0 i (Hle & HF & HE) Hf; cbn [walk16]; rewrite EE.
  - destruct HE as [->|[kv Hkv]].
    + rewrite N.eqb_refl, HF, from_end by lia. reflexivity.
    + rewrite HF, (from_step _ _ _ Hkv) in Hf. cbn in Hf. lia.
  - destruct HE as [->|[kv Hkv]].
    + rewrite N.eqb_refl, HF, from_end by lia. reflexivity.
    + pose proof (geti_Some_lt _ _ _ Hkv) as Hlt.
      destruct (N.eqb_spec i (N.of_nat (length (t_slots _ _ t)))); [lia|].
      destruct (incr16_spec past t i kv I Hkv) as (j & Ej & HN).
      unfold deref16. rewrite Hkv. cbn [rbind]. rewrite Ej. cbn [rbind].
      rewrite HF, (from_step _ _ _ Hkv) in Hf |- *. cbn in Hf.
      rewrite (IH _ j HN) by lia. reflexivity.
Qed.

Lemma traverse16_spec past t : Inv0 t -> traverse16 K V kd past t = Ok (elems (t_slots _ _ t)).
Proof.
  intros I. unfold traverse16. destruct (begin16_spec t I) as (i & -> & HN). cbn [rbind].
  rewrite <- from_0. apply walk16_spec; auto. rewrite from_0, (iv_size _ _ _ _ _ I). lia.
Qed.

(** ** Going backwards *)

Lemma dec_loop16_spec k gs sl : gsinv k gs sl -> forall fuel c, c <= scap k ->
  c < N.of_nat fuel -> upto sl c <> [] ->
  exists i kv, dec_loop16 kd fuel gs c = Ok i /\ geti sl i = Some (Some kv)
    /\ upto sl c = upto sl i ++ [kv].
Proof.
  intros G. induction fuel as [|f IH]; intros c Hc Hf Hne; [lia|]. cbn [dec_loop16].
  destruct (N.ltb_spec 0 c) as [H|H].
  - cbv zeta. destruct (byte_slot k gs sl (c - 1) G) as (b & -> & Hb); [lia|].
    destruct (ctrl_empty16 b); cbn [negb].
    + pose proof (upto_step sl (c - 1) None Hb) as E. replace (c - 1 + 1) with c in E by lia.
      cbn in E. rewrite app_nil_r in E. rewrite E in *. apply IH; auto; lia.
    + destruct Hb as [kv Hkv]. exists (c - 1), kv. split; auto. split; auto.
      pose proof (upto_step sl (c - 1) _ Hkv) as E. now replace (c - 1 + 1) with c in E by lia.
  - exfalso. apply Hne. replace c with 0 by lia. reflexivity.
Qed.

(** operator-- moves to the element before, also from end(). *)
Lemma decr16_spec t i : Inv0 t -> i <= end16 K V kd t -> upto (t_slots _ _ t) i <> [] ->
  exists j kv, decr16 K V kd t i = Ok j /\ geti (t_slots _ _ t) j = Some (Some kv)
    /\ upto (t_slots _ _ t) i = upto (t_slots _ _ t) j ++ [kv].
Proof.
  intros I Hi Hne. unfold end16 in Hi.
  assert (Ha : t_alloc _ _ t = true).
  { destruct (t_alloc _ _ t) eqn:E; auto. exfalso. apply Hne.
    rewrite (iv_unalloc _ _ _ _ _ I E). unfold upto. cbn. now rewrite firstn_nil. }
  destruct (alloc_facts t I Ha) as (k & G & _ & Ec). unfold decr16. rewrite Ec in *.
  apply (dec_loop16_spec k); auto. lia.
Qed.

(** ** erase(iterator) *)

Lemma from_seti {A} (sl : list (option A)) i x j : i < j -> from (seti sl i x) j = from sl j.
Proof.
  intros H. unfold from, seti. f_equal.
  assert (HH : (N.to_nat i < N.to_nat j)%nat) by lia. revert HH.
  generalize (N.to_nat i) (N.to_nat j). clear. induction sl as [|a sl IH]; intros n m H.
  - reflexivity.
  - destruct m; [lia|]. destruct n; cbn [upd skipn]; auto. apply IH. lia.
Qed.

Lemma upto_seti {A} (sl : list (option A)) i x j : j <= i -> upto (seti sl i x) j = upto sl j.
Proof.
  intros H. unfold upto, seti. f_equal.
  assert (HH : (N.to_nat j <= N.to_nat i)%nat) by lia. revert HH.
  generalize (N.to_nat i) (N.to_nat j). clear. induction sl as [|a sl IH]; intros n m H.
  - reflexivity.
  - destruct m; [reflexivity|]. destruct n; [lia|]. cbn [upd firstn]. f_equal. apply IH. lia.
Qed.

Lemma erase_iter16_spec past t i kv : Inv0 t -> geti (t_slots _ _ t) i = Some (Some kv) ->
  exists t' j, erase_iter16 K V kd past t i = Ok (t', j) /\ Inv0 t'
    /\ capacity K V kd t' = capacity K V kd t
    /\ elems (t_slots _ _ t) = upto (t_slots _ _ t) i ++ kv :: from (t_slots _ _ t) (i + 1)
    /\ elems (t_slots _ _ t') = upto (t_slots _ _ t) i ++ from (t_slots _ _ t) (i + 1)
    /\ next16 (t_slots _ _ t') (i + 1) j
    /\ from (t_slots _ _ t') (i + 1) = from (t_slots _ _ t) (i + 1)
    /\ (forall n, n <= i -> upto (t_slots _ _ t') n = upto (t_slots _ _ t) n)
    /\ (forall n, n <> i -> geti (t_slots _ _ t') n = geti (t_slots _ _ t) n).
Proof.
  intros I Hs.
  assert (Ha : t_alloc _ _ t = true).
  { destruct (t_alloc _ _ t) eqn:E; auto. rewrite (iv_unalloc _ _ _ _ _ I E) in Hs.
    unfold geti in Hs. cbn in Hs. destruct (N.to_nat _); discriminate. }
  destruct (alloc_facts t I Ha) as (k & G & _ & Ec).
  destruct (sidx_divmod kd L i) as [Ei Hp].
  destruct (erase_slot_spec hash keq kd L t (i / S') (i mod S') kv I Ha Hp) as
    (t' & Et & I' & HG & Esl & Esz & Hsz & Hthr & Hmk); [now rewrite Ei|].
  rewrite Ei in Esl. unfold erase_iter16. rewrite Et. cbn [rbind].
  assert (Ha' : t_alloc _ _ t' = true) by (destruct HG as (E & _); now rewrite E).
  destruct (alloc_facts t' I' Ha') as (k' & G' & _ & Ec').
  pose proof (geti_Some_lt _ _ _ Hs) as Hlt.
  assert (Hlt' : i < scap k').
  { rewrite <- (gv_slen _ _ _ _ _ _ _ G'), Esl, seti_length. exact Hlt. }
  destruct (byte_slot k' _ _ i G' Hlt') as (b & -> & Hb).
  assert (Hn : geti (t_slots _ _ t') i = Some None) by (rewrite Esl; now apply geti_seti_eq).
  destruct (ctrl_empty16 b); cbn [negb]; [|destruct Hb as [kv' Hb]; congruence].
  unfold incr16 at 1. rewrite Ec'.
  destruct (inc_loop16_spec k' _ _ past G' (S (N.to_nat (scap k'))) i Hlt') as (j & Ej & HN); [lia|].
  rewrite Ej. cbn [rbind]. exists t', j. split; auto. split; auto.
  split; [|split; [|split; [|split]]].
  - pose proof (end16_length t I) as H1. pose proof (end16_length t' I') as H2.
    unfold end16 in *. rewrite H1, H2, Esl, seti_length. reflexivity.
  - rewrite <- (upto_from (t_slots _ _ t) i). now rewrite (from_step _ _ _ Hs).
  - rewrite <- (upto_from (t_slots _ _ t') i). rewrite (from_step _ _ _ Hn). cbn [opt_list app].
    rewrite Esl, upto_seti, from_seti by lia. reflexivity.
  - exact HN.
  - split; [rewrite Esl; apply from_seti; lia|]. split.
    + intros m Hm. rewrite Esl. now apply upto_seti.
    + intros m Hm. rewrite Esl. apply geti_seti_neq. congruence.
Qed.

End Indexed.
End Bytes.
End Facts.
