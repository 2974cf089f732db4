(** The cost of growing: capacity, reallocations and moves of maps from which nothing is
    erased. *)
From Coq Require Import NArith ZArith List Bool Lia Permutation.
From Coq Require Import ZifyBool ZifyNat ZifyN.
From Verif Require Import Base BaseFacts BitsModel BitsFacts GroupModel GroupFacts
  TableModel TableInv TableFind TableInsert TableLoops TableCap TableOps
  MapSpec MapFacts RunModel Refine Progress ReachModel ReachFacts MapProps MapProps2 GrowthSpec.
Import ListNotations.
Open Scope N_scope.
Ltac Zify.zify_post_hook ::= Z.div_mod_to_equations.

(** ** Growth limits of the capacities *)

(** All elements moved until there are 2^k groups. *)
Fixpoint moves (kd : kind) (n : nat) : N :=
  match n with
  | O => 0
  | S O => 0
  | S m => moves kd m + thr_of kd 224 (N.of_nat m)
  end.

Lemma moves_succ kd n : (1 <= n)%nat -> moves kd (S n) = moves kd n + thr_of kd 224 (N.of_nat n).
Proof. destruct n; [lia|]. reflexivity. Qed.

Lemma thr16 k : 2 <= k -> thr_of k16 224 k = 14 * 2 ^ k.
Proof.
  intros H. unfold thr_of, kMinCapacity, TableInv.scap. cbn [k16 kd_W kd_S kd_sent].
  assert (2 ^ 2 <= 2 ^ k) by (apply pow2_le; lia). change (2 ^ 2) with 4 in *.
  change (16 * 2) with 32. destruct (N.ltb_spec 32 (2 ^ k * 16)); lia.
Qed.

Lemma thr15 k : 2 <= k -> thr_of k15 224 k = (15 * 2 ^ k - 1) * 7 / 8.
Proof.
  intros H. unfold thr_of, kMinCapacity, TableInv.scap. cbn [k15 kd_W kd_S kd_sent].
  assert (2 ^ 2 <= 2 ^ k) by (apply pow2_le; lia). change (2 ^ 2) with 4 in *.
  change (16 * 2) with 32. destruct (N.ltb_spec 32 (2 ^ k * 15 - 1)); lia.
Qed.

Lemma thr1 kd : group_kind kd -> thr_of kd 224 1 = if kd_sent kd then 29 else 32.
Proof. intros [-> | ->]; reflexivity. Qed.

(** Every limit is twice the one before, except the second. *)
Lemma thr_double kd k : group_kind kd -> 2 <= k -> 2 * thr_of kd 224 k <= thr_of kd 224 (k + 1).
Proof.
  intros [-> | ->] Hk.
  - rewrite !thr15 by lia. rewrite N.pow_add_r. change (2 ^ 1) with 2. lia.
  - rewrite !thr16 by lia. rewrite N.pow_add_r. change (2 ^ 1) with 2. lia.
Qed.

Lemma thr_lt kd k : group_kind kd -> 1 <= k -> thr_of kd 224 k < thr_of kd 224 (k + 1).
Proof.
  intros HK Hk. destruct (N.eq_dec k 1) as [->|Hne].
  - destruct HK as [-> | ->]; reflexivity.
  - pose proof (thr_double kd k HK ltac:(lia)).
    assert (0 < thr_of kd 224 k); [|lia].
    assert (2 ^ 2 <= 2 ^ k) by (apply pow2_le; lia). change (2 ^ 2) with 4 in *.
    destruct HK as [-> | ->]; [rewrite thr15 by lia|rewrite thr16 by lia]; lia.
Qed.

Lemma thr_mono kd k k' : group_kind kd -> 1 <= k -> k <= k' -> thr_of kd 224 k <= thr_of kd 224 k'.
Proof.
  intros HK Hk Hle. replace k' with (k + (k' - k)) by lia. generalize (k' - k). clear Hle k'.
  intros d. induction d as [|d IH] using N.peano_ind; [rewrite N.add_0_r; lia|].
  replace (k + N.succ d) with (k + d + 1) by lia. pose proof (thr_lt kd (k + d) HK ltac:(lia)). lia.
Qed.

Lemma moves_bound kd : group_kind kd -> forall n, (1 <= n)%nat ->
  moves kd (S n) <= 2 * thr_of kd 224 (N.of_nat n).
Proof.
  intros HK n Hn. induction n as [|n IH]; [lia|]. rewrite moves_succ by lia.
  destruct n as [|n]; [cbn [moves]; lia|]. destruct n as [|n].
  - destruct HK as [-> | ->]; vm_compute; discriminate.
  - specialize (IH ltac:(lia)). pose proof (thr_double kd (N.of_nat (S (S n))) HK ltac:(lia)) as H.
    replace (N.of_nat (S (S n)) + 1) with (N.of_nat (S (S (S n)))) in H by lia. lia.
Qed.

Lemma cap_bounds kd k : group_kind kd -> 1 <= k ->
  (thr_of kd 224 k <= TableInv.scap kd k)
  /\ (k = 1 \/ 8 * thr_of kd 224 k <= 7 * TableInv.scap kd k)
  /\ 7 * (TableInv.scap kd (k + 1) - 1) < 16 * (thr_of kd 224 k + 1)
  /\ 2 ^ (k + 1) <= thr_of kd 224 k
  /\ 15 * 2 ^ k - 1 <= TableInv.scap kd k <= 16 * 2 ^ k.
Proof.
  intros HK Hk.
  assert (Hp : 2 ^ 1 <= 2 ^ k) by (apply pow2_le; lia). change (2 ^ 1) with 2 in Hp.
  destruct (N.eq_dec k 1) as [->|Hne].
  { destruct HK as [-> | ->]; (split; [vm_compute; discriminate|split; [now left|]];
      split; [reflexivity|]; split; [vm_compute; discriminate|split; vm_compute; discriminate]). }
  assert (Hp2 : 2 ^ 2 <= 2 ^ k) by (apply pow2_le; lia). change (2 ^ 2) with 4 in Hp2.
  destruct HK as [-> | ->].
  - rewrite thr15 by lia. unfold TableInv.scap. cbn [k15 kd_W kd_S kd_sent].
    rewrite !N.pow_add_r. change (2 ^ 1) with 2. repeat split; try lia.
  - rewrite thr16 by lia. unfold TableInv.scap. cbn [k16 kd_W kd_S kd_sent].
    rewrite !N.pow_add_r. change (2 ^ 1) with 2. repeat split; try lia.
Qed.

Lemma thr0 kd : group_kind kd -> thr_of kd 224 0 <> 0.
Proof. intros [-> | ->]; discriminate. Qed.

Lemma scap1 kd : group_kind kd -> TableInv.scap kd 1 <> 0 /\ TableInv.scap kd 1 <= 32.
Proof. intros [-> | ->]; split; vm_compute; discriminate. Qed.

Section Growth.

Context {K V : Type} (hash : K -> N) (keq : K -> K -> bool).
Context (LW : lawful hash keq) (kd : kind) (HK : group_kind kd) (L : klaws kd).
Notation table := (table K V).
Notation Inv0 := (@TableInv.Inv0 K V hash keq kd L).
Notation kof := (@TableCap.kof K V kd).
Notation scap := (TableInv.scap kd).
Notation w := (kl_w kd L).
Notation step := (step K V hash keq kd).
Notation capacity := (capacity K V kd).
Notation thr k := (thr_of kd 224 k).

(** Maps that have only been added to, with 2^k groups, from an empty map with 2^b groups, or
    from a new one. *)
Section State.
Variables (fresh : bool) (b : N).

Definition added (k : N) (t : table) : Prop :=
  Inv0 t /\ kof t k /\ pristine kd L (t_groups _ _ t) /\ t_thr _ _ t = thr k /\ t_mlf _ _ t = 224
  /\ (fresh = true -> 1 <= t_size _ _ t) /\ t_size _ _ t <= thr k
  /\ b <= k /\ (k = b \/ thr (k - 1) < t_size _ _ t).

Definition state (k : N) (t : table) : Prop :=
  (fresh = true /\ b = 1 /\ k = 0 /\ t = new_map K V kd) \/ added k t.

Lemma state_Inv0 k t : state k t -> Inv0 t.
Proof. intros [(_ & _ & _ & ->)|H]; [apply default_Inv0|apply H]. Qed.

Lemma emplace_grows alloc (upd : bool) k t key v : alloc_ok alloc -> state k t ->
  (exists t' r, observe_ins K V (emplace_impl K V hash keq kd alloc upd true t key v) = Ret t' r
     /\ ((state k t' /\ t_size _ _ t <= t_size _ _ t')
         \/ (state (k + 1) t' /\ (k = 0 \/ t_size _ _ t = thr k) /\ t_size _ _ t' = t_size _ _ t + 1)))
  \/ observe_ins K V (emplace_impl K V hash keq kd alloc upd true t key v) = Throw t.
Proof.
  intros HA HS. pose proof (state_Inv0 k t HS) as I. unfold observe_ins.
  destruct (emplace_spec hash keq kd L LW alloc upd t key v HA I)
      as [(gi & p & kv & Ef & Hpp & Ha & Hsl & Hk & E)|(Habs & Ef & [(Hn & E)|(t1 & kk & HR & Hk & I1 & H)])].
  - left. rewrite E. cbn [obind fst snd].
    destruct HS as [(_ & _ & _ & ->)|(_ & HKf & Hp & Ht & Hm & H1 & H2 & H3)]; [discriminate Ha|].
    destruct upd.
    + rewrite (entry_at_seti t _ (fst kv, v) _ Hsl) by reflexivity. eexists _, _. split; [reflexivity|].
      left. split; [right|cbn; lia]. split; [eapply set_slot_Inv0; eauto|].
      split; [|split; [exact Hp|cbn; auto]].
      apply (kof_geom kd t); auto.
      * repeat split.
      * cbn [set_slot t_slots]. pose proof (seti_length (t_slots _ _ t) (slot_index kd gi p) (Some (fst kv, v))). lia.
    + unfold entry_at. rewrite Hsl. eexists _, _. split; [reflexivity|].
      left. split; [right|lia]. repeat (split; auto).
  - right. now rewrite E.
  - left. destruct HR as [[-> Hng]|(Hn & c & (Ic & HKc & HP & Hsz & Htc & Hmc & Hpr) & Hcw & Hcb & Hcu & Hlt & Hth)].
    + destruct HS as [(_ & _ & -> & ->)|(_ & HKf & Hp & Ht & Hm & H1 & H2 & H3)]; [discriminate Hng|].
      destruct H as [(E & _ & Hfull)|(t2 & i & E & I2 & SG & Hf & Hsl2 & Hs2 & Ht2 & Hp2)].
      * exfalso. assert (kk = k) by (eapply kof_inj; eauto). subst kk.
        assert (Hk1 : 1 <= k) by apply HKf.
        pose proof (proj1 (cap_bounds kd k HK Hk1)).
        unfold need_grow in Hng. lia.
      * rewrite E. cbn [obind fst snd]. rewrite (entry_at_seti t i (key, v) _ Hf t2 Hsl2).
        eexists _, _. split; [reflexivity|]. left. split; [right|lia]. split; auto. split.
        { apply (kof_geom kd t); auto. rewrite Hsl2. pose proof (seti_length (t_slots _ _ t) i (Some (key, v))). lia. }
        split; [now apply Hp2|]. destruct Ht2 as [Ht2|(_ & _ & Hnp)]; [|contradiction].
        unfold need_grow in Hng. split; [lia|]. split; [|lia].
        destruct SG as (Ga & Gm & Gs & Gl). exact (eq_trans Gl Hm).
    + destruct H as [(E & Heq & Hfull)|(t2 & i & E & I2 & SG & Hf & Hsl2 & Hs2 & Ht2 & Hp2)].
      * exfalso. subst t1. assert (kk = c - w) by (eapply kof_inj; eauto). subst kk. lia.
      * rewrite E. cbn [obind fst snd]. rewrite (entry_at_seti t1 i (key, v) _ Hf t2 Hsl2).
        eexists _, _. split; [reflexivity|]. right.
        assert (Hc : c - w = k + 1 /\ (k = 0 \/ t_size _ _ t = thr k) /\ t_mlf _ _ t = 224
                     /\ (k = 0 /\ b = 1 /\ t_size _ _ t = 0 \/ t_size _ _ t = thr k /\ 1 <= k /\ b <= k)).
        { destruct HS as [(_ & Hb & -> & ->)|(_ & HKf & Hp & Ht & Hm & H1 & H2 & H3 & H4)].
          - rewrite (Hcu eq_refl). split; [lia|]. split; [now left|]. split; [reflexivity|]. left. split; [reflexivity|]. split; [exact Hb|reflexivity].
          - rewrite (Hcb k HKf). split; [lia|]. unfold need_grow in Hn.
            assert (t_size _ _ t = thr k) by lia. assert (1 <= k) by apply HKf. split; [now right|]. split; [exact Hm|]. right. auto. }
        destruct Hc as (Hc & Hk0 & Hm & Hsk). rewrite Hc in *. split; [|split; [exact Hk0|lia]].
        right. split; auto. split.
        { apply (kof_geom kd t1); auto. rewrite Hsl2. pose proof (seti_length (t_slots _ _ t1) i (Some (key, v))). lia. }
        split; [now apply Hp2|]. destruct Ht2 as [Ht2|(_ & _ & Hnp)]; [|contradiction].
        split; [rewrite Ht2, Htc, Hm; reflexivity|]. split.
        { destruct SG as (Ga & Gm & Gs & Gl). rewrite Gl, Hmc. exact Hm. }
        split; [lia|]. rewrite Hs2, Hsz. destruct Hsk as [(-> & -> & Hz)|(Hz & Hk1 & Hbk)].
        { split; [rewrite Hz; rewrite thr1 by auto; destruct (kd_sent kd); lia|].
          split; [lia|now left]. }
        pose proof (thr_lt kd k HK Hk1). split; [lia|]. split; [lia|]. right.
        replace (k + 1 - 1) with k by lia. lia.
Qed.

Lemma lookup_returns t key : Inv0 t -> exists e, lookup K V hash keq kd t key = Ok e.
Proof.
  intros I. unfold lookup. destruct (find_spec hash keq kd L LW t key I)
      as [(gi & p & kv & E & Ha & Hp & Hs & Hk)|[E Habs]]; rewrite E.
  - unfold rbind. rewrite Hs. eauto.
  - eauto.
Qed.

(** One call. *)
Lemma call_grows alloc o k t : alloc_ok alloc -> adds K V o = true -> state k t ->
  exists out t', run K V hash keq kd [(alloc, o)] t = Ok (out, t')
    /\ ((state k t' /\ t_size _ _ t <= t_size _ _ t')
        \/ (state (k + 1) t' /\ (k = 0 \/ t_size _ _ t = thr k) /\ t_size _ _ t' = t_size _ _ t + 1)).
Proof.
  intros HA Ho HS.
  assert (HI : forall (upd : bool) key v,
    step alloc (if upd then OAssign _ _ key v else OInsert _ _ key v) t
    = observe_ins K V (emplace_impl K V hash keq kd alloc upd true t key v)) by now intros [].
  assert (HE : forall o, (exists upd key v, o = if upd : bool then OAssign K V key v else OInsert _ _ key v) ->
    exists out t', run K V hash keq kd [(alloc, o)] t = Ok (out, t')
    /\ ((state k t' /\ t_size _ _ t <= t_size _ _ t')
        \/ (state (k + 1) t' /\ (k = 0 \/ t_size _ _ t = thr k) /\ t_size _ _ t' = t_size _ _ t + 1))).
  { intros o' (upd & key & v & ->). cbn [run]. rewrite HI.
    destruct (emplace_grows alloc upd k t key v HA HS) as [(t' & r & E & H)|E]; rewrite E; cbn [rbind];
      eexists _, _; (split; [reflexivity|]); auto. left. split; [auto|lia]. }
  pose proof (state_Inv0 k t HS) as I.
  destruct o as [key v|key v|key|key|key| |d|n|n|d|m]; try discriminate Ho.
  - apply HE. now exists false, key, v.
  - apply HE. now exists true, key, v.
  - destruct (lookup_returns t key I) as [e E]. cbn [run TableModel.step]. rewrite E. cbn.
    eexists _, _. split; [reflexivity|]. left. split; [auto|lia].
  - destruct (lookup_returns t key I) as [e E]. cbn [run TableModel.step]. rewrite E. cbn.
    eexists _, _. split; [reflexivity|]. left. split; [auto|lia].
  - cbn. eexists _, _. split; [reflexivity|]. left. split; [auto|lia].
Qed.

Lemma state_capacity k t : state k t -> capacity t = if k =? 0 then 0 else scap k.
Proof.
  intros [(_ & _ & -> & ->)|H]; [reflexivity|].
  assert (Hk : kof t k) by apply H. rewrite (capacity_kof kd L _ _ Hk).
  destruct Hk as (_ & _ & Hk & _). now replace (k =? 0) with false by lia.
Qed.

Lemma run_cons c calls t : run K V hash keq kd (c :: calls) t =
  rbind (run K V hash keq kd [c] t) (fun '(o, t') => rbind (run K V hash keq kd calls t')
    (fun '(os, t'') => Ok (o ++ os, t''))).
Proof.
  destruct c as [alloc o]. cbn [run]. destruct (step alloc o t) as [t' r|t'|e]; cbn [rbind]; auto;
    destruct (run K V hash keq kd calls t') as [[os t'']|e]; reflexivity.
Qed.

(** All calls: the number of reallocations is that of the doublings, the moved elements
    are the growth limits passed. *)
Lemma run_grows : forall (calls : list (call K V)) k t,
  Forall (fun c => alloc_ok (fst c) /\ adds K V (snd c) = true) calls -> state k t ->
  exists outs t' k', run K V hash keq kd calls t = Ok (outs, t') /\ state k' t' /\ k <= k'
    /\ fst (costs K V hash keq kd calls t) = k' - k
    /\ snd (costs K V hash keq kd calls t) + moves kd (N.to_nat k) = moves kd (N.to_nat k').
Proof.
  induction calls as [|[alloc o] calls IH]; intros k t HF HS.
  - exists [], t, k. cbn. split; auto. split; auto. lia.
  - inversion HF as [|x y [HA Ho] HF']; subst. cbn [fst snd] in *.
    destruct (call_grows alloc o k t HA Ho HS) as (out & t1 & E & H).
    rewrite run_cons. cbn [costs]. unfold call in *. rewrite E. cbn [rbind].
    destruct H as [(S1 & Hs)|(S1 & H0 & Hs)].
    + destruct (IH k t1 HF' S1) as (outs & t' & k' & E' & S' & Hk & Hr & Hm). rewrite E'. cbn [rbind].
      exists (out ++ outs), t', k'. split; auto. split; auto. split; auto.
      rewrite (state_capacity k t HS), (state_capacity k t1 S1), N.eqb_refl.
      destruct (costs K V hash keq kd calls t1) as [r m]. auto.
    + destruct (IH (k + 1) t1 HF' S1) as (outs & t' & k' & E' & S' & Hk & Hr & Hm). rewrite E'. cbn [rbind].
      exists (out ++ outs), t', k'. split; auto. split; auto. split; [lia|].
      rewrite (state_capacity k t HS), (state_capacity (k + 1) t1 S1).
      replace (k + 1 =? 0) with false by lia.
      destruct (N.eqb_spec (scap (k + 1)) (if k =? 0 then 0 else scap k)) as [Heq|Hne].
      { exfalso. destruct (N.eqb_spec k 0) as [->|Hk0].
        - now apply (proj1 (scap1 kd HK)).
        - pose proof (scap_lt_succ kd L k). lia. }
      destruct (costs K V hash keq kd calls t1) as [r m]. cbn [fst snd] in *. split; [lia|].
      replace (N.to_nat (k + 1)) with (S (N.to_nat k)) in Hm by lia.
      destruct H0 as [->|Hsz].
      * destruct HS as [(_ & _ & _ & ->)|(_ & (_ & _ & Hk1 & _) & _)]; [|lia].
        change (t_size _ _ (new_map K V kd)) with 0. cbn [N.to_nat moves] in *. lia.
      * assert (1 <= k) as Hk1.
        { destruct HS as [(_ & _ & -> & ->)|(_ & (_ & _ & Hk1 & _) & _)]; [|lia].
          exfalso. change (t_size _ _ (new_map K V kd)) with 0 in Hsz.
          now apply (thr0 kd HK). }
        rewrite moves_succ in Hm by lia. rewrite N2Nat.id in Hm. lia.
Qed.

End State.

Lemma state_inj k k' t t' : state true 1 k t -> state true 1 k' t' ->
  t_size _ _ t = t_size _ _ t' -> k = k'.
Proof.
  intros S S' E. destruct S as [(_ & _ & -> & ->)|S], S' as [(_ & _ & -> & ->)|S']; auto.
  - exfalso. destruct S' as (_ & _ & _ & _ & _ & H & _). specialize (H eq_refl).
    change (t_size _ _ (new_map K V kd)) with 0 in E. lia.
  - exfalso. destruct S as (_ & _ & _ & _ & _ & H & _). specialize (H eq_refl).
    change (t_size _ _ (new_map K V kd)) with 0 in E. lia.
  - destruct S as (_ & (_ & _ & Hk & _) & _ & _ & _ & _ & Hu & _ & Hl).
    destruct S' as (_ & (_ & _ & Hk' & _) & _ & _ & _ & _ & Hu' & _ & Hl').
    destruct (N.lt_trichotomy k k') as [H|[H|H]]; auto; exfalso.
    + destruct Hl' as [Hl'|Hl']; [lia|]. pose proof (thr_mono kd k (k' - 1) HK Hk ltac:(lia)). lia.
    + destruct Hl as [Hl|Hl]; [lia|]. pose proof (thr_mono kd k' (k - 1) HK Hk' ltac:(lia)). lia.
Qed.

Lemma state_new : state true 1 0 (new_map K V kd).
Proof. left. auto. Qed.

Lemma adds_space calls t outs :
  Forall (fun c => alloc_ok (fst c) /\ adds K V (snd c) = true) calls ->
  run K V hash keq kd calls (new_map K V kd) = Ok (outs, t) ->
  (t_size _ _ t = 0 /\ capacity t = 0)
  \/ (t_size _ _ t <= capacity t
      /\ (8 * t_size _ _ t <= 7 * capacity t \/ capacity t <= 32)
      /\ (7 * (capacity t - 1) < 16 * t_size _ _ t \/ capacity t <= 32)).
Proof.
  intros HF E. destruct (run_grows true 1 calls 0 _ HF state_new)
    as (outs' & t' & k & E' & S & _ & _ & _).
  rewrite E in E'. injection E' as <- <-.
  pose proof (state_capacity true 1 k t S) as Hc. rewrite Hc.
  destruct S as [(_ & _ & -> & ->)|(_ & (_ & _ & Hk & _) & _ & _ & _ & H1 & Hu & _ & Hl)]; [left; split; reflexivity|right].
  replace (k =? 0) with false by lia.
  destruct (cap_bounds kd k HK Hk) as (B1 & B2 & B3 & B4 & B5). split; [lia|].
  assert (H32 : k = 1 -> scap k <= 32) by (intros ->; apply (scap1 kd HK)).
  split; [destruct B2; [right; auto|left; lia]|].
  destruct Hl as [Hl|Hl]; [right; auto|].
  destruct (N.eq_dec k 1) as [|Hne]; [right; auto|left].
  destruct (cap_bounds kd (k - 1) HK ltac:(lia)) as (_ & _ & B3' & _).
  replace (k - 1 + 1) with k in B3' by lia. lia.
Qed.

Lemma adds_same_capacity calls1 calls2 t1 t2 outs1 outs2 :
  Forall (fun c => alloc_ok (fst c) /\ adds K V (snd c) = true) calls1 ->
  Forall (fun c => alloc_ok (fst c) /\ adds K V (snd c) = true) calls2 ->
  run K V hash keq kd calls1 (new_map K V kd) = Ok (outs1, t1) ->
  run K V hash keq kd calls2 (new_map K V kd) = Ok (outs2, t2) ->
  t_size _ _ t1 = t_size _ _ t2 -> capacity t1 = capacity t2.
Proof.
  intros HF1 HF2 E1 E2 Es.
  destruct (run_grows true 1 calls1 0 _ HF1 state_new) as (o1 & u1 & k1 & E1' & S1 & _).
  destruct (run_grows true 1 calls2 0 _ HF2 state_new) as (o2 & u2 & k2 & E2' & S2 & _).
  rewrite E1 in E1'. injection E1' as <- <-. rewrite E2 in E2'. injection E2' as <- <-.
  pose proof (state_inj _ _ _ _ S1 S2 Es) as ->.
  now rewrite (state_capacity _ _ _ _ S1), (state_capacity _ _ _ _ S2).
Qed.

Lemma adds_costs calls t outs :
  Forall (fun c => alloc_ok (fst c) /\ adds K V (snd c) = true) calls ->
  run K V hash keq kd calls (new_map K V kd) = Ok (outs, t) ->
  let '(r, m) := costs K V hash keq kd calls (new_map K V kd) in
  (t_size _ _ t = 0 -> r = 0) /\ (t_size _ _ t <> 0 -> 2 ^ r <= 2 * t_size _ _ t) /\ m <= 2 * t_size _ _ t.
Proof.
  intros HF E. destruct (run_grows true 1 calls 0 _ HF state_new)
    as (outs' & t' & k & E' & S & _ & Hr & Hm).
  rewrite E in E'. injection E' as <- <-.
  destruct (costs K V hash keq kd calls (new_map K V kd)) as [r m]. cbn [fst snd] in *.
  cbn [N.to_nat moves] in Hm. replace r with k by lia. rewrite N.add_0_r in Hm. rewrite Hm.
  destruct S as [(_ & _ & -> & ->)|(_ & (_ & _ & Hk & _) & _ & _ & _ & H1 & Hu & _ & Hl)].
  { split; [auto|]. split; [now intros []|]. cbn. lia. }
  split; [lia|]. split.
  - intros _. destruct Hl as [->|Hl]; [change (2 ^ 1) with 2; lia|].
    destruct (N.eq_dec k 1) as [->|Hne]; [change (2 ^ 1) with 2; lia|].
    destruct (cap_bounds kd (k - 1) HK ltac:(lia)) as (_ & _ & _ & B & _).
    replace (k - 1 + 1) with k in B by lia. lia.
  - destruct (N.eq_dec k 1) as [->|Hne]; [change (moves kd (N.to_nat 1)) with 0; lia|].
    destruct Hl as [->|Hl]; [lia|].
    pose proof (moves_bound kd HK (N.to_nat (k - 1)) ltac:(lia)) as B.
    replace (S (N.to_nat (k - 1))) with (N.to_nat k) in B by lia. rewrite N2Nat.id in B. lia.
Qed.

(** reserve(n) on a new map. *)
Lemma reserve_added alloc n t r : alloc_ok alloc -> n <> 0 -> n < 2 ^ 56 ->
  step alloc (OReserve _ _ n) (new_map K V kd) = Ret t r -> exists k, added false k k t.
Proof.
  intros HA Hn0 Hn E.
  destruct (reserve_new hash keq LW kd L alloc n t r HA Hn0 Hn E)
    as (c & Hc & _ & I & HKf & Hp & Ht & Hts & Hs).
  assert (Hm : t_mlf _ _ t = 224).
  { cbn [TableModel.step] in E. unfold reserve in E.
    replace (n =? 0) with false in E by lia. cbn [negb] in E.
    set (t0 := new_map K V kd) in *.
    assert (I0 : Inv0 t0) by apply default_Inv0.
    assert (Ef : shrink_to_fit_capacity K V t0 n = n * 256 / 224).
    { unfold shrink_to_fit_capacity, kAmplify. rewrite wmul_small; auto.
      change (2 ^ 56) with 72057594037927936 in Hn. rewrite two64_eq. lia. }
    rewrite Ef in E.
    assert (Hle : n * 256 / 224 <= 2 ^ 63).
    { change (2 ^ 56) with 72057594037927936 in Hn. change (2 ^ 63) with 9223372036854775808. lia. }
    destruct (rehash_impl_spec hash keq kd L LW alloc false t0 _ HA I0 Hle)
      as (c' & Ec & Hc' & Hnc & Hsc & Hlo & H). cbv zeta in H.
    destruct H as [[Hg H]|[(_ & _ & H)|(_ & _ & [(H1 & nt & H & R)|(H1 & H)])]];
      rewrite H in E; cbn [obind] in E; try discriminate E; injection E as <- <-; [reflexivity|].
    destruct R as (_ & _ & _ & _ & _ & Hm & _). exact Hm. }
  exists (c - w). repeat (split; [assumption|]). split; [discriminate|]. split; [lia|]. split; [lia|now left].
Qed.

Lemma thr_limit k : thr k = growth_limit (scap k).
Proof.
  unfold thr_of, growth_limit. assert (E : kMinCapacity kd = 32) by (destruct HK as [-> | ->]; reflexivity).
  rewrite E. destruct (32 <? scap k); lia.
Qed.

Lemma reserve_limit n alloc t r calls : alloc_ok alloc -> n <> 0 -> n < 2 ^ 56 ->
  step alloc (OReserve _ _ n) (new_map K V kd) = Ret t r ->
  Forall (fun c => alloc_ok (fst c) /\ adds K V (snd c) = true) calls ->
  exists outs t', run K V hash keq kd calls t = Ok (outs, t')
    /\ (capacity t' = capacity t <-> t_size _ _ t' <= growth_limit (capacity t)).
Proof.
  intros HA Hn0 Hn E HF. destruct (reserve_added alloc n t r HA Hn0 Hn E) as [k A].
  destruct (run_grows false k calls k t HF (or_intror A)) as (outs & t' & k' & Er & S & Hk & _ & _).
  exists outs, t'. split; auto. destruct S as [(? & _)|S]; [discriminate|].
  assert (HKf : kof t k) by apply A. assert (HKf' : kof t' k') by apply S.
  rewrite (capacity_kof kd L _ _ HKf), (capacity_kof kd L _ _ HKf'), <- thr_limit.
  destruct S as (_ & _ & _ & _ & _ & _ & Hu & _ & Hl).
  destruct (N.eq_dec k' k) as [->|Hne]; [split; auto|].
  assert (Hk1 : 1 <= k) by apply HKf.
  assert (Hlt : k < k') by lia. split; intros H; exfalso.
  - pose proof (scap_lt_succ kd L k). pose proof (scap_mono kd (k + 1) k' ltac:(lia)). lia.
  - destruct Hl as [Hl|Hl]; [lia|]. pose proof (thr_mono kd k (k' - 1) HK Hk1 ltac:(lia)). lia.
Qed.

End Growth.

(** ** Both kinds of tables *)

Section Kinds.

Context {K V : Type} (hash : K -> N) (keq : K -> K -> bool) (LW : lawful hash keq).
Context (kd : kind) (HK : group_kind kd).
Notation new_map := (new_map K V kd).
Notation run := (run K V hash keq kd).
Notation capacity := (capacity K V kd).

Lemma growth_space calls t outs :
  Forall (fun c => sane (fst c) /\ adds K V (snd c) = true) calls -> run calls new_map = Ok (outs, t) ->
  (t_size _ _ t = 0 /\ capacity t = 0)
  \/ (t_size _ _ t <= capacity t
      /\ (8 * t_size _ _ t <= 7 * capacity t \/ capacity t <= 32)
      /\ (7 * (capacity t - 1) < 16 * t_size _ _ t \/ capacity t <= 32)).
Proof. destruct (kind_laws kd HK) as [L _]. exact (adds_space hash keq LW kd HK L calls t outs). Qed.

Lemma growth_same_capacity calls1 calls2 t1 t2 outs1 outs2 :
  Forall (fun c => sane (fst c) /\ adds K V (snd c) = true) calls1 ->
  Forall (fun c => sane (fst c) /\ adds K V (snd c) = true) calls2 ->
  run calls1 new_map = Ok (outs1, t1) -> run calls2 new_map = Ok (outs2, t2) ->
  t_size _ _ t1 = t_size _ _ t2 -> capacity t1 = capacity t2.
Proof.
  destruct (kind_laws kd HK) as [L _].
  exact (adds_same_capacity hash keq LW kd HK L calls1 calls2 t1 t2 outs1 outs2).
Qed.

Lemma growth_costs calls :
  Forall (fun c => sane (fst c) /\ adds K V (snd c) = true) calls ->
  exists outs t, run calls new_map = Ok (outs, t)
    /\ let '(r, m) := costs K V hash keq kd calls new_map in
       (t_size _ _ t = 0 -> r = 0) /\ (t_size _ _ t <> 0 -> 2 ^ r <= 2 * t_size _ _ t)
       /\ m <= 2 * t_size _ _ t.
Proof.
  intros HF. destruct (kind_laws kd HK) as [L _].
  destruct (run_grows hash keq LW kd HK L true 1 calls 0 _ HF (state_new hash keq kd L))
    as (outs & t & k & E & _).
  exists outs, t. split; [exact E|]. exact (adds_costs hash keq LW kd HK L calls t outs HF E).
Qed.

Lemma reserve_exact n alloc t r calls : sane alloc -> n <> 0 -> n < 2 ^ 56 ->
  step K V hash keq kd alloc (OReserve _ _ n) new_map = Ret t r ->
  Forall (fun c => sane (fst c) /\ adds K V (snd c) = true) calls ->
  exists outs t', run calls t = Ok (outs, t')
    /\ (capacity t' = capacity t <-> t_size _ _ t' <= growth_limit (capacity t)).
Proof.
  destruct (kind_laws kd HK) as [L _]. exact (reserve_limit hash keq LW kd HK L n alloc t r calls).
Qed.

End Kinds.
