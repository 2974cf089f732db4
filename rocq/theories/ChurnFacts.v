(** Sixteen entries of a group15 map that are erased and inserted again make the map
    grow to any size. *)
From Coq Require Import NArith ZArith List Bool Lia Permutation.
From Coq Require Import ZifyBool ZifyNat ZifyN.
From Verif Require Import Base BaseFacts BitsModel BitsFacts ProberModel ProberFacts GroupModel GroupFacts
  TableModel TableInv TableFind TableInsert TableLoops TableCap TableOps RunModel Refine Progress ReachModel
  ReachFacts MapProps MapProps2 WitnessModel WitnessFacts ExampleFacts.
Import ListNotations.
Open Scope N_scope.
Ltac Zify.zify_post_hook ::= Z.div_mod_to_equations.

Section Churn.

Notation table := (table N N).
Notation Inv0 := (@TableInv.Inv0 N N idhash N.eqb k15 k15_laws).
Notation kof := (@TableCap.kof N N k15).
Notation marked := (@TableOps.marked N N idhash k15).
Notation content t := (elems (t_slots N N t)).

(** Keys with the same home group in every table and the same reduced hash. *)
Definition crowd (x : N) : Prop := x < 2 ^ 13 /\ kd_reduce k15 (idhash x) = kd_reduce k15 (idhash 2).

Lemma crowd_home x k : crowd x -> k <= 51 -> home k (idhash x) = 0.
Proof.
  intros [H _] Hk. unfold home, idhash, w64. rewrite N.mod_small.
  - rewrite N.shiftr_div_pow2. apply N.div_small. eapply N.lt_le_trans; [exact H|].
    apply pow2_le. lia.
  - eapply N.lt_le_trans; [exact H|]. discriminate.
Qed.

(** An occupied slot in terms of its group. *)
Lemma slot_pos k t i e : kof t k -> geti (t_slots _ _ t) i = Some (Some e) ->
  exists gi p, i = slot_index k15 gi p /\ p < 15 /\ gi < 2 ^ k.
Proof.
  intros (_ & _ & _ & _ & Hlen) H. apply geti_Some_lt in H. rewrite Hlen in H.
  exists (i / 15), (i mod 15). unfold slot_index. cbn [kd_S k15].
  unfold scap in H. cbn [kd_sent kd_S k15] in H. generalize dependent (2 ^ k). intros. lia.
Qed.

Lemma two_groups t k : Inv0 t -> kof t k -> 16 <= t_size _ _ t ->
  exists g1 p1 e1 g2 p2 e2, g1 <> g2 /\ p1 < 15 /\ p2 < 15 /\ g1 < 2 ^ k /\ g2 < 2 ^ k
    /\ geti (t_slots _ _ t) (slot_index k15 g1 p1) = Some (Some e1)
    /\ geti (t_slots _ _ t) (slot_index k15 g2 p2) = Some (Some e2).
Proof.
  intros I Hk Hs. rewrite (iv_size _ _ _ _ _ I) in Hs.
  pose proof (elems_occ (t_slots _ _ t) _ (N.le_refl _)) as HE. apply (f_equal (@length _)) in HE.
  rewrite !map_length in HE. set (n := N.of_nat (length (t_slots N N t))) in *.
  set (l := filter (occ (t_slots _ _ t)) (seqN n)) in *.
  assert (ND : NoDup l). { apply NoDup_filter. unfold seqN. apply FinFun.Injective_map_NoDup; [intros a b; lia|apply seq_NoDup]. }
  destruct l as [|i0 l0] eqn:El; [cbn [length] in HE; lia|].
  assert (H0 : forall i, In i (i0 :: l0) -> exists e, geti (t_slots _ _ t) i = Some (Some e)).
  { intros i Hi. rewrite <- El in Hi. unfold l in Hi. apply filter_In in Hi. now apply occ_true. }
  destruct (H0 i0 (or_introl eq_refl)) as [e0 He0].
  destruct (slot_pos k t i0 e0 Hk He0) as (g0 & p0 & E0 & Hp0 & Hg0).
  destruct (Exists_dec (fun i => i / 15 <> g0) (i0 :: l0)) as [HX|HX].
  { intro x. destruct (N.eq_dec (x / 15) g0); [right|left]; auto. }
  - apply Exists_exists in HX. destruct HX as (i & Hi & Hne). destruct (H0 i Hi) as [e He].
    destruct (slot_pos k t i e Hk He) as (g & p & E & Hp & Hg).
    exists g0, p0, e0, g, p, e. subst i0 i. repeat split; auto.
    intro Hgg. apply Hne. subst g. unfold slot_index. cbn [kd_S k15]. lia.
  - exfalso.
    assert (Hinc : incl (i0 :: l0) (range (g0 * 15) 15)).
    { intros i Hi. apply In_range. destruct (N.eq_dec (i / 15) g0) as [Hd|Hd]; [lia|].
      exfalso. apply HX. apply Exists_exists. exists i. auto. }
    apply NoDup_incl_length in Hinc; [|exact ND]. rewrite <- HE in Hinc.
    assert (length (range (g0 * 15) 15) = 15%nat) by (vm_compute; reflexivity).
    lia.
Qed.

Lemma marked_one t k : Inv0 t -> kof t k -> 16 <= t_size _ _ t ->
  (forall e, In e (content t) -> crowd (fst e)) ->
  exists gi p e, p < 15 /\ geti (t_slots _ _ t) (slot_index k15 gi p) = Some (Some e)
    /\ marked t gi p = true.
Proof.
  intros I Hk Hs HC. destruct (two_groups t k I Hk Hs)
    as (g1 & p1 & e1 & g2 & p2 & e2 & Hne & Hp1 & Hp2 & Hg1 & Hg2 & H1 & H2).
  destruct Hk as (Ha & Hm & _ & Hb & _).
  destruct (iv_alloc _ _ _ _ _ I Ha) as (k' & G & Hm' & _).
  assert (k' = k).
  { assert (E : 2 ^ k' = 2 ^ k) by (pose proof (pow2_pos k); pose proof (pow2_pos k'); lia).
    apply (N.pow_inj_r 2); auto. lia. }
  subst k'. pose proof (k_small k15 k15_laws k Hb) as H51.
  assert (HC1 : crowd (fst e1)) by (apply HC, In_elems; eauto).
  assert (HC2 : crowd (fst e2)) by (apply HC, In_elems; eauto).
  destruct (gv_chain _ _ _ _ _ _ _ G g1 p1 e1 Hg1 Hp1 H1) as (j1 & Hj1 & E1 & O1).
  destruct (gv_chain _ _ _ _ _ _ _ G g2 p2 e2 Hg2 Hp2 H2) as (j2 & Hj2 & E2 & O2).
  rewrite (crowd_home _ k HC1 H51) in E1, O1. rewrite (crowd_home _ k HC2 H51) in E2, O2.
  destruct HC1 as [_ R1]. destruct HC2 as [_ R2].
  assert (Hlen := gv_len _ _ _ _ _ _ _ G).
  assert (Hj : j1 <> j2) by (intros ->; congruence).
  destruct (N.lt_ge_cases j1 j2) as [Hlt|Hge].
  - exists g1, p1, e1. repeat split; auto. unfold TableOps.marked. rewrite H1.
    destruct (geti_lt (t_groups _ _ t) g1) as [g Hg]; [lia|]. rewrite Hg.
    rewrite R1, <- R2. apply (O2 j1); auto. now rewrite <- E1.
  - exists g2, p2, e2. repeat split; auto. unfold TableOps.marked. rewrite H2.
    destruct (geti_lt (t_groups _ _ t) g2) as [g Hg]; [lia|]. rewrite Hg.
    rewrite R2, <- R1. apply (O1 j2); [lia|]. now rewrite <- E2.
Qed.

(** The allocator grants everything that fits. *)
Definition big_alloc (n : N) : bool := n <=? 2 ^ 55.
Lemma big_sane : sane big_alloc.
Proof. intros n H. unfold big_alloc in H. lia. Qed.

Definition bins (x : N) : call N N := (big_alloc, OInsert N N x 0).
Definition bera (x : N) : call N N := (big_alloc, OErase N N x).

(** The state between two rounds. *)
Definition worn (k thr : N) (t : table) : Prop :=
  Inv0 t /\ kof t k /\ t_size _ _ t = 16 /\ t_thr _ _ t = thr /\ 16 <= thr /\ thr <= scap k15 k
  /\ t_mlf _ _ t = 224 /\ forall e, In e (content t) -> crowd (fst e).

Lemma thr_new k : 2 <= k -> k <= 51 -> 16 <= thr_of k15 224 k.
Proof.
  intros H H51. unfold thr_of. assert (4 <= 2 ^ k) by (change 4 with (2 ^ 2); apply pow2_le; lia).
  unfold scap, kMinCapacity. cbn [k15 kd_sent kd_S kd_W]. generalize dependent (2 ^ k). intros m Hm.
  replace (16 * 2 <? m * 15 - 1) with true by lia. lia.
Qed.

Lemma erase_half k thr t : worn k thr t -> exists x t1,
  step N N idhash N.eqb k15 big_alloc (OErase N N x) t = Ret t1 (RNum N N 1)
  /\ Inv0 t1 /\ kof t1 k /\ t_size _ _ t1 = 15 /\ t_thr _ _ t1 = thr - 1 /\ t_mlf _ _ t1 = 224
  /\ crowd x /\ (forall e, In e (content t1) -> crowd (fst e))
  /\ find N N idhash N.eqb k15 t1 x = Ok None.
Proof.
  intros (I & Hk & Hs & Ht & Hlo & Hhi & Hmlf & HC).
  destruct (marked_one t k I Hk ltac:(lia) HC) as (gi & p & e & Hp & He & Hmk).
  destruct (find_spec idhash N.eqb k15 k15_laws idlaw t (fst e) I)
      as [(gi' & p' & e' & Ef & Ha & Hp' & He' & Hkk)|[_ Habs]];
      [|exfalso; specialize (Habs _ _ He); rewrite N.eqb_refl in Habs; discriminate].
  destruct (iv_alloc _ _ _ _ _ I Ha) as (k' & G & _).
  assert (Egp : gi' = gi /\ p' = p).
  { apply (sidx_inj k15); auto. apply (gv_uniq _ _ _ _ _ _ _ G _ _ e' e); auto.
    rewrite N.eqb_sym; exact Hkk. }
  destruct Egp as [-> ->]. assert (e' = e) by congruence. subst e'.
  destruct (erase_slot_spec idhash N.eqb k15 k15_laws t gi p e I Ha Hp He)
      as (t1 & Ee & I1 & SG & Hsl & Hsz & _ & Ht1 & _).
  rewrite Hmk in Ht1. cbn [N.b2n] in Ht1. rewrite Ht in Ht1.
  pose proof (elems_seti_None _ _ _ He) as HPe. rewrite <- Hsl in HPe.
  assert (Hthr64 : thr < two64).
  { destruct Hk as (_ & _ & _ & Hb & _). pose proof (scap_le k15 k15_laws k).
    change (2 ^ 55) with 36028797018963968 in Hb. rewrite two64_eq. lia. }
  rewrite wsub_small in Ht1 by (auto; lia).
  exists (fst e), t1. split; [cbn [step]; unfold find_and_erase; rewrite Ef, Ee; reflexivity|].
  split; [exact I1|]. split; [apply (kof_geom k15 t t1 k); auto; rewrite Hsl; apply seti_length|].
  split; [lia|]. split; [exact Ht1|]. split; [destruct SG as (_ & _ & _ & ->); exact Hmlf|].
  split; [apply HC, In_elems; eauto|].
  split; [intros e' Hin; apply HC; eapply Permutation_in; [exact HPe|now right]|].
  destruct (find_spec idhash N.eqb k15 k15_laws idlaw t1 (fst e) I1)
      as [(gi1 & p1 & e1 & Ef1 & Ha1 & Hp1 & He1 & Hk1)|[E1 _]]; [exfalso|exact E1].
  rewrite Hsl in He1. destruct (N.eq_dec (slot_index k15 gi p) (slot_index k15 gi1 p1)) as [Ei|Hi].
  - rewrite <- Ei, geti_seti_eq in He1 by (eapply geti_Some_lt; eauto). discriminate.
  - rewrite geti_seti_neq in He1 by auto. apply Hi.
    apply (gv_uniq _ _ _ _ _ _ _ G _ _ e e1); auto.
Qed.

(** What remains of emplace_spec when the key is absent. *)
Lemma insert_half t1 t2 k thr x r i :
  Inv0 t2 -> kof t1 k -> t_size _ _ t1 = 15 -> t_thr _ _ t1 = thr -> 16 <= thr -> thr <= scap k15 k ->
  t_mlf _ _ t1 = 224 -> crowd x -> (forall e, In e (content t1) -> crowd (fst e)) ->
  emplace_impl N N idhash N.eqb k15 big_alloc false true r x 0 = Ret t2 (i, true) ->
  inserted idhash N.eqb k15 k15_laws t1 t2 x 0 i ->
  (exists o, step N N idhash N.eqb k15 big_alloc (OInsert N N x 0) r = Ret t2 o) /\ worn k thr t2.
Proof.
  intros I2 Hk Hs Ht Hlo Hhi Hm Hx HC E (_ & SG & Hi & Hsl & Hsz & Hth & _). split.
  - cbn [step]. rewrite E. unfold observe_ins. cbn [obind fst snd]. unfold entry_at. rewrite Hsl.
    rewrite geti_seti_eq by (eapply geti_Some_lt; eauto). eauto.
  - split; [exact I2|]. split; [apply (kof_geom k15 t1 t2 k); auto; rewrite Hsl; apply seti_length|].
    split; [lia|]. split; [destruct Hth as [->|(Hc & _)]; [exact Ht|discriminate Hc]|].
    split; [exact Hlo|]. split; [exact Hhi|]. split; [destruct SG as (_ & _ & _ & ->); exact Hm|].
    intros e Hin. rewrite Hsl in Hin. apply (Permutation_in _ (elems_seti_Some _ _ _ Hi)) in Hin.
    destruct Hin as [<-|Hin]; [exact Hx|auto].
Qed.

Lemma insert_stays t1 k thr x : Inv0 t1 -> kof t1 k -> t_size _ _ t1 = 15 -> t_thr _ _ t1 = thr ->
  16 <= thr -> thr <= scap k15 k -> t_mlf _ _ t1 = 224 -> crowd x ->
  (forall e, In e (content t1) -> crowd (fst e)) -> find N N idhash N.eqb k15 t1 x = Ok None ->
  exists t2, (exists o, step N N idhash N.eqb k15 big_alloc (OInsert N N x 0) t1 = Ret t2 o) /\ worn k thr t2.
Proof.
  intros I1 Hk Hs Ht Hlo Hhi Hm Hx HC Hf.
  destruct (emplace_spec idhash N.eqb k15 k15_laws idlaw big_alloc false t1 x 0 big_sane I1)
    as [(g1 & q1 & kv1 & Ef1 & _)|(_ & _ & [[Hn _]|(t1' & kk & HR & Hkk & I1' & Hem)])]; [congruence| |].
  - unfold need_grow in Hn. lia.
  - destruct HR as [[-> _]|[Hn _]]; [|unfold need_grow in Hn; lia].
    assert (kk = k) by (eapply (kof_inj k15); eauto). subst kk.
    destruct Hem as [(_ & _ & Hfull)|(t2 & i & E & Hins)]; [lia|].
    exists t2. eapply insert_half; eauto. apply Hins.
Qed.

Lemma insert_grows t1 k x : Inv0 t1 -> kof t1 k -> k < 51 -> t_size _ _ t1 = 15 -> t_thr _ _ t1 = 15 ->
  t_mlf _ _ t1 = 224 -> crowd x ->
  (forall e, In e (content t1) -> crowd (fst e)) -> find N N idhash N.eqb k15 t1 x = Ok None ->
  exists t2 thr, (exists o, step N N idhash N.eqb k15 big_alloc (OInsert N N x 0) t1 = Ret t2 o)
    /\ worn (k + 1) thr t2.
Proof.
  intros I1 Hk H51 Hs Ht Hm Hx HC Hf.
  assert (Hng : need_grow N N t1 = true) by (unfold need_grow; lia).
  assert (Hk1 : 1 <= k) by (destruct Hk as (_ & _ & H & _); exact H).
  assert (Hw : kl_w k15 k15_laws = 4) by reflexivity.
  destruct (emplace_spec idhash N.eqb k15 k15_laws idlaw big_alloc false t1 x 0 big_sane I1)
    as [(g1 & q1 & kv1 & Ef1 & _)|(_ & _ & [[Hn Hthrow]|(t1' & kk & HR & Hkk & I1' & Hem)])]; [congruence| |].
  - exfalso. pose proof (ctrl_capacity_kof k15 k15_laws t1 k Hk) as Ecc. rewrite Hw in Ecc.
    assert (E2 : wmul (2 ^ (k + 4)) 2 = 2 ^ (k + 5)).
    { replace (k + 5) with (k + 4 + 1) by lia. rewrite (N.pow_add_r 2 (k + 4) 1).
      assert (2 ^ (k + 4) <= 2 ^ 54) by (apply pow2_le; lia). assert (2 ^ 54 * 2 < two64) by reflexivity.
      rewrite wmul_small by lia. reflexivity. }
    assert (H63 : 2 ^ (k + 5) <= 2 ^ 63) by (apply pow2_le; lia).
    destruct (rehash_impl_spec idhash N.eqb k15 k15_laws idlaw big_alloc false t1 _ big_sane I1 H63)
      as (c & Ec & Hc & Hnc & Hsc & Hlo & [[Hgo _]|[(_ & Hal & _)|(_ & _ & Hok)]]).
    + rewrite Ecc in Hgo. assert (2 ^ (k + 4) < 2 ^ (k + 5)) by (apply pow2_lt; lia). lia.
    + assert (Hc55 : 2 ^ c <= 2 ^ 55).
      { apply pow2_le. destruct (N.le_gt_cases c (k + 5)) as [H|H]; [lia|].
        assert (2 ^ (k + 5) <= 2 ^ (c - 1)) by (apply pow2_le; lia).
        assert (2 ^ 5 <= 2 ^ (k + 5)) by (apply pow2_le; lia). change (2 ^ 5) with 32 in *.
        unfold kMinCapacity in Hlo. cbn [k15 kd_W] in Hlo. lia. }
      unfold big_alloc in Hal. lia.
    + unfold emplace_impl, find_or_insert in Hthrow. rewrite Hf, Hng in Hthrow.
      unfold grow_if_necessary in Hthrow. rewrite Ecc, E2 in Hthrow.
      destruct Hok as [(_ & nt & E & _)|(_ & E)]; rewrite E in Hthrow; [|discriminate].
      cbn [obind] in Hthrow.
      destruct (find_empty_to_insert _ _ _ _ _ _) as [[t9 [g9 p9]]|]; cbn [obind] in Hthrow; [|discriminate].
      destruct (construct_at _ _ _ _ _); discriminate.
  - destruct HR as [[_ Hn]|(_ & c & R & Hc & Hck & _ & Hsc & _)]; [congruence|].
    specialize (Hck k Hk). rewrite Hw in Hck.
    destruct R as (_ & Hk' & HP & Hs' & Ht' & Hm' & _). rewrite Hw in Hk', Ht'.
    replace (c - 4) with (k + 1) in Hk', Ht' by lia. rewrite Hm in Ht'.
    assert (kk = k + 1) by (eapply (kof_inj k15); eauto). subst kk.
    assert (Hthr : t_thr _ _ t1' <= scap k15 (k + 1)) by (rewrite Ht'; apply (thr_of_le k15); lia).
    pose proof (thr_new (k + 1) ltac:(lia) ltac:(lia)) as H16. rewrite <- Ht' in H16.
    destruct Hem as [(_ & E & _)|(t2 & i & E & Hins)]; [subst t1'; lia|].
    exists t2, (t_thr _ _ t1'). eapply (insert_half t1'); eauto.
    + apply Hins.
    + lia.
    + congruence.
    + intros e He. apply HC. eapply Permutation_in; eauto.
Qed.

(** Reaching a state by calls that never leave more than sixteen entries. *)
Definition gets (t : table) (calls : list (call N N)) (t' : table) : Prop :=
  Forall (fun c => fst c = big_alloc /\ match snd c with OInsert _ _ _ _ | OErase _ _ _ => True | _ => False end) calls
  /\ Forall (fun n => n <= 16) (sizes k15 calls t)
  /\ exists outs, run N N idhash N.eqb k15 calls t = Ok (outs, t').

Lemma gets_app t c1 t1 c2 t2 : gets t c1 t1 -> gets t1 c2 t2 -> gets t (c1 ++ c2) t2.
Proof.
  intros (F1 & S1 & o1 & R1) (F2 & S2 & o2 & R2). split; [now apply Forall_app|].
  clear F1 F2. revert t o1 S1 R1. induction c1 as [|[a o] c1 IH]; intros t o1 S1 R1.
  - cbn [run app] in *. injection R1 as <- <-. eauto.
  - cbn [run app sizes] in *. destruct (step N N idhash N.eqb k15 a o t) as [t'|t'|]; [| |discriminate].
    all: destruct (run N N idhash N.eqb k15 c1 t') as [[o' t'']|] eqn:E; [|discriminate];
      cbn [rbind] in R1; injection R1 as <- <-; inversion S1 as [|n l Hn Hl E1]; subst;
      destruct (IH t' o' Hl E) as (S3 & o3 & R3); rewrite R3; cbn [rbind]; split; [now constructor|eauto].
Qed.

Lemma round_gets k thr t : worn k thr t -> k < 51 \/ 16 < thr ->
  exists calls t', gets t calls t' /\
    (16 < thr -> worn k (thr - 1) t') /\ (thr = 16 -> exists thr', worn (k + 1) thr' t').
Proof.
  intros HW Hor. pose proof HW as (_ & _ & _ & _ & Hlo & Hhi & _).
  destruct (erase_half k thr t HW) as (x & t1 & Es & I1 & Hk1 & Hs1 & Ht1 & Hm1 & Hx & HC1 & Hf).
  assert (HG : forall t2 o, step N N idhash N.eqb k15 big_alloc (OInsert N N x 0) t1 = Ret t2 o ->
             t_size _ _ t2 = 16 -> gets t [bera x; bins x] t2).
  { intros t2 o E2 Hs2. split; [repeat constructor|]. unfold bera, bins. cbn [sizes run].
    rewrite Es. cbn [sizes run]. rewrite E2. cbn [sizes run rbind]. split; [|eauto].
    repeat constructor; lia. }
  destruct (N.eq_dec thr 16) as [E16|N16].
  - destruct (insert_grows t1 k x I1 Hk1 ltac:(lia) Hs1 ltac:(lia) Hm1 Hx HC1 Hf) as (t2 & thr' & [o E2] & HW2).
    exists [bera x; bins x], t2. split; [eapply HG; eauto; apply HW2|]. split; [lia|eauto].
  - destruct (insert_stays t1 k (thr - 1) x I1 Hk1 Hs1 Ht1 ltac:(lia) ltac:(lia) Hm1 Hx HC1 Hf) as (t2 & [o E2] & HW2).
    exists [bera x; bins x], t2. split; [eapply HG; eauto; apply HW2|]. split; [auto|lia].
Qed.

Lemma doubles k thr t : worn k thr t -> k < 51 ->
  exists calls t' thr', gets t calls t' /\ worn (k + 1) thr' t'.
Proof.
  intros HW Hk. pose proof HW as (_ & _ & _ & _ & Hlo & _).
  revert t HW. replace thr with (16 + (thr - 16)) by lia. induction (thr - 16) as [|d IH] using N.peano_ind; intros t HW.
  - destruct (round_gets k (16 + 0) t HW (or_introl Hk)) as (c & t' & G & _ & H).
    destruct (H eq_refl) as [thr' H']. eauto.
  - destruct (round_gets k (16 + N.succ d) t HW (or_introl Hk)) as (c & t' & G & H & _).
    specialize (H ltac:(lia)). replace (16 + N.succ d - 1) with (16 + d) in H by lia.
    destruct (IH t' H) as (c2 & t2 & thr' & G2 & H2). exists (c ++ c2), t2, thr'. split; auto.
    eapply gets_app; eauto.
Qed.

(** The first sixteen insertions. *)
Definition sixteen : list (call N N) := map bins (map (key 0 2) (seqN 16)).
Definition start : table := Eval vm_compute in result k15 sixteen new15.

Lemma start_gets : gets new15 sixteen start.
Proof.
  split; [|split].
  - unfold sixteen. apply Forall_forall. intros c H. apply in_map_iff in H. destruct H as (x & <- & _). split; [reflexivity|exact Logic.I].
  - apply Forall_forall. intros n H. apply N.leb_le.
    apply (proj1 (forallb_forall (fun n => n <=? 16) (sizes k15 sixteen new15)) ltac:(vm_compute; reflexivity) n H).
  - eexists. vm_compute. reflexivity.
Qed.

Lemma start_worn : worn 1 29 start.
Proof.
  assert (I : Inv0 start).
  { assert (B : built N N idhash N.eqb k15 start).
    { refine (run_built_new k15 sixteen (outs_of k15 sixteen new15) start eq_refl _ _).
      - unfold sixteen. apply Forall_forall. intros c H. apply in_map_iff in H. destruct H as (x & <- & _). exact big_sane.
      - vm_compute. reflexivity. }
    apply (built_Inv0 idhash N.eqb k15 k15_laws idlaw); auto. apply readable15. }
  split; [exact I|]. split; [vm_compute; repeat split; discriminate|]. split; [reflexivity|]. split; [reflexivity|].
  split; [discriminate|]. split; [vm_compute; discriminate|]. split; [reflexivity|].
  assert (H : forallb (fun e => (fst e <? 2 ^ 13) && (kd_reduce k15 (idhash (fst e)) =? kd_reduce k15 (idhash 2))) (content start) = true)
    by (vm_compute; reflexivity).
  intros e He. rewrite forallb_forall in H. specialize (H e He). cbv beta in H. unfold crowd.
  generalize dependent (kd_reduce k15 (idhash (fst e))). generalize (kd_reduce k15 (idhash 2)). generalize (2 ^ 13). intros. lia.
Qed.

Lemma churn_unbounded k : 1 <= k <= 51 -> exists calls t,
  gets new15 calls t /\ capacity N N k15 t = 15 * 2 ^ k - 1.
Proof.
  intros [H1 H51].
  assert (H : exists calls t thr, gets new15 calls t /\ worn k thr t).
  { revert H51. replace k with (1 + (k - 1)) by lia. induction (k - 1) as [|d IH] using N.peano_ind; intros H51.
    - exists sixteen, start, 29. split; [apply start_gets|apply start_worn].
    - destruct IH as (c & t & thr & G & HW); [lia|].
      destruct (doubles _ _ _ HW ltac:(lia)) as (c2 & t2 & thr2 & G2 & HW2).
      exists (c ++ c2), t2, thr2. split; [eapply gets_app; eauto|].
      replace (1 + N.succ d) with (1 + d + 1) by lia. exact HW2. }
  destruct H as (calls & t & thr & G & HW). exists calls, t. split; auto.
  rewrite (capacity_kof k15 k15_laws t k) by apply HW. unfold scap. cbn [k15 kd_sent kd_S]. lia.
Qed.

End Churn.
