(** Move construction with an allocator that differs from the source's. *)
From Coq Require Import NArith ZArith List Bool Lia Permutation.
From Coq Require Import ZifyBool ZifyNat ZifyN.
From Verif Require Import Base BaseFacts BitsModel BitsFacts ProberModel ProberFacts GroupModel GroupFacts
  TableModel TableInv TableFind TableInsert TableLoops TableCap TableOps IterModel IterFacts
  CopyModel CopyFacts MapSpec MapFacts RunModel Refine Progress ReachModel ReachFacts MapProps MapProps2
  TraceModel WitnessModel WitnessFacts ExampleFacts WitnessFacts2.
Import ListNotations.
Open Scope N_scope.

Section Move.

Context {K V : Type} (hash : K -> N) (keq : K -> K -> bool) (kd : kind) (L : klaws kd).
Context (LW : lawful hash keq).

Notation table := (table K V).
Notation S' := (kd_S kd).
Notation w := (kl_w kd L).
Notation Inv0 := (@TableInv.Inv0 K V hash keq kd L).

Definition move_i (i : N) (st : list (option (K * V)) * list (option (K * V)))
  : res (list (option (K * V)) * list (option (K * V))) :=
  let '(os, src) := st in
  match geti src i, geti os i with
  | Some (Some kv), Some None => Ok (seti os i (Some kv), seti src i None)
  | _, _ => Err EUndef
  end.

Lemma fold_move l : forall os src, NoDup l -> (forall i, In i l -> occ src i = true) ->
  (forall i, In i l -> geti os i = Some None) ->
  exists os' src', fold_res move_i l (os, src) = Ok (os', src')
    /\ length os' = length os /\ length src' = length src
    /\ (forall i, In i l -> geti os' i = geti src i /\ geti src' i = Some None)
    /\ (forall i, ~ In i l -> geti os' i = geti os i /\ geti src' i = geti src i).
Proof.
  induction l as [|i l IH]; intros os src Hnd Hocc Hn.
  - exists os, src. cbn [fold_res]. split; [reflexivity|]. split; [reflexivity|]. split; [reflexivity|].
    split; [intros i []|auto].
  - inversion Hnd as [|? ? Hni Hnd']; subst. cbn [fold_res].
    destruct (proj1 (occ_true _ _) (Hocc i (or_introl eq_refl))) as [kv Hi].
    unfold move_i at 1. rewrite Hi, (Hn i (or_introl eq_refl)). cbn [rbind].
    destruct (IH (seti os i (Some kv)) (seti src i None)) as (os' & src' & E & H1 & H2 & H3 & H4); auto.
    + intros j Hj. specialize (Hocc j (or_intror Hj)). apply occ_true in Hocc. destruct Hocc as [kv' Hkv'].
      apply occ_true. exists kv'. rewrite geti_seti_neq by congruence. exact Hkv'.
    + intros j Hj. rewrite geti_seti_neq by congruence. apply Hn. now right.
    + exists os', src'. rewrite seti_length in H1, H2. split; auto. split; auto. split; auto. split.
      * intros j [<-|Hj].
        -- destruct (H4 i Hni) as [-> ->]. rewrite Hi. split; apply geti_seti_eq.
           ++ eapply geti_Some_lt. apply (Hn i). now left.
           ++ eapply geti_Some_lt. exact Hi.
        -- destruct (H3 j Hj) as [-> ->]. split; auto. apply geti_seti_neq. congruence.
      * intros j Hj. assert (Hj' : ~ In j l) by (intros Hl; apply Hj; now right).
        assert (j <> i) by (intros ->; apply Hj; now left).
        destruct (H4 j Hj') as [-> ->]. rewrite !geti_seti_neq by congruence. auto.
Qed.

Lemma move_all k gs sl : TableInv.gsinv hash keq kd L k gs sl ->
  exists src, each_group kd _ (move_one K V kd) gs 0 (repeat None (length sl), sl) = Ok (sl, src)
    /\ forallb is_none src = true.
Proof.
  intros G. rewrite (each_group_fold hash keq kd L (move_one K V kd) move_i
                       (fun _ _ _ => eq_refl) k gs sl _ G).
  assert (INS : forall i kv, geti sl i = Some (Some kv) -> In i (filter (occ sl) (seqN (2 ^ k * S')))).
  { intros i kv Hi. apply filter_In. split.
    - apply seqN_In. apply geti_Some_lt in Hi.
      rewrite (gv_slen _ _ _ _ _ _ _ G) in Hi. unfold TableInv.scap in Hi. destruct (kd_sent kd); lia.
    - apply occ_true. eauto. }
  destruct (fold_move (filter (occ sl) (seqN (2 ^ k * S'))) (repeat None (length sl)) sl)
    as (os' & src' & E & H1 & H2 & H3 & H4).
  - apply NoDup_filter, seqN_NoDup.
  - intros i Hi. apply filter_In in Hi. tauto.
  - intros i Hi. apply filter_In in Hi. destruct Hi as [_ Hi]. apply occ_true in Hi.
    destruct Hi as [kv Hi]. apply geti_repeat. eapply geti_Some_lt; eauto.
  - rewrite repeat_length in H1. exists src'. split.
    + rewrite E. do 2 f_equal. apply geti_ext. intros i.
      destruct (N.lt_ge_cases i (N.of_nat (length sl))) as [Hlt|Hge]; [|rewrite !geti_ge; auto; lia].
      destruct (geti_lt sl i Hlt) as [[kv|] Hi].
      * apply H3. eapply INS. exact Hi.
      * destruct (H4 i) as [-> _]; [|now rewrite geti_repeat].
        intros Hin. apply filter_In in Hin. destruct Hin as [_ Ho]. unfold occ in Ho. rewrite Hi in Ho. discriminate.
    + apply elems_nil_all_none. destruct (elems src') as [|e r] eqn:Ee; auto. exfalso.
      assert (Hin : In e (elems src')) by (rewrite Ee; now left). apply In_elems in Hin. destruct Hin as [i Hi].
      destruct (in_dec N.eq_dec i (filter (occ sl) (seqN (2 ^ k * S')))) as [Hl|Hl].
      * destruct (H3 i Hl) as [_ H]. congruence.
      * destruct (H4 i Hl) as [_ H]. rewrite Hi in H. symmetry in H. apply Hl. eapply INS. exact H.
Qed.

(** The outcomes: the allocator refuses; the new capacity differs and the elements are
    inserted; the capacities agree and the elements are moved but not counted. *)
Lemma move_alloc_cases alloc t : alloc_ok alloc -> Inv0 t -> t_size _ _ t <> 0 ->
  exists c, w + 1 <= c /\
  (move_construct_alloc K V hash kd alloc t = Throw (empty_table K V kd 224, t)
   \/ (2 ^ c <> ctrl_capacity K V kd t /\ exists t',
         move_construct_alloc K V hash kd alloc t = Ret (t', empty_table K V kd (t_mlf _ _ t)) tt
         /\ Inv0 t' /\ kof kd t' (c - w) /\ t_size _ _ t' = t_size _ _ t
         /\ Permutation (elems (t_slots _ _ t')) (elems (t_slots _ _ t)))
   \/ (2 ^ c = ctrl_capacity K V kd t /\ exists t',
         move_construct_alloc K V hash kd alloc t = Ret (t', empty_table K V kd (t_mlf _ _ t)) tt
         /\ t_alloc _ _ t' = true /\ t_groups _ _ t' = t_groups _ _ t
         /\ t_slots _ _ t' = t_slots _ _ t /\ t_size _ _ t' = 0
         /\ t_gmask _ _ t' = t_gmask _ _ t /\ t_shift _ _ t' = t_shift _ _ t)).
Proof.
  intros HA I Hne.
  assert (Ha : t_alloc _ _ t = true).
  { destruct (t_alloc _ _ t) eqn:E; auto. exfalso. apply Hne.
    rewrite (iv_unalloc _ _ _ _ _ I E). reflexivity. }
  destruct (Inv0_kof hash keq kd L t I Ha) as [k HK].
  destruct (reserve_for_insert_spec (V := V) hash keq kd L alloc (t_size _ _ t) 224 HA ltac:(lia)) as (c & Hc & Hn & H).
  assert (Ew : wmul (t_size _ _ t) 256 = t_size _ _ t * 256).
  { apply wmul_small. pose proof (size_small hash keq kd L t I).
    change (2 ^ 55) with 36028797018963968 in *. unfold two64. lia. }
  rewrite Ew in Hn. exists c. split; auto.
  unfold move_construct_alloc. replace (t_size _ _ t =? 0) with false by lia. cbn [negb].
  change kDefaultMaxLoadFactor with 224.
  destruct H as [[Ea E]|(nt & E & In' & HKn & Hs0 & Hsl & Ht & Hml & Hpr)]; rewrite E; [left; reflexivity|right].
  rewrite (ctrl_capacity_kof kd L nt _ HKn). replace (c - w + w) with c by lia.
  destruct (N.eqb_spec (2 ^ c) (ctrl_capacity K V kd t)) as [Eq|Ne].
  - right. split; auto.
    rewrite (ctrl_capacity_kof kd L t _ HK) in Eq.
    apply N.pow_inj_r in Eq; [|lia]. assert (k = c - w) by lia. subst k.
    destruct (iv_alloc _ _ _ _ _ I Ha) as (k2 & G & Hgm & Hsh).
    assert (k2 = c - w).
    { destruct HK as (_ & Hm2 & _). apply (N.pow_inj_r 2); [lia|].
      pose proof (pow2_pos k2). pose proof (pow2_pos (c - w)). lia. }
    subst k2.
    assert (El : t_slots _ _ nt = repeat None (length (t_slots _ _ t))).
    { rewrite Hsl. f_equal. pose proof (gv_slen _ _ _ _ _ _ _ G). lia. }
    destruct (move_all (c - w) _ _ G) as (src & Em & En). rewrite El, Em, En.
    eexists. split; [reflexivity|].
    cbn [t_alloc t_groups t_slots t_size t_gmask t_shift t_mlf].
    destruct HKn as (K1 & K2 & K3 & K4 & K5). split; auto. split; auto. split; auto. split; auto.
    destruct (iv_alloc _ _ _ _ _ In' K1) as (k3 & G3 & Hgm3 & Hsh3).
    assert (k3 = c - w).
    { apply (N.pow_inj_r 2); [lia|]. pose proof (pow2_pos k3). pose proof (pow2_pos (c - w)). lia. }
    subst k3. split; congruence.
  - left. split; auto. destruct (iv_alloc _ _ _ _ _ I Ha) as (k' & G & Hmk & Hsk).
    rewrite (each_group_fold hash keq kd L (transfer K V hash kd) (transfer_i hash kd)
               (transfer_transfer_i hash kd) k' _ _ _ G).
    set (l := filter (occ (t_slots _ _ t)) (seqN (2 ^ k' * S'))).
    assert (Hlen : N.of_nat (length l) = t_size _ _ t).
    { rewrite (iv_size _ _ _ _ _ I).
      rewrite <- (map_length Some (elems (t_slots _ _ t))).
      rewrite (elems_occ _ (2 ^ k' * S')), map_length; [reflexivity|].
      rewrite (gv_slen _ _ _ _ _ _ _ G). unfold TableInv.scap. destruct (kd_sent kd); lia. }
    pose proof HKn as (K1 & K2 & K3 & K4 & K5).
    destruct (fold_transfer hash keq kd L LW (c - w) l nt (t_slots _ _ t)) as [Hok _]; auto.
    + apply NoDup_filter, seqN_NoDup.
    + intros i Hi. apply filter_In in Hi. tauto.
    + intros. eapply gv_uniq; eauto.
    + intros i e _ j kv Hj. rewrite Hsl in Hj. apply geti_repeat_inv in Hj. discriminate.
    + destruct Hok as (nt' & os' & E' & I' & SG & Ht' & Hs' & Hp & Hpr' & Hl' & H3 & H4).
      { rewrite Hs0, Hlen. cbn. apply (fit_scap kd L _ 224); auto; lia. }
      rewrite E'.
      assert (Hnone : elems os' = []).
      { destruct (elems os') as [|e r] eqn:Ee; auto. exfalso.
        assert (Hin : In e (elems os')) by (rewrite Ee; now left).
        apply In_elems in Hin. destruct Hin as [i Hi].
        destruct (in_dec N.eq_dec i l) as [Hin|Hni].
        - rewrite H3 in Hi by auto. discriminate.
        - pose proof Hi as Hi2. rewrite H4 in Hi2 by auto. apply Hni. apply filter_In. split.
          + apply seqN_In. apply geti_Some_lt in Hi2. rewrite (gv_slen _ _ _ _ _ _ _ G) in Hi2.
            unfold TableInv.scap in Hi2. destruct (kd_sent kd); lia.
          + apply occ_true. eauto. }
      rewrite (proj2 (elems_nil_all_none os') Hnone).
      exists nt'. split; auto. split; auto. split.
      { destruct SG as (Ga & Gm & Gs & Gl).
        assert (Ha' : t_alloc _ _ nt' = true) by congruence.
        destruct (Inv0_kof hash keq kd L nt' I' Ha') as [k2 HK2].
        assert (k2 = c - w).
        { destruct HK2 as (_ & Hm2 & _). apply (N.pow_inj_r 2); [lia|].
          pose proof (pow2_pos k2). pose proof (pow2_pos (c - w)). lia. }
        subst k2. exact HK2. } split; [lia|].
      rewrite Hnone, app_nil_r, Hsl, elems_repeat_None in Hp. exact Hp.
Qed.

End Move.

Section Built.

Context {K V : Type} (hash : K -> N) (keq : K -> K -> bool).
Context (LW : lawful hash keq) (kd : kind) (HK : group_kind kd).
Notation built := (built K V hash keq kd).
Notation traverse := (traverse K V kd).
Notation lookup := (lookup K V hash keq kd).
Notation capacity := (capacity K V kd).

Lemma built_move_alloc_spec t t1 t2 alloc past : built t -> sane alloc ->
  move_construct_alloc K V hash kd alloc t = Ret (t1, t2) tt ->
  (capacity t1 <> capacity t \/ t_size _ _ t = 0) ->
  t_size _ _ t1 = t_size _ _ t
  /\ (exists l l', traverse past t = Ok l /\ traverse past t1 = Ok l' /\ Permutation l' l)
  /\ t_size _ _ t2 = 0 /\ traverse past t2 = Ok [].
Proof.
  intros B HA E Hor. destruct (kind_laws kd HK) as [L R].
  pose proof (built_Inv0 hash keq kd L LW t R B) as I.
  assert (B1 : built t1) by (eapply built_move_alloc; eauto).
  assert (B2 : built t2) by exact (built_move_alloc_from K V hash keq kd alloc t t1 t2 B HA E Hor).
  rewrite (built_traverse hash keq LW kd HK t past B), (built_traverse hash keq LW kd HK t1 past B1),
    (built_traverse hash keq LW kd HK t2 past B2).
  destruct (N.eq_dec (t_size _ _ t) 0) as [Hz|Hz].
  - unfold move_construct_alloc in E. rewrite Hz in E. cbn in E. injection E as <- <-.
    split; [now rewrite Hz|]. split.
    + eexists _, _. split; [reflexivity|]. split; [reflexivity|].
      rewrite (size0_content hash keq kd L t I Hz). cbn. constructor.
    + split; reflexivity.
  - destruct (move_alloc_cases hash keq kd L LW alloc t HA I Hz)
      as (c & Hc & [H|[(Hne & t' & H & I1 & HK1 & Hs & HP)|(He & t' & H & Ha & Hg & Hsl & Hs & Hgm & Hrest)]]);
      rewrite H in E; try discriminate; injection E as <- <-.
    + split; auto. split; [eexists _, _; eauto|]. split; reflexivity.
    + exfalso. destruct Hor as [Hne|]; [|lia]. apply Hne.
      assert (Hat : t_alloc _ _ t = true).
      { destruct (t_alloc _ _ t) eqn:Ea; auto. exfalso. apply Hz.
        now rewrite (iv_unalloc _ _ _ _ _ I Ea). }
      unfold TableModel.capacity, group_capacity. now rewrite Ha, Hat, Hgm.
Qed.

(** Of equal capacity: the new map looks empty although lookups find the elements. *)
Lemma built_move_alloc_equal t t1 t2 alloc past : built t -> sane alloc -> t_size _ _ t <> 0 ->
  move_construct_alloc K V hash kd alloc t = Ret (t1, t2) tt -> capacity t1 = capacity t ->
  t_size _ _ t1 = 0 /\ traverse past t1 = Ok []
  /\ (forall k, lookup t1 k = lookup t k)
  /\ t_size _ _ t2 = 0 /\ traverse past t2 = Ok [].
Proof.
  intros B HA Hz E Hcap. destruct (kind_laws kd HK) as [L R].
  pose proof (built_Inv0 hash keq kd L LW t R B) as I.
  assert (Hat : t_alloc _ _ t = true).
  { destruct (t_alloc _ _ t) eqn:Ea; auto. exfalso. apply Hz.
    now rewrite (iv_unalloc _ _ _ _ _ I Ea). }
  destruct (move_alloc_cases hash keq kd L LW alloc t HA I Hz)
    as (c & Hc & [H|[(Hne & t' & H & I1 & HK1 & Hs & HP)|(He & t' & H & Ha & Hg & Hsl & Hs & Hgm & Hsh)]]);
    rewrite H in E; try discriminate; injection E as <- <-.
  - exfalso. pose proof (ctrl_capacity_kof kd L _ _ HK1) as Ecc.
    replace (c - kl_w kd L + kl_w kd L) with c in Ecc by lia.
    assert (Ha1 : t_alloc _ _ t' = true) by apply HK1.
    destruct (N.lt_total (ctrl_capacity K V kd t) (ctrl_capacity K V kd t')) as [Hl|[Hl|Hl]]; [|congruence|].
    + pose proof (capacity_lt hash keq kd L t t' I I1 Hl Ha1). lia.
    + pose proof (capacity_lt hash keq kd L t' t I1 I Hl Hat). lia.
  - split; auto. split; [|split; [|split; [reflexivity|]]].
    + unfold CopyModel.traverse. destruct (kd_sent kd).
      * unfold traverse15, begin15. rewrite Hs. cbn. reflexivity.
      * unfold traverse16, begin16. rewrite Hs. cbn. unfold end16. now rewrite N.eqb_refl.
    + intros k. unfold TableModel.lookup, find, index_for_hash. rewrite Hgm, Hsh.
      assert (EF : forall f ch pr, find_loop K V keq kd f t' k ch pr = find_loop K V keq kd f t k ch pr).
      { induction f as [|f IH]; intros; cbn [find_loop]; auto. rewrite Hg, Hsl, Hgm.
        destruct (geti _ _); auto. destruct (scan_keys _ _ _ _ _ _ _ _) as [[]|]; auto.
        destruct (negb _); auto. destruct (next_bucket _ _) as [pr' more]. destruct more; auto. }
      rewrite EF. now rewrite Hsl.
    + unfold CopyModel.traverse. destruct (kd_sent kd).
      * unfold traverse15, begin15. cbn. reflexivity.
      * unfold traverse16, begin16. cbn. unfold end16. reflexivity.
Qed.

End Built.

(** Ten entries moved into a table of the same size: size() is 0, nothing is visited, and
    erasing an entry makes size() 2^64 - 1. *)
Lemma small_move kd : group_kind kd ->
  built N N idhash N.eqb kd (small kd) /\ sane roomy_alloc /\ t_size _ _ (small kd) = 10
  /\ exists t1 t2 t3 r v, move_construct_alloc N N idhash kd roomy_alloc (small kd) = Ret (t1, t2) tt
    /\ t_size _ _ t1 = 0 /\ traverse N N kd 0 t1 = Ok []
    /\ lookup N N idhash N.eqb kd t1 3 = Ok (Some (3, v))
    /\ step N N idhash N.eqb kd roomy_alloc (OErase N N 3) t1 = Ret t3 r
    /\ t_size _ _ t3 = 18446744073709551615.
Proof.
  intros H. split; [exact (small_built kd H)|]. split; [exact roomy_sane|].
  destruct H as [-> | ->]; (split; [vm_compute; reflexivity|]); eexists _, _, _, _, _;
    (split; [vm_compute; reflexivity|]); (split; [reflexivity|]); (split; [vm_compute; reflexivity|]);
    (split; [vm_compute; reflexivity|]); (split; [vm_compute; reflexivity|]); reflexivity.
Qed.

(** 35 entries in a table of 239 or 256: the new table is smaller. *)
Lemma busy_move : (exists t1 t2,
    move_construct_alloc N N idhash k15 roomy_alloc ex15 = Ret (t1, t2) tt
    /\ t_size _ _ t1 = 35 /\ capacity N N k15 t1 < capacity N N k15 ex15 /\ t_size _ _ t2 = 0)
  /\ exists t1 t2,
    move_construct_alloc N N idhash k16 roomy_alloc ex16 = Ret (t1, t2) tt
    /\ t_size _ _ t1 = 35 /\ capacity N N k16 t1 < capacity N N k16 ex16 /\ t_size _ _ t2 = 0.
Proof.
  split; eexists _, _; (split; [vm_compute; reflexivity|]); (split; [reflexivity|]);
    (split; [vm_compute; reflexivity|]); reflexivity.
Qed.
