(** The flat16 map: the member functions and the abstract map. *)
From Coq Require Import NArith ZArith List Bool Lia Permutation.
From Coq Require Import ZifyBool ZifyNat ZifyN.
From Verif Require Import Base BaseFacts BitsModel BitsFacts GroupModel GroupFacts TableModel TableInv
  MapSpec MapFacts FallbackFacts RobinFacts Flat16Model Flat16Spec Flat16Facts Flat16Ops.
Import ListNotations.
Open Scope N_scope.
Ltac Zify.zify_post_hook ::= Z.div_mod_to_equations.

Lemma wsub_0_eq x y : x < two64 -> y < two64 -> wsub x y = 0 -> x = y.
Proof. unfold wsub, w64, two64. intros. lia. Qed.

Lemma wsub_wsub x y z : x < two64 -> y < two64 -> z < two64 -> y + z < two64 ->
  wsub (wsub x y) z = wsub x (y + z).
Proof. unfold wsub, w64, two64. intros. lia. Qed.

Section Refine.

Context {K V : Type} (hash : K -> N) (keq : K -> K -> bool) (mix : N -> N) (LW : tame hash keq).

Notation slots := (list (option (K * V))).
Notation fmap := (fmap K V).
Notation C_ := (f_ctrls K V).
Notation S_ := (f_slots K V).
Notation oracle := (bool -> N -> bool).
Notation core := (@core K V hash mix).
Notation home := (home hash).
Notation absent := (absent keq).
Notation f_near := (f_near K V hash).
Notation f_tidy := (f_tidy K V).
Notation f_roomy := (f_roomy K V).
Notation content := (@content K V).
Notation tidied := (@tidied K V).

Lemma core_55 b t : core b t -> b <= 55.
Proof. intros X. pose proof (co_b _ _ _ _ X). lia. Qed.

Lemma absent_iff (t : fmap) k : absent (S_ t) k <-> has K V keq k (content t) = false.
Proof.
  rewrite has_false. split.
  - intros H e He. apply In_elems in He. destruct He as (i & E). rewrite (keq_sym_eq hash keq LW). eauto.
  - intros H j kv E. rewrite (keq_sym_eq hash keq LW). apply H. apply In_elems. eauto.
Qed.

Lemma absent_perm (t t' : fmap) k : Permutation (content t) (content t') -> absent (S_ t) k -> absent (S_ t') k.
Proof. intros P H. apply absent_iff. apply absent_iff in H. now rewrite <- (has_perm keq _ _ _ P). Qed.

(** ** find_and_prepare_insert for a key that is not present *)

(** One slot is reserved. *)
Definition spoken (t : fmap) : Prop :=
  nodel (C_ t) /\ f_left _ _ t = wsub (wsub (f_threshold K V t) (f_size _ _ t)) 1.

Lemma core_use_empty b t : core b t -> core b (f_use_empty K V t).
Proof. intros X. destruct X. split; fcbn; auto. Qed.

Lemma prep_stop (alloc : oracle) b t k fuel last m w1 : core b t ->
  f_search K V hash keq mix t k = Ok (FStop last m) -> f_left _ _ t <> 0 ->
  w1 < nw b -> last = win b (home b k) w1 -> m = match_empty (window (C_ t) last) -> m <> 0 ->
  (forall w', w' < w1 -> shut (C_ t) (win b (home b k) w')) ->
  exists t' i, f_prepare K V hash keq mix (S fuel) alloc k t = Ret t' (i, false)
    /\ core b t' /\ content t' = content t /\ C_ t' = C_ t /\ spot b (C_ t') (S_ t') (home b k) i
    /\ (tidied t -> spoken t') /\ f_mlf _ _ t' = f_mlf _ _ t.
Proof.
  intros X ES HL Hw El Em Nm HS. pose proof (core_55 _ _ X) as Hb. pose proof (co_b2 _ _ _ _ X) as H2.
  pose proof (co_fc _ _ _ _ X) as XF. pose proof (co_mask _ _ _ _ X) as XM.
  cbn [f_prepare]. rewrite ES. unfold f_need_grow. destruct (N.leb_spec (f_left K V t) 0); [lia|].
  rewrite (f_home_eq hash b) by auto. pose proof (home_lt' hash b H2 Hb k) as Hh.
  assert (HW : win b (home b k) w1 < 2 ^ b) by now apply win_lt.
  destruct (match_empty_bsf hash mix b H2 Hb _ _ last XF ltac:(now rewrite <- Em)) as (Hp & Ep). cbv zeta in *.
  rewrite <- Em in Hp, Ep.
  assert (USE : spot b (C_ t) (S_ t) (home b k) (f_round K V t (wadd last (bsf m)))).
  { rewrite El in *. apply (spot_round hash mix b H2 Hb t _ w1 (bsf m) fEmpty); auto. }
  assert (UT : tidied t -> spoken (f_use_empty K V t)).
  { intros [D L]. split; [exact D|]. fcbn. rewrite L. reflexivity. }
  destruct (N.eqb_spec last (home b k)) as [E|E]; cbn [negb].
  - rewrite (f_group_ok hash mix b H2 Hb _ _ last XF) by (rewrite E; auto).
    destruct (N.eqb_spec (match_deleted (window (C_ t) last)) 0) as [E0|E0]; cbn [negb].
    + eexists _, _. split; [reflexivity|]. split; [now apply core_use_empty|]. auto.
    + destruct (match_deleted_bsf hash mix b H2 Hb _ _ last XF ltac:(rewrite E; auto) E0) as (Hq & Eq). cbv zeta in *.
      eexists _, _. split; [reflexivity|]. split; auto. split; auto. split; auto. split.
      * rewrite El in *. apply (spot_round hash mix b H2 Hb t _ w1 _ fDeleted); auto.
      * split; auto. intros [D _]. now apply D in Eq.
  - assert (w1 <> 0) by (intros ->; rewrite win_0 in El by auto; auto).
    destruct (deleted_loop_spec hash mix b H2 Hb t (home b k) w1 XF XM Hh Hw HS (f_fuel K V t) 0) as (r & A & B).
    { lia. }
    { pose proof (fuel_ok hash mix b H2 Hb t XF). lia. }
    rewrite win_0 in A by auto. rewrite <- El in A. rewrite A. destruct r as [i|].
    + destruct B as [B1 B2]. eexists _, _. split; [reflexivity|]. split; auto. split; auto. split; auto. split; auto.
      split; auto. intros [D _]. now apply D in B2.
    + eexists _, _. split; [reflexivity|]. split; [now apply core_use_empty|]. auto.
Qed.

(** What comes out of growing. *)
Definition grown (b : N) (t : fmap) (r : out fmap unit) : Prop :=
  (exists t', r = Throw t')
  \/ exists b' t', r = Ret t' tt /\ core b' t' /\ tidied t' /\ 2 ^ b' = 2 * 2 ^ b
       /\ Permutation (content t) (content t') /\ f_mlf _ _ t' = f_mlf _ _ t.

Lemma grow_spec alloc b t : f_sane alloc -> core b t -> f_tidy t -> grown b t (f_grow K V hash mix alloc t).
Proof.
  intros HA X HT. pose proof (core_bound _ _ _ _ X) as HB. pose proof (core_size_le _ _ _ _ X) as HZ.
  unfold f_grow. unfold Flat16Spec.f_tidy in HT. rewrite (core_cap _ _ _ _ X) in *.
  replace ((32 <? 2 ^ b) && (2 ^ b / 8 <=? f_slot_deleted K V t)) with false by lia.
  rewrite wmul_small by (unfold two64; lia).
  destruct (rehash_spec hash mix false true alloc b t (2 ^ b * 2) X) as [(t' & E)|[(? & _)|(b' & t' & E & EC & Hn & X' & T' & P' & M' & _)]].
  - lia.
  - intros e _ He. lia.
  - exact HA.
  - left. eauto.
  - discriminate.
  - right. exists b', t'. split; auto. split; auto. split; auto. split; [|auto].
    unfold f_calc_capacity, fMinCapacity in EC. replace (N.max (2 ^ b * 2) 4) with (2 ^ b * 2) in EC by lia.
    replace (is_pow2 (2 ^ b * 2)) with true in EC; [injection EC as EC; lia|].
    symmetry. apply is_pow2_spec; [lia|unfold two64; lia|]. exists (b + 1). rewrite N.pow_add_r. reflexivity.
Qed.

Lemma size_perm b b' t t' : core b t -> core b' t' -> Permutation (content t) (content t') ->
  f_size _ _ t' = f_size _ _ t.
Proof.
  intros X X' P. rewrite (co_size _ _ _ _ X), (co_size _ _ _ _ X').
  f_equal. symmetry. exact (Permutation_length P).
Qed.

(** In a map that has just grown. *)
Lemma prep_grown alloc b t k fuel : f_sane alloc -> core b t -> tidied t -> absent (S_ t) k ->
  f_size _ _ t + 2 <= 2 ^ b ->
  (exists t', f_prepare K V hash keq mix (S (S fuel)) alloc k t = Throw t')
  \/ exists b' t' i, f_prepare K V hash keq mix (S (S fuel)) alloc k t = Ret t' (i, false)
       /\ core b' t' /\ Permutation (content t) (content t') /\ spot b' (C_ t') (S_ t') (home b' k) i
       /\ spoken t' /\ f_mlf _ _ t' = f_mlf _ _ t /\ (f_left _ _ t <> 0 -> b' = b).
Proof.
  intros HA X HT HK Hz. pose proof (core_55 _ _ X) as Hb. pose proof (co_b2 _ _ _ _ X) as H2.
  destruct (search_spec hash keq mix LW b H2 Hb t k (co_fc _ _ _ _ X) (co_mask _ _ _ _ X) (co_chain _ _ _ _ X))
    as (r & ES & HR).
  assert (HV : exists w, w < nw b /\ ~ shut (C_ t) (win b (home b k) w)).
  { eapply (seen hash mix); eauto; [apply HT|]. apply home_lt'; auto. }
  destruct r as [i|last m|].
  - exfalso. destruct HR as (kv & E & EK). rewrite (HK _ _ E) in EK. discriminate.
  - destruct HR as (w1 & Hw & El & Em & Nm & HS & _).
    destruct (N.eq_dec (f_left _ _ t) 0) as [E0|E0].
    + (* it grows once more *)
      pose proof (core_bound _ _ _ _ X) as HB. destruct HT as [HD HL]. destruct (core_thr _ _ _ _ X) as [T1 T2].
      assert (EZ : f_threshold K V t = f_size _ _ t).
      { apply wsub_0_eq; try (unfold two64; lia). }
      assert (HTd : f_tidy t).
      { unfold Flat16Spec.f_tidy. rewrite (core_cap _ _ _ _ X). destruct (N.le_gt_cases (2 ^ b) 32); [now left|right].
        unfold f_slot_deleted, f_slot_used. rewrite E0, wsub_0 by (unfold two64; lia).
        rewrite EZ, wsub_small by (unfold two64; lia). rewrite N.sub_diag. lia. }
      cbn [f_prepare]. rewrite ES. unfold f_need_grow. rewrite E0. replace (0 <=? 0) with true by reflexivity.
      destruct (grow_spec alloc b t HA X HTd) as [(t' & ->)|(b1 & t1 & -> & X1 & HT1 & HB1 & P1 & M1)];
        [left; exists t'; reflexivity|].
      cbn [obind].
      pose proof (core_55 _ _ X1) as Hb1. pose proof (co_b2 _ _ _ _ X1) as H21.
      pose proof (size_perm _ _ _ _ X X1 P1) as EZ1.
      destruct (search_spec hash keq mix LW b1 H21 Hb1 t1 k (co_fc _ _ _ _ X1) (co_mask _ _ _ _ X1) (co_chain _ _ _ _ X1))
        as (r1 & ES1 & HR1).
      destruct r1 as [i|last1 m1|].
      * exfalso. destruct HR1 as (kv & E & EK). rewrite (absent_perm _ _ _ P1 HK _ _ E) in EK. discriminate.
      * destruct HR1 as (w2 & Hw2 & El2 & Em2 & Nm2 & HS2 & _).
        destruct (prep_stop alloc b1 t1 k fuel last1 m1 w2 X1 ES1) as (t' & i & A & X' & P' & _ & SP & SPK & MM); auto.
        { destruct HT1 as [_ L1]. rewrite L1, EZ1. pose proof (core_bound _ _ _ _ X1) as HB1'.
          destruct (core_thr _ _ _ _ X1) as [T3 T4].
          assert (TG : f_size _ _ t < f_threshold K V t1).
          { rewrite T3, M1. pose proof (co_mlf _ _ _ _ X) as HM.
            assert (G : 2 * 2 ^ b * f_mlf _ _ t <= 2 ^ b1 * f_mlf _ _ t) by (rewrite HB1; apply N.le_refl).
            assert (G' : 4 * 13108 <= 2 ^ b * f_mlf _ _ t) by (apply N.mul_le_mono; lia).
            rewrite <- EZ, T1. revert G G'. rewrite <- N.mul_assoc. generalize (2 ^ b * f_mlf _ _ t), (2 ^ b1 * f_mlf _ _ t).
            intros. lia. }
          rewrite wsub_small by (unfold two64; lia). lia. }
        right. cbn [f_prepare] in A. rewrite ES1 in A |- *. exists b1, t', i. split; [exact A|].
        split; auto. rewrite P', MM, M1. split; auto. split; auto. split; auto. split; auto. lia.
      * exfalso. destruct HR1 as [HR1 _]. destruct (seen hash mix b1 t1 (home b1 k)) as (w & Hw' & NS); auto.
        { apply HT1. }
        { apply home_lt'; auto. }
        { rewrite EZ1. lia. }
    + destruct (prep_stop alloc b t k (S fuel) last m w1 X ES E0) as (t' & i & A & X' & P' & _ & SP & SPK & MM); auto.
      right. exists b, t', i. rewrite A. split; auto. split; auto. rewrite P'. auto 6.
  - exfalso. destruct HR as [HR _]. destruct HV as (w & Hw & NS). auto.
Qed.

(** The result for a new key. *)
Definition prepared (b : N) (t : fmap) (k : K) (r : out fmap (N * bool)) : Prop :=
  (exists t', r = Throw t')
  \/ exists b' t' i, r = Ret t' (i, false)
       /\ core b' t' /\ Permutation (content t) (content t') /\ spot b' (C_ t') (S_ t') (home b' k) i
       /\ (b' = b /\ C_ t' = C_ t \/ spoken t') /\ (tidied t -> spoken t') /\ f_mlf _ _ t' = f_mlf _ _ t
       /\ (tidied t -> f_mlf _ _ t = 32768 -> 2 * f_size _ _ t <= 2 ^ b ->
           2 ^ b' = if 2 * f_size _ _ t =? 2 ^ b then 2 * 2 ^ b else 2 ^ b).

Lemma default_thr b t : core b t -> f_mlf _ _ t = 32768 -> f_threshold K V t = 2 ^ b / 2.
Proof. intros X E. rewrite (proj1 (core_thr _ _ _ _ X)), E. lia. Qed.

Lemma half_pow b : 2 <= b -> 2 * (2 ^ b / 2) = 2 ^ b.
Proof.
  clear mix. intros H. replace b with ((b - 1) + 1) by lia. rewrite N.pow_add_r. change (2 ^ 1) with 2. lia.
Qed.

Lemma tidied_left b t : core b t -> tidied t -> f_mlf _ _ t = 32768 -> 2 * f_size _ _ t <= 2 ^ b ->
  f_left _ _ t = 2 ^ b / 2 - f_size _ _ t.
Proof.
  intros X [_ L] EM H. rewrite L, (default_thr _ _ X EM). pose proof (core_bound _ _ _ _ X).
  apply wsub_small; [lia|unfold two64; lia].
Qed.

Lemma prep_new alloc b t k fuel : f_sane alloc -> core b t -> absent (S_ t) k -> f_tidy t \/ f_roomy t ->
  prepared b t k (f_prepare K V hash keq mix (S (S (S fuel))) alloc k t).
Proof.
  intros HA X HK HC. pose proof (core_55 _ _ X) as Hb. pose proof (co_b2 _ _ _ _ X) as H2.
  pose proof (core_bound _ _ _ _ X) as HB. pose proof (core_size_le _ _ _ _ X) as HZ.
  destruct (search_spec hash keq mix LW b H2 Hb t k (co_fc _ _ _ _ X) (co_mask _ _ _ _ X) (co_chain _ _ _ _ X))
    as (r & ES & HR).
  assert (GROW : f_tidy t ->
    (tidied t -> f_mlf _ _ t = 32768 -> 2 * f_size _ _ t <= 2 ^ b -> 2 * f_size _ _ t = 2 ^ b) ->
    prepared b t k (obind (f_grow K V hash mix alloc t) (fun t' _ => f_prepare K V hash keq mix (S (S fuel)) alloc k t'))).
  { intros HT HEQ. destruct (grow_spec alloc b t HA X HT) as [(t' & ->)|(b1 & t1 & -> & X1 & HT1 & HB1 & P1 & M1)];
      [left; cbn [obind]; eauto|]. cbn [obind].
    destruct (prep_grown alloc b1 t1 k fuel HA X1 HT1) as [(t' & E)|(b' & t' & i & E & X' & P' & SP & SPK & MM & HL1)].
    - eapply absent_perm; eauto.
    - rewrite (size_perm _ _ _ _ X X1 P1). lia.
    - left. eauto.
    - right. exists b', t', i. split; auto. split; auto. split; [now rewrite P1|]. split; auto. split; auto.
      split; auto. split; [congruence|]. intros T0 M0 Z0. specialize (HEQ T0 M0 Z0). rewrite HEQ, N.eqb_refl, <- HB1.
      f_equal. apply HL1. rewrite (tidied_left b1 t1 X1 HT1); [|congruence|].
      + rewrite (size_perm _ _ _ _ X X1 P1). pose proof (half_pow b1 (co_b2 _ _ _ _ X1)). lia.
      + rewrite (size_perm _ _ _ _ X X1 P1). lia. }
  assert (STOP : forall last m w1, r = FStop last m -> f_left _ _ t <> 0 ->
    w1 < nw b -> last = win b (home b k) w1 -> m = match_empty (window (C_ t) last) -> m <> 0 ->
    (forall w', w' < w1 -> shut (C_ t) (win b (home b k) w')) ->
    prepared b t k (f_prepare K V hash keq mix (S (S (S fuel))) alloc k t)).
  { intros last m w1 -> HL Hw El Em Nm HS.
    destruct (prep_stop alloc b t k (S (S fuel)) last m w1 X ES HL Hw El Em Nm HS) as (t' & i & A & X' & P' & EC & SP & SPK & MM).
    right. exists b, t', i. rewrite A, P'. split; auto. split; auto. split; auto. split; auto. split; auto.
    split; auto. split; auto. intros T0 M0 Z0. destruct (N.eqb_spec (2 * f_size K V t) (2 ^ b)) as [E|E]; auto.
    exfalso. apply HL. rewrite (tidied_left b t X T0 M0 Z0). pose proof (half_pow b H2). lia. }
  destruct r as [i|last m|].
  - exfalso. destruct HR as (kv & E & EK). rewrite (HK _ _ E) in EK. discriminate.
  - destruct HR as (w1 & Hw & El & Em & Nm & HS & _).
    destruct (N.eq_dec (f_left _ _ t) 0) as [E0|E0]; [|now apply (STOP last m w1)].
    destruct HC as [HT|[HC _]]; [|lia].
    cbn [f_prepare]. rewrite ES. unfold f_need_grow. rewrite E0. replace (0 <=? 0) with true by reflexivity.
    apply GROW; auto. intros T0 M0 Z0. pose proof (tidied_left b t X T0 M0 Z0) as TL.
    pose proof (half_pow b H2). lia.
  - destruct HC as [HT|[_ (j & Hj & Ej)]].
    + cbn [f_prepare]. rewrite ES. apply GROW; auto. intros T0 M0 Z0. exfalso.
      destruct HR as [HR _]. destruct (seen hash mix b t (home b k)) as (w & Hw' & NS); auto.
      * apply T0.
      * apply home_lt'; auto.
      * lia.
    + exfalso. destruct HR as [HR _]. rewrite (core_cap _ _ _ _ X) in Hj.
      destruct (visible hash mix b H2 Hb _ _ (home b k) j (co_fc _ _ _ _ X)) as (w & Hw & NS); try lia; auto.
      apply home_lt'; auto.
Qed.


(** ** Insertion *)

Definition finv (t : fmap) : Prop := (exists b, core b t) /\ distinct_keys K V keq (content t).

(** The load factor has not been touched since the table was made, and nothing erased. *)
Definition exact_left (t : fmap) : Prop := nodel (C_ t) /\ (f_cap K V t <= 32 \/ tidied t).

Lemma core_eq_cap b b' t : core b t -> core b' t -> b = b'.
Proof.
  intros X X'. pose proof (core_cap _ _ _ _ X) as E. rewrite (core_cap _ _ _ _ X') in E.
  apply N.pow_inj_r in E; auto. lia.
Qed.

Lemma emplace_new (alloc : oracle) (update : bool) b t k v : f_sane alloc -> core b t ->
  distinct_keys K V keq (content t) ->
  has K V keq k (content t) = false -> f_tidy t \/ f_roomy t ->
  (exists t', f_emplace K V hash keq mix alloc update k v t = Throw t')
  \/ exists b' t' i, f_emplace K V hash keq mix alloc update k v t = Ret t' (i, true)
       /\ core b' t' /\ distinct_keys K V keq (content t') /\ Permutation ((k, v) :: content t) (content t')
       /\ geti (S_ t') i = Some (Some (k, v)) /\ f_size _ _ t' = f_size _ _ t + 1
       /\ (exact_left t -> exact_left t') /\ (tidied t -> tidied t') /\ f_mlf _ _ t' = f_mlf _ _ t
       /\ (tidied t -> f_mlf _ _ t = 32768 -> 2 * f_size _ _ t <= 2 ^ b ->
           2 ^ b' = if 2 * f_size _ _ t =? 2 ^ b then 2 * 2 ^ b else 2 ^ b).
Proof.
  intros HA X HD HK HC. apply absent_iff in HK.
  unfold f_emplace. change 64%nat with (S (S (S 61))).
  destruct (prep_new alloc b t k 61 HA X HK HC) as [(t' & ->)|(b1 & t1 & i & -> & X1 & P1 & SP & SY1 & SY2 & MM & HCAP)];
    [left; exists t'; reflexivity|].
  right. cbn [obind].
  assert (SP' : spot b1 (C_ t1) (S_ t1) (home b1 (fst (k, v))) i) by exact SP.
  destruct (core_put hash mix b1 t1 i (k, v) _ X1 SP' eq_refl) as (C' & A & X' & W).
  rewrite A. exists b1. eexists _, _. split; [reflexivity|]. split; [exact X'|].
  pose proof (core_bound _ _ _ _ X1) as HB1.
  assert (HI : geti (S_ t1) i = Some None) by apply SP.
  assert (PC : Permutation ((k, v) :: content t) (elems (seti (S_ t1) i (Some (k, v))))).
  { rewrite (elems_seti_Some _ _ _ HI). now constructor. }
  assert (ND : nodel (C_ t1) -> nodel C').
  { intros D. eapply nodel_wrote; eauto; apply (tag_ne hash mix). }
  assert (SPT : spoken t1 -> tidied (f_with K V t1 C' (seti (S_ t1) i (Some (k, v))) (f_size _ _ t1 + 1) (f_left _ _ t1))).
  { intros [D L]. split; [now apply ND|].
    rewrite (proj1 (core_thr _ _ _ _ X')). fcbn. rewrite L. destruct (core_thr _ _ _ _ X1) as [T1 T2]. rewrite T1.
    pose proof (core_size_le _ _ _ _ X1).
    rewrite wsub_wsub; [reflexivity|unfold two64; lia..]. }
  split.
  { eapply (distinct_perm hash keq LW); [exact PC|]. split; [|exact HD]. now apply absent_iff. }
  split; [exact PC|]. split.
  { fcbn. apply geti_seti_eq. eapply geti_Some_lt; eauto. }
  split; [fcbn; now rewrite (size_perm _ _ _ _ X X1 P1)|]. split.
  - intros [D HL]. destruct SY1 as [[-> EC]|SPK].
    + rewrite EC in *. split; [now apply ND|].
      destruct HL as [HL|HT]; [|right; auto]. left.
      rewrite (core_cap _ _ _ _ X'), <- (core_cap _ _ _ _ X). auto.
    + split; [apply SPT; auto|right; auto].
  - split; [auto|]. split; [exact MM|exact HCAP].
Qed.

Lemma update_core b t i kv v : core b t -> geti (S_ t) i = Some (Some kv) ->
  core b (f_with K V t (C_ t) (seti (S_ t) i (Some (fst kv, v))) (f_size _ _ t) (f_left _ _ t)).
Proof.
  intros X E. pose proof (geti_Some_lt _ _ _ E) as Hi.
  destruct (geti_split _ _ _ E) as (sa & sb & ES & _ & EU).
  destruct X. split; fcbn; auto.
  - destruct co_fc. split; auto.
    + now rewrite seti_length.
    + intros j kv' Ej. rewrite geti_seti in Ej by auto. destruct (N.eqb_spec j i) as [->|Nj]; auto.
      injection Ej as <-. cbn [fst]. auto.
    + intros j Ej. rewrite geti_seti in Ej by auto. destruct (N.eqb_spec j i); auto. discriminate.
  - intros j kv' w Ej Hd. rewrite geti_seti in Ej by auto. destruct (N.eqb_spec j i) as [->|Nj].
    + injection Ej as <-. cbn [fst] in *. eauto.
    + eauto.
  - rewrite co_size, ES at 1. rewrite <- ES, EU, ES, !elems_app, !app_length. reflexivity.
Qed.

Lemma search_hit b t k kv : core b t -> In kv (content t) -> distinct_keys K V keq (content t) ->
  keq k (fst kv) = true ->
  exists i, f_search K V hash keq mix t k = Ok (FHit i) /\ geti (S_ t) i = Some (Some kv).
Proof.
  intros X Hin HD HK. pose proof (core_55 _ _ X) as Hb. pose proof (co_b2 _ _ _ _ X) as H2.
  destruct (search_spec hash keq mix LW b H2 Hb t k (co_fc _ _ _ _ X) (co_mask _ _ _ _ X) (co_chain _ _ _ _ X))
    as (r & ES & HR).
  assert (NA : ~ absent (S_ t) k).
  { intros H. apply absent_iff in H. rewrite has_false in H. rewrite (H kv Hin) in HK. discriminate. }
  destruct r as [i|last m|].
  - destruct HR as (kv' & E & EK). exists i. split; auto. rewrite E. do 2 f_equal.
    apply (distinct_uniq_In hash keq LW (content t)); auto.
    + apply In_elems. eauto.
    + eapply (tm_trans _ _ LW); eauto.
  - exfalso. apply NA. destruct HR as (w & HR). apply HR.
  - exfalso. now apply NA.
Qed.

Lemma prep_hit (alloc : oracle) n t k i : f_search K V hash keq mix t k = Ok (FHit i) ->
  f_prepare K V hash keq mix (S n) alloc k t = Ret t (i, true).
Proof. intros E. cbn [f_prepare]. now rewrite E. Qed.

Lemma emplace_old (alloc : oracle) (update : bool) b t k v kv : core b t -> In kv (content t) ->
  distinct_keys K V keq (content t) -> keq k (fst kv) = true ->
  exists t' i, f_emplace K V hash keq mix alloc update k v t = Ret t' (i, false)
     /\ core b t'
     /\ Permutation (if update then map (fun e => if keq k (fst e) then (fst e, v) else e) (content t)
                     else content t) (content t')
     /\ geti (S_ t') i = Some (Some (if update then (fst kv, v) else kv))
     /\ f_left _ _ t' = f_left _ _ t /\ f_size _ _ t' = f_size _ _ t /\ C_ t' = C_ t /\ f_mlf _ _ t' = f_mlf _ _ t.
Proof.
  intros X Hin HD HK. destruct (search_hit b t k kv X Hin HD HK) as (i & ES & Ei).
  unfold f_emplace. rewrite (prep_hit alloc 63 t k i ES). cbn [obind]. rewrite Ei.
  destruct update; eexists _, i; (split; [reflexivity|]).
  2:{ auto 8. }
  pose proof (geti_Some_lt _ _ _ Ei) as Hi.
  destruct (geti_split _ _ _ Ei) as (sa & sb & EE & _ & EU).
  assert (EC : content t = elems sa ++ kv :: elems sb).
  { unfold Flat16Ops.content. rewrite EE, !elems_app. reflexivity. }
  assert (EN : elems (seti (S_ t) i (Some (fst kv, v))) = elems sa ++ (fst kv, v) :: elems sb).
  { rewrite EU, !elems_app. reflexivity. }
  assert (EM : map (fun e => if keq k (fst e) then (fst e, v) else e) (content t)
    = elems sa ++ (fst kv, v) :: elems sb).
  { rewrite EC, map_app. cbn [map]. rewrite HK.
    assert (U : forall e, In e (elems sa ++ elems sb) -> keq k (fst e) = false).
    { assert (D1 : distinct_keys K V keq (kv :: elems sa ++ elems sb)).
      { eapply (distinct_perm hash keq LW); [|exact HD]. rewrite EC. symmetry. apply Permutation_middle. }
      destruct D1 as [D1 _]. rewrite has_false in D1. intros e He. specialize (D1 e He).
      rewrite (keq_subst hash keq LW _ _ _ HK). exact D1. }
    f_equal; [|f_equal]; rewrite <- map_id; apply map_ext_in; intros e He; rewrite U; auto;
      apply in_or_app; auto. }
  split; [now apply update_core|]. split; [|split; [fcbn; now apply geti_seti_eq|auto]].
  unfold Flat16Ops.content at 2. fcbn. rewrite EN, EM. reflexivity.
Qed.

(** ** Erasure *)

Lemma dist_mod b h j : 2 <= b -> b <= 55 -> h < 2 ^ b -> j < 2 ^ b -> (j + 2 ^ b - h) mod 2 ^ b = dist b h j.
Proof.
  intros H2 Hb Hh Hj. rewrite wrap_mod by (auto; lia). unfold wrap, dist.
  destruct (N.ltb_spec (j + 2 ^ b - h) (2 ^ b)), (N.leb_spec h j); lia.
Qed.

Lemma near_dist b t i kv : core b t -> f_near t -> geti (S_ t) i = Some (Some kv) -> dist b (home b (fst kv)) i < 16.
Proof.
  intros X HN E. specialize (HN i kv E). rewrite (core_cap _ _ _ _ X) in HN.
  pose proof (geti_Some_lt _ _ _ E) as Hi. rewrite (fc_slen _ _ _ _ _ (co_fc _ _ _ _ X)) in Hi.
  rewrite dist_mod in HN; auto.
  - apply X.
  - eapply core_55; eauto.
  - apply N.mod_lt. pose proof (core_bound _ _ _ _ X). lia.
Qed.

(** erase_slot when every entry is near. *)
Lemma erase_slot_spec b t i kv : core b t -> f_near t -> geti (S_ t) i = Some (Some kv) ->
  exists C' tag' left', f_erase_slot K V t i = Ok (f_with K V t C' (seti (S_ t) i None) (f_size _ _ t - 1) left')
    /\ core b (f_with K V t C' (seti (S_ t) i None) (f_size _ _ t - 1) left')
    /\ wrote b (C_ t) C' i tag' (if i =? 0 then fEndOf else tag')
    /\ (tag' = fEmpty /\ left' = wadd (f_left _ _ t) 1 \/ tag' = fDeleted /\ left' = wsub (wadd (f_left _ _ t) 1) 1 /\ 16 < 2 ^ b).
Proof.
  intros X HN Ei. pose proof (core_55 _ _ X) as Hb. pose proof (co_b2 _ _ _ _ X) as H2.
  pose proof (core_bound _ _ _ _ X) as HB. pose proof (co_fc _ _ _ _ X) as XF.
  pose proof (geti_Some_lt _ _ _ Ei) as Hi. rewrite (fc_slen _ _ _ _ _ XF) in Hi.
  unfold f_erase_slot. rewrite (f_group_ok hash mix b H2 Hb _ _ i XF Hi). cbn [rbind].
  assert (PICK : exists tag' left', (if negb (match_empty (window (C_ t) i) =? 0)
     then Ok (fEmpty, wadd (f_left K V t) 1)
     else if negb (f_next K V t i =? i) then
       rbind (f_group (C_ t) (f_next K V t i)) (fun g' =>
         if negb (match_empty g' =? 65535) then Ok (fDeleted, wsub (wadd (f_left K V t) 1) 1)
         else Ok (fEmpty, wadd (f_left K V t) 1))
     else Ok (fEmpty, wadd (f_left K V t) 1)) = Ok (tag', left')
     /\ (tag' = fEmpty /\ left' = wadd (f_left _ _ t) 1
         \/ tag' = fDeleted /\ left' = wsub (wadd (f_left _ _ t) 1) 1 /\ 16 < 2 ^ b)).
  { destruct (negb (match_empty (window (C_ t) i) =? 0)); [eauto 6|].
    destruct (N.eqb_spec (f_next K V t i) i) as [En|En]; cbn [negb]; [eauto 6|].
    assert (HL : f_next K V t i < 2 ^ b).
    { unfold f_next, f_round. rewrite (co_mask _ _ _ _ X), land_mask_n. apply N.mod_lt. lia. }
    assert (HC : 16 < 2 ^ b).
    { destruct (N.lt_ge_cases 16 (2 ^ b)) as [|G]; auto. exfalso. apply En.
      pose proof (next_win b H2 Hb i 0 Hi) as H. rewrite win_0 in H by auto.
      unfold f_next, f_round, fGroupWidth. rewrite (co_mask _ _ _ _ X), H.
      - unfold nw. destruct (N.eqb_spec (0 + 1) ((2 ^ b + 15) / 16)); [reflexivity|lia].
      - unfold nw. lia. }
    rewrite (f_group_ok hash mix b H2 Hb _ _ _ XF HL). cbn [rbind].
    destruct (negb (match_empty _ =? 65535)); eauto 8. }
  destruct PICK as (tag' & left' & -> & HT). cbn [rbind]. unfold f_set_unused. rewrite (core_cap _ _ _ _ X).
  destruct (wrote_spec hash mix b H2 Hb _ _ i tag' (if i =? 0 then fEndOf else tag') XF Hi) as (C' & A & W).
  rewrite A. cbn [rbind]. rewrite Ei. exists C', tag', left'.
  pose proof (elems_seti_None _ _ _ Ei) as PE. pose proof (Permutation_length PE) as LE. cbn [length] in LE.
  pose proof (core_size_le _ _ _ _ X) as HZ. pose proof (co_size _ _ _ _ X) as EZ.
  rewrite wsub_small by (unfold two64; lia). split; [reflexivity|]. split; [|auto].
  assert (HT' : tag' = fEmpty \/ tag' = fDeleted) by tauto.
  pose proof (near_dist b t) as ND.
  split; fcbn; try apply X.
  - eapply (fc_wrote hash mix b H2 Hb); eauto. destruct HT' as [-> | ->]; destruct (i =? 0); reflexivity.
  - intros j kv' w Ej Hd. rewrite geti_seti in Ej by (rewrite (fc_slen _ _ _ _ _ XF); auto).
    destruct (N.eqb_spec j i) as [->|Nj]; [discriminate|].
    specialize (ND j kv' X HN Ej). lia.
  - lia.
Qed.

Lemma find_spec b t k : core b t -> distinct_keys K V keq (content t) ->
  (has K V keq k (content t) = false /\ f_find_index K V hash keq mix t k = Ok None)
  \/ exists i kv, In kv (content t) /\ keq k (fst kv) = true /\ geti (S_ t) i = Some (Some kv)
       /\ f_find_index K V hash keq mix t k = Ok (Some i).
Proof.
  intros X HD. unfold f_find_index.
  destruct (get K V keq k (content t)) as [kv|] eqn:EG.
  - right. apply get_Some in EG. destruct EG as [Hin HK].
    destruct (search_hit b t k kv X Hin HD HK) as (i & ES & Ei). rewrite ES. cbn [rbind]. eauto 8.
  - left. assert (HF : has K V keq k (content t) = false) by (rewrite has_get, EG; reflexivity).
    split; auto. pose proof (core_55 _ _ X) as Hb. pose proof (co_b2 _ _ _ _ X) as H2.
    destruct (search_spec hash keq mix LW b H2 Hb t k (co_fc _ _ _ _ X) (co_mask _ _ _ _ X) (co_chain _ _ _ _ X))
      as (r & ES & HR). rewrite ES. cbn [rbind]. destruct r; auto.
    exfalso. destruct HR as (kv & E & EK). apply absent_iff in HF. rewrite (HF _ _ E) in EK. discriminate.
Qed.

Lemma erase_spec b t k : core b t -> distinct_keys K V keq (content t) -> f_near t ->
  exists t', f_erase K V hash keq mix k t = Ok (t', count K V keq k (content t))
    /\ core b t' /\ Permutation (remove K V keq k (content t)) (content t')
    /\ (2 ^ b <= 16 -> tidied t -> tidied t') /\ f_mlf _ _ t' = f_mlf _ _ t.
Proof.
  intros X HD HN. unfold f_erase, count.
  destruct (find_spec b t k X HD) as [(HF & ->)|(i & kv & Hin & HK & Ei & ->)]; cbn [rbind].
  - rewrite HF. exists t. split; auto. split; auto. split; [|auto]. unfold remove.
    replace (filter _ (content t)) with (content t); [reflexivity|].
    rewrite has_false in HF. symmetry. clear - HF. induction (content t) as [|e l IH]; [reflexivity|].
    cbn [filter]. rewrite (HF e) by (left; auto). cbn [negb]. f_equal. apply IH. intros e' He'. apply HF. now right.
  - destruct (erase_slot_spec b t i kv X HN Ei) as (C' & tag' & left' & E & X' & W & HT). rewrite E. cbn [rbind].
    assert (EH : has K V keq k (content t) = true) by (apply has_true; eauto). rewrite EH.
    eexists. split; [reflexivity|]. split; [exact X'|].
    pose proof (elems_seti_None _ _ _ Ei) as P1.
    assert (D1 : distinct_keys K V keq (kv :: elems (seti (S_ t) i None))).
    { eapply (distinct_perm hash keq LW); [symmetry; exact P1|]. exact HD. }
    split.
    + unfold remove. rewrite <- (filter_perm _ _ _ P1). cbn [filter]. rewrite HK. cbn [negb].
      destruct D1 as [D1 _]. rewrite has_false in D1. unfold Flat16Ops.content. fcbn.
      replace (filter _ (elems (seti (S_ t) i None))) with (elems (seti (S_ t) i None)); [reflexivity|].
      symmetry. clear - D1 HK LW. induction (elems (seti (S_ t) i None)) as [|e l IH]; [reflexivity|].
      cbn [filter]. rewrite (keq_subst hash keq LW _ _ _ HK), (D1 e) by (left; auto). cbn [negb].
      f_equal. apply IH. intros e' He'. apply D1. now right.
    + split; [|reflexivity]. intros H16 [D L]. destruct HT as [[-> ->]|(_ & _ & G)]; [|lia]. split.
      * eapply nodel_wrote; eauto; [|destruct (i =? 0)]; discriminate.
      * rewrite (proj1 (core_thr _ _ _ _ X')). fcbn. rewrite L.
        destruct (core_thr _ _ _ _ X) as [T1 T2]. rewrite T1 in *. pose proof (core_bound _ _ _ _ X).
        pose proof (Permutation_length P1) as LE. cbn [length] in LE. pose proof (co_size _ _ _ _ X) as EZ.
        pose proof (core_size_le _ _ _ _ X).
        revert T2. generalize (2 ^ b * f_mlf K V t / 65536). intros thr T2.
        unfold wsub, wadd, w64, two64. lia.
Qed.

End Refine.
