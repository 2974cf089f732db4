(** The flat16 map: calls and sequences of calls against the abstract map. *)
From Coq Require Import NArith ZArith List Bool Lia Permutation.
From Coq Require Import ZifyBool ZifyNat ZifyN.
From Verif Require Import Base BaseFacts BitsModel BitsFacts GroupModel GroupFacts TableModel TableInv
  MapSpec MapFacts FallbackFacts RobinFacts Flat16Model Flat16Spec Flat16Facts Flat16Ops Flat16Refine Flat16Calls.
Import ListNotations.
Open Scope N_scope.
Ltac Zify.zify_post_hook ::= Z.div_mod_to_equations.

Section Runs.

Context {K V : Type} (hash : K -> N) (keq : K -> K -> bool) (mix : N -> N) (LW : tame hash keq).

Notation slots := (list (option (K * V))).
Notation fmap := (fmap K V).
Notation C_ := (f_ctrls K V).
Notation S_ := (f_slots K V).
Notation oracle := (bool -> N -> bool).
Notation core := (@core K V hash mix).
Notation f_near := (f_near K V hash).
Notation f_tidy := (f_tidy K V).
Notation f_roomy := (f_roomy K V).
Notation content := (@content K V).
Notation tidied := (@tidied K V).
Notation exact_left := (@exact_left K V).
Notation f_client := (f_client K V hash).
Notation f_client0 := (f_client0 K V).
Notation f_client8 := (f_client8 K V).

(** At most sixteen slots, nothing marked as deleted, default load factor. *)
Definition small8 (t : fmap) : Prop :=
  tidied t /\ f_mlf _ _ t = 32768 /\ f_cap K V t <= 16 /\ 2 * f_size _ _ t <= f_cap K V t.

Lemma exact_tidy b t : core b t -> exact_left t -> f_tidy t.
Proof.
  intros X [_ [H|[_ H]]]; [now left|]. unfold Flat16Spec.f_tidy. pose proof (core_bound _ _ _ _ X) as HB.
  pose proof (core_size_le _ _ _ _ X) as HZ. destruct (core_thr _ _ _ _ X) as [_ T2].
  rewrite (core_cap _ _ _ _ X) in *. destruct (N.le_gt_cases (2 ^ b) 32); [now left|right].
  unfold f_slot_deleted, f_slot_used. rewrite H.
  assert (E : wsub (f_threshold K V t) (wsub (f_threshold K V t) (f_size K V t)) = f_size K V t).
  { revert T2. generalize (f_threshold K V t). intros thr T2. unfold wsub, w64, two64. lia. }
  rewrite E, wsub_small by (unfold two64; lia). lia.
Qed.

Lemma small_near b t : core b t -> 2 ^ b <= 16 -> f_near t.
Proof.
  intros X H i kv E. rewrite (core_cap _ _ _ _ X).
  pose proof (core_bound _ _ _ _ X).
  pose proof (N.mod_lt (i + 2 ^ b - hash (fst kv) mod 2 ^ b) (2 ^ b) ltac:(lia)). lia.
Qed.

Lemma client0_client b t o : core b t -> exact_left t -> f_client0 o t -> f_client o t.
Proof.
  intros X HE HC. pose proof (exact_tidy b t X HE). destruct o; cbn in *; auto. contradiction.
Qed.

Lemma client8_client b t o : core b t -> small8 t -> f_client8 o t -> f_client o t.
Proof.
  intros X (HT & _ & HC & _) H. assert (f_tidy t) by (left; lia).
  rewrite (core_cap _ _ _ _ X) in HC.
  destruct o; cbn in *; auto; try contradiction. eapply small_near; eauto.
Qed.

Definition followed (o : op K V) (t : fmap) (r : out fmap (obs K V)) : Prop :=
  (exists t', r = Throw t')
  \/ exists b' t', r = Ret t' (snd (spec_step K V keq o (content t))) /\ core b' t'
       /\ Permutation (fst (spec_step K V keq o (content t))) (content t')
       /\ (exact_left t -> f_client0 o t -> exact_left t')
       /\ (small8 t -> f_client8 o t -> small8 t').

Lemma same_left b t t' : core b t -> core b t' -> C_ t' = C_ t -> f_left _ _ t' = f_left _ _ t ->
  f_size _ _ t' = f_size _ _ t -> f_mlf _ _ t' = f_mlf _ _ t ->
  (tidied t -> tidied t') /\ (exact_left t -> exact_left t') /\ (small8 t -> small8 t').
Proof.
  intros X X' EC EL EZ EM.
  assert (T : tidied t -> tidied t').
  { intros [D L]. split; [now rewrite EC|]. rewrite EL, EZ, L, (proj1 (core_thr _ _ _ _ X)), (proj1 (core_thr _ _ _ _ X')), EM.
    reflexivity. }
  split; auto. unfold Flat16Refine.exact_left, small8. rewrite EC, EZ, EM, (core_cap _ _ _ _ X), (core_cap _ _ _ _ X').
  split; tauto.
Qed.

Lemma insert_followed (update : bool) alloc b t k v : f_sane alloc -> core b t ->
  distinct_keys K V keq (content t) -> f_tidy t \/ f_roomy t ->
  followed (if update then OAssign K V k v else OInsert K V k v) t
    (f_ins K V (f_emplace K V hash keq mix alloc update k v t)).
Proof.
  intros HA X HD HC. destruct (get K V keq k (content t)) as [kv|] eqn:EG.
  - destruct (get_Some _ _ _ _ EG) as [Hin HK].
    destruct (emplace_old hash keq mix LW alloc update b t k v kv X Hin HD HK)
      as (t' & i & E & X' & P & Ei & EL & EZ & EC & EM).
    right. exists b, t'. rewrite E. cbn [f_ins obind]. unfold f_deref. rewrite Ei. cbn [f_lift].
    destruct (same_left b t t' X X' EC EL EZ EM) as (_ & L1 & L2).
    destruct update; cbn [spec_step fst snd]; unfold the, put, put_new; rewrite has_get, EG; cbn [negb];
      (split; [reflexivity|]); split; auto.
  - assert (HF : has K V keq k (content t) = false) by (rewrite has_get, EG; reflexivity).
    destruct (emplace_new hash keq mix LW alloc update b t k v HA X HD HF HC)
      as [(t' & ->)|(b' & t' & i & -> & X' & D' & P & Ei & EZ & L1 & L2 & EM & HCAP)].
    + left. exists t'. reflexivity.
    + right. exists b', t'. cbn [f_ins obind]. unfold f_deref. rewrite Ei. cbn [f_lift].
      split; [|split; [exact X'|split]].
      * destruct update; cbn [spec_step fst snd]; unfold the; rewrite has_get, EG; reflexivity.
      * destruct update; cbn [spec_step fst snd]; unfold put, put_new; rewrite HF; exact P.
      * split; [auto|]. intros (T & M & HC16 & HZ) H8.
        assert (f_size _ _ t < 8) by (destruct update; exact H8). clear H8.
        rewrite (core_cap _ _ _ _ X) in *. specialize (HCAP T M HZ).
        pose proof (half_pow b (co_b2 _ _ _ _ X)) as HP.
        split; [auto|]. split; [congruence|]. rewrite (core_cap _ _ _ _ X'), EZ.
        destruct (N.eqb_spec (2 * f_size K V t) (2 ^ b)) as [E|E].
        -- assert (b <= 3). { destruct (N.le_gt_cases b 3); auto. pose proof (pow2_le 4 b ltac:(lia)). lia. }
           pose proof (pow2_le b 3 ltac:(lia)). pose proof (core_bound _ _ _ _ X). lia.
        -- lia.
Qed.

Lemma resized_followed o b t r : resized hash mix b t r ->
  snd (spec_step K V keq o (content t)) = RUnit K V -> fst (spec_step K V keq o (content t)) = content t ->
  (f_client8 o t -> False) -> followed o t (f_unit K V r).
Proof.
  intros [(t' & ->)|(b' & t' & -> & X' & P & L)] E1 E2 H8.
  - left. exists t'. reflexivity.
  - right. exists b', t'. cbn [f_unit obind]. rewrite E1, E2. split; auto. split; auto. split; auto. split; auto.
    intros _ H. now apply H8 in H.
Qed.

Lemma step_spec (trivial : bool) alloc o b t : f_sane alloc -> core b t -> distinct_keys K V keq (content t) ->
  f_client o t -> followed o t (f_step K V hash keq mix trivial alloc o t).
Proof.
  intros HA X HD HC.
  assert (SAME : forall r, r = snd (spec_step K V keq o (content t)) -> fst (spec_step K V keq o (content t)) = content t ->
    followed o t (Ret t r)).
  { intros r -> E. right. exists b, t. split; auto. split; auto. rewrite E. auto. }
  destruct o as [k v|k v|k|k|k| |need|n|n|ro|x]; cbn [f_step]; cbn [Flat16Spec.f_client] in HC.
  - exact (insert_followed false alloc b t k v HA X HD HC).
  - exact (insert_followed true alloc b t k v HA X HD HC).
  - destruct (erase_spec hash keq mix LW b t k X HD HC) as (t' & -> & X' & P & L & M').
    right. exists b, t'. split; [reflexivity|]. split; auto. split; auto. split; [intros _ []|].
    intros (T & M & H16 & HZ) _. rewrite (core_cap _ _ _ _ X) in *.
    assert (EZ : f_size _ _ t' <= f_size _ _ t).
    { rewrite (co_size _ _ _ _ X'), (co_size _ _ _ _ X).
      fold (content t'). fold (content t). rewrite <- (Permutation_length P). unfold remove.
      clear. induction (content t) as [|e l IH]; [cbn; lia|]. cbn [filter]. destruct (negb _); cbn [length]; lia. }
    assert (T' : tidied t') by auto.
    split; auto. split.
    + congruence.
    + rewrite (core_cap _ _ _ _ X'). lia.
  - unfold f_find_obs. destruct (find_spec hash keq mix LW b t k X HD) as [(HF & ->)|(i & kv & Hin & HK & Ei & ->)];
      cbn [rbind].
    + apply SAME; [|reflexivity]. cbn [spec_step snd]. rewrite has_get in HF.
      destruct (get K V keq k (content t)); [discriminate|reflexivity].
    + unfold f_deref. rewrite Ei. cbn [rbind]. apply SAME; [|reflexivity]. cbn [spec_step snd].
      now rewrite (get_In hash keq LW _ _ _ HD Hin HK).
  - destruct (find_spec hash keq mix LW b t k X HD) as [(HF & ->)|(i & kv & Hin & HK & Ei & ->)].
    + apply SAME; [|reflexivity]. cbn [spec_step snd]. now rewrite HF.
    + apply SAME; [|reflexivity]. cbn [spec_step snd]. f_equal. symmetry. apply has_true. eauto.
  - apply SAME; [|reflexivity]. cbn [spec_step snd]. now rewrite (co_size _ _ _ _ X).
  - destruct HC as [-> HC].
    destruct (clear_spec hash mix trivial alloc b t X HC) as [(t' & ->)|(t' & -> & X' & E & T)].
    + left. exists t'. reflexivity.
    + right. exists 2, t'. cbn [f_unit obind spec_step fst snd]. rewrite E. split; auto. split; auto. split; auto.
      split; [|intros _ []]. intros _ _. split; [apply T|now right].
  - destruct HC. apply (resized_followed _ b); auto. now apply rehash_to.
  - destruct HC. apply (resized_followed _ b); auto. now apply rehash_to.
  - apply (resized_followed _ b); auto. now apply shrink_spec.
  - destruct (mlf_spec hash mix alloc b t x HA X HC) as [(t' & ->)|(b' & t' & -> & X' & P & L)].
    + left. exists t'. reflexivity.
    + right. exists b', t'. cbn [f_unit obind spec_step fst snd]. split; auto. split; auto. split; auto.
      split; auto. intros _ [].
Qed.

(** ** Sequences of calls *)

(** [good] is kept by the calls of [client], which are among the calls covered. *)
Lemma agrees_spec (client : op K V -> fmap -> Prop) (good : fmap -> Prop) (trivial : bool) :
  (forall b t o, core b t -> good t -> client o t -> f_client o t) ->
  (forall b o t t' alloc r, f_sane alloc -> core b t -> distinct_keys K V keq (content t) -> good t -> client o t ->
     f_step K V hash keq mix trivial alloc o t = Ret t' r -> good t') ->
  forall calls b t m, Forall (fun c => f_sane (fst c)) calls -> core b t -> good t ->
  distinct_keys K V keq m -> Permutation m (content t) ->
  f_agrees K V hash keq mix client trivial calls t m.
Proof.
  intros H1 H2. induction calls as [|[alloc o] calls IH]; intros b t m HS X HG HD P; [exact I|].
  inversion HS as [|? ? HA HS']; subst. cbn [f_agrees]. cbn [fst] in HA.
  destruct (spec_step_perm hash keq LW o m (content t) P HD) as [P1 E1].
  pose proof (spec_step_distinct keq o m HD) as HD1.
  pose proof (distinct_perm hash keq LW _ _ P HD) as HDC.
  destruct (spec_step K V keq o m) as [m1 r1] eqn:EM. cbn [fst snd] in *. intros HC.
  pose proof (H1 b t o X HG HC) as HC'.
  destruct (step_spec trivial alloc o b t HA X HDC HC') as [(t' & ->)|(b' & t' & E & X' & P' & _)]; [exact I|].
  rewrite E. split; [congruence|].
  apply (IH b'); auto.
  - exact (H2 b o t t' alloc _ HA X HDC HG HC E).
  - now rewrite P1.
Qed.

Lemma step_good (good : fmap -> Prop) trivial b o t t' alloc r :
  f_sane alloc -> core b t -> distinct_keys K V keq (content t) -> f_client o t ->
  (forall b', core b' t' -> Permutation (fst (spec_step K V keq o (content t))) (content t') ->
     (exact_left t -> f_client0 o t -> exact_left t') -> (small8 t -> f_client8 o t -> small8 t') -> good t') ->
  f_step K V hash keq mix trivial alloc o t = Ret t' r -> good t'.
Proof.
  intros HA X HD HC HG E.
  destruct (step_spec trivial alloc o b t HA X HD HC) as [(t1 & E1)|(b' & t1 & E1 & X' & P' & L1 & L2)].
  - congruence.
  - assert (t1 = t') as -> by congruence. exact (HG b' X' P' L1 L2).
Qed.

Lemma built_inv t m : f_built K V hash keq mix t m ->
  (exists b, core b t) /\ Permutation m (content t) /\ distinct_keys K V keq m.
Proof.
  induction 1 as [alloc n t HA Hn E|t m trivial alloc o t' r HR [(b & X) [P HD]] HA HC E|t m alloc t' HR [(b & X) [P HD]] HA E].
  - destruct (new_spec hash mix alloc n t HA Hn E) as (b & X & EC & _). rewrite EC. split; [eauto|]. split; [auto|exact I].
  - pose proof (distinct_perm hash keq LW _ _ P HD) as HDC.
    destruct (spec_step_perm hash keq LW o m (content t) P HD) as [P1 _].
    destruct (step_spec trivial alloc o b t HA X HDC HC) as [(t1 & E1)|(b' & t1 & E1 & X' & P' & _)]; [congruence|].
    assert (t1 = t') as -> by congruence. split; [eauto|]. split; [now rewrite P1|].
    now apply (spec_step_distinct keq).
  - destruct (copy_spec hash mix alloc b t HA X) as [(t1 & E1)|(b' & t1 & E1 & X' & _ & P')]; [congruence|].
    assert (t1 = t') as -> by congruence. split; [eauto|]. split; [now rewrite P|auto].
Qed.

Theorem built_agrees trivial t m calls : f_built K V hash keq mix t m ->
  Forall (fun c => f_sane (fst c)) calls ->
  f_agrees K V hash keq mix f_client trivial calls t m.
Proof.
  intros HB HS. destruct (built_inv t m HB) as ((b & X) & P & HD).
  apply (agrees_spec f_client (fun _ => True) trivial) with (b := b); auto.
Qed.

Theorem new_agrees0 trivial alloc n t calls : f_sane alloc -> n <= 2 ^ 44 -> f_new K V alloc n = Ret t tt ->
  Forall (fun c => f_sane (fst c)) calls ->
  f_agrees K V hash keq mix f_client0 trivial calls t [].
Proof.
  intros HA Hn E HS. destruct (new_spec hash mix alloc n t HA Hn E) as (b & X & EC & T & _).
  apply (agrees_spec f_client0 exact_left trivial) with (b := b); auto.
  - intros. eapply client0_client; eauto.
  - intros b0 o t0 t' al r HA0 X0 HD0 HG0 HC0 E0.
    refine (step_good exact_left trivial b0 o t0 t' al r HA0 X0 HD0 (client0_client b0 t0 o X0 HG0 HC0) _ E0). auto.
  - split; [apply T|now right].
  - exact I.
  - rewrite EC. constructor.
Qed.

Theorem new_agrees8 trivial alloc n t calls : f_sane alloc -> n <= 16 -> f_new K V alloc n = Ret t tt ->
  Forall (fun c => f_sane (fst c)) calls ->
  f_agrees K V hash keq mix f_client8 trivial calls t [].
Proof.
  intros HA Hn E HS. destruct (new_spec hash mix alloc n t HA ltac:(lia) E) as (b & X & EC & T & M & ECAP).
  apply (agrees_spec f_client8 small8 trivial) with (b := b); auto.
  - intros. eapply client8_client; eauto.
  - intros b0 o t0 t' al r HA0 X0 HD0 HG0 HC0 E0.
    refine (step_good small8 trivial b0 o t0 t' al r HA0 X0 HD0 (client8_client b0 t0 o X0 HG0 HC0) _ E0). auto.
  - split; auto. split; auto. rewrite (core_cap _ _ _ _ X), (co_size _ _ _ _ X).
    fold (content t). rewrite EC. cbn [length]. split; [|lia].
    destruct (calc_spec n ltac:(lia)) as (b' & EC' & _ & _ & _ & HMIN). rewrite ECAP in EC'. injection EC' as EB.
    apply N.pow_inj_r in EB; [|lia]. subst b'. specialize (HMIN 4 ltac:(lia) ltac:(lia)).
    pose proof (pow2_le b 4 HMIN). lia.
  - exact I.
  - rewrite EC. constructor.
Qed.

(** ** Further results *)

Theorem built_traverse t m : f_built K V hash keq mix t m ->
  exists l, f_traverse K V t = Ok l /\ Permutation l m /\ distinct_keys K V keq l.
Proof.
  intros HB. destruct (built_inv t m HB) as ((b & X) & P & HD). exists (content t).
  split; [eapply traverse_spec; eauto|]. split; [now symmetry|]. eapply (distinct_perm hash keq LW); eauto.
Qed.

Theorem built_destroy t m : f_built K V hash keq mix t m -> f_destroy K V t = Ok tt.
Proof. intros HB. destruct (built_inv t m HB) as ((b & X) & _). eapply destroy_spec; eauto. Qed.

Theorem built_copy t m alloc : f_built K V hash keq mix t m -> f_sane alloc ->
  match f_copy K V hash mix alloc t with
  | Ret t' _ => exists l, f_traverse K V t' = Ok l /\ Permutation l m /\ f_size _ _ t' = f_size _ _ t
      /\ forall k, f_find_index K V hash keq mix t' k <> Ok None <-> has K V keq k m = true
  | Throw _ => True
  | Fail _ => False
  end.
Proof.
  intros HB HA. destruct (built_inv t m HB) as ((b & X) & P & HD).
  destruct (copy_spec hash mix alloc b t HA X) as [(t1 & ->)|(b' & t1 & -> & X' & _ & P')]; [exact I|].
  assert (HD' : distinct_keys K V keq (content t1)).
  { eapply (distinct_perm hash keq LW); [|exact HD]. now rewrite P. }
  exists (content t1). split; [eapply traverse_spec; eauto|]. split; [now rewrite <- P', P|].
  split; [eapply size_perm; eauto|]. intros k.
  assert (EH : has K V keq k m = has K V keq k (content t1)) by (apply has_perm; now rewrite P). rewrite EH.
  destruct (find_spec hash keq mix LW b' t1 k X' HD') as [(HF & ->)|(i & kv & Hin & HK & Ei & ->)].
  - rewrite HF. split; [congruence|discriminate].
  - split; [intros _; apply has_true; eauto|discriminate].
Qed.

Theorem built_resize t m trivial alloc n o : f_built K V hash keq mix t m -> f_sane alloc -> n <= 2 ^ 44 ->
  N.of_nat (length m) <= n \/ (forall e, 2 <= e -> N.of_nat (length m) <> 2 ^ e) ->
  o = OReserve K V n \/ o = ORehash K V n ->
  match f_step K V hash keq mix trivial alloc o t with
  | Ret t' r => r = RUnit K V /\ n <= f_cap K V t'
      /\ exists l, f_traverse K V t' = Ok l /\ Permutation l m
  | Throw _ => True
  | Fail _ => False
  end.
Proof.
  intros HB HA Hn HS HO. destruct (built_inv t m HB) as ((b & X) & P & HD).
  assert (EZ : N.of_nat (length m) = f_size _ _ t).
  { rewrite (Permutation_length P), (co_size _ _ _ _ X). reflexivity. }
  rewrite EZ in HS. fold (f_spare K V t) in HS.
  assert (ES : f_step K V hash keq mix trivial alloc o t = f_unit K V (f_rehash K V hash mix alloc false n t)).
  { destruct HO as [-> | ->]; reflexivity. }
  rewrite ES. pose proof (rehash_cap hash mix alloc b t n) as HC.
  destruct (rehash_to hash mix alloc b t n HA X Hn HS) as [(t1 & ->)|(b' & t1 & E & X' & P' & _)]; [exact I|].
  rewrite E. cbn [f_unit obind]. split; [reflexivity|]. split; [now apply HC|].
  exists (content t1). split; [eapply traverse_spec; eauto|]. now rewrite <- P', P.
Qed.

(** ** Insertions alone keep the load below one half *)

Notation f_adds := (f_adds K V).

Definition half_full (t : fmap) : Prop :=
  tidied t /\ f_mlf _ _ t = 32768 /\ 2 * f_size _ _ t <= f_cap K V t.

Lemma step_insert (trivial : bool) alloc k v t : f_step K V hash keq mix trivial alloc (OInsert K V k v) t
  = f_ins K V (f_emplace K V hash keq mix alloc false k v t).
Proof. reflexivity. Qed.

Lemma step_assign (trivial : bool) alloc k v t : f_step K V hash keq mix trivial alloc (OAssign K V k v) t
  = f_ins K V (f_emplace K V hash keq mix alloc true k v t).
Proof. reflexivity. Qed.

Lemma step_erase (trivial : bool) alloc k t : f_step K V hash keq mix trivial alloc (OErase K V k) t
  = match f_erase K V hash keq mix k t with Ok (t', n) => Ret t' (RNum K V n) | Err e => Fail e end.
Proof. reflexivity. Qed.

Lemma step_find (trivial : bool) alloc k t : f_step K V hash keq mix trivial alloc (OFind K V k) t
  = f_lift K V t (REntry K V) (f_find_obs K V hash keq mix t k).
Proof. reflexivity. Qed.

Lemma step_contains (trivial : bool) alloc k t : f_step K V hash keq mix trivial alloc (OContains K V k) t
  = f_lift K V t (fun r => RBool K V match r with Some _ => true | None => false end) (f_find_index K V hash keq mix t k).
Proof. reflexivity. Qed.

Lemma step_reserve (trivial : bool) alloc n t : f_step K V hash keq mix trivial alloc (OReserve K V n) t
  = f_unit K V (f_rehash K V hash mix alloc false n t).
Proof. reflexivity. Qed.

Lemma step_rehash (trivial : bool) alloc n t : f_step K V hash keq mix trivial alloc (ORehash K V n) t
  = f_unit K V (f_rehash K V hash mix alloc false n t).
Proof. reflexivity. Qed.

Lemma step_shrink (trivial : bool) alloc n t : f_step K V hash keq mix trivial alloc (OShrink K V n) t
  = f_unit K V (f_shrink K V hash mix alloc n t).
Proof. reflexivity. Qed.

Lemma ins_ret t i b kv : geti (S_ t) i = Some (Some kv) ->
  f_ins K V (Ret t (i, b)) = Ret t (RIns K V kv b).
Proof. intros E. cbn [f_ins obind]. unfold f_deref. now rewrite E. Qed.

Lemma adds_half (trivial : bool) alloc o b t t' r : f_sane alloc -> core b t -> distinct_keys K V keq (content t) ->
  half_full t -> f_adds o -> f_step K V hash keq mix trivial alloc o t = Ret t' r ->
  half_full t' /\ (exists b', core b' t') /\ distinct_keys K V keq (content t').
Proof.
  intros HA X HD HH HO E.
  assert (HE : exact_left t) by (split; [apply HH|right; apply HH]).
  assert (HC : f_client o t).
  { apply (client0_client b); auto. destruct o; cbn in *; auto; contradiction. }
  destruct (step_spec trivial alloc o b t HA X HD HC) as [(t1 & E1)|(b' & t1 & E1 & X' & P' & _)]; [congruence|].
  assert (t1 = t') as -> by congruence.
  split; [|split; [eauto|eapply (distinct_perm hash keq LW); [exact P'|now apply (spec_step_distinct keq)]]].
  assert (INS : forall (update : bool) k v, f_ins K V (f_emplace K V hash keq mix alloc update k v t) = Ret t' r ->
    half_full t').
  { clear E E1. intros update k v E. destruct (get K V keq k (content t)) as [kv|] eqn:EG.
    - destruct (get_Some _ _ _ _ EG) as [Hin HK].
      destruct (emplace_old hash keq mix LW alloc update b t k v kv X Hin HD HK)
        as (t2 & i & E2 & X2 & P & Ei & EL & EZ & EC & EM).
      rewrite E2, (ins_ret _ _ _ _ Ei) in E. injection E as <- <-. destruct (same_left b t t2 X X2 EC EL EZ EM) as (L1 & _).
      destruct HH as (T & M & Z). split; auto. split; [congruence|].
      rewrite EZ, (core_cap _ _ _ _ X2), <- (core_cap _ _ _ _ X). exact Z.
    - assert (HF : has K V keq k (content t) = false) by (rewrite has_get, EG; reflexivity).
      destruct (emplace_new hash keq mix LW alloc update b t k v HA X HD HF (or_introl (exact_tidy b t X HE)))
        as [(t2 & E2)|(b2 & t2 & i & E2 & X2 & D2 & P & Ei & EZ & L1 & L2 & EM & HCAP)].
      + rewrite E2 in E. discriminate.
      + rewrite E2, (ins_ret _ _ _ _ Ei) in E. injection E as <- <-. destruct HH as (T & M & Z). rewrite (core_cap _ _ _ _ X) in Z.
        specialize (HCAP T M Z). split; auto. split; [congruence|]. rewrite (core_cap _ _ _ _ X2), EZ.
        pose proof (half_pow b (co_b2 _ _ _ _ X)). pose proof (core_bound _ _ _ _ X).
        destruct (N.eqb_spec (2 * f_size K V t) (2 ^ b)); lia. }
  destruct o; try contradiction.
  - rewrite step_insert in E. exact (INS false k v E).
  - rewrite step_assign in E. exact (INS true k v E).
  - cbn [f_step] in E. unfold f_lift in E. destruct (f_find_obs K V hash keq mix t k); [|discriminate]. now injection E as <- _.
  - cbn [f_step] in E. unfold f_lift in E. destruct (f_find_index K V hash keq mix t k); [|discriminate]. now injection E as <- _.
  - now injection E as <- _.
Qed.

Theorem adds_load (trivial : bool) alloc n calls t rs t' : f_sane alloc -> n <= 2 ^ 44 -> f_new K V alloc n = Ret t tt ->
  Forall (fun c => f_sane (fst c) /\ f_adds (snd c)) calls ->
  f_run K V hash keq mix trivial calls t = Ok (rs, t') -> ~ In None rs ->
  2 * f_size _ _ t' <= f_cap K V t' /\ f_size _ _ t' <= f_threshold K V t'.
Proof.
  intros HA Hn EN. destruct (new_spec hash mix alloc n t HA Hn EN) as (b & X & EC & T & M & _).
  assert (HH : half_full t).
  { split; auto. split; auto. rewrite (co_size _ _ _ _ X). fold (content t). rewrite EC. cbn [length]. lia. }
  assert (HD : distinct_keys K V keq (content t)) by (rewrite EC; exact I).
  clear EC T M EN. revert b t rs X HH HD.
  induction calls as [|[al o] calls IH]; intros b t rs X HH HD HS E HN; cbn [f_run] in E.
  - injection E as _ <-. destruct HH as (T & M & Z). split; auto. rewrite (core_cap _ _ _ _ X) in Z.
    rewrite (proj1 (core_thr _ _ _ _ X)), M. lia.
  - inversion HS as [|? ? [HA1 HO] HS']; subst. cbn [fst snd] in *.
    destruct (f_step K V hash keq mix trivial al o t) as [t1 r|t1|e] eqn:ES; [| |discriminate].
    + destruct (f_run K V hash keq mix trivial calls t1) as [[rs1 t2]|e] eqn:ER; [|discriminate]. cbn [rbind] in E.
      injection E as <- <-.
      destruct (adds_half trivial al o b t t1 r HA1 X HD HH HO ES) as (HH1 & (b1 & X1) & HD1).
      apply (IH b1 t1 rs1 X1 HH1 HD1 HS' ER). intros Hin. apply HN. now right.
    + destruct (f_run K V hash keq mix trivial calls t1) as [[rs1 t2]|e] eqn:ER; [|discriminate]. cbn [rbind] in E.
      injection E as <- <-. exfalso. apply HN. now left.
Qed.

(** ** Refused groups *)

Lemma rehash_refused (shrink always : bool) (alloc : oracle) t n t' : (forall m, alloc true m = false) ->
  f_rehash_impl K V hash mix shrink always alloc t n = Throw t' -> t' = t.
Proof.
  intros HA E. unfold f_rehash_impl, f_create in E. destruct (f_calc_capacity n); [|discriminate].
  destruct (_ || _); [|discriminate]. rewrite HA in E. now injection E.
Qed.

Lemma grow_refused (alloc : oracle) t : (forall m, alloc true m = false) -> f_tidy t ->
  f_grow K V hash mix alloc t = Throw t \/ exists e, f_grow K V hash mix alloc t = Fail e.
Proof.
  intros HA HT. unfold f_grow, Flat16Spec.f_tidy in *.
  replace ((32 <? f_cap K V t) && (f_cap K V t / 8 <=? f_slot_deleted K V t)) with false.
  2:{ symmetry. apply andb_false_iff. destruct HT; [left; apply N.ltb_ge|right; apply N.leb_gt]; auto. }
  unfold f_rehash_impl, f_create. destruct (f_calc_capacity _); [|eauto]. rewrite HA. auto.
Qed.

Lemma prepare_refused (alloc : oracle) n k t t' : (forall m, alloc true m = false) -> f_tidy t ->
  f_prepare K V hash keq mix (S n) alloc k t = Throw t' -> t' = t.
Proof.
  intros HA HT G. cbn [f_prepare] in G.
  assert (GG : forall f : fmap -> unit -> out fmap (N * bool), obind (f_grow K V hash mix alloc t) f = Throw t' -> t' = t).
  { intros f H. destruct (grow_refused alloc t HA HT) as [E|(e & E)]; rewrite E in H; cbn [obind] in H; congruence. }
  destruct (f_search K V hash keq mix t k) as [[i|last m|]|e]; try discriminate.
  - destruct (f_need_grow K V t); [eauto|].
    destruct (negb _).
    + destruct (f_deleted_loop _ _ _ _ _ _) as [[i|]|e]; discriminate.
    + destruct (f_group _ _); [|discriminate]. cbv zeta in G. destruct (negb _); discriminate.
  - eauto.
Qed.

Lemma emplace_refused0 (alloc : oracle) (update : bool) k v t : (forall m, alloc true m = false) -> f_tidy t ->
  match f_emplace K V hash keq mix alloc update k v t with Throw t' => t' = t | _ => True end.
Proof.
  intros HA HT. unfold f_emplace.
  assert (PR : forall t', f_prepare K V hash keq mix 64 alloc k t = Throw t' -> t' = t).
  { intros t'. now apply prepare_refused. }
  revert PR. generalize (f_prepare K V hash keq mix 64 alloc k t). intros r PR.
  destruct r as [t1 [i ex]|t1|e]; cbn [obind]; auto.
  destruct ex.
  - destruct (geti _ _) as [[kv|]|]; auto. destruct update; auto.
  - destruct (f_construct _ _ _ _ _ _ _); auto.
Qed.

Lemma emplace_refused (alloc : oracle) (update : bool) k v t t' : (forall m, alloc true m = false) -> f_tidy t ->
  f_emplace K V hash keq mix alloc update k v t = Throw t' -> t' = t.
Proof.
  intros HA HT E. pose proof (emplace_refused0 alloc update k v t HA HT) as H. now rewrite E in H.
Qed.

Lemma ins_throw (r : out fmap (N * bool)) t' : f_ins K V r = Throw t' -> r = Throw t'.
Proof.
  destruct r as [t1 [i ex]|t1|e]; cbn [f_ins obind]; try congruence. destruct (f_deref K V t1 i); discriminate.
Qed.

Lemma unit_throw (r : out fmap unit) t' : f_unit K V r = Throw t' -> r = Throw t'.
Proof. destruct r as [t1 []|t1|e]; cbn; congruence. Qed.

Lemma lift_throw {A} (f : A -> obs K V) r t t' : f_lift K V t f r <> Throw t'.
Proof. destruct r; discriminate. Qed.

Theorem refused_keeps (trivial : bool) (alloc : oracle) o t t' : (forall m, alloc true m = false) ->
  match o with
  | OInsert _ _ _ _ | OAssign _ _ _ _ => f_tidy t
  | OClear _ _ _ | OMlf _ _ _ => False
  | _ => True
  end ->
  f_step K V hash keq mix trivial alloc o t = Throw t' -> t' = t.
Proof.
  intros HA HO E. destruct o; try contradiction.
  - rewrite step_insert in E. apply ins_throw in E. eapply emplace_refused; eauto.
  - rewrite step_assign in E. apply ins_throw in E. eapply emplace_refused; eauto.
  - rewrite step_erase in E. destruct (f_erase K V hash keq mix k t) as [[t1 n]|e]; discriminate.
  - rewrite step_find in E. now apply lift_throw in E.
  - rewrite step_contains in E. now apply lift_throw in E.
  - discriminate.
  - rewrite step_reserve in E. apply unit_throw in E. eapply rehash_refused; eauto.
  - rewrite step_rehash in E. apply unit_throw in E. eapply rehash_refused; eauto.
  - rewrite step_shrink in E. apply unit_throw in E. eapply rehash_refused; eauto.
Qed.

End Runs.

(** ** Scans *)

Theorem scan_empty g i : (forall c, In c g -> c < 256) ->
  N.testbit (match_empty g) i = true <-> geti g i = Some fEmpty.
Proof.
  intros H. rewrite match_empty_map by auto. rewrite movemask_map_spec.
  destruct (geti g i) as [c|]; [|split; discriminate].
  split; [intros E; f_equal; lia|intros E; injection E as ->; reflexivity].
Qed.

Theorem scan_used g i : length g = 16%nat ->
  N.testbit (match_used g) i = true <-> exists c, geti g i = Some c /\ c < 128.
Proof.
  intros H. rewrite match_used_map by auto. rewrite movemask_map_spec.
  destruct (geti g i) as [c|]; split.
  - intros E. exists c. split; auto. lia.
  - intros (c' & E & Hc). injection E as <-. lia.
  - discriminate.
  - intros (c' & E & _). discriminate.
Qed.

Lemma scan_unused g i : N.testbit (match_empty_or_deleted g) i = true <-> exists c, geti g i = Some c /\ 128 <= c.
Proof.
  unfold match_empty_or_deleted, top_bits. rewrite movemask_map_spec.
  destruct (geti g i) as [c|]; split.
  - intros E. exists c. split; auto. lia.
  - intros (c' & E & Hc). injection E as <-. lia.
  - discriminate.
  - intros (c' & E & _). discriminate.
Qed.
