(** The flat16 map: construction from a range. *)
From Coq Require Import NArith ZArith List Bool Lia Permutation.
From Coq Require Import ZifyBool ZifyNat ZifyN.
From Verif Require Import Base BaseFacts BitsModel BitsFacts GroupModel GroupFacts TableModel TableInv
  MapSpec MapFacts FallbackFacts RobinFacts Flat16Model Flat16Spec Flat16Facts Flat16Ops Flat16Refine Flat16Calls
  Flat16Runs ReserveSpec Flat16Reserve FromModel FromFacts.
Import ListNotations.
Open Scope N_scope.
Ltac Zify.zify_post_hook ::= Z.div_mod_to_equations.

Section From.

Context {K V : Type} (hash : K -> N) (keq : K -> K -> bool) (mix : N -> N) (LW : tame hash keq).

Notation fmap := (fmap K V).
Notation oracle := (bool -> N -> bool).
Notation core := (@core K V hash mix).
Notation absent := (absent keq).
Notation content := (@content K V).
Notation tidied := (@tidied K V).
Notation all_put := (all_put K V keq).
Notation built := (f_built K V hash keq mix).

Lemma still_emplace (alloc : oracle) b t k v : f_sane alloc -> core b t -> tidied t -> f_mlf _ _ t = 32768 ->
  distinct_keys K V keq (content t) -> 2 * f_size _ _ t < 2 ^ b ->
  exists t' i d, f_emplace K V hash keq mix alloc false k v t = Ret t' (i, d)
    /\ core b t' /\ tidied t' /\ f_mlf _ _ t' = 32768
    /\ f_size _ _ t' <= f_size _ _ t + 1
    /\ exists kv, f_deref K V t' i = Ok kv.
Proof.
  intros HA X T M HD HZ.
  assert (HT : f_tidy K V t).
  { apply (exact_tidy hash mix b t X). split; [apply T|now right]. }
  destruct (has K V keq k (content t)) eqn:HK.
  - apply has_true in HK. destruct HK as (kv & Hin & Hk).
    destruct (emplace_old hash keq mix LW alloc false b t k v kv X Hin HD Hk)
      as (t' & i & E & X' & P' & G' & L' & Z' & C' & M').
    exists t', i, false. split; auto. split; auto. split.
    { destruct T as [T1 T2]. split; [now rewrite C'|]. rewrite L', Z', T2.
      f_equal. now rewrite (proj1 (core_thr _ _ _ _ X)), (proj1 (core_thr _ _ _ _ X')), M'. }
    split; [congruence|]. split; [lia|]. unfold f_deref. rewrite G'. eauto.
  - assert (HK' : absent (f_slots _ _ t) k) by now apply (absent_iff hash keq LW).
    destruct (quiet_prepare hash keq mix LW alloc b t k 64 X T M HZ HK' ltac:(lia)) as (t0 & i0 & E0).
    destruct (emplace_new hash keq mix LW alloc false b t k v HA X HD HK (or_introl HT))
      as [(t' & E)|(b' & t' & i & E & X' & D' & P' & G' & Z' & _ & T' & M' & C')].
    + exfalso. exact (emplace_ret hash keq mix _ _ _ _ _ _ _ E0 E).
    + exists t', i, true. split; auto. specialize (C' T M ltac:(lia)).
      destruct (N.eqb_spec (2 * f_size K V t) (2 ^ b)) as [Q|Q]; [lia|].
      apply N.pow_inj_r in C'; [|lia]. subst b'. split; auto. split; auto. split; [congruence|]. split; [lia|].
      unfold f_deref. rewrite G'. eauto.
Qed.

Lemma still_range (alloc : oracle) b l : f_sane alloc -> forall t m, core b t -> tidied t -> f_mlf _ _ t = 32768 ->
  built t m -> 2 * (f_size _ _ t + N.of_nat (length l)) <= 2 ^ b ->
  exists t', f_insert_range K V hash keq mix alloc l t = Ret t' tt /\ core b t' /\ built t' (all_put l m).
Proof.
  intros HA. induction l as [|e l IH]; intros t m X T M B HZ.
  - exists t. split; [reflexivity|]. auto.
  - cbn [length] in HZ.
    change (all_put (e :: l) m) with (all_put l (put_new K V keq (fst e) (snd e) m)).
    destruct (built_inv hash keq mix LW t m B) as (_ & P & D).
    destruct (still_emplace alloc b t (fst e) (snd e) HA X T M (distinct_perm hash keq LW _ _ P D) ltac:(lia))
      as (t1 & i & d & E & X1 & T1 & M1 & Z1 & kv & EK).
    cbn [f_insert_range]. rewrite E. cbn [obind].
    apply IH; auto; [|lia].
    change (put_new K V keq (fst e) (snd e) m) with (fst (spec_step K V keq (OInsert K V (fst e) (snd e)) m)).
    apply (f_built_step K V hash keq mix t m false alloc (OInsert K V (fst e) (snd e)) t1 (RIns K V kv d)); auto.
    + cbn. left. apply (exact_tidy hash mix b t X). split; [apply T|now right].
    + rewrite step_insert, E. unfold f_ins. cbn [obind]. rewrite EK. reflexivity.
Qed.

Theorem flat16_from alloc alloc' cap l : f_sane alloc -> f_sane alloc' ->
  cap <= 2 ^ 43 -> N.of_nat (length l) <= 2 ^ 43 ->
  match f_from K V hash keq mix alloc alloc' cap l with
  | Ret t _ => built t (all_put l []) /\ 2 * cap <= f_cap _ _ t
      /\ exists l', f_traverse K V t = Ok l' /\ Permutation l' (all_put l [])
           /\ distinct_keys K V keq l' /\ forall k, get K V keq k l' = get K V keq k l
  | Throw t => f_slots _ _ t = [] /\ exists g n, alloc g n = false
  | Fail _ => False
  end.
Proof.
  intros HA HA' HC HL. unfold f_from.
  set (n := from_capacity K V cap l).
  assert (Hn : n <= 2 ^ 43) by (apply from_bound; auto).
  pose proof (from_le cap l) as Hle. pose proof (from_cap cap l) as Hcap. fold n in Hle, Hcap.
  unfold f_min_require, fDefaultRev, fAmplify. clearbody n.
  change (2 ^ 43) with 8796093022208 in *.
  rewrite wmul_small by (unfold two64; lia).
  replace (n * 131072 / 65536) with (2 * n)
    by (replace (n * 131072) with (2 * n * 65536) by lia; now rewrite N.div_mul).
  fold (f_new K V alloc (2 * n)).
  assert (H44 : 2 * n <= 2 ^ 44) by (change (2 ^ 44) with 17592186044416; lia).
  destruct (f_new K V alloc (2 * n)) as [t []|t|] eqn:E; cbn [obind].
  - destruct (new_spec hash mix alloc (2 * n) t HA H44 E) as (b & X & EC & T & M & ECAP).
    assert (B : built t []) by exact (f_built_new K V hash keq mix alloc (2 * n) t HA H44 E).
    destruct (calc_spec (2 * n)) as (b' & EC' & H2 & Hn' & _).
    { change (2 ^ 62) with 4611686018427387904. lia. }
    assert (2 ^ b = 2 ^ b') as Eb by congruence.
    assert (EZ : f_size _ _ t = 0) by (rewrite (co_size _ _ _ _ X); unfold Flat16Ops.content in EC; now rewrite EC).
    destruct (still_range alloc' b l HA' t [] X T M B) as (t' & E' & X' & B').
    { rewrite EZ. lia. }
    rewrite E'. split; auto. split; [rewrite (core_cap _ _ _ _ X'); lia|].
    destruct (built_inv hash keq mix LW _ _ B') as (_ & P & D).
    exists (content t'). split; [eapply Flat16Calls.traverse_spec; eauto|]. split; [now symmetry|].
    apply (from_entries hash keq LW). now symmetry.
  - unfold f_new, f_create_init in E. destruct (f_calc_capacity _) as [c|]; [|discriminate].
    unfold f_create in E. destruct (alloc true _) eqn:E1; [destruct (alloc false _) eqn:E2; [discriminate|]|]; injection E as <-; cbn; eauto.
  - unfold f_new, f_create_init in E.
    destruct (calc_spec (2 * n)) as (b' & EC' & _). { change (2 ^ 62) with 4611686018427387904. lia. }
    rewrite EC' in E. unfold f_create in E.
    destruct (alloc true _); [|discriminate]. destruct (alloc false _); discriminate.
Qed.

End From.
