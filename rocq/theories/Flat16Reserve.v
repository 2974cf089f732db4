(** The flat16 map after reserve: insertions that need no storage. *)
From Coq Require Import NArith ZArith List Bool Lia Permutation.
From Coq Require Import ZifyBool ZifyNat ZifyN.
From Verif Require Import Base BaseFacts BitsModel BitsFacts GroupModel GroupFacts TableModel TableInv
  MapSpec MapFacts FallbackFacts RobinFacts Flat16Model Flat16Spec Flat16Facts Flat16Ops Flat16Refine Flat16Calls
  Flat16Runs ReserveSpec.
Import ListNotations.
Open Scope N_scope.
Ltac Zify.zify_post_hook ::= Z.div_mod_to_equations.

Section Reserve.

Context {K V : Type} (hash : K -> N) (keq : K -> K -> bool) (mix : N -> N) (LW : tame hash keq).

Notation fmap := (fmap K V).
Notation C_ := (f_ctrls K V).
Notation S_ := (f_slots K V).
Notation oracle := (bool -> N -> bool).
Notation core := (@core K V hash mix).
Notation home := (home hash).
Notation absent := (absent keq).
Notation content := (@content K V).
Notation tidied := (@tidied K V).
Notation all_put := (all_put K V keq).
Notation refused := (inserts K V no_alloc2).

Lemma refusing_sane : f_sane no_alloc2.
Proof. intros n H. discriminate. Qed.

Lemma quiet_prepare (alloc : oracle) b t k fuel : core b t -> tidied t -> f_mlf _ _ t = 32768 ->
  2 * f_size _ _ t < 2 ^ b -> absent (S_ t) k ->
  (0 < fuel)%nat ->
  exists t' i, f_prepare K V hash keq mix fuel alloc k t = Ret t' (i, false).
Proof.
  intros X T M HZ HK Hf. destruct fuel as [|fuel]; [lia|]. pose proof (core_55 _ _ _ _ X) as Hb. pose proof (co_b2 _ _ _ _ X) as H2.
  pose proof (core_bound _ _ _ _ X) as HB.
  pose proof (tidied_left hash mix b t X T M ltac:(lia)) as TL. pose proof (half_pow b H2) as HP.
  destruct (search_spec hash keq mix LW b H2 Hb t k (co_fc _ _ _ _ X) (co_mask _ _ _ _ X) (co_chain _ _ _ _ X))
    as (r & ES & HR).
  destruct r as [i|last m|].
  - exfalso. destruct HR as (kv & E & EK). rewrite (HK _ _ E) in EK. discriminate.
  - destruct HR as (w1 & Hw & El & Em & Nm & HS & _).
    destruct (prep_stop hash keq mix alloc b t k fuel last m w1 X ES) as (t' & i & A & _); auto; [lia|].
    eauto.
  - exfalso. destruct HR as [HR _]. destruct (seen hash mix b t (home b k) X) as (w & Hw' & NS); auto.
    + apply T.
    + apply home_lt'; auto.
    + clear - HZ H2 HB. pose proof (pow2_le 2 b H2). change (2 ^ 2) with 4 in *. lia.
Qed.

Lemma emplace_ret (alloc : oracle) t k v t0 i0 t' : f_prepare K V hash keq mix 64 alloc k t = Ret t0 (i0, false) ->
  f_emplace K V hash keq mix alloc false k v t <> Throw t'.
Proof.
  intros E0. unfold f_emplace. destruct (f_prepare _ _ _ _ _ _ _ _ _) as [t1 [i b]|t1|e]; try discriminate.
  injection E0 as -> -> ->. cbn [obind]. destruct (f_construct K V hash mix t0 i0 (k, v)); discriminate.
Qed.

Lemma quiet_emplace b t k v : core b t -> tidied t -> f_mlf _ _ t = 32768 ->
  distinct_keys K V keq (content t) -> 2 * f_size _ _ t < 2 ^ b -> has K V keq k (content t) = false ->
  exists t' i, f_emplace K V hash keq mix no_alloc2 false k v t = Ret t' (i, true)
    /\ core b t' /\ tidied t' /\ f_mlf _ _ t' = 32768 /\ distinct_keys K V keq (content t')
    /\ Permutation ((k, v) :: content t) (content t') /\ f_size _ _ t' = f_size _ _ t + 1
    /\ geti (S_ t') i = Some (Some (k, v)).
Proof.
  intros X T M HD HZ HK.
  assert (HT : f_tidy K V t).
  { apply (exact_tidy hash mix b t X). split; [apply T|now right]. }
  assert (HK' : absent (S_ t) k) by now apply (absent_iff hash keq LW).
  destruct (quiet_prepare no_alloc2 b t k 64 X T M HZ HK' ltac:(lia)) as (t0 & i0 & E0).
  destruct (emplace_new hash keq mix LW no_alloc2 false b t k v refusing_sane X HD HK (or_introl HT))
    as [(t' & E)|(b' & t' & i & E & X' & D' & P' & G' & Z' & _ & T' & M' & C')].
  - exfalso. exact (emplace_ret _ _ _ _ _ _ _ E0 E).
  - exists t', i. split; auto. specialize (C' T M ltac:(lia)).
    destruct (N.eqb_spec (2 * f_size K V t) (2 ^ b)) as [Q|Q]; [lia|].
    apply N.pow_inj_r in C'; [|lia]. subst b'. split; auto. split; auto. split; [congruence|]. auto.
Qed.

Lemma quiet_step trivial b t m k v : core b t -> tidied t -> f_mlf _ _ t = 32768 ->
  distinct_keys K V keq m -> Permutation m (content t) -> 2 * f_size _ _ t < 2 ^ b ->
  exists t' r, f_step K V hash keq mix trivial no_alloc2 (OInsert K V k v) t = Ret t' r
    /\ core b t' /\ tidied t' /\ f_mlf _ _ t' = 32768 /\ distinct_keys K V keq (put_new K V keq k v m)
    /\ Permutation (put_new K V keq k v m) (content t') /\ f_size _ _ t' <= f_size _ _ t + 1.
Proof.
  intros X T M D P HZ. pose proof (distinct_perm hash keq LW _ _ P D) as HD.
  cbn [f_step]. unfold put_new. destruct (has K V keq k m) eqn:Hh.
  - pose proof Hh as Hh'. apply has_true in Hh'. destruct Hh' as (kv & Hin & Hk).
    assert (Hin' : In kv (content t)) by (eapply Permutation_in; eauto).
    destruct (emplace_old hash keq mix LW no_alloc2 false b t k v kv X Hin' HD Hk)
      as (t' & i & E & X' & P' & G' & L' & Z' & C' & M').
    rewrite E. unfold f_ins. cbn [obind]. unfold f_deref. rewrite G'. cbn [rbind f_lift].
    eexists t', _. split; [reflexivity|]. split; auto. split.
    { destruct T as [T1 T2]. split; [now rewrite C'|]. rewrite L', Z', T2.
      f_equal. now rewrite (proj1 (core_thr _ _ _ _ X)), (proj1 (core_thr _ _ _ _ X')), M'. }
    split; [congruence|]. split; auto. split; [now rewrite P|lia].
  - assert (HK : has K V keq k (content t) = false) by now rewrite <- (has_perm keq _ _ _ P).
    destruct (quiet_emplace b t k v X T M HD HZ HK) as (t' & i & E & X' & T' & M' & D' & P' & Z' & G').
    rewrite E. unfold f_ins. cbn [obind]. unfold f_deref. rewrite G'. cbn [rbind f_lift].
    eexists t', _. split; [reflexivity|]. split; auto. split; auto. split; auto.
    split; [split; auto|]. split; [|lia]. now rewrite <- P', P.
Qed.

Lemma quiet_run trivial b l : forall t m, core b t -> tidied t -> f_mlf _ _ t = 32768 ->
  distinct_keys K V keq m -> Permutation m (content t) ->
  2 * (f_size _ _ t + N.of_nat (length l)) <= 2 ^ b ->
  exists rs t', f_run K V hash keq mix trivial (refused l) t = Ok (rs, t')
    /\ Forall (fun x => x <> None) rs /\ core b t' /\ Permutation (all_put l m) (content t').
Proof.
  induction l as [|e l IH]; intros t m X T M D P HZ.
  - exists [], t. split; [reflexivity|]. auto.
  - cbn [length] in HZ.
    change (all_put (e :: l) m) with (all_put l (put_new K V keq (fst e) (snd e) m)) in *.
    change (refused (e :: l)) with ((no_alloc2, OInsert K V (fst e) (snd e)) :: refused l).
    destruct (quiet_step trivial b t m (fst e) (snd e) X T M D P ltac:(lia))
      as (t1 & r & E & X1 & T1 & M1 & D1 & P1 & Z1).
    cbn [f_run]. rewrite E.
    destruct (IH t1 _ X1 T1 M1 D1 P1 ltac:(lia)) as (rs & t' & E2 & HR & X2 & P2).
    rewrite E2. cbn [rbind]. exists (Some r :: rs), t'. split; [reflexivity|].
    split; [constructor; [discriminate|exact HR]|]. auto.
Qed.

Theorem flat16_reserve trivial t m t' r alloc n l : f_built K V hash keq mix t m -> f_sane alloc ->
  f_mlf _ _ t = 32768 -> f_rev _ _ t = 131072 -> n <= 2 ^ 43 ->
  f_step K V hash keq mix trivial alloc (OReserve K V n) t = Ret t' r ->
  f_cap _ _ t' <> f_cap _ _ t ->
  f_size _ _ t + N.of_nat (length l) <= n ->
  exists rs t'' l', f_run K V hash keq mix trivial (refused l) t' = Ok (rs, t'')
    /\ Forall (fun x => x <> None) rs /\ f_cap _ _ t'' = f_cap _ _ t'
    /\ f_traverse K V t'' = Ok l' /\ Permutation l' (all_put l m).
Proof.
  intros B HA EM ER Hn E Hne Hl.
  apply (built_inv hash keq mix LW) in B. destruct B as ((b & X) & P & D).
  cbn [f_step] in E. unfold f_unit in E.
  destruct (f_rehash K V hash mix alloc false n t) as [t1 []| |] eqn:E1; try discriminate.
  cbn [obind] in E. injection E as -> _.
  unfold f_rehash, f_min_require in E1. rewrite ER in E1. unfold fAmplify in E1.
  change (2 ^ 43) with 8796093022208 in Hn.
  rewrite wmul_small in E1 by (unfold two64; lia).
  replace (n * 131072 / 65536) with (2 * n) in E1
    by (replace (n * 131072) with (2 * n * 65536) by lia; now rewrite N.div_mul).
  destruct (rehash_spec hash mix true false alloc b t (N.max (2 * n) (f_size _ _ t)) X)
    as [(t2 & E2)|[(_ & E2 & _)|(b' & t2 & E2 & EC & Hn2 & X' & T' & P' & M' & _)]].
  - change (2 ^ 62) with 4611686018427387904. lia.
  - intros e He Hle. pose proof (pow2_le 2 e He). change (2 ^ 2) with 4 in *. lia.
  - exact HA.
  - congruence.
  - exfalso. rewrite E2 in E1. injection E1 as <-. congruence.
  - rewrite E2 in E1. injection E1 as <-.
    destruct (quiet_run trivial b' l t2 m X' T') as (rs & t'' & E3 & HR & X2 & P2); auto.
    + congruence.
    + now rewrite P.
    + rewrite (size_perm _ _ _ _ _ _ X X' P'). lia.
    + exists rs, t'', (content t''). split; auto. split; auto. split.
      { now rewrite (core_cap _ _ _ _ X2), (core_cap _ _ _ _ X'). }
      split; [apply (Flat16Calls.traverse_spec hash mix b'); auto|]. now symmetry.
Qed.

End Reserve.
