(** The flat16 map: growth is amortised while nothing is erased. *)
From Coq Require Import NArith ZArith List Bool Lia Permutation.
From Coq Require Import ZifyBool ZifyNat ZifyN.
From Verif Require Import Base BaseFacts BitsModel BitsFacts GroupModel GroupFacts TableModel TableInv
  MapSpec MapFacts FallbackFacts RobinFacts Flat16Model Flat16Spec Flat16Facts Flat16Ops Flat16Refine Flat16Calls
  Flat16Runs GrowthSpec Growth2Spec Growth2Facts.
Import ListNotations.
Open Scope N_scope.
Ltac Zify.zify_post_hook ::= Z.div_mod_to_equations.

Section Growth.

Context {K V : Type} (hash : K -> N) (keq : K -> K -> bool) (mix : N -> N) (LW : tame hash keq) (trivial : bool).

Notation fmap := (fmap K V).
Notation oracle := (bool -> N -> bool).
Notation core := (@core K V hash mix).
Notation content := (@content K V).
Notation tidied := (@tidied K V).
Notation cap := (f_cap K V).
Notation size := (f_size K V).
Notation step := (fun (c : oracle * op K V) t => f_step K V hash keq mix trivial (fst c) (snd c) t).

Definition steady (t : fmap) : Prop :=
  exists b, core b t /\ tidied t /\ f_mlf _ _ t = 32768 /\ distinct_keys K V keq (content t) /\ 2 * size t <= 2 ^ b.

Definition plain (c : oracle * op K V) (t : fmap) : Prop := f_sane (fst c) /\ adds K V (snd c) = true.

Lemma grown_emplace (alloc : oracle) (update : bool) k v t : f_sane alloc -> steady t ->
  match f_ins K V (f_emplace K V hash keq mix alloc update k v t) with
  | Ret t' _ => steady t' /\ doubles cap size t t'
  | Throw _ => True
  | Fail _ => False
  end.
Proof.
  intros HA (b & X & T & M & HD & HZ). pose proof (co_b2 _ _ _ _ X) as H2.
  assert (HT : f_tidy K V t).
  { apply (exact_tidy hash mix b t X). split; [apply T|now right]. }
  destruct (has K V keq k (content t)) eqn:HK.
  - apply has_true in HK. destruct HK as (kv & Hin & Hk).
    destruct (emplace_old hash keq mix LW alloc update b t k v kv X Hin HD Hk)
      as (t' & i & E & X' & P' & G' & L' & Z' & C' & M').
    rewrite E. unfold f_ins. cbn [obind]. unfold f_deref. rewrite G'. cbn [f_lift]. split.
    + exists b. split; auto. split.
      { destruct T as [T1 T2]. split; [now rewrite C'|]. rewrite L', Z', T2.
        f_equal. now rewrite (proj1 (core_thr _ _ _ _ X)), (proj1 (core_thr _ _ _ _ X')), M'. }
      split; [congruence|]. split; [|lia].
      eapply (distinct_perm hash keq LW); [exact P'|]. destruct update; auto.
      pose proof (spec_step_distinct keq (OAssign K V k v) (content t) HD) as D. cbn [spec_step fst] in D.
      unfold put in D. replace (has K V keq k (content t)) with true in D by (symmetry; apply has_true; eauto). exact D.
    + left. rewrite (core_cap _ _ _ _ X'), (core_cap _ _ _ _ X). lia.
  - destruct (emplace_new hash keq mix LW alloc update b t k v HA X HD HK (or_introl HT))
      as [(t' & E)|(b' & t' & i & E & X' & D' & P' & G' & Z' & _ & T' & M' & C')].
    + rewrite E. exact I.
    + rewrite E. unfold f_ins. cbn [obind]. unfold f_deref. rewrite G'. cbn [f_lift].
      specialize (C' T M HZ). pose proof (pow2_le 2 b H2) as H4. change (2 ^ 2) with 4 in H4.
      split.
      * exists b'. split; auto. split; auto. split; [congruence|]. split; auto.
        rewrite Z', C'. destruct (N.eqb_spec (2 * size t) (2 ^ b)); [lia|].
        assert (exists c, 2 ^ b = 2 * c) as (c & Hc).
        { exists (2 ^ (b - 1)). rewrite <- N.pow_succ_r'. f_equal. lia. }
        lia.
      * unfold doubles. rewrite (core_cap _ _ _ _ X'), (core_cap _ _ _ _ X), C', Z'.
        destruct (N.eqb_spec (2 * size t) (2 ^ b)); [right; left; lia|left; lia].
Qed.

Lemma grown_step c t : steady t -> plain c t ->
  match step c t with Ret t' _ => steady t' /\ doubles cap size t t' | Throw _ => True | Fail _ => False end.
Proof.
  intros J [HA HO]. destruct c as [alloc o]. cbn [fst snd] in *.
  assert (SAME : steady t /\ doubles cap size t t) by (split; [auto|left; lia]).
  destruct J as (b & X & T & M & HD & HZ).
  assert (NF : f_client K V hash o t -> match f_step K V hash keq mix trivial alloc o t with Fail _ => False | _ => True end).
  { intros HC. destruct (step_spec hash keq mix LW trivial alloc o b t HA X HD HC) as [(t' & ->)|(b' & t' & -> & _)]; exact I. }
  destruct o; try discriminate; cbn [f_step] in *.
  - apply grown_emplace; auto. exists b. auto.
  - apply grown_emplace; auto. exists b. auto.
  - specialize (NF I). unfold f_lift in *. destruct (f_find_obs K V hash keq mix t _); auto.
  - specialize (NF I). unfold f_lift in *. destruct (f_find_index K V hash keq mix t _); auto.
  - exact SAME.
Qed.

Theorem flat16_growth alloc n t0 calls : f_sane alloc -> n <= 2 ^ 44 -> f_new K V alloc n = Ret t0 tt ->
  Forall (fun c => f_sane (fst c) /\ adds K V (snd c) = true) calls ->
  match costs2 step cap size calls t0 with
  | Ret t (r, m) => 2 * size t <= cap t /\ m <= 2 * size t
      /\ ((r = 0 /\ cap t = cap t0) \/ (cap t = 2 ^ r * cap t0 /\ cap t <= 4 * size t))
  | Throw _ => True
  | Fail _ => False
  end.
Proof.
  intros HA Hn E HF. destruct (new_spec hash mix alloc n t0 HA Hn E) as (b & X & EC & T & M & _).
  assert (J : steady t0).
  { exists b. split; auto. split; auto. split; auto. rewrite (co_size _ _ _ _ X). unfold Flat16Ops.content in EC |- *.
    rewrite EC. split; [exact I|]. cbn [length]. lia. }
  pose proof (costs_bound step cap size plain steady) as H.
  assert (O : obeys2 step plain calls t0).
  { clear - HF. revert t0. induction HF as [|c calls Hc HF IH]; intros t; cbn [obeys2]; [exact I|].
    split; [exact Hc|]. destruct (f_step _ _ _ _ _ _ _ _ t); auto. }
  specialize (H ltac:(intros t (b' & X' & _ & _ & _ & H'); now rewrite (core_cap _ _ _ _ X')) grown_step calls t0 J O).
  destruct (costs2 _ _ _ calls t0) as [t [r m]| |]; auto.
  destruct H as (H1 & H2 & H3). split; auto. split; auto.
  assert (4 <= cap t0).
  { rewrite (core_cap _ _ _ _ X). pose proof (pow2_le 2 b (co_b2 _ _ _ _ X)). change (2 ^ 2) with 4 in *. lia. }
  now replace (N.max (cap t0) 2) with (cap t0) in H3 by lia.
Qed.

End Growth.
