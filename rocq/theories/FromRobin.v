(** The robin hood map: construction from a range. *)
From Coq Require Import NArith ZArith List Bool Lia Permutation.
From Coq Require Import ZifyBool ZifyNat ZifyN.
From Verif Require Import Base BaseFacts BitsModel BitsFacts GroupModel TableModel TableInv
  MapSpec MapFacts FallbackFacts ReachModel RobinModel RobinSpec RobinFacts RobinOps RobinRefine
  ReserveSpec RobinReserve FromModel FromFacts.
Import ListNotations.
Open Scope N_scope.
Ltac Zify.zify_post_hook ::= Z.div_mod_to_equations.

Section From.

Context {K V : Type} (hash : K -> N) (keq : K -> K -> bool) (LW : tame hash keq).

Notation rmap := (rmap K V).
Notation spread := (spread K V hash).
Notation spread_all := (spread_all K V hash).
Notation content := (@content K V).
Notation rfull := (rfull hash keq 2).
Notation rinv := (rinv hash keq 2).
Notation all_put := (all_put K V keq).

Lemma still_range (alloc : N -> bool) b l : forall (t : rmap) m, rfull b t -> mlf_ok 2 t ->
  Permutation m (content t) ->
  r_size _ _ t + N.of_nat (length l) <= r_thr _ _ t -> spread (2 ^ b) (all_put l m) ->
  exists t', r_insert_range K V hash keq alloc l t = Ret t' tt
    /\ rfull b t' /\ mlf_ok 2 t' /\ Permutation (all_put l m) (content t').
Proof.
  induction l as [|e l IH]; intros t m F M P HL HS.
  - exists t. cbn. auto.
  - cbn [length] in HL.
    change (all_put (e :: l) m) with (all_put l (put_new K V keq (fst e) (snd e) m)) in *.
    cbn [r_insert_range].
    assert (I : rinv t) by (split; auto; right; eauto).
    pose proof (rinv_dist hash keq 2 _ I) as HD.
    assert (HM : distinct_keys K V keq m).
    { eapply (distinct_perm hash keq LW); [symmetry; exact P|exact HD]. }
    assert (HH : has K V keq (fst e) m = has K V keq (fst e) (content t)) by now apply has_perm.
    assert (X : exists t1 r, r_emplace K V hash keq 64 alloc false (fst e) (snd e) t = Ret t1 r
      /\ rfull b t1 /\ mlf_ok 2 t1 /\ Permutation (put_new K V keq (fst e) (snd e) m) (content t1)
      /\ r_size _ _ t1 + N.of_nat (length l) <= r_thr _ _ t1).
    { unfold put_new. rewrite HH. destruct (has K V keq (fst e) (content t)) eqn:EH.
      - apply has_true in EH. destruct EH as (kv & Hin & Hk).
        destruct (emplace_old hash keq LW 2 alloc false t (fst e) (snd e) 63 kv I Hin Hk)
          as (t1 & i & R1 & R2 & R3 & R4).
        assert (ET : t1 = t).
        { revert R1. cbn [r_emplace].
          destruct (search_inv hash keq LW 2 t true (fst e) I) as [(j & kv' & b' & _ & A & F' & B & D)|(j & n & A & St & HF)].
          - rewrite A, B. intros E. now injection E.
          - exfalso. specialize (HF eq_refl kv Hin). rewrite (keq_sym_eq hash keq LW) in HF. congruence. }
        subst t1. change (S 63) with 64%nat in R1. rewrite R1. eexists _, _. split; [reflexivity|].
        split; auto. split; auto. split; auto. lia.
      - assert (HF : fresh_key keq (content t) (fst e)) by (apply (fresh_has hash keq LW); auto).
        destruct (quiet_new hash keq LW alloc false b t (fst e) (snd e) 63 F M) as (t1 & i & R1 & R2 & R3 & R4 & R5 & R6).
        + lia.
        + exact HF.
        + apply (spread_puts hash keq (2 ^ b) l) in HS. unfold put_new in HS. rewrite HH in HS.
          eapply spread_perm; [|exact HS]. now constructor.
        + change (S 63) with 64%nat in R1. rewrite R1. eexists _, _. split; [reflexivity|]. split; auto. split; auto.
          split; [rewrite P; destruct e; exact R4|].
          rewrite R6, (rfull_size hash keq 2 _ _ R2), <- (Permutation_length R4). cbn [length].
          rewrite (rfull_size hash keq 2 _ _ F) in HL. lia. }
    destruct X as (t1 & r & E & F1 & M1 & P1 & H1). rewrite E. cbn [obind].
    exact (IH t1 _ F1 M1 P1 H1 HS).
Qed.

Theorem robin_from alloc alloc' cap l calls : sane alloc ->
  cap <= 2 ^ 50 -> N.of_nat (length l) <= 2 ^ 50 -> spread_all 2 (all_put l []) ->
  Forall (fun c => sane (fst c)) calls ->
  match r_from K V hash keq alloc alloc' cap l with
  | Ret t _ => r_agrees K V hash keq (spread_all 2) 2 calls t (all_put l [])
      /\ 2 * cap <= r_slot_capacity K V t
      /\ exists l', r_traverse K V t = Ok l' /\ Permutation l' (all_put l [])
           /\ distinct_keys K V keq l' /\ forall k, get K V keq k l' = get K V keq k l
  | Throw t => r_slots _ _ t = [] /\ exists n, alloc n = false
  | Fail _ => False
  end.
Proof.
  intros HA HC HL HS HCs. unfold r_from.
  set (n := from_capacity K V cap l).
  assert (Hn : n <= 2 ^ 50) by (apply from_bound; auto).
  pose proof (from_le cap l) as Hle. pose proof (from_cap cap l) as Hcap. fold n in Hle, Hcap. clearbody n.
  assert (E50 : 2 ^ 50 = 1125899906842624) by reflexivity.
  unfold r_reserve_for_insert.
  assert (ER : r_min_require K V (rnew K V) n = 2 * n).
  { unfold r_min_require, rnew. rcbn. unfold rDefaultRev. rewrite wmul_small by (unfold two64; lia). lia. }
  rewrite ER.
  assert (FIN : forall t, rinv t -> Permutation (all_put l []) (content t) -> 2 * cap <= r_slot_capacity K V t ->
    r_agrees K V hash keq (spread_all 2) 2 calls t (all_put l [])
      /\ 2 * cap <= r_slot_capacity K V t
      /\ exists l', r_traverse K V t = Ok l' /\ Permutation l' (all_put l [])
           /\ distinct_keys K V keq l' /\ forall k, get K V keq k l' = get K V keq k l).
  { intros t I P Hc. split; [apply (agrees_spec hash keq LW 2 (or_intror eq_refl)); auto|]. split; auto.
    exists (content t). split; [apply (traverse_spec hash keq 2 (or_intror eq_refl) t I)|]. split; [now symmetry|].
    apply (from_entries hash keq LW). now symmetry. }
  destruct (N.eqb_spec (2 * n) 0) as [E0|Hne]; cbn [obind].
  - assert (l = []) as -> by (destruct l; [auto|cbn [length] in *; lia]).
    cbn [r_insert_range]. apply FIN; [apply rinv_new; auto|reflexivity|lia].
  - destruct (calc_capacity_spec (2 * n)) as (b & E & Hb & Hnb & Hb63).
    { change (2 ^ 63) with 9223372036854775808. lia. }
    rewrite E.
    destruct (create_spec (K := K) (V := V) hash keq alloc (rnew K V) b HA Hb Hb63)
      as [(t' & R)|(t0 & R & X & E0 & Em & Er & Et)]; rewrite R; cbn [obind].
    { unfold r_create in R. destruct (alloc _) eqn:EA; [discriminate|]. injection R as <-. cbn. eauto. }
    pose proof (b_small b (rb_big _ _ _ _ X)) as H54. pose proof (pow2_le b 54 H54).
    assert (Et2 : r_thr K V t0 = 2 ^ b / 2).
    { rewrite Et. unfold rnew. rcbn. unfold rDefaultMlf.
      assert (E54 : 2 ^ 54 = 18014398509481984) by reflexivity.
      rewrite wmul_small by (unfold two64; lia).
      replace (2 ^ b * 128 / 256) with (2 ^ b / 2) by lia. reflexivity. }
    assert (E00 : content t0 = []) by exact E0.
    assert (EZ : r_size K V t0 = 0) by (rewrite (rb_size _ _ _ _ X), E0; reflexivity).
    destruct (still_range alloc' b l t0 []) as (t1 & R1 & R2 & R3 & R4).
    + split; auto.
      * rewrite E0. apply spread_nil.
      * rewrite Et2. lia.
      * rewrite EZ. lia.
    + unfold mlf_ok. rewrite Em, Er. unfold rnew. rcbn. unfold rDefaultMlf, rDefaultRev. lia.
    + now rewrite E00.
    + rewrite EZ, Et2. lia.
    + apply HS; auto. pose proof (all_put_length keq l []). cbn [length] in *. lia.
    + rewrite R1. apply FIN; auto.
      * split; auto. right. eauto.
      * rewrite (rb_slot_capacity _ _ _ _ (rf_rb _ _ _ _ _ R2)). lia.
Qed.

End From.
