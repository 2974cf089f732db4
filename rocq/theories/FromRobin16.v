(** The robin16 map: construction from a range. *)
From Coq Require Import NArith ZArith List Bool Lia Permutation.
From Coq Require Import ZifyBool ZifyNat ZifyN.
From Verif Require Import Base BaseFacts BitsModel BitsFacts GroupModel TableInv TableModel MapSpec MapFacts
  HashModel Flat16Model Flat16Spec Flat16Calls RobinFacts RobinOps Robin16Model Robin16Spec Robin16Ring Robin16Scan
  Robin16Facts Robin16Moves Robin16Ops Robin16Refine ReserveSpec Robin16Reserve FromModel FromFacts.
Import ListNotations.
Open Scope N_scope.

Section From.

Context {K V : Type} (hash : K -> N) (keq : K -> K -> bool) (LW : tame hash keq) (wide trivial : bool).

Notation qmap := (qmap K V).
Notation good := (good hash keq trivial).
Notation all_put := (all_put K V keq).
Notation G2 X := (g_b2 _ _ _ _ _ _ X).
Notation G44 X := (g_b44 _ _ _ _ _ _ X).
Notation GS X := (g_size _ _ _ _ _ _ X).

Lemma still_range (alloc : bool -> N -> bool) b l : forall (t : qmap) A m, good b t A -> mlf_ok t ->
  Permutation (ents A) m ->
  (forall e, In e l -> 16 <= 2 ^ b \/ q_tag K hash (fst e) <> 0) ->
  q_size _ _ t + N.of_nat (length l) <= q_thr _ _ t -> q_spread K V hash (2 ^ b) (all_put l m) ->
  exists t' A', q_insert_range K V hash keq wide trivial alloc l t = Ret t' tt
    /\ good b t' A' /\ mlf_ok t' /\ Permutation (ents A') (all_put l m).
Proof.
  induction l as [|e l IH]; intros t A m X M P Hs HT HR.
  - exists t, A. split; [reflexivity|]. auto.
  - cbn [length] in HT.
    change (all_put (e :: l) m) with (all_put l (put_new K V keq (fst e) (snd e) m)) in *.
    pose proof (Hs e (or_introl eq_refl)) as He.
    destruct (quiet_step hash keq LW wide trivial alloc t A b (fst e) (snd e) l m 63 X M P He ltac:(lia) HR)
      as (t1 & r & A1 & E & X1 & M1 & P1 & H1).
    change (S 63) with 64%nat in E. cbn [q_insert_range].
    destruct (q_emplace K V hash keq wide trivial 64 alloc false (fst e) (snd e) t) as [t2 [i d]| |]; try discriminate.
    cbn [q_ins obind] in E. assert (t2 = t1) as ->.
    { unfold q_lift in E. destruct (q_deref K V t2 i); [|discriminate]. congruence. }
    cbn [obind]. apply (IH t1 A1); auto. intros e' He'. apply Hs. now right.
Qed.

Theorem robin16_from alloc alloc' cap l calls : f_sane alloc ->
  cap <= 2 ^ 43 -> N.of_nat (length l) <= 2 ^ 43 ->
  8 <= cap \/ (8 <= length l)%nat \/ (forall e, In e l -> q_tag K hash (fst e) <> 0) ->
  q_fine K V hash (all_put l []) -> (forall c, In c calls -> f_sane (fst c)) ->
  match q_from K V hash keq wide trivial alloc alloc' cap l with
  | Ret t _ => q_agrees K V hash keq wide trivial (q_fine K V hash) (q_client K V hash keq) calls t (all_put l [])
      /\ 2 * cap <= q_cap _ _ t
      /\ exists l', q_traverse K V wide t = Ok l' /\ Permutation l' (all_put l [])
           /\ distinct_keys K V keq l' /\ forall k, get K V keq k l' = get K V keq k l
  | Throw t => q_slots _ _ t = [] /\ exists g n, alloc g n = false
  | Fail _ => False
  end.
Proof.
  intros HA HC HL HS HF HCs. unfold q_from.
  set (n := from_capacity K V cap l).
  assert (Hn : n <= 2 ^ 43) by (apply from_bound; auto).
  pose proof (from_le cap l) as Hle. pose proof (from_cap cap l) as Hcap. fold n in Hle, Hcap.
  unfold q_min_require, qDefaultRev, qAmplify. clearbody n.
  change (2 ^ 43) with 8796093022208 in *.
  rewrite wmul_small by (unfold two64; lia).
  replace (n * 131072 / 65536) with (2 * n)
    by (replace (n * 131072) with (2 * n * 65536) by lia; now rewrite N.div_mul).
  unfold q_create_init.
  destruct (calc_spec (2 * n)) as (b & -> & Hb2 & Hnb & Hb63).
  { change (2 ^ 63) with 9223372036854775808. lia. }
  destruct (create_spec hash keq trivial alloc (q_blank K V) b HA Hb2 Hb63 blank_ok) as [(t1 & E)|(t & E & X & M & Z & ET)];
    rewrite E; cbn [obind].
  { unfold q_create in E. destruct (alloc true _) eqn:E1; [destruct (alloc false _) eqn:E2; [discriminate|]|]; injection E as <-; cbn; eauto. }
  pose proof (create_fields _ _ _ _ E) as EM. change (q_mlf K V (q_blank K V)) with 32768 in EM. rewrite EM in ET.
  destruct (still_range alloc' b l t _ [] X M) as (t' & A' & E' & X' & M' & P').
  - now rewrite empty_ents.
  - intros e He. destruct HS as [HS|[HS|HS]]; [left; lia|left; lia|right; auto].
  - rewrite Z, ET. apply N.div_le_lower_bound; lia.
  - apply HF; auto. pose proof (all_put_length keq l []). cbn [length] in *. lia.
  - rewrite E'. assert (I : qinv hash keq trivial t' (all_put l [])).
    { split; auto. split; auto. eauto. }
    split; [now apply (agrees_spec hash keq LW)|]. split; [rewrite (good_cap _ _ _ _ _ _ X'); lia|].
    exists (ents A'). split.
    { apply (traverse_spec hash wide trivial b); [apply (G2 X')|apply b50, (G44 X')|apply (g_st _ _ _ _ _ _ X')]. }
    split; auto. now apply (from_entries hash keq LW).
Qed.

End From.
