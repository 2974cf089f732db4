(** Copies of a flat16 map with its function objects. *)
From Coq Require Import NArith ZArith List Bool Lia Permutation.
From Coq Require Import ZifyBool ZifyNat ZifyN.
From Verif Require Import Base BaseFacts BitsModel BitsFacts GroupModel GroupFacts TableModel TableInv
  MapSpec MapFacts RobinFacts Flat16Model Flat16Spec
  Flat16Facts Flat16Ops Flat16Refine Flat16Calls Flat16Runs FunctorModel.
Import ListNotations.
Open Scope N_scope.
Ltac Zify.zify_post_hook ::= Z.div_mod_to_equations.

Section Flat.

Context {K V : Type} (mix : N -> N).

(** The copy is built with [hash0] from a map built with [hash]. *)
Lemma f_copy_other (hash hash0 : K -> N) alloc b (t : fmap K V) : f_sane alloc -> core hash mix b t ->
  (exists t', f_copy K V hash0 mix alloc t = Throw t')
  \/ exists b' t', f_copy K V hash0 mix alloc t = Ret t' tt /\ core hash0 mix b' t'
       /\ Permutation (content t) (content t').
Proof.
  intros HA X. unfold f_copy, f_create_init.
  pose proof (core_size_le _ _ _ _ X) as HZ. pose proof (core_bound _ _ _ _ X) as HB.
  pose proof (require_bound fDefaultRev (f_size _ _ t) ltac:(unfold fDefaultRev; lia) ltac:(lia)) as HR.
  assert (ER : f_min_require fDefaultRev (f_size _ _ t) = 2 * f_size _ _ t).
  { unfold f_min_require, fDefaultRev, fAmplify. rewrite wmul_small by (unfold two64; lia). lia. }
  destruct (calc_spec (f_min_require fDefaultRev (f_size _ _ t)) ltac:(lia)) as (b' & -> & H2 & Hn' & H63 & HMIN).
  destruct (N.le_gt_cases b' 44) as [G|G].
  2:{ left. unfold f_create. destruct (alloc true _); [|cbn [obind]; eauto].
      destruct (alloc false (2 ^ b')) eqn:EA; [|cbn [obind]; eauto].
      apply HA in EA. pose proof (pow2_lt 44 b' G). lia. }
  destruct (create_ok hash0 mix alloc (f_blank K V) b' H2 G) as [(t' & ->)|(nt & -> & X1 & D1 & E1 & M1 & R1 & L1)].
  - cbn. unfold fDefaultMlf. lia.
  - cbn. unfold fDefaultRev. lia.
  - left. cbn [obind]. eauto.
  - right. cbn [obind]. rewrite (traverse_spec hash mix b t X).
    destruct (insert_all_spec hash0 mix b' (content t) nt X1 D1) as (t' & -> & X' & D' & P').
    { pose proof (co_size _ _ _ _ X) as Z1. pose proof (co_size _ _ _ _ X1) as Z2. rewrite E1 in Z2. cbn [length] in Z2.
      unfold Flat16Ops.content. rewrite <- Z1, Z2. pose proof (core_bound _ _ _ _ X1). lia. }
    exists b', t'. split; auto. split; auto.
    unfold Flat16Ops.content in P' at 2. rewrite E1, app_nil_r in P'. exact P'.
Qed.

Lemma f_copy_entries (hash : K -> N) keq : lawful hash keq ->
  forall t m alloc hash0 keq0, f_built K V hash keq mix t m -> f_sane alloc ->
  match f_copy_held K V mix hash0 keq0 alloc (mkHeld hash keq t) with
  | Ret x _ => f_size _ _ (h_map x) = f_size _ _ t
      /\ exists l, f_traverse K V (h_map x) = Ok l /\ Permutation l m
  | Throw _ => True
  | Fail _ => False
  end.
Proof.
  intros LW t m alloc hash0 keq0 HB HA. destruct (built_inv hash keq mix LW t m HB) as ((b & X) & P & HD).
  unfold f_copy_held. cbn [h_map].
  destruct (f_copy_other hash hash0 alloc b t HA X) as [(t1 & ->)|(b' & t1 & -> & X' & P')]; cbn [holding]; [exact I|].
  cbn [h_map]. split.
  - rewrite (co_size _ _ _ _ X'), (co_size _ _ _ _ X).
    fold (content t) (content t1). now rewrite (Permutation_length P').
  - exists (content t1). split; [eapply traverse_spec; eauto|]. now rewrite <- P', P.
Qed.

Lemma f_copy_agrees (hash : K -> N) keq : lawful hash keq ->
  forall t m alloc hash0 keq0, lawful hash0 keq0 -> f_built K V hash keq mix t m -> f_sane alloc ->
  distinct_keys K V keq0 m ->
  forall x, f_copy_held K V mix hash0 keq0 alloc (mkHeld hash keq t) = Ret x tt ->
  forall trivial calls, Forall (fun c => f_sane (fst c)) calls ->
  f_agrees K V (h_hash x) (h_eq x) mix (f_client K V (h_hash x)) trivial calls (h_map x) m.
Proof.
  intros LW t m alloc hash0 keq0 LW0 HB HA HD x E trivial calls HS.
  destruct (built_inv hash keq mix LW t m HB) as ((b & X) & P & _).
  unfold f_copy_held in E. cbn [h_map] in E.
  destruct (f_copy_other hash hash0 alloc b t HA X) as [(t1 & E1)|(b' & t1 & E1 & X' & P')];
    rewrite E1 in E; cbn [holding] in E; [discriminate|]. injection E as <-. cbn [h_map h_hash h_eq].
  apply (agrees_spec hash0 keq0 mix LW0 (f_client K V hash0) (fun _ => True) trivial) with (b := b'); auto.
  now rewrite P.
Qed.

End Flat.
